From Coq Require Import Lra.
From Verif Require Import BaseFacts RBaseFacts Steady_Proofs Impl_Proofs Impl_Proofs5 Shape_Proofs2 Relp_Proofs Ieul_Proofs Ieul_Spec.
Open Scope Z_scope.

(* what the lists say about the half faces before n *)
Definition per_upto (g : tgrid) (b : ibc) (cells : icells) (n : Z) (st : ist) : Prop :=
  ip_hf st = filter (is_periodic b cells) (zrange 0 n) /\ zlen (ip_cells st) = 2 * zlen (ip_hf st) /\ zlen (ip_faces st) = zlen (ip_hf st) /\ zlen (ip_nb st) = zlen (ip_hf st) /\
  forall k i, zget (ip_hf st) k = Some i -> exists j, partner_half b cells i j /\
    zget (ip_cells st) (2 * k) = Some (cell_at cells i) /\ zget (ip_cells st) (2 * k + 1) = Some (cell_at cells j) /\
    zget (ip_faces st) k = Some (nthZ (t_cf g) i) /\ zget (ip_nb st) k = Some (nthZ (t_cf g) j).
Definition dir_upto (b : ibc) (cells : icells) (n : Z) (st : ist) : Prop :=
  id_hf st = filter (is_open b cells) (zrange 0 n) /\ zlen (id_cells st) = zlen (id_hf st) /\ zlen (id_sat st) = 2 * zlen (id_hf st) /\
  forall k i, zget (id_hf st) k = Some i -> zget (id_cells st) k = Some (cell_at cells i) /\ zget (id_sat st) (2 * k) = Some (ib_sat b (bid_at cells i)).

Lemma two_snoc {A} (l : list A) x y : zget (l ++ [x; y]) (zlen l) = Some x /\ zget (l ++ [x; y]) (zlen l + 1) = Some y.
Proof. split; rewrite zget_app_r by lia; [rewrite Z.sub_diag|replace (zlen l + 1 - zlen l) with 1 by lia]; reflexivity. Qed.

Section setup.
Context (g : tgrid) (cells : icells) (number : Z -> Z) (W : wf_grid g) (SG : same_grid g cells number).
Lemma lists_ok b : paired b cells -> exists bids egf st, bid_to_face b cells = Ok bids /\ face_map g cells = Ok egf /\
  foldM (ist_step b bids egf) (visits cells) (mkIst [] [] [] [] [] [] [] 0) = Ok st /\
  per_upto g b cells (zlen (visits cells)) st /\ dir_upto b cells (zlen (visits cells)) st /\ ip_i st = zlen (visits cells).
Proof.
  intros Pd. destruct (bids_ok cells b Pd) as (bids & Eb & Lb & Hb). destruct (face_map_ok g cells number W SG) as (egf & Ee & Le & He).
  exists bids, egf. destruct (foldM_split_inv (ist_step b bids egf) (fun done st => per_upto g b cells (zlen done) st /\ dir_upto b cells (zlen done) st /\ ip_i st = zlen done)
    (visits cells) (mkIst [] [] [] [] [] [] [] 0)) as (st & Es & Hs).
  - split; [|split; [|reflexivity]]; repeat split; try reflexivity; intros; match goal with H : zget _ _ = Some _ |- _ => apply zget_In in H; destruct H end.
  - intros done v rest st Hv (P & D & I).
    assert (Iv : zget (visits cells) (zlen done) = Some v) by (rewrite Hv, zget_app_r, Z.sub_diag by lia; reflexivity).
    assert (Fv : face_at cells (zlen done) = Some (snd v)) by (unfold face_at; rewrite Iv; reflexivity).
    assert (Cv : cell_at cells (zlen done) = fst v) by (unfold cell_at; rewrite Iv; reflexivity).
    assert (Bv : bid_at cells (zlen done) = if_bid (snd v)) by (unfold bid_at; rewrite Fv; reflexivity).
    assert (Pv : is_periodic b cells (zlen done) = if_bnd (snd v) && ib_per b (if_bid (snd v))) by (unfold is_periodic; rewrite Fv; reflexivity).
    assert (Ov : is_open b cells (zlen done) = if_bnd (snd v) && negb (ib_per b (if_bid (snd v))) && negb (ib_closed b (if_bid (snd v)))) by (unfold is_open; rewrite Fv; reflexivity).
    rewrite zlen_app. change (zlen [v]) with 1. unfold per_upto, dir_upto. pose proof (zlen_nonneg done) as Dn.
    rewrite (zrange_app 0 (zlen done) (zlen done + 1)) by lia. rewrite (zrange_cons (zlen done)), (zrange_empty (zlen done + 1)) by lia. rewrite !filter_app. cbn [filter]. rewrite Pv, Ov.
    destruct P as (P1 & P2 & P3 & P4 & P5), D as (D1 & D2 & D3 & D4). unfold ist_step. cbv zeta.
    destruct (if_bnd (snd v)) eqn:Bd; cbn [andb] in *.
    2:{ eexists. split; [reflexivity|]. cbn [ip_cells ip_faces ip_hf ip_nb id_cells id_sat id_hf ip_i]. rewrite !app_nil_r. split; [split; [exact P1|auto]|]. split; [split; [exact D1|auto]|lia]. }
    destruct (ib_per b (if_bid (snd v))) eqn:Pe; cbn [negb andb] in *.
    + destruct Pd as (Pn & Pu & Px & Pi). destruct (Px _ Pv) as (j & Hj & Bj). unfold is_periodic in Hj. destruct (face_at cells j) as [nb|] eqn:Fj; [|discriminate].
      assert (Hj' : is_periodic b cells j = true) by (unfold is_periodic; rewrite Fj; exact Hj).
      assert (Bj' : bid_at cells j = if_bid nb) by (unfold bid_at; rewrite Fj; reflexivity).
      pose proof (Hb j nb Hj' Fj) as Gb. rewrite <- Bj', Bj, Bv in Gb. rewrite (proj2 (rget_Ok _ _ _) Gb). cbn [bind].
      rewrite (proj2 (rget_Ok _ _ _) (He _ _ Fv)). cbn [bind]. rewrite (proj2 (rget_Ok _ _ _) (He _ _ Fj)). cbn [bind].
      eexists. split; [reflexivity|]. cbn [ip_cells ip_faces ip_hf ip_nb id_cells id_sat id_hf ip_i]. rewrite !app_nil_r. split; [|split; [split; [exact D1|auto]|lia]].
      split; [now rewrite P1, I|]. rewrite !zlen_app, P2, P3, P4. split; [change (zlen [fst v; if_cell nb]) with 2; change (zlen [ip_i st]) with 1; lia|]. split; [reflexivity|]. split; [reflexivity|].
      intros k i Ek. apply zget_snoc_cases in Ek. destruct Ek as [Ek|[-> ->]].
      * destruct (P5 k i Ek) as (j0 & Q1 & Q2 & Q3 & Q4 & Q5). exists j0. split; [exact Q1|]. repeat split; apply zget_more; assumption.
      * exists j. split; [split; [exact Hj'|rewrite I, Bj; reflexivity]|]. rewrite I, Cv. destruct (two_snoc (ip_cells st) (fst v) (if_cell nb)) as [T1 T2]. rewrite P2 in T1, T2. rewrite T1, T2.
        split; [reflexivity|]. split.
        -- f_equal. unfold face_at in Fj. destruct (zget (visits cells) j) as [w|] eqn:Ew; [|discriminate]. cbn in Fj. injection Fj as <-. unfold cell_at. rewrite Ew.
           destruct (visit_at g cells number W SG j w Ew) as (_ & _ & -> & _). reflexivity.
        -- split; [rewrite <- P3; apply zget_last|rewrite <- P4; apply zget_last].
    + destruct (ib_closed b (if_bid (snd v))) eqn:Cl; cbn [negb] in *.
      * eexists. split; [reflexivity|]. cbn [ip_cells ip_faces ip_hf ip_nb id_cells id_sat id_hf ip_i]. rewrite !app_nil_r. split; [split; [exact P1|auto]|]. split; [split; [exact D1|auto]|lia].
      * eexists. split; [reflexivity|]. cbn [ip_cells ip_faces ip_hf ip_nb id_cells id_sat id_hf ip_i]. rewrite !app_nil_r. split; [split; [exact P1|auto]|]. split; [|lia].
        split; [now rewrite D1, I|]. rewrite !zlen_app, D2, D3. split; [reflexivity|]. split; [change (zlen [_; _]) with 2; change (zlen [ip_i st]) with 1; lia|].
        intros k i Ek. apply zget_snoc_cases in Ek. destruct Ek as [Ek|[-> ->]].
        -- destruct (D4 k i Ek) as [Q1 Q2]. split; apply zget_more; assumption.
        -- rewrite I, Cv, Bv. split; [rewrite <- D2; apply zget_last|]. destruct (two_snoc (id_sat st) (ib_sat b (if_bid (snd v))) (1 - ib_sat b (if_bid (snd v)))%R) as [T1 _]. rewrite D3 in T1. exact T1.
  - exists st. destruct Hs as (P & D & I). auto 8.
Qed.
Lemma frac_flows_ok mob cs sats : (forall c s, 0 <= fst (mob c s) /\ 0 <= snd (mob c s) /\ 0 < fst (mob c s) + snd (mob c s))%R -> zlen sats = 2 * zlen cs ->
  exists s', frac_flows mob cs sats = Ok s' /\ zlen s' = zlen sats /\
    forall k c s, zget cs k = Some c -> zget sats (2 * k) = Some s ->
      exists fl, zget s' (2 * k) = Some fl /\ zget s' (2 * k + 1) = Some (1 - fl)%R /\ fl = (fst (mob c s) / (fst (mob c s) + snd (mob c s)))%R /\ (0 <= fl <= 1)%R.
Proof.
  intros Hm L. unfold frac_flows. pose proof (zlen_nonneg cs) as Cn.
  set (Pp := fun (n : Z) (s' : list R) => zlen s' = zlen sats /\ (forall k, 2 * n <= k -> zget s' k = zget sats k) /\
    forall k c s, 0 <= k < n -> zget cs k = Some c -> zget sats (2 * k) = Some s ->
      exists fl, zget s' (2 * k) = Some fl /\ zget s' (2 * k + 1) = Some (1 - fl)%R /\ fl = (fst (mob c s) / (fst (mob c s) + snd (mob c s)))%R /\ (0 <= fl <= 1)%R).
  destruct (foldM_split_inv (fun s i => let* c := rget cs i in let* s0 := rget s (2 * i) in let m := mob c s0 in let* fl := mdiv (fst m) (fst m + snd m)%R in let* s := rset s (2 * i) fl in rset s (2 * i + 1) (1 - fl)%R)
    (fun done s' => Pp (zlen done) s') (zrange 0 (zlen cs)) sats) as (s' & E & H).
  - split; [reflexivity|]. split; [reflexivity|]. intros k c s Hk. change (zlen (@nil Z)) with 0 in Hk. lia.
  - intros done i rest s1 Hl (L1 & O1 & H1).
    assert (Ei : zget (zrange 0 (zlen cs)) (zlen done) = Some i) by (rewrite Hl, zget_app_r, Z.sub_diag by lia; reflexivity).
    pose proof (zget_Some_range _ _ _ Ei) as Ri. rewrite zlen_zrange in Ri by lia. rewrite zget_zrange in Ei by lia. injection Ei as Ei. cbn [Z.add] in Ei. subst i.
    destruct (zget_in_range cs (zlen done) ltac:(lia)) as (c & Ec). rewrite (proj2 (rget_Ok _ _ _) Ec). cbn [bind].
    destruct (zget_in_range sats (2 * zlen done) ltac:(lia)) as (s & Es). rewrite (proj2 (rget_Ok s1 (2 * zlen done) s)) by (rewrite O1 by lia; exact Es). cbn [bind]. cbv zeta.
    destruct (Hm c s) as (M0 & M1 & M2). rewrite mdiv_ok by lra. cbn [bind]. set (fl := (fst (mob c s) / (fst (mob c s) + snd (mob c s)))%R).
    destruct (rset_exists s1 (2 * zlen done) fl ltac:(lia)) as (s2 & E2 & L2 & G2 & O2). rewrite E2. cbn [bind].
    destruct (rset_exists s2 (2 * zlen done + 1) (1 - fl)%R ltac:(lia)) as (s3 & E3 & L3 & G3 & O3). exists s3. split; [exact E3|].
    rewrite zlen_app. change (zlen [zlen done]) with 1. split; [lia|]. split.
    + intros k Hk. rewrite O3, O2 by lia. apply O1. lia.
    + intros k c' s' Hk Ec' Es'. destruct (Z_lt_dec k (zlen done)) as [Hlt|Hge].
      * destruct (H1 k c' s' ltac:(lia) Ec' Es') as (fl' & Q1 & Q2 & Q3). exists fl'. rewrite !O3, !O2 by lia. auto.
      * assert (k = zlen done) as -> by lia. assert (c' = c) as -> by congruence. assert (s' = s) as -> by congruence. exists fl. rewrite O3, G2, G3 by lia. split; [reflexivity|]. split; [reflexivity|]. split; [reflexivity|].
        unfold fl. split; [apply Rmult_le_pos; [exact M0|left; now apply Rinv_0_lt_compat]|]. apply Rmult_le_reg_r with (fst (mob c s) + snd (mob c s))%R; [exact M2|]. unfold Rdiv. rewrite Rmult_assoc, Rinv_l by lra. lra.
  - exists s'. split; [exact E|]. destruct H as (H1 & _ & H3). split; [exact H1|]. intros k c s Ec Es. apply H3; auto. rewrite zlen_zrange by lia. pose proof (zget_Some_range _ _ _ Ec). lia.
Qed.
End setup.

Lemma init_ok g b mob cells number : wf_grid g -> same_grid g cells number -> paired b cells ->
  (forall c s, 0 <= fst (mob c s) /\ 0 <= snd (mob c s) /\ 0 < fst (mob c s) + snd (mob c s))%R ->
  exists st, ie_init b mob g cells = Ok st /\
    ip_hf st = the_halves cells (is_periodic b cells) /\ zlen (ip_cells st) = 2 * zlen (ip_hf st) /\ zlen (ip_faces st) = zlen (ip_hf st) /\ zlen (ip_nb st) = zlen (ip_hf st) /\
    (forall k i, zget (ip_hf st) k = Some i -> exists j, partner_half b cells i j /\
       zget (ip_cells st) (2 * k) = Some (cell_at cells i) /\ zget (ip_cells st) (2 * k + 1) = Some (cell_at cells j) /\
       zget (ip_faces st) k = Some (nthZ (t_cf g) i) /\ zget (ip_nb st) k = Some (nthZ (t_cf g) j)) /\
    id_hf st = the_halves cells (is_open b cells) /\ zlen (id_cells st) = zlen (id_hf st) /\ zlen (id_sat st) = 2 * zlen (id_hf st) /\
    (forall k i, zget (id_hf st) k = Some i -> zget (id_cells st) k = Some (cell_at cells i) /\
       let m := mob (cell_at cells i) (ib_sat b (bid_at cells i)) in
       exists fl, zget (id_sat st) (2 * k) = Some fl /\ zget (id_sat st) (2 * k + 1) = Some (1 - fl)%R /\ fl = (fst m / (fst m + snd m))%R /\ (0 <= fl <= 1)%R).
Proof.
  intros W SG Pd Hm. destruct (lists_ok g cells number W SG b Pd) as (bids & egf & st & Eb & Ee & Es & (P1 & P2 & P3 & P4 & P5) & (D1 & D2 & D3 & D4) & _).
  destruct (frac_flows_ok mob (id_cells st) (id_sat st) Hm ltac:(lia)) as (s' & Ef & Lf & Hf).
  unfold ie_init. rewrite Eb. cbn [bind]. rewrite Ee. cbn [bind]. rewrite Es. cbn [bind]. rewrite Ef. cbn [bind]. eexists. split; [reflexivity|]. cbn [ip_cells ip_faces ip_hf ip_nb id_cells id_sat id_hf].
  split; [exact P1|]. repeat (split; [first [assumption | lia]|]).
  intros k i Ek. destruct (D4 k i Ek) as [Q1 Q2]. split; [exact Q1|]. exact (Hf k _ _ Q1 Q2).
Qed.
(* the assertions on the periodic faces: one side is missing, the other is the cell *)
Lemma assertions g b cells number i : wf_grid g -> same_grid g cells number -> is_periodic b cells i = true ->
  let f := nthZ (t_cf g) i in
  (first_cell g f = -1 \/ second_cell g f = -1) /\ (first_cell g f = cell_at cells i \/ second_cell g f = cell_at cells i).
Proof.
  intros W SG Hp f. unfold is_periodic, face_at in Hp. destruct (zget (visits cells) i) as [v|] eqn:Ev; [|discriminate]. cbn in Hp. unfold on_periodic in Hp. apply andb_prop in Hp. destruct Hp as [Hb _].
  destruct (visit_at g cells number W SG i v Ev) as (Hc & Hh & _ & _ & _ & Hi & Hf & _). fold f in Hi, Hh, Hf. rewrite Hb in Hi. symmetry in Hi. apply negb_true_iff in Hi.
  pose proof W as (_ & _ & _ & _ & _ & _ & _ & _ & Wf & Wc). destruct (Wf f Hf) as [A1 A2]. split.
  - unfold interior in Hi. apply andb_false_iff in Hi. destruct Hi as [Hi|Hi]; apply Z.leb_gt in Hi; [left|right]; lia.
  - unfold cell_at. rewrite Ev. apply Wc; [exact Hc|]. unfold faces. apply in_map_iff. exists i. destruct Hh as [Hh1 Hh2]. split; [exact Hh2|]. now apply In_zrange.
Qed.
(* every periodic connection is entered from both sides *)
Lemma mirrored g b mob cells number st k i : wf_grid g -> same_grid g cells number -> paired b cells ->
  (forall c s, 0 <= fst (mob c s) /\ 0 <= snd (mob c s) /\ 0 < fst (mob c s) + snd (mob c s))%R -> ie_init b mob g cells = Ok st -> zget (ip_hf st) k = Some i ->
  exists k' j, k' <> k /\ zget (ip_hf st) k' = Some j /\ partner_half b cells i j /\ partner_half b cells j i /\
    zget (ip_cells st) (2 * k') = zget (ip_cells st) (2 * k + 1) /\ zget (ip_cells st) (2 * k' + 1) = zget (ip_cells st) (2 * k) /\
    zget (ip_faces st) k' = zget (ip_nb st) k /\ zget (ip_nb st) k' = zget (ip_faces st) k.
Proof.
  intros W SG Pd Hm Ei Ek. destruct (init_ok g b mob cells number W SG Pd Hm) as (st' & E & P1 & _ & _ & _ & P5 & _). rewrite Ei in E. injection E as <-.
  destruct (P5 k i Ek) as (j & Pj & Q1 & Q2 & Q3 & Q4). pose proof Pd as (Pn & Pu & Px & Pi).
  assert (Hi : is_periodic b cells i = true). { apply zget_In in Ek. rewrite P1 in Ek. apply filter_In in Ek. tauto. }
  destruct Pj as [Hj Bj]. destruct (Pi i Hi) as [I1 I2].
  assert (Jin : In j (ip_hf st)). { rewrite P1. apply filter_In. split; [|exact Hj]. apply In_zrange. unfold is_periodic, face_at in Hj. destruct (zget (visits cells) j) eqn:Ev; [|discriminate]. eapply zget_Some_range; eauto. }
  apply In_zget in Jin. destruct Jin as (k' & Hk' & Ek'). destruct (P5 k' j Ek') as (i' & (Hi' & Bi') & R1 & R2 & R3 & R4).
  assert (i' = i) as ->. { apply Pu; auto. rewrite Bi', Bj. exact I1. }
  exists k', j. split. { intros ->. assert (i = j) as <- by congruence. apply I2. congruence. }
  split; [exact Ek'|]. split; [split; auto|]. split; [split; auto|]. rewrite Q1, Q2, Q3, Q4, R1, R2, R3, R4. auto.
Qed.
