From Coq Require Import Lra.
From Verif Require Import BaseFacts RBaseFacts Steady_Proofs Euler_Proofs2 Impl_Proofs Impl_Proofs3 Impl_Proofs5 Relp_Proofs2 Ieul_Proofs Ieul_Proofs2 Ieul_Proofs3 Ieul_Spec.
Open Scope Z_scope.

Lemma NoDup_zget_inj {A} (l : list A) i j x : NoDup l -> zget l i = Some x -> zget l j = Some x -> i = j.
Proof.
  intros ND Hi Hj. pose proof (zget_Some_range _ _ _ Hi). pose proof (zget_Some_range _ _ _ Hj). unfold zget in *.
  destruct (i <? 0) eqn:Ai; [discriminate|]. destruct (j <? 0) eqn:Bj; [discriminate|]. apply Z.ltb_ge in Ai, Bj.
  assert (Z.to_nat i = Z.to_nat j); [|lia]. rewrite NoDup_nth_error in ND. apply ND; [|congruence]. unfold zlen in *. lia.
Qed.
Lemma own_slot_range g c f : 0 <= own_slot g c f <= 1.
Proof. unfold own_slot. destruct (_ =? _); lia. Qed.
Lemma sources_ok g b mob cells number out st : wf_grid g -> same_grid g cells number -> paired b cells ->
  (forall c s, 0 <= fst (mob c s) /\ 0 <= snd (mob c s) /\ 0 < fst (mob c s) + snd (mob c s))%R -> zlen out = zlen (t_cf g) -> ie_init b mob g cells = Ok st ->
  ie_sources out st = Ok (map (fun i => mkTsource (cell_at cells i) (- nthR out i) (frac_at mob b cells i)) (the_halves cells (is_open b cells))).
Proof.
  intros W SG Pd Hm Lo Ei. destruct (init_ok g b mob cells number W SG Pd Hm) as (st' & E & _ & _ & _ & _ & _ & D1 & D2 & D3 & D4). rewrite Ei in E. injection E as <-.
  assert (Rg : forall k i, zget (id_hf st) k = Some i -> 0 <= i < zlen out).
  { intros k i Hk. apply zget_In in Hk. rewrite D1 in Hk. apply filter_In in Hk. destruct Hk as [Hk _]. apply In_zrange in Hk. rewrite (visits_len g cells number W SG) in Hk. destruct W as (_ & _ & _ & _ & _ & Pn & _). lia. }
  unfold ie_sources, ie_sflux.
  assert (Ef : mapM (fun i => let* o := rget out i in Ok (- o)%R) (id_hf st) = Ok (map (fun i => - nthR out i)%R (id_hf st))).
  { apply mapM_all_Ok. intros i Hi. apply In_zget in Hi. destruct Hi as (k & _ & Hk). rewrite (rget_at out) by (eapply Rg; eauto). reflexivity. }
  rewrite Ef. cbn [bind]. rewrite <- D1. rewrite D2.
  replace (map (fun i => mkTsource (cell_at cells i) (- nthR out i) (frac_at mob b cells i)) (id_hf st)) with
    (map (fun k => mkTsource (cell_at cells (nthZ (id_hf st) k)) (- nthR out (nthZ (id_hf st) k)) (frac_at mob b cells (nthZ (id_hf st) k))) (zrange 0 (zlen (id_hf st)))).
  - apply mapM_all_Ok. intros k Hk. apply In_zrange in Hk. destruct (zget_in_range (id_hf st) k Hk) as (i & Hi). destruct (D4 k i Hi) as (C & fl & F1 & _ & F3 & _).
    assert (Nk : nthZ (id_hf st) k = i) by (unfold nthZ; rewrite Hi; reflexivity). rewrite Nk.
    rewrite (proj2 (rget_Ok (id_cells st) k (cell_at cells i)) C). cbn [bind].
    rewrite (proj2 (rget_Ok (map (fun i => - nthR out i)%R (id_hf st)) k (- nthR out i)%R)) by (rewrite zget_map, Hi; reflexivity). cbn [bind].
    rewrite (proj2 (rget_Ok (id_sat st) (2 * k) fl) F1). cbn [bind]. unfold frac_at. cbv zeta in F3. rewrite F3. reflexivity.
  - apply zlist_ext.
    + rewrite !zlen_map, zlen_zrange by apply zlen_nonneg. lia.
    + intros k Hk. rewrite zlen_map, zlen_zrange in Hk by apply zlen_nonneg. rewrite !zget_map, zget_zrange by lia. destruct (zget_in_range (id_hf st) k ltac:(lia)) as (i & Hi).
      unfold nthZ. cbn [Z.add option_map]. rewrite Hi. reflexivity.
Qed.

Lemma cell_at_range g cells number c i : wf_grid g -> same_grid g cells number -> 0 <= c < t_nc g -> 0 <= i < zlen (visits cells) ->
  cell_at cells i = c <-> nthZ (t_pos g) c <= i < nthZ (t_pos g) (c + 1).
Proof.
  intros W SG Hc Hi. destruct (zget_in_range (visits cells) i Hi) as (v & Ev). unfold cell_at. rewrite Ev. split.
  - intros <-. destruct (visit_at g cells number W SG i v Ev) as (_ & (A & _) & _). exact A.
  - intros A. destruct (cell_visit g cells number W SG c (nthZ (t_cf g) i) i Hc) as (v' & Ev' & Hv); [split; auto|]. rewrite Ev in Ev'. injection Ev' as <-. exact Hv.
Qed.

Lemma sum_in_cell g cells number c (p : Z -> bool) (h : Z -> R) : wf_grid g -> same_grid g cells number -> 0 <= c < t_nc g ->
  Rsum (map h (filter (fun i => cell_at cells i =? c) (the_halves cells p))) = Rsum (map (fun i => if p i then h i else 0%R) (cell_halves g c)).
Proof.
  intros W SG Hc. unfold the_halves. rewrite <- Rsum_if. rewrite <- (Rsum_if p). unfold cell_halves.
  pose proof (pos_range g W c Hc) as Pr. pose proof (visits_len g cells number W SG) as Lv. assert (Pn : nthZ (t_pos g) (t_nc g) = zlen (t_cf g)) by (destruct W as (_ & _ & _ & _ & _ & Pn & _); exact Pn).
  rewrite (zrange_app 0 (nthZ (t_pos g) c) (zlen (visits cells))) by lia. rewrite (zrange_app (nthZ (t_pos g) c) (nthZ (t_pos g) (c + 1)) (zlen (visits cells))) by lia.
  rewrite !map_app, !Rsum_app.
  rewrite (Rsum_map_ext _ (fun _ => 0%R) (zrange 0 (nthZ (t_pos g) c))).
  2:{ intros i Hi. apply In_zrange in Hi. pose proof (cell_at_range g cells number c i W SG Hc ltac:(lia)). destruct (Z.eqb_spec (cell_at cells i) c); [lia|]. destruct (p i); reflexivity. }
  rewrite (Rsum_map_ext _ (fun _ => 0%R) (zrange (nthZ (t_pos g) (c + 1)) (zlen (visits cells)))).
  2:{ intros i Hi. apply In_zrange in Hi. pose proof (cell_at_range g cells number c i W SG Hc ltac:(lia)). destruct (Z.eqb_spec (cell_at cells i) c); [lia|]. destruct (p i); reflexivity. }
  rewrite (Rsum_map_ext _ (fun i => if p i then h i else 0%R) (zrange (nthZ (t_pos g) c) (nthZ (t_pos g) (c + 1)))).
  2:{ intros i Hi. apply In_zrange in Hi. pose proof (cell_at_range g cells number c i W SG Hc ltac:(lia)). destruct (Z.eqb_spec (cell_at cells i) c); [reflexivity|]. lia. }
  rewrite (Rsum_map_zero (fun _ => 0%R) (zrange 0 (nthZ (t_pos g) c))), (Rsum_map_zero (fun _ => 0%R) (zrange (nthZ (t_pos g) (c + 1)) (zlen (visits cells)))) by (intros; reflexivity). lra.
Qed.

Lemma flux_balance g b mob cells number out g' st : wf_grid g -> simple_grid g -> same_grid g cells number -> paired b cells -> glued g b cells g' ->
  (forall c s, 0 <= fst (mob c s) /\ 0 <= snd (mob c s) /\ 0 < fst (mob c s) + snd (mob c s))%R ->
  zlen out = zlen (t_cf g) -> t_nf g <= zlen (t_cf g) -> opposite_fluxes g out -> closed_fluxes b cells out -> ie_init b mob g cells = Ok st ->
  exists ff src, ie_faceflux g' out = Ok ff /\ ie_sources out st = Ok src /\
    forall c, 0 <= c < t_nc g ->
      (Rsum (map (fun f => outward g' c f * nthR ff f) (conns g' c)) = Rsum (map (nthR out) (cell_halves g c)) + Rsum (map q_flux (filter (fun q => q_cell q =? c) src)))%R.
Proof.
  intros W ND SG Pd GL Hm Lo Ln Op Cl Ei. pose proof (glued_wf g cells number b g' W SG Pd GL) as W'. pose proof GL as (G1 & G2 & G3 & G4 & _).
  assert (ND' : simple_grid g') by (intros c Hc; rewrite (glued_faces g cells b g' GL); apply ND; lia).
  destruct (faceflux_ok g' out W' ND') as (ff & Ef & Hf & _); [rewrite G4; auto|rewrite G4, G2; auto|unfold opposite_fluxes in *; rewrite G4; exact Op|].
  exists ff. eexists. split; [exact Ef|]. split; [exact (sources_ok g b mob cells number out st W SG Pd Hm Lo Ei)|]. intros c Hc.
  assert (Es : forall l, map q_flux (filter (fun q => q_cell q =? c) (map (fun i => mkTsource (cell_at cells i) (- nthR out i) (frac_at mob b cells i)) l)) = map (fun i => - nthR out i)%R (filter (fun i => cell_at cells i =? c) l)).
  { induction l as [|x l IH]; [reflexivity|]. cbn [map filter q_cell]. destruct (cell_at cells x =? c); cbn [map q_flux]; rewrite IH; reflexivity. }
  rewrite Es, (sum_in_cell g cells number c _ _ W SG Hc). unfold conns. rewrite <- Rsum_if. unfold faces. rewrite map_map, G3, G4. fold (cell_halves g c).
  rewrite <- Rsum_map_plus. apply Rsum_map_ext. intros i Hi. unfold cell_halves in Hi. apply In_zrange in Hi.
  pose proof (pos_range g W c Hc) as Pr. pose proof (visits_len g cells number W SG) as Lv. assert (Pn : nthZ (t_pos g) (t_nc g) = zlen (t_cf g)) by (destruct W as (_ & _ & _ & _ & _ & Pn & _); exact Pn).
  destruct (zget_in_range (visits cells) i ltac:(lia)) as (v & Ev).
  rewrite (Hf c (nthZ (t_cf g) i) i ltac:(lia)) by (apply (glued_half g cells b g' GL); split; auto).
  rewrite (glued_interior g cells number b g' W SG Pd GL ND i v Ev).
  assert (Fa : face_at cells i = Some (snd v)) by (unfold face_at; rewrite Ev; reflexivity).
  unfold is_open, is_periodic. rewrite Fa. unfold on_periodic.
  destruct (if_bnd (snd v)) eqn:B; cbn [negb orb andb]; [|lra]. destruct (ib_per b (if_bid (snd v))) eqn:Ep; cbn [negb orb andb]; [lra|].
  destruct (ib_closed b (if_bid (snd v))) eqn:Ec; cbn [negb]; [|lra]. rewrite (Cl i (snd v) Fa B Ep Ec). lra.
Qed.

(* makefhfQPeriodic *)
Lemma halves_glued g b mob cells number g' st m : wf_grid g -> simple_grid g -> same_grid g cells number -> paired b cells -> glued g b cells g' ->
  (forall c s, 0 <= fst (mob c s) /\ 0 <= snd (mob c s) /\ 0 < fst (mob c s) + snd (mob c s))%R ->
  ie_init b mob g cells = Ok st -> face_to_half g' = Ok m ->
  exists m', periodic_halves m (ip_faces st) (ip_hf st) (ip_nb st) = Ok m' /\ zlen m' = zlen m /\
    (forall i j, is_periodic b cells i = true -> partner_half b cells i j -> let f := nthZ (t_cf g) i in let s := own_slot g' (cell_at cells i) f in
       zget m' (2 * f + s) = Some i /\ zget m' (2 * f + (1 - s)) = Some j) /\
    (forall f s, 0 <= s <= 1 -> (forall i, is_periodic b cells i = true -> nthZ (t_cf g) i <> f) -> zget m' (2 * f + s) = zget m (2 * f + s)).
Proof.
  intros W ND SG Pd GL Hm Ei Em. pose proof (glued_wf g cells number b g' W SG Pd GL) as W'. pose proof GL as (G1 & G2 & G3 & G4 & _).
  assert (ND' : simple_grid g') by (intros c Hc; rewrite (glued_faces g cells b g' GL); apply ND; lia).
  destruct (face_to_half_ok g' W' ND') as (m0 & E0 & Lm & Hown & Hno). rewrite Em in E0. injection E0 as <-. rewrite G2 in Lm.
  destruct (init_ok g b mob cells number W SG Pd Hm) as (st' & E & P1 & _ & P3 & P4 & P5 & _). rewrite Ei in E. injection E as <-.
  pose proof Pd as (_ & Pu & Px & Pi).
  (* the two slots of a periodic face *)
  assert (Sl : forall i, is_periodic b cells i = true -> let f := nthZ (t_cf g) i in let s := own_slot g' (cell_at cells i) f in
    0 <= s <= 1 /\ 0 <= f < t_nf g /\ 0 <= i /\ zget m (2 * f + s) = Some i /\ zget m (2 * f + (1 - s)) = Some (-1)).
  { intros i Hp f s. destruct (periodic_visit g cells number b W SG i Hp) as (v & Ev & _ & Ec & Hv & Hh & Hb & Hr). fold f in Hh, Hb, Hr.
    assert (Rs : 0 <= s <= 1) by (unfold s, own_slot; destruct (_ =? _); lia). split; [exact Rs|]. split; [exact Hr|]. split; [eapply zget_Some_range; eauto|]. split.
    - unfold s, own_slot. apply Hown; [lia|]. rewrite Ec. now apply (glued_half g cells b g' GL).
    - apply Hno; [lia|]. intros c f' i' Hc Hh'. apply (glued_half g cells b g' GL) in Hh'. fold (own_slot g' c f'). intros Eq.
      assert (Rs' : 0 <= own_slot g' c f' <= 1) by (unfold own_slot; destruct (_ =? _); lia). assert (f = f') as <- by lia.
      destruct (half_unique g i (fst v) f c W ND Hb i' Hv ltac:(lia) Hh Hh') as [-> <-]. unfold s in Eq. rewrite Ec in Eq. lia. }
  (* distinct half faces have distinct faces *)
  assert (Di : forall i i', is_periodic b cells i = true -> is_periodic b cells i' = true -> nthZ (t_cf g) i = nthZ (t_cf g) i' -> i = i').
  { intros i i' Hp Hp' Eq. destruct (periodic_visit g cells number b W SG i Hp) as (v & _ & _ & _ & Hv & Hh & Hb & _). destruct (periodic_visit g cells number b W SG i' Hp') as (v' & _ & _ & _ & Hv' & Hh' & _).
    rewrite <- Eq in Hh'. destruct (half_unique g i _ _ _ W ND Hb i' Hv Hv' Hh Hh') as [-> _]. reflexivity. }
  assert (Per : forall k i, zget (ip_hf st) k = Some i -> is_periodic b cells i = true) by (intros k i Hk; apply zget_In in Hk; rewrite P1 in Hk; apply filter_In in Hk; tauto).
  assert (Nd : forall k k' i, zget (ip_hf st) k = Some i -> zget (ip_hf st) k' = Some i -> k = k').
  { intros k k' i A B. assert (Q : NoDup (ip_hf st)) by (rewrite P1; apply NoDup_filter, zrange_NoDup). eapply NoDup_zget_inj; eauto. }
  destruct (zlen (ip_hf st) =? 0) eqn:Z0.
  - apply Z.eqb_eq in Z0. assert (ip_faces st = []) as -> by (destruct (ip_faces st); [reflexivity|]; rewrite zlen_cons in P3; pose proof (zlen_nonneg l); lia).
    exists m. split; [reflexivity|]. split; [reflexivity|]. split; [|auto]. intros i j Hp _. exfalso. assert (Hin : In i (ip_hf st)).
    { rewrite P1. apply filter_In. split; [|exact Hp]. apply In_zrange. destruct (periodic_visit g cells number b W SG i Hp) as (v & Ev & _). eapply zget_Some_range; eauto. }
    apply In_zget in Hin. destruct Hin as (k & Hk & _). lia.
  - apply Z.eqb_neq in Z0. 
    assert (Up : forall pf hf nb, zlen pf <> 0 -> periodic_halves m pf hf nb =
      (let* nbhf := mapM (fun i => let* n := rget nb i in let* a := rget m (2 * n) in let p := if a <? 0 then 1 else 0 in rget m (2 * n + p)) (zrange 0 (zlen pf)) in
       foldM (fun m i => let* f := rget pf i in let* h := rget hf i in let* a := rget m (2 * f) in let p := if a =? h then 1 else 0 in let* x := rget nbhf i in rset m (2 * f + p) x) (zrange 0 (zlen pf)) m)).
    { intros pf hf nb Hz. destruct pf; [now rewrite zlen_nil in Hz|reflexivity]. }
    rewrite Up by lia. clear Up.
    assert (En : exists nbhf, mapM (fun i => let* n := rget (ip_nb st) i in let* a := rget m (2 * n) in let p := if a <? 0 then 1 else 0 in rget m (2 * n + p)) (zrange 0 (zlen (ip_faces st))) = Ok nbhf /\
      zlen nbhf = zlen (ip_hf st) /\ forall k i j, zget (ip_hf st) k = Some i -> partner_half b cells i j -> zget nbhf k = Some j).
    { set (F := fun i => let* n := rget (ip_nb st) i in let* a := rget m (2 * n) in let p := if a <? 0 then 1 else 0 in rget m (2 * n + p)).
      assert (HF : forall k i j, zget (ip_hf st) k = Some i -> partner_half b cells i j -> F k = Ok j).
      { intros k i j' Hi Hj'. destruct (P5 k i Hi) as (j & Hj & _ & _ & _ & Q).
        assert (j' = j) as -> by (destruct Hj, Hj'; apply Pu; congruence).
        unfold F. rewrite (proj2 (rget_Ok (ip_nb st) k _) Q). cbn [bind]. destruct (Sl j (proj1 Hj)) as (R1 & R2 & R3 & S1 & S2). set (f := nthZ (t_cf g) j) in *. set (s := own_slot g' (cell_at cells j) f) in *.
        assert (s = 0 \/ s = 1) as [Es|Es] by lia; rewrite Es in *; cbn [Z.sub Z.add Z.opp Z.pos_sub] in *.
        - rewrite Z.add_0_r in S1. rewrite (proj2 (rget_Ok m (2 * f) j) S1). cbn [bind]. cbv zeta. destruct (Z.ltb_spec j 0); [lia|]. rewrite Z.add_0_r. now apply rget_Ok.
        - rewrite Z.add_0_r in S2. rewrite (proj2 (rget_Ok m (2 * f) (-1)) S2). cbn [bind]. cbv zeta. change (-1 <? 0) with true. cbv iota. now apply rget_Ok. }
      destruct (mapM_exists F (zrange 0 (zlen (ip_faces st)))) as (nbhf & E).
      { intros k Hk. apply In_zrange in Hk. destruct (zget_in_range (ip_hf st) k ltac:(lia)) as (i & Hi). destruct (P5 k i Hi) as (j & Hj & _). eauto. }
      exists nbhf. split; [exact E|]. apply mapM_Ok in E. pose proof (Forall2_length' _ _ _ E) as Lf. assert (Ln : zlen nbhf = zlen (ip_hf st)).
      { unfold zlen in *. rewrite <- Lf. pose proof (zlen_zrange 0 (Z.of_nat (length (ip_faces st))) ltac:(lia)) as Q. unfold zlen in Q. lia. }
      split; [exact Ln|]. intros k i j Hi Hj. pose proof (zget_Some_range _ _ _ Hi) as Rk. destruct (Forall2_zget _ _ _ E k k ltac:(rewrite zget_zrange by lia; reflexivity)) as (x & Ex & Hx). rewrite Ex. f_equal. rewrite (HF k i j Hi Hj) in Hx. congruence. }
    destruct En as (nbhf & En & Ln & Hn). rewrite En. cbn [bind].
    destruct (foldM_split_inv (fun m i => let* f := rget (ip_faces st) i in let* h := rget (ip_hf st) i in let* a := rget m (2 * f) in let p := if a =? h then 1 else 0 in let* x := rget nbhf i in rset m (2 * f + p) x)
      (fun done m' => zlen m' = zlen m /\
        (forall k i j, In k done -> zget (ip_hf st) k = Some i -> partner_half b cells i j -> let f := nthZ (t_cf g) i in let s := own_slot g' (cell_at cells i) f in zget m' (2 * f + s) = Some i /\ zget m' (2 * f + (1 - s)) = Some j) /\
        (forall f s, 0 <= s <= 1 -> (forall k i, In k done -> zget (ip_hf st) k = Some i -> nthZ (t_cf g) i <> f) -> zget m' (2 * f + s) = zget m (2 * f + s)))
      (zrange 0 (zlen (ip_faces st))) m) as (m' & E' & L' & H' & O').
    + split; [reflexivity|]. split; [intros k i j []|auto].
    + intros done k rest m1 Hl (L1 & H1 & O1). assert (Hk : In k (zrange 0 (zlen (ip_faces st)))) by (rewrite Hl; apply in_or_app; right; left; auto). apply In_zrange in Hk.
      assert (Nk : ~ In k done). { pose proof (zrange_NoDup 0 (zlen (ip_faces st))) as Q. rewrite Hl in Q. apply NoDup_remove_2 in Q. intros A. apply Q. apply in_or_app. auto. }
      assert (Kd : forall k', In k' done -> 0 <= k' < zlen (ip_faces st)) by (intros k' A; apply In_zrange; rewrite Hl; apply in_or_app; auto).
      destruct (zget_in_range (ip_hf st) k ltac:(lia)) as (i & Hi). destruct (P5 k i Hi) as (j & Hj & _ & _ & Q & _). pose proof (Per k i Hi) as Hp.
      destruct (Sl i Hp) as (R1 & R2 & R3 & S1 & S2). set (f := nthZ (t_cf g) i) in *. set (s := own_slot g' (cell_at cells i) f) in *.
      assert (Fr : forall k' i', In k' done -> zget (ip_hf st) k' = Some i' -> nthZ (t_cf g) i' <> f).
      { intros k' i' A B Eq. apply Nk. assert (i' = i) as -> by (apply Di; eauto). now rewrite <- (Nd k' k i B Hi). }
      rewrite (proj2 (rget_Ok (ip_faces st) k _) Q). cbn [bind]. rewrite (proj2 (rget_Ok (ip_hf st) k _) Hi). cbn [bind].
      assert (Ea : exists a, rget m1 (2 * f) = Ok a /\ (if a =? i then 1 else 0) = 1 - s).
      { assert (s = 0 \/ s = 1) as [Es|Es] by lia; rewrite Es in *; cbn [Z.sub Z.add Z.opp Z.pos_sub] in *.
        - exists i. split; [|rewrite Z.eqb_refl; reflexivity]. apply rget_Ok. rewrite <- S1. rewrite <- (O1 f 0 ltac:(lia) Fr). f_equal. lia.
        - exists (-1). split; [|destruct (Z.eqb_spec (-1) i); [lia|reflexivity]]. apply rget_Ok. rewrite <- S2. rewrite <- (O1 f 0 ltac:(lia) Fr). f_equal. lia. }
      destruct Ea as (a & Ea & Ep). rewrite Ea. cbn [bind]. cbv zeta. rewrite Ep. rewrite (proj2 (rget_Ok nbhf k _) (Hn k i j Hi Hj)). cbn [bind].
      destruct (rset_exists m1 (2 * f + (1 - s)) j ltac:(lia)) as (m2 & E2 & L2 & Hw & Ho). exists m2. split; [exact E2|]. split; [lia|]. split.
      * intros k' i' j' Hk' Hi' Hj'. apply in_app_or in Hk'. destruct Hk' as [Hk'|[<-|[]]].
        -- pose proof (Fr k' i' Hk' Hi') as Nf. cbv zeta. destruct (H1 k' i' j' Hk' Hi' Hj') as [A B]. cbv zeta in A, B. set (s' := own_slot g' (cell_at cells i') (nthZ (t_cf g) i')) in *.
           pose proof (own_slot_range g' (cell_at cells i') (nthZ (t_cf g) i')) as Rs'. fold s' in Rs'. rewrite !Ho by lia. auto.
        -- rewrite Hi in Hi'. injection Hi' as <-. assert (j' = j) as -> by (destruct Hj, Hj'; apply Pu; congruence). cbv zeta. fold f. fold s. split; [|exact Hw].
           rewrite Ho by lia. rewrite (O1 f s R1 Fr). exact S1.
      * intros f' s' Rs' Hf'. assert (f <> f') by (apply (Hf' k i); [apply in_or_app; right; left; auto|exact Hi]). rewrite Ho by lia. apply O1; [exact Rs'|]. intros k' i' A. apply Hf'. apply in_or_app. auto.
    + exists m'. split; [exact E'|]. split; [exact L'|]. split.
      * intros i j Hp Hj. assert (Hin : In i (ip_hf st)).
        { rewrite P1. apply filter_In. split; [|exact Hp]. apply In_zrange. destruct (periodic_visit g cells number b W SG i Hp) as (v & Ev & _). eapply zget_Some_range; eauto. }
        apply In_zget in Hin. destruct Hin as (k & Rk & Hk). apply (H' k i j); auto. apply In_zrange. lia.
      * intros f s Rs Hf. apply O'; [exact Rs|]. intros k i _ Hk. apply Hf. eauto.
Qed.
