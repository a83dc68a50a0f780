From Coq Require Import Permutation.
From Verif Require Import BaseFacts RBaseFacts Bound_Model Bound_Spec.
Open Scope Z_scope.

(* ---------- bounding box *)
Lemma fold_min_spec {A} (f : A -> R) l : forall m,
  let r := fold_left (fun m a => smin m (f a)) l m in
  (r <= m)%R /\ (forall a, In a l -> (r <= f a)%R) /\ (r = m \/ exists a, In a l /\ f a = r).
Proof.
  induction l as [|x l IH]; intros m; cbn [fold_left]; cbv zeta.
  - split; [lra|]. split; [contradiction|auto].
  - specialize (IH (smin m (f x))). cbv zeta in IH. destruct IH as [A1 [A2 A3]].
    rewrite smin_Rmin in *. pose proof (Rmin_l m (f x)). pose proof (Rmin_r m (f x)).
    split; [lra|]. split.
    + intros a [<-|H1]; [lra|auto].
    + destruct A3 as [E|[a [Ha Ea]]].
      * rewrite E. unfold Rmin. destruct (Rle_dec m (f x)); [left; reflexivity|right; exists x; split; [left|]; reflexivity].
      * right. exists a. split; [right|]; assumption.
Qed.
Lemma fold_max_spec {A} (f : A -> R) l : forall m,
  let r := fold_left (fun m a => smax m (f a)) l m in
  (m <= r)%R /\ (forall a, In a l -> (f a <= r)%R) /\ (r = m \/ exists a, In a l /\ f a = r).
Proof.
  induction l as [|x l IH]; intros m; cbn [fold_left]; cbv zeta.
  - split; [lra|]. split; [contradiction|auto].
  - specialize (IH (smax m (f x))). cbv zeta in IH. destruct IH as [A1 [A2 A3]].
    rewrite smax_Rmax in *. pose proof (Rmax_l m (f x)). pose proof (Rmax_r m (f x)).
    split; [lra|]. split.
    + intros a [<-|H1]; [lra|auto].
    + destruct A3 as [E|[a [Ha Ea]]].
      * rewrite E. unfold Rmax. destruct (Rle_dec m (f x)); [right; exists x; split; [left|]; reflexivity|left; reflexivity].
      * right. exists a. split; [right|]; assumption.
Qed.

Lemma box_spec fs : fs <> [] ->
  (forall f d, In f fs -> 0 <= d < 3 -> (- huge <= vget (gf_cent f) d <= huge)%R) ->
  is_box fs (box_low fs) (box_hi fs).
Proof.
  intros Hne Hb d Hd. unfold box_low, box_hi.
  destruct (fold_min_spec (fun f => vget (gf_cent f) d) fs huge) as [A1 [A2 A3]].
  destruct (fold_max_spec (fun f => vget (gf_cent f) d) fs (- huge)%R) as [B1 [B2 B3]].
  cbv zeta in *. destruct fs as [|f0 t]; [congruence|]. 
  assert (In f0 (f0 :: t)) as H0 by (left; reflexivity).
  split; [intros f Hf; split; auto|]. split.
  - destruct A3 as [E|[f [Hf E]]]; [|eauto]. exists f0. split; [exact H0|]. rewrite E.
    pose proof (A2 f0 H0) as Q. cbv beta in Q. rewrite E in Q. pose proof (Hb f0 d H0 Hd). lra.
  - destruct B3 as [E|[f [Hf E]]]; [|eauto]. exists f0. split; [exact H0|]. rewrite E.
    pose proof (B2 f0 H0) as Q. cbv beta in Q. rewrite E in Q. pose proof (Hb f0 d H0 Hd). lra.
Qed.

(* ---------- sides *)
Lemma side_of_spec tol low hi c s : side_of tol low hi c = Some s -> on_side tol low hi c s.
Proof.
  unfold side_of, near, on_side.
  repeat match goal with |- context [Rleb ?a ?b] => destruct (Rleb_spec a b) end;
  intros E; inversion E; subst; split; try lia; cbn; assumption.
Qed.
Lemma side_of_first tol low hi c s : side_of tol low hi c = Some s -> forall s', s' < s -> ~ on_side tol low hi c s'.
Proof.
  unfold side_of, near, on_side.
  repeat match goal with |- context [Rleb ?a ?b] => destruct (Rleb_spec a b) end;
  intros E s' Hlt [Hs H]; inversion E; subst; try lia;
  assert (s' = 0 \/ s' = 1 \/ s' = 2 \/ s' = 3 \/ s' = 4) as C by lia;
  destruct C as [->|[->|[->|[->| ->]]]]; cbn in H; first [contradiction|lia].
Qed.
Lemma side_of_none tol low hi c : side_of tol low hi c = None -> forall s, ~ on_side tol low hi c s.
Proof.
  unfold side_of, near, on_side.
  repeat match goal with |- context [Rleb ?a ?b] => destruct (Rleb_spec a b) end; try discriminate.
  intros _ s [Hs H]. assert (s = 0 \/ s = 1 \/ s = 2 \/ s = 3 \/ s = 4 \/ s = 5) as C by lia.
  destruct C as [->|[->|[->|[->|[->| ->]]]]]; cbn in H; contradiction.
Qed.

(* ---------- building the list *)
Definition info_of (tol : R) (low hi : Z -> R) (p : Z * gface) (b : bface) : Prop :=
  exists s, side_of tol low hi (gf_cent (snd p)) = Some s /\
    b = mkBface (fst p) (gf_bid (snd p)) s (-1) 0 (gf_area (snd p)) (vzero (gf_cent (snd p)) (Z.quot s 2)).

Definition side_total (l : list bface) (s : Z) : R := total b_area (filter (fun b => b_canon b =? s) l).

Lemma total_app {A} (f : A -> R) l l' : total f (l ++ l') = (total f l + total f l')%R.
Proof. unfold total in *. induction l as [|a l IH]; cbn [app fold_right]; [lra|]. lra. Qed.

Lemma info_phase tol low hi ps :
  foldM (make_info tol low hi) ps ([], zrepeat 0%R 6) = Throw /\ (exists p, In p ps /\ side_of tol low hi (gf_cent (snd p)) = None)
  \/ exists l areas, foldM (make_info tol low hi) ps ([], zrepeat 0%R 6) = Ok (l, areas) /\
    Forall2 (info_of tol low hi) ps l /\ zlen areas = 6 /\
    forall s, 0 <= s < 6 -> zget areas s = Some (side_total l s).
Proof.
  assert (foldM (make_info tol low hi) ps ([], zrepeat 0%R 6) = Throw -> exists p, In p ps /\ side_of tol low hi (gf_cent (snd p)) = None) as HT.
  { clear. assert (forall st, zlen (snd st) = 6 -> foldM (make_info tol low hi) ps st = Throw -> exists p, In p ps /\ side_of tol low hi (gf_cent (snd p)) = None) as G.
    2:{ apply G. reflexivity. }
    induction ps as [|p ps IH]; intros st Hl; cbn [foldM]; [discriminate|].
    unfold make_info at 1. destruct (side_of tol low hi (gf_cent (snd p))) as [s|] eqn:E.
    - apply side_of_spec in E as [Hs _].
      destruct (rget_range (snd st) s ltac:(lia)) as [a [-> _]]. cbn [bind].
      destruct (rset_exists (snd st) s (a + gf_area (snd p))%R ltac:(lia)) as [ar [-> [L _]]]. cbn [bind].
      intros H. eapply IH in H; [|cbn [snd]; lia]. destruct H as [q [Hq Eq]]. exists q. split; [right|]; assumption.
    - intros _. exists p. split; [left; reflexivity|exact E]. }
  edestruct (foldM_no_UB (make_info tol low hi)
    (fun done st => Forall2 (info_of tol low hi) done (fst st) /\ zlen (snd st) = 6 /\
       forall s, 0 <= s < 6 -> zget (snd st) s = Some (side_total (fst st) s)) ps ([], zrepeat 0%R 6)) as [H|[[l areas] [E [F [L A]]]]].
  - cbn [fst snd]. split; [constructor|]. split; [reflexivity|]. intros s Hs. rewrite zget_zrepeat by lia. reflexivity.
  - intros done p rest [l ar] _ [F [L A]]. cbn [fst snd] in *. unfold make_info.
    destruct (side_of tol low hi (gf_cent (snd p))) as [s|] eqn:E; [right|left; reflexivity].
    pose proof (side_of_spec _ _ _ _ _ E) as [Hs _]. cbn [fst snd].
    destruct (rget_range ar s ltac:(lia)) as [a [-> Ea]]. cbn [bind].
    destruct (rset_exists ar s (a + gf_area (snd p))%R ltac:(lia)) as [ar' [-> [L' [G1 G2]]]]. cbn [bind].
    eexists. split; [reflexivity|]. cbn [fst snd]. split.
    { apply Forall2_app; [exact F|]. constructor; [|constructor]. exists s. split; [exact E|reflexivity]. }
    split; [lia|]. intros s' Hs'. unfold side_total. rewrite filter_app, total_app. cbn [filter b_canon].
    destruct (Z.eqb_spec s s') as [->|Hne].
    + rewrite G1. cbn. f_equal. rewrite (A s' Hs') in Ea. injection Ea as <-. unfold side_total, total. lra.
    + rewrite G2 by congruence. rewrite A by exact Hs'. cbn. f_equal. unfold side_total. lra.
  - left. split; [exact H|]. apply HT. exact H.
  - right. exists l, areas. auto.
Qed.

(* ---------- matching *)
Lemma vdist_sym a b : vdist a b = vdist b a.
Proof. unfold vdist. f_equal. ring. Qed.
Lemma geo_match_sym a b : geo_match a b -> geo_match b a.
Proof.
  unfold geo_match, opposite. intros [H1 [H2 H3]]. split.
  - destruct (Z.even (b_canon a)) eqn:E; rewrite H1.
    + rewrite Z.add_1_r, Z.even_succ, <- Z.negb_even, E. cbn. lia.
    + rewrite Z.sub_1_r, Z.even_pred, <- Z.negb_even, E. cbn. lia.
  - rewrite Rabs_minus_sym, vdist_sym. auto.
Qed.
Lemma geo_match_irrefl a : ~ geo_match a a.
Proof. intros [H _]. unfold opposite in H. destruct (Z.even (b_canon a)); lia. Qed.

Definition static (b : bface) := (b_index b, b_bid b, b_canon b, b_area b, b_cent b).
Lemma geo_match_static a b a' b' : static a = static a' -> static b = static b' -> geo_match a b -> geo_match a' b'.
Proof.
  unfold static. destruct a, b, a', b'; cbn. intros E1 E2. inversion E1; inversion E2; subst. unfold geo_match; cbn. auto.
Qed.

Lemma search_spec l f js : 0 <= b_canon f -> (forall j, In j js -> 0 <= j < zlen l) ->
  exists r, match_search l f js = Ok r /\
    match r with
    | Some j => In j js /\ exists o, zget l j = Some o /\ geo_match f o
    | None => forall j o, In j js -> zget l j = Some o -> ~ geo_match f o
    end.
Proof.
  intros Hc. induction js as [|j js IH]; intros Hr; cbn [match_search].
  - exists None. split; [reflexivity|]. contradiction.
  - destruct (rget_range l j (Hr j (or_introl eq_refl))) as [o [-> Eo]]. cbn [bind].
    assert (((b_canon o =? (if Z.rem (b_canon f) 2 =? 0 then b_canon f + 1 else b_canon f - 1)) &&
             Rleb (Rabs (b_area f - b_area o)) tol6 && Rleb (vdist (b_cent f) (b_cent o)) tol6 = true) <-> geo_match f o) as Q.
    { rewrite !andb_true_iff, !Rleb_true, Z.eqb_eq. unfold geo_match, opposite, tol6.
      rewrite Z.rem_mod_nonneg by lia. rewrite Zmod_even. destruct (Z.even (b_canon f)); cbn; tauto. }
    destruct (_ && _ && _).
    + exists (Some j). split; [reflexivity|]. split; [left; reflexivity|]. exists o. split; [exact Eo|]. apply Q. reflexivity.
    + destruct IH as [r [-> Hr']]. { intros; apply Hr; right; assumption. }
      exists r. split; [reflexivity|]. destruct r as [j'|].
      * destruct Hr' as [H1 H2]. split; [right; exact H1|exact H2].
      * intros j' o' [<-|Hin] Ho' Hg.
        -- assert (o' = o) by congruence. subst o'. apply Q in Hg. discriminate.
        -- eapply Hr'; eauto.
Qed.

Definition unpartnered (b : bface) := b_pindex b = -1 /\ b_pbid b = 0.
Definition pinv (l : list bface) : Prop :=
  forall i b, zget l i = Some b -> 0 <= b_index b /\ 0 <= b_canon b < 6 /\
    (unpartnered b \/ exists j o, zget l j = Some o /\ geo_match b o /\ b_pindex b = b_index o /\ b_pbid b = b_bid o).
Definition distinct (l : list bface) : Prop :=
  forall i j b o, zget l i = Some b -> zget l j = Some o -> b_index b = b_index o -> i = j.
Definition psym (l : list bface) : Prop :=
  forall i j b o, zget l i = Some b -> zget l j = Some o -> b_pindex b = b_index o -> b_pindex o = b_index b.

Lemma static_zget l l' i b : map static l = map static l' -> zget l i = Some b -> exists b', zget l' i = Some b' /\ static b' = static b.
Proof.
  intros H Hi. assert (zget (map static l) i = Some (static b)) as E by (rewrite zget_map, Hi; reflexivity).
  rewrite H, zget_map in E. destruct (zget l' i) as [b'|]; [|discriminate]. cbn [option_map] in E. exists b'. split; [reflexivity|congruence].
Qed.
Lemma static_idx b b' : static b = static b' -> b_index b = b_index b' /\ b_bid b = b_bid b' /\ b_canon b = b_canon b' /\ b_area b = b_area b' /\ b_cent b = b_cent b'.
Proof. destruct b, b'; unfold static; cbn. intros E; inversion E; auto. Qed.

(* keep partners once found *)
Definition mono (l l' : list bface) : Prop :=
  forall i b b', zget l i = Some b -> zget l' i = Some b' -> b_pindex b <> -1 -> b_pindex b' <> -1.

Lemma match_face_spec l i lo hi f :
  pinv l -> distinct l -> zget l i = Some f -> 0 <= lo -> hi <= zlen l ->
  exists l' ok, match_face l i lo hi = Ok (l', ok) /\ map static l' = map static l /\ zlen l' = zlen l /\ pinv l' /\ mono l l' /\
    (b_pindex f = -1 -> unique_candidates l -> psym l -> psym l') /\
    (ok = true -> exists f', zget l' i = Some f' /\ b_pindex f' <> -1) /\
    (ok = false -> l' = l /\ forall j o, lo <= j < hi -> zget l j = Some o -> ~ geo_match f o).
Proof.
  intros Hinv Hd Hf Hlo Hhi. unfold match_face.
  rewrite (proj2 (rget_Ok _ _ _) Hf). cbn [bind].
  destruct (Hinv i f Hf) as [Hfi [Hfc Hfp]].
  destruct (search_spec l f (zrange lo hi)) as [r [-> Hr]]; [lia| |].
  { intros j Hj. apply In_zrange in Hj. lia. }
  cbn [bind]. destruct r as [j|].
  - destruct Hr as [Hj [o [Ho Hg]]]. rewrite (proj2 (rget_Ok _ _ _) Ho). cbn [bind].
    pose proof (zget_Some_range _ _ _ Hf) as Ri. pose proof (zget_Some_range _ _ _ Ho) as Rj.
    assert (i <> j) as Hij. { intros ->. assert (f = o) by congruence. subst o. exact (geo_match_irrefl _ Hg). }
    destruct (rset_exists l i (with_partner f o) Ri) as [l1 [-> [L1 [G1 G1']]]]. cbn [bind].
    rewrite (proj2 (rget_Ok _ _ _) G1). cbn [bind].
    assert (zget l1 j = Some o) as Ho1 by (rewrite G1' by congruence; exact Ho).
    rewrite (proj2 (rget_Ok _ _ _) Ho1). cbn [bind].
    destruct (rset_exists l1 j (with_partner o (with_partner f o)) ltac:(lia)) as [l2 [-> [L2 [G2 G2']]]]. cbn [bind].
    assert (zget l2 i = Some (with_partner f o)) as Gi by (rewrite G2' by congruence; exact G1).
    rewrite (proj2 (rget_Ok _ _ _) Gi). cbn [bind with_partner b_pindex].
    destruct (Hinv j o Ho) as [Hoi [Hoc _]].
    destruct (Z.eqb_spec (b_index o) (-1)); [lia|]. cbn [negb].
    assert (forall k, k <> i -> k <> j -> zget l2 k = zget l k) as Gk. { intros k H1 H2. rewrite G2', G1' by congruence. reflexivity. }
    exists l2, true. split; [reflexivity|].
    assert (map static l2 = map static l) as HS.
    { apply zlist_ext; [rewrite !zlen_map; lia|]. intros k _. rewrite !zget_map.
      destruct (Z.eq_dec k i) as [->|Hki]; [rewrite Gi, Hf; reflexivity|].
      destruct (Z.eq_dec k j) as [->|Hkj]; [rewrite G2, Ho; reflexivity|]. rewrite Gk by assumption. reflexivity. }
    split; [exact HS|]. split; [lia|]. split; [|split; [|split; [|split]]].
    + intros k b Hb. destruct (static_zget l2 l k b HS Hb) as [b0 [Hb0 Sb]]. destruct (Hinv k b0 Hb0) as [I1 [I2 I3]].
      destruct (static_idx _ _ Sb) as [S1 [S2 [S3 _]]]. split; [lia|]. split; [lia|].
      destruct (Z.eq_dec k i) as [->|Hki].
      { right. assert (b = with_partner f o) by congruence. subst b. exists j, (with_partner o (with_partner f o)).
        split; [exact G2|]. split; [exact Hg|]. split; reflexivity. }
      destruct (Z.eq_dec k j) as [->|Hkj].
      { right. assert (b = with_partner o (with_partner f o)) by congruence. subst b. exists i, (with_partner f o).
        split; [exact Gi|]. split; [apply geo_match_sym; exact Hg|]. split; reflexivity. }
      rewrite Gk in Hb by assumption. assert (b0 = b) by congruence. subst b0.
      destruct I3 as [I3|[k' [o' [Ho' [Hg' [P1 P2]]]]]]; [left; exact I3|right].
      destruct (static_zget l l2 k' o' (eq_sym HS) Ho') as [o2 [Ho2 So]]. destruct (static_idx _ _ So) as [T1 [T2 _]].
      exists k', o2. split; [exact Ho2|]. split; [eapply geo_match_static; [reflexivity|symmetry; exact So|exact Hg']|]. split; congruence.
    + intros k b b' Hb Hb' Hp.
      destruct (Z.eq_dec k i) as [->|Hki]. { assert (b' = with_partner f o) by congruence. subst b'. cbn. lia. }
      destruct (Z.eq_dec k j) as [->|Hkj]. { assert (b' = with_partner o (with_partner f o)) by congruence. subst b'. cbn. lia. }
      rewrite Gk in Hb' by assumption. congruence.
    + intros Hnone HU HP.
      assert (forall k b, zget l k = Some b -> b_pindex b = b_index f -> k = j) as Hclaim.
      { intros k b Hb Hp. pose proof (HP k i b f Hb Hf Hp) as Q. destruct (Hinv k b Hb). lia. }
      assert (forall k b, zget l k = Some b -> b_pindex b = b_index o -> k = i) as Hclaim2.
      { intros k b Hb Hp. destruct (Hinv k b Hb) as [_ [_ [[U _]|[k' [o' [Ho' [Hg' [P1 _]]]]]]]]; [lia|].
        assert (k' = j) by (eapply Hd; eauto; congruence). subst k'. assert (o' = o) by congruence. subst o'.
        assert (b_index b = b_index f) as Eb.
        { apply (HU o b f); try (eapply zget_In; eassumption); apply geo_match_sym; assumption. }
        eapply Hd; eauto. }
      intros k k' b b' Hb Hb' Hp.
      destruct (static_zget l2 l k b HS Hb) as [b0 [Hb0 Sb]]. destruct (static_idx _ _ Sb) as [S1 _].
      destruct (static_zget l2 l k' b' HS Hb') as [b0' [Hb0' Sb']]. destruct (static_idx _ _ Sb') as [S1' _].
      destruct (Z.eq_dec k i) as [->|Hki].
      { assert (b = with_partner f o) by congruence. subst b. cbn in Hp |- *.
        assert (k' = j) by (eapply Hd; eauto; congruence). subst k'.
        assert (b' = with_partner o (with_partner f o)) by congruence. subst b'. reflexivity. }
      destruct (Z.eq_dec k j) as [->|Hkj].
      { assert (b = with_partner o (with_partner f o)) by congruence. subst b. cbn in Hp |- *.
        assert (k' = i) by (eapply Hd; eauto; congruence). subst k'.
        assert (b' = with_partner f o) by congruence. subst b'. reflexivity. }
      rewrite Gk in Hb by assumption.
      destruct (Z.eq_dec k' i) as [->|Hki'].
      { exfalso. assert (b0' = f) by congruence. subst b0'. apply Hkj. eapply Hclaim; eauto. congruence. }
      destruct (Z.eq_dec k' j) as [->|Hkj'].
      { exfalso. assert (b0' = o) by congruence. subst b0'. apply Hki. eapply Hclaim2; eauto. congruence. }
      rewrite Gk in Hb' by assumption. eapply HP; eauto.
    + intros _. exists (with_partner f o). split; [exact Gi|]. cbn. lia.
    + discriminate.
  - cbn [bind]. rewrite (proj2 (rget_Ok _ _ _) Hf). cbn [bind]. exists l, (negb (b_pindex f =? -1)). split; [reflexivity|].
    split; [reflexivity|]. split; [reflexivity|]. split; [exact Hinv|]. split; [intros k b b' H1 H2; congruence|].
    split; [auto|]. split.
    + intros H. exists f. split; [exact Hf|]. destruct (Z.eqb_spec (b_pindex f) (-1)); [discriminate|assumption].
    + intros _. split; [reflexivity|]. intros j o Hj. apply Hr. apply In_zrange. lia.
Qed.

Lemma mono_refl l : mono l l.
Proof. intros i b b' H1 H2; congruence. Qed.

Lemma distinct_static l l' : map static l = map static l' -> distinct l -> distinct l'.
Proof.
  intros HS Hd i j b o Hb Ho E. symmetry in HS.
  destruct (static_zget l' l i b HS Hb) as [b0 [Hb0 Sb]]. destruct (static_zget l' l j o HS Ho) as [o0 [Ho0 So]].
  destruct (static_idx _ _ Sb) as [? _]. destruct (static_idx _ _ So) as [? _]. eapply Hd; eauto. congruence.
Qed.
Lemma In_static l l' a : map static l = map static l' -> In a l -> exists a', In a' l' /\ static a' = static a.
Proof.
  intros H Ha. apply In_zget in Ha. destruct Ha as [i [_ Hi]]. destruct (static_zget l l' i a H Hi) as [a' [H1 H2]].
  exists a'. split; [eapply zget_In; eauto|exact H2].
Qed.
Lemma unique_static l l' : map static l = map static l' -> unique_candidates l -> unique_candidates l'.
Proof.
  intros HS HU a b b' Ha Hb Hb' G G'. symmetry in HS.
  destruct (In_static _ _ _ HS Ha) as [a0 [Ha0 Sa]]. destruct (In_static _ _ _ HS Hb) as [b0 [Hb0 Sb]]. destruct (In_static _ _ _ HS Hb') as [b0' [Hb0' Sb']].
  destruct (static_idx _ _ Sb) as [<- _]. destruct (static_idx _ _ Sb') as [<- _].
  apply (HU a0 b0 b0'); auto; eapply geo_match_static; try (symmetry; eassumption); eassumption.
Qed.

Lemma partner_step_spec periodic l i :
  zlen periodic = 6 -> pinv l -> distinct l -> 0 <= i < zlen l ->
  exists l', partner_step periodic (zlen l) l i = Ok l' /\ map static l' = map static l /\ pinv l' /\ mono l l' /\
    (unique_candidates l -> psym l -> psym l') /\
    (forall f j o, zget l i = Some f -> zget periodic (b_canon f) = Some true -> zget l j = Some o -> geo_match f o ->
       exists f', zget l' i = Some f' /\ b_pindex f' <> -1).
Proof.
  intros Hper Hinv Hd Hi. unfold partner_step.
  destruct (zget_in_range l i Hi) as [f Hf]. rewrite (proj2 (rget_Ok _ _ _) Hf). cbn [bind].
  destruct (Hinv i f Hf) as [_ [Hc _]].
  destruct (Z.eqb_spec (b_pindex f) (-1)) as [Hnone|Hsome]; cbn [negb].
  2:{ exists l. split; [reflexivity|]. split; [reflexivity|]. split; [exact Hinv|]. split; [apply mono_refl|]. split; [auto|].
      intros f' j o Hf' _ _ _. exists f. split; congruence. }
  destruct (rget_range periodic (b_canon f) ltac:(lia)) as [per [-> Hp]]. cbn [bind].
  destruct per; cbn [negb].
  2:{ exists l. split; [reflexivity|]. split; [reflexivity|]. split; [exact Hinv|]. split; [apply mono_refl|]. split; [auto|].
      intros f' j o Hf' Hp' _ _. assert (f' = f) by congruence. subst f'. congruence. }
  destruct (match_face_spec l i (Z.max 0 (i - 10)) (Z.min (zlen l) (i + 10)) f Hinv Hd Hf ltac:(lia) ltac:(lia))
    as [l1 [ok [-> [S1 [L1 [I1 [M1 [P1 [T1 F1]]]]]]]]]. cbn [bind fst snd].
  destruct ok.
  - exists l1. split; [reflexivity|]. split; [exact S1|]. split; [exact I1|]. split; [exact M1|]. split; [auto|].
    intros. apply T1. reflexivity.
  - destruct (F1 eq_refl) as [-> _].
    destruct (match_face_spec l i 0 (zlen l) f Hinv Hd Hf ltac:(lia) ltac:(lia))
      as [l2 [ok [-> [S2 [L2 [I2 [M2 [P2 [T2 F2]]]]]]]]]. cbn [bind fst].
    exists l2. split; [reflexivity|]. split; [exact S2|]. split; [exact I2|]. split; [exact M2|]. split; [auto|].
    intros f' j o Hf' _ Ho Hg. assert (f' = f) by congruence. subst f'. destruct ok; [apply T2; reflexivity|].
    exfalso. destruct (F2 eq_refl) as [_ Hno]. exact (Hno j o (zget_Some_range _ _ _ Ho) Ho Hg).
Qed.

Lemma partner_loop periodic l0 :
  zlen periodic = 6 -> pinv l0 -> distinct l0 -> (forall b, In b l0 -> unpartnered b) ->
  exists l, foldM (partner_step periodic (zlen l0)) (zrange 0 (zlen l0)) l0 = Ok l /\
    map static l = map static l0 /\ pinv l /\ (unique_candidates l -> psym l) /\
    (forall i j f o, zget l i = Some f -> zget l j = Some o -> zget periodic (b_canon f) = Some true -> geo_match f o -> b_pindex f <> -1).
Proof.
  intros Hper Hinv Hd Hun.
  edestruct (foldM_inv (partner_step periodic (zlen l0))
    (fun done l => map static l = map static l0 /\ pinv l /\ (unique_candidates l -> psym l) /\
       forall i j f o, In i done -> zget l i = Some f -> zget l j = Some o -> zget periodic (b_canon f) = Some true -> geo_match f o -> b_pindex f <> -1)
    (zrange 0 (zlen l0)) l0) as [l [E [HS [HI [HP HC]]]]].
  - split; [reflexivity|]. split; [exact Hinv|]. split; [|contradiction].
    intros _ i j b o Hb Ho Hp. destruct (Hun b (zget_In _ _ _ Hb)) as [U _]. destruct (Hinv j o Ho). lia.
  - intros done i l Hi [HS [HI [HP HC]]]. apply In_zrange in Hi.
    assert (zlen l = zlen l0) as HL. { rewrite <- (zlen_map static l), HS, zlen_map. reflexivity. }
    destruct (partner_step_spec periodic l i Hper HI) as [l' [E' [S' [I' [M' [P' C']]]]]].
    { eapply distinct_static; [symmetry; exact HS|exact Hd]. } { lia. }
    rewrite HL in E'. exists l'. split; [exact E'|]. split; [congruence|]. split; [exact I'|]. split.
    { intros HU. assert (unique_candidates l) as HU' by (eapply unique_static; [exact S'|exact HU]). auto. }
    intros k j f o Hk Hf Ho Hpd Hg.
    destruct (static_zget l' l k f S' Hf) as [f0 [Hf0 Sf]]. destruct (static_zget l' l j o S' Ho) as [o0 [Ho0 So]].
    destruct (static_idx _ _ Sf) as [_ [_ [Sc _]]].
    assert (geo_match f0 o0) as Hg0 by (eapply geo_match_static; [symmetry; exact Sf|symmetry; exact So|exact Hg]).
    apply in_app_or in Hk. destruct Hk as [Hk|[<-|[]]].
    + apply (M' k f0 f Hf0 Hf). eapply HC; eauto. congruence.
    + destruct (C' f0 j o0 Hf0 ltac:(congruence) Ho0 Hg0) as [f' [Hf' Hn]]. congruence.
  - exists l. split; [exact E|]. split; [exact HS|]. split; [exact HI|]. split; [exact HP|].
    intros i j f o Hf Ho. apply (HC i j f o); auto.
    apply In_zrange. rewrite <- (zlen_map static l0), <- HS, zlen_map. eapply zget_Some_range; eauto.
Qed.

(* ---------- the whole function *)
Record partners_ok (g : list gface) (periodic : list bool) (tol : R) (l : list bface) (areas : list R) : Prop := {
  po_len : zlen l = zlen (bdy_faces g);
  po_bid : max_bid (bdy_faces g) = zlen (bdy_faces g);
  po_faces : forall i f, zget (bdy_faces g) i = Some f -> exists b, In b l /\ b_index b = i /\ b_bid b = gf_bid f /\
     b_area b = gf_area f /\ on_side tol (box_low (bdy_faces g)) (box_hi (bdy_faces g)) (gf_cent f) (b_canon b) /\
     b_cent b = vzero (gf_cent f) (b_canon b / 2);
  po_entries : forall b, In b l -> exists f, zget (bdy_faces g) (b_index b) = Some f /\ b_bid b = gf_bid f /\
     b_area b = gf_area f /\ on_side tol (box_low (bdy_faces g)) (box_hi (bdy_faces g)) (gf_cent f) (b_canon b) /\
     b_cent b = vzero (gf_cent f) (b_canon b / 2);
  po_first : forall b f, In b l -> zget (bdy_faces g) (b_index b) = Some f -> forall s', s' < b_canon b ->
     ~ on_side tol (box_low (bdy_faces g)) (box_hi (bdy_faces g)) (gf_cent f) s';
  po_nodup : NoDup (map b_index l);
  po_areas : zlen areas = 6 /\ forall s, 0 <= s < 6 -> zget areas s = Some (side_total l s);
  po_partner : forall b, In b l -> (b_pindex b = -1 /\ b_pbid b = 0) \/
     exists o, In o l /\ geo_match b o /\ b_pindex b = b_index o /\ b_pbid b = b_bid o;
  po_sym : unique_candidates l -> forall b o, In b l -> In o l -> b_pindex b = b_index o ->
     b_pindex o = b_index b /\ b_pbid o = b_bid b;
  po_complete : forall f o, In f l -> In o l -> zget periodic (b_canon f) = Some true -> geo_match f o -> b_pindex f <> -1
}.

Lemma total_perm {A} (f : A -> R) l l' : Permutation l l' -> total f l = total f l'.
Proof. unfold total. induction 1; cbn [fold_right]; lra. Qed.
Lemma filter_perm {A} (p : A -> bool) l l' : Permutation l l' -> Permutation (filter p l) (filter p l').
Proof.
  induction 1; cbn.
  - constructor.
  - destruct (p x); [constructor|]; assumption.
  - destruct (p x), (p y); try constructor; apply Permutation_refl.
  - eapply Permutation_trans; eauto.
Qed.

Lemma side_total_static l l' s : map static l = map static l' -> side_total l s = side_total l' s.
Proof.
  revert l'. unfold side_total. induction l as [|a l IH]; intros [|a' l'] H; cbn [map] in H; try discriminate; [reflexivity|].
  assert (static a = static a') as E by congruence. assert (map static l = map static l') as Ht by congruence. destruct a, a'; cbn in *. inversion E; subst. specialize (IH l' Ht).
  destruct (_ =? s); cbn; [|exact IH]. unfold total in IH. rewrite IH. reflexivity.
Qed.

Lemma find_spec srt g periodic tol :
  (forall l, Permutation (srt l) l) -> zlen periodic = 6 ->
  (find_periodic_partners srt g periodic tol = Throw /\
     (max_bid (bdy_faces g) <> zlen (bdy_faces g) \/
      exists f, In f (bdy_faces g) /\ forall s, ~ on_side tol (box_low (bdy_faces g)) (box_hi (bdy_faces g)) (gf_cent f) s)) \/
  exists l areas, find_periodic_partners srt g periodic tol = Ok (l, areas) /\ partners_ok g periodic tol l areas.
Proof.
  intros Hs Hper. unfold find_periodic_partners. set (fs := bdy_faces g). set (n := zlen fs).
  destruct (Z.eqb_spec (max_bid fs) n) as [Hb|Hb]; cbn [negb]; [|left; split; [reflexivity|left; exact Hb]].
  destruct (info_phase tol (box_low fs) (box_hi fs) (combine (zrange 0 n) fs)) as [[-> [p [Hp Ep]]]|[l [areas [-> [F [L A]]]]]].
  { left. split; [reflexivity|]. right. exists (snd p). split; [destruct p; eapply in_combine_r; eauto|]. apply side_of_none. exact Ep. }
  right. cbn [bind fst snd]. specialize (Hs l).
  assert (zlen l = n) as Ll.
  { unfold zlen. rewrite <- (Forall2_length' _ _ _ F), combine_length, zrange_length. unfold n, zlen. lia. }
  assert (zlen (srt l) = n) as Lsl by (unfold zlen; rewrite (Permutation_length Hs); exact Ll).
  assert (forall i b, zget l i = Some b -> exists f, zget fs i = Some f /\ info_of tol (box_low fs) (box_hi fs) (i, f) b) as Hent.
  { intros i b Hb'. pose proof (zget_Some_range _ _ _ Hb') as Ri.
    destruct (zget_in_range fs i ltac:(fold n; lia)) as [f Ef].
    assert (zget (combine (zrange 0 n) fs) i = Some (i, f)) as Ec.
    { apply zget_combine; [rewrite zget_zrange by lia; f_equal; lia|exact Ef]. }
    destruct (Forall2_zget _ _ _ F i _ Ec) as [b' [Eb' Hi]]. assert (b' = b) by congruence. subst b'. eauto. }
  assert (forall b, In b l -> exists f, zget fs (b_index b) = Some f /\ info_of tol (box_low fs) (box_hi fs) (b_index b, f) b) as Hent'.
  { intros b Hin. apply In_zget in Hin. destruct Hin as [i [_ Hi]]. destruct (Hent i b Hi) as [f [Ef Hf]].
    assert (b_index b = i) as ->. { destruct Hf as [s [_ ->]]. reflexivity. } eauto. }
  assert (NoDup (map b_index l)) as ND.
  { replace (map b_index l) with (zrange 0 n); [apply zrange_NoDup|]. apply zlist_ext.
    - rewrite zlen_map, zlen_zrange; unfold n in *; pose proof (zlen_nonneg fs); lia.
    - intros i Hi. pose proof (zlen_nonneg fs). rewrite zlen_zrange in Hi by (unfold n; lia). rewrite zget_zrange by lia. rewrite zget_map.
      destruct (zget_in_range l i ltac:(lia)) as [b Eb]. rewrite Eb. cbn. destruct (Hent i b Eb) as [f [_ [s [_ ->]]]]. reflexivity. }
  assert (NoDup (map b_index (srt l))) as NDs.
  { eapply Permutation_NoDup; [|exact ND]. apply Permutation_map. symmetry. exact Hs. }
  assert (distinct (srt l)) as Hd.
  { intros i j b o Hb' Ho E. pose proof (zget_Some_range _ _ _ Hb') as R1. pose proof (zget_Some_range _ _ _ Ho) as R2.
    assert (zget (map b_index (srt l)) i = zget (map b_index (srt l)) j) as EE by (rewrite !zget_map, Hb', Ho; cbn; congruence).
    rewrite !zget_nth in EE by lia. assert (Z.to_nat i = Z.to_nat j); [|lia].
    eapply NoDup_nth_error; [exact NDs| |exact EE]. rewrite map_length. unfold zlen in *. lia. }
  assert (forall b, In b (srt l) -> In b l) as Hin by (intros b; apply Permutation_in; exact Hs).
  assert (forall b, In b l -> unpartnered b) as Hun. { intros b Hb'. destruct (Hent' b Hb') as [f [_ [s [_ ->]]]]. split; reflexivity. }
  assert (pinv (srt l)) as HI.
  { intros i b Hb'. apply zget_In in Hb'. apply Hin in Hb'. split; [|split].
    - destruct (Hent' b Hb') as [f [Ef _]]. eapply zget_Some_range; eauto.
    - destruct (Hent' b Hb') as [f [_ [s [Es ->]]]]. cbn. apply side_of_spec in Es. apply Es.
    - left. apply Hun. exact Hb'. }
  destruct (partner_loop periodic (srt l) Hper HI Hd) as [l' [E [HS [HI' [HP HC]]]]]. { intros b Hb'. auto. }
  rewrite Lsl in E. rewrite E. cbn [bind]. exists l', areas. split; [reflexivity|].
  assert (map b_index l' = map b_index (srt l)) as HX.
  { transitivity (map (fun t => fst (fst (fst (fst t)))) (map static l')); [rewrite map_map; reflexivity|].
    rewrite HS, map_map. reflexivity. }
  assert (forall f0 b, info_of tol (box_low fs) (box_hi fs) (b_index b, f0) b -> 
     b_bid b = gf_bid f0 /\ b_area b = gf_area f0 /\ on_side tol (box_low fs) (box_hi fs) (gf_cent f0) (b_canon b) /\ b_cent b = vzero (gf_cent f0) (b_canon b / 2)) as Hinfo.
  { intros f0 b [s [Es ->]]. cbn in *. apply side_of_spec in Es. split; [reflexivity|]. split; [reflexivity|]. split; [exact Es|].
    destruct Es as [Hs0 _]. rewrite Z.quot_div_nonneg by lia. reflexivity. }
  constructor.
  - rewrite <- (zlen_map static l'), HS, zlen_map. exact Lsl.
  - exact Hb.
  - intros i f Hf. destruct (zget_in_range l i) as [b Eb]. { rewrite Ll. eapply zget_Some_range; eauto. }
    destruct (Hent i b Eb) as [f' [Ef' Hinf]]. assert (f' = f) by (fold fs in Hf; congruence). subst f'.
    assert (b_index b = i) as Ei. { destruct Hinf as [s [_ ->]]. reflexivity. }
    assert (In b (srt l)) as Hbs by (eapply Permutation_in; [symmetry; exact Hs|eapply zget_In; eauto]).
    destruct (In_static (srt l) l' b (eq_sym HS) Hbs) as [b' [Hb' Sb]]. exists b'. split; [exact Hb'|].
    destruct (static_idx _ _ Sb) as [-> [-> [-> [-> ->]]]]. split; [exact Ei|]. apply Hinfo. rewrite Ei. exact Hinf.
  - intros b' Hb'. destruct (In_static l' (srt l) b' HS Hb') as [b [Hbs Sb]]. destruct (static_idx _ _ Sb) as [<- [<- [<- [<- <-]]]].
    destruct (Hent' b (Hin b Hbs)) as [f [Ef Hinf]]. exists f. split; [exact Ef|]. apply Hinfo. exact Hinf.
  - intros b' f Hb' Hf. destruct (In_static l' (srt l) b' HS Hb') as [b [Hbs Sb]]. destruct (static_idx _ _ Sb) as [X1 [X2 [X3 [X4 X5]]]].
    rewrite <- X1 in Hf. replace (b_canon b') with (b_canon b) by congruence.
    destruct (Hent' b (Hin b Hbs)) as [f' [Ef Hinf]]. assert (f' = f) by (fold fs in Hf; congruence). subst f'.
    destruct Hinf as [s [Es ->]]. cbn [b_canon]. apply side_of_first. exact Es.
  - rewrite HX. exact NDs.
  - split; [exact L|]. intros s Hs'. rewrite A by exact Hs'. f_equal. rewrite (side_total_static l' (srt l) s HS).
    unfold side_total. apply total_perm, filter_perm. symmetry. exact Hs.
  - intros b Hb'. apply In_zget in Hb'. destruct Hb' as [i [_ Hi]]. destruct (HI' i b Hi) as [_ [_ [U|[j [o [Ho [G [P1 P2]]]]]]]].
    + left. exact U.
    + right. exists o. split; [eapply zget_In; eauto|]. auto.
  - intros HU b o Hb' Ho' Hp. apply In_zget in Hb'. destruct Hb' as [i [_ Hi]]. apply In_zget in Ho'. destruct Ho' as [j [_ Hj]].
    pose proof (HP HU i j b o Hi Hj Hp) as Q. split; [exact Q|].
    assert (distinct l') as Hd' by (eapply distinct_static; [symmetry; exact HS|exact Hd]).
    destruct (HI' i b Hi) as [Hi0 _].
    destruct (HI' j o Hj) as [_ [_ [[U _]|[k [o' [Ho' [_ [P1 P2]]]]]]]]; [lia|].
    assert (k = i) by (eapply Hd'; eauto; congruence). subst k. congruence.
  - intros f o Hf Ho. apply In_zget in Hf. destruct Hf as [i [_ Hi]]. apply In_zget in Ho. destruct Ho as [j [_ Hj]]. eapply HC; eauto.
Qed.
