From Verif Require Import BaseFacts RBaseFacts Steady_Proofs Euler_Proofs Euler_Proofs2 Euler_Proofs3 Shape_Proofs2 Drv_Proofs2 Icap_Spec Icap_Proofs.
From Coq Require Import Lra Lia.
Open Scope Z_scope.

Lemma mapM_zlen {A B} (f : A -> res B) l o : mapM f l = Ok o -> zlen o = zlen l.
Proof.
  intros H. unfold zlen. rewrite (mapM_len _ _ _ H). reflexivity.
Qed.

(* ---- checking and clamping *)
Lemma checked check clamp xs (x : Z -> R) : (forall i, 0 <= i < zlen xs -> nthR xs i = x i) ->
  forall b t, (if check || clamp then check_all clamp [] xs else (true, xs)) = (b, t) ->
  zlen t = zlen xs /\
  (b = true -> forall i, 0 <= i < zlen xs ->
     (clamp = true -> nthR t i = Rmin 1 (Rmax 0 (x i))) /\ (clamp = false -> nthR t i = x i) /\
     (clamp = false -> check = true -> (- / 1000 <= nthR t i <= 1 + / 1000)%R)) /\
  (b = false -> clamp = false /\ check = true /\ (forall i, 0 <= i < zlen xs -> nthR t i = x i) /\
     exists i, 0 <= i < zlen xs /\ ~ (- / 1000 <= x i <= 1 + / 1000)%R).
Proof.
  intros Hx b t H. destruct (check || clamp) eqn:Ec.
  - destruct (check_all_spec clamp xs []) as (A & B). rewrite H in A, B. cbn [fst snd app] in A, B. destruct b.
    + destruct (A eq_refl) as (t' & -> & F). pose proof (Forall2_length' _ _ _ F) as FL.
      split; [unfold zlen in *; lia|]. split; [|discriminate]. intros _ i Hi.
      destruct (zget_in_range t' i) as (y & Gy); [unfold zlen in *; lia|].
      destruct (Forall2_zget _ _ _ F i (x i)) as (y' & B1 & Ck).
      { rewrite <- Hx by assumption. apply zget_nthR. assumption. }
      assert (y' = y) by congruence. subst y'. destruct (check_cell_spec clamp (x i)) as (S1 & _). specialize (S1 _ Ck).
      rewrite (nthR_get _ _ _ Gy). destruct S1 as (S1 & S2). split; [auto|]. split.
      * intros Q. apply S2 in Q. tauto.
      * intros Q _. apply S2 in Q. destruct Q as (-> & Q). exact Q.
    + destruct (B eq_refl) as (pre & post & z & E1 & E2 & t' & -> & F).
      destruct (check_cell_spec clamp z) as (_ & S2). specialize (S2 E2). destruct S2 as (Cl & Out).
      assert (t' = pre).
      { clear - F Cl. induction F; auto. f_equal; auto. destruct (check_cell_spec clamp x) as (S1 & _). specialize (S1 _ H). apply S1; auto. }
      subst t'. rewrite <- E1. split; [reflexivity|]. split; [discriminate|]. intros _. split; [assumption|]. split; [destruct check; auto; rewrite Cl in Ec; discriminate|].
      split; [assumption|]. assert (I : In z xs) by (rewrite E1; apply in_or_app; right; left; auto).
      destruct (In_zget _ _ I) as (i & Ri & Gi). exists i. split; [assumption|]. rewrite <- Hx by assumption.
      rewrite (nthR_get _ _ _ Gi). exact Out.
  - injection H as <- <-. split; [reflexivity|]. split; [|discriminate]. intros _ i Hi. apply orb_false_iff in Ec. destruct Ec as (E1 & E2).
    split; [congruence|]. split; [intros _; auto|]. congruence.
Qed.

(* ---- the step *)
Lemma shifted_ok inv cp n dp new : 0 <= n -> shifted_sats inv cp n dp = Ok new ->
  zlen new = n /\ n <= Z.max 0 (zlen cp) /\ forall i, 0 <= i < n -> nthR new i = inv i (nthR cp i + dp)%R.
Proof.
  unfold shifted_sats. intros Hn H. pose proof (mapM_zlen _ _ _ H) as L. rewrite zlen_zrange in L by lia. split; [lia|].
  apply mapM_Ok in H.
  assert (G : forall i, 0 <= i < n -> i < zlen cp /\ nthR new i = inv i (nthR cp i + dp)%R).
  { intros i Hi. destruct (Forall2_zget _ _ _ H i i) as (b & B1 & B2); [rewrite zget_zrange by lia; f_equal; lia|].
    destruct (rget cp i) as [p| |] eqn:E; try discriminate. cbn [bind] in B2. injection B2 as <-. apply rget_Ok in E.
    pose proof (zget_Some_range _ _ _ E). split; [lia|]. rewrite (nthR_get _ _ _ B1), (nthR_get _ _ _ E). reflexivity. }
  split; [|intros; apply G; assumption].
  destruct (Z_lt_le_dec 0 n); [|pose proof (zlen_nonneg cp); lia]. destruct (G (n - 1)) as (G1 & _); [lia|]. pose proof (zlen_nonneg cp). lia.
Qed.

Lemma relax_ok w old new s : relax_sats w old new = Ok s ->
  zlen s = zlen old /\ forall i, 0 <= i < zlen old -> nthR s i = ((1 - w) * nthR old i + w * nthR new i)%R.
Proof.
  unfold relax_sats. intros H. pose proof (mapM_zlen _ _ _ H) as L. pose proof (zlen_nonneg old). rewrite zlen_zrange in L by lia. split; [lia|].
  apply mapM_Ok in H. intros i Hi. destruct (Forall2_zget _ _ _ H i i) as (b & B1 & B2); [rewrite zget_zrange by lia; f_equal; lia|].
  destruct (rget old i) as [x| |] eqn:E; try discriminate. cbn [bind] in B2. destruct (rget new i) as [y| |] eqn:E2; try discriminate. cbn [bind] in B2.
  injection B2 as <-. apply rget_Ok in E. apply rget_Ok in E2. rewrite (nthR_get _ _ _ B1), (nthR_get _ _ _ E), (nthR_get _ _ _ E2). reflexivity.
Qed.

Lemma cap_step_ok c p fc pv inv psolve find sat b t : zlen sat = zlen pv ->
  cap_step c p fc pv inv psolve find sat = Ok (b, t) ->
  exists mobs src cp range dp,
    zlen mobs = zlen sat /\
    (forall i, 0 <= i < zlen sat -> cap_mobility (ep_mob p 0 i (nthR sat i)) (ep_mob p 1 i (nthR sat i)) = Ok (nthR mobs i)) /\
    cap_sources c p sat = Ok src /\ psolve mobs (cap_conditions fc) src = Ok cp /\ press_range cp = Ok range /\
    find (match_volume pv inv sat cp) range = Ok dp /\ zlen pv <= zlen cp /\
    let x := relaxed (ic_relax c) sat cp inv dp in
    zlen t = zlen sat /\
    (b = true -> forall i, 0 <= i < zlen sat ->
       (ic_clamp c = true -> nthR t i = Rmin 1 (Rmax 0 (x i))) /\ (ic_clamp c = false -> nthR t i = x i) /\
       (ic_clamp c = false -> ic_check c = true -> (- / 1000 <= nthR t i <= 1 + / 1000)%R)) /\
    (b = false -> ic_clamp c = false /\ ic_check c = true /\ (forall i, 0 <= i < zlen sat -> nthR t i = x i) /\
       exists i, 0 <= i < zlen sat /\ ~ (- / 1000 <= x i <= 1 + / 1000)%R).
Proof.
  intros L H. unfold cap_step in H. pose proof (zlen_nonneg sat) as Hs.
  destruct (mapM _ _) as [mobs| |] eqn:E1; try discriminate. cbn [bind] in H.
  destruct (cap_sources _ _ _) as [src| |] eqn:E2; try discriminate. cbn [bind] in H.
  destruct (psolve _ _ _) as [cp| |] eqn:E3; try discriminate. cbn [bind] in H.
  destruct (press_range _) as [range| |] eqn:E4; try discriminate. cbn [bind] in H.
  destruct (find _ _) as [dp| |] eqn:E5; try discriminate. cbn [bind] in H.
  destruct (shifted_sats _ _ _ _) as [new| |] eqn:E6; try discriminate. cbn [bind] in H.
  destruct (relax_sats _ _ _) as [s| |] eqn:E7; try discriminate. cbn [bind] in H. injection H as H.
  destruct (shifted_ok _ _ _ _ _ (zlen_nonneg pv) E6) as (N1 & N2 & N3). destruct (relax_ok _ _ _ _ E7) as (S1 & S2).
  exists mobs, src, cp, range, dp. pose proof (mapM_zlen _ _ _ E1) as Lm. rewrite zlen_zrange in Lm by lia.
  split; [lia|]. split.
  { intros i Hi. apply mapM_Ok in E1. destruct (Forall2_zget _ _ _ E1 i i) as (m & B1 & B2); [rewrite zget_zrange by lia; f_equal; lia|].
    rewrite (proj2 (rget_Ok _ _ _) (zget_nthR sat i Hi)) in B2. cbn [bind] in B2. rewrite (nthR_get _ _ _ B1). exact B2. }
  split; [reflexivity|]. split; [exact E3|]. split; [exact E4|]. split; [exact E5|].
  split; [pose proof (zlen_nonneg cp); lia|]. cbv zeta.
  destruct (checked (ic_check c) (ic_clamp c) s (relaxed (ic_relax c) sat cp inv dp)) with (b := b) (t := t) as (C1 & C2 & C3).
  - intros i Hi. rewrite S1 in Hi. unfold relaxed. rewrite S2 by assumption. rewrite N3 by lia. reflexivity.
  - exact H.
  - rewrite S1 in *. split; [exact C1|]. split; assumption.
Qed.

Lemma press_range_ok cp : cp <> [] -> exists lo hi, In lo cp /\ In hi cp /\ (forall x, In x cp -> (lo <= x <= hi)%R) /\ press_range cp = Ok (hi - lo)%R.
Proof.
  destruct cp as [|x t]; [congruence|]. intros _. cbn [press_range].
  assert (G : forall l a, (In (fold_left smax l a) (a :: l) /\ forall y, In y (a :: l) -> (y <= fold_left smax l a)%R) /\
                          (In (fold_left smin l a) (a :: l) /\ forall y, In y (a :: l) -> (fold_left smin l a <= y)%R)).
  { induction l as [|z l IH]; intros a; cbn [fold_left].
    - split; (split; [left; reflexivity|intros y [-> | []]; lra]).
    - destruct (IH (smax a z)) as ((A1 & A2) & _). destruct (IH (smin a z)) as (_ & (B1 & B2)). split.
      + split; [destruct A1 as [A1|A1]|].
        * rewrite <- A1, smax_Rmax. destruct (Rmax_case_strong a z (fun _ => True)); auto. unfold Rmax. destruct (Rle_dec a z); [right; left; reflexivity|left; reflexivity].
        * right; right; exact A1.
        * intros y [<- | [<- | I]]; [eapply Rle_trans; [|apply A2; left; reflexivity]; rewrite smax_Rmax; apply Rmax_l|eapply Rle_trans; [|apply A2; left; reflexivity]; rewrite smax_Rmax; apply Rmax_r|apply A2; right; exact I].
      + split; [destruct B1 as [B1|B1]|].
        * rewrite <- B1, smin_Rmin. unfold Rmin. destruct (Rle_dec a z); [left; reflexivity|right; left; reflexivity].
        * right; right; exact B1.
        * intros y [<- | [<- | I]]; [eapply Rle_trans; [apply B2; left; reflexivity|]; rewrite smin_Rmin; apply Rmin_l|eapply Rle_trans; [apply B2; left; reflexivity|]; rewrite smin_Rmin; apply Rmin_r|apply B2; right; exact I]. }
  destruct (G t x) as ((A1 & A2) & (B1 & B2)). exists (fold_left smin t x), (fold_left smax t x). split; [exact B1|]. split; [exact A1|].
  split; [intros y I; split; auto|]. reflexivity.
Qed.

Lemma volume_ok c p fc pv inv psolve find sat b t : zlen sat = zlen pv -> (0 < Rsum pv)%R -> ic_clamp c = false ->
  (forall m k s cp, psolve m k s = Ok cp -> zlen cp = zlen pv) ->
  cap_step c p fc pv inv psolve find sat = Ok (b, t) ->
  exists cp range dp v, find (match_volume pv inv sat cp) range = Ok dp /\ match_volume pv inv sat cp dp = Ok (Some v) /\
    water_volume pv (nthR t) = (water_volume pv (nthR sat) + ic_relax c * v * Rsum pv)%R.
Proof.
  intros L Hp Hc Hps H. destruct (cap_step_ok _ _ _ _ _ _ _ _ _ _ L H) as (mobs & src & cp & range & dp & _ & _ & _ & Q & _ & F & _ & Lt & T1 & T2).
  pose proof (Hps _ _ _ _ Q) as Lc. exists cp, range, dp. pose proof (match_ok pv inv sat cp dp L Lc Hp) as M.
  eexists. split; [exact F|]. split; [exact M|].
  assert (X : forall i, 0 <= i < zlen sat -> nthR t i = relaxed (ic_relax c) sat cp inv dp i).
  { intros i Hi. destruct b; [apply (T1 eq_refl i Hi); exact Hc|apply (T2 eq_refl); exact Hi]. }
  replace (water_volume pv (nthR t)) with (water_volume pv (relaxed (ic_relax c) sat cp inv dp)).
  2:{ unfold water_volume. apply Rsum_map_ext. intros i I. apply In_zrange in I. rewrite X by lia. reflexivity. }
  assert (E : water_volume pv (relaxed (ic_relax c) sat cp inv dp)
     = ((1 - ic_relax c) * water_volume pv (nthR sat) + ic_relax c * water_volume pv (fun i => inv i (nthR cp i + dp)%R))%R).
  { unfold water_volume. rewrite <- !Rsum_map_scale, <- Rsum_map_plus. apply Rsum_map_ext. intros i _. unfold relaxed. ring. }
  rewrite E. field. lra.
Qed.

Lemma conserved_ok c p fc pv inv psolve find tol sat b t : zlen sat = zlen pv -> (0 < Rsum pv)%R -> ic_clamp c = false -> (0 <= ic_relax c)%R ->
  (forall m k s cp, psolve m k s = Ok cp -> zlen cp = zlen pv) ->
  (forall f r dp v, find f r = Ok dp -> f dp = Ok (Some v) -> (Rabs v <= tol)%R) ->
  cap_step c p fc pv inv psolve find sat = Ok (b, t) ->
  (Rabs (water_volume pv (nthR t) - water_volume pv (nthR sat)) <= ic_relax c * tol * Rsum pv)%R.
Proof.
  intros L Hp Hc Hw Hps Hf H. destruct (volume_ok _ _ _ _ _ _ _ _ _ _ L Hp Hc Hps H) as (cp & range & dp & v & F & M & W). rewrite W.
  replace (water_volume pv (nthR sat) + ic_relax c * v * Rsum pv - water_volume pv (nthR sat))%R with ((ic_relax c * Rsum pv) * v)%R by ring.
  rewrite Rabs_mult, (Rabs_right (ic_relax c * Rsum pv)) by nra. specialize (Hf _ _ _ _ F M).
  replace (ic_relax c * tol * Rsum pv)%R with ((ic_relax c * Rsum pv) * tol)%R by ring. apply Rmult_le_compat_l; [nra|assumption].
Qed.

Lemma range_ok c p fc pv inv psolve find lo hi sat b t : zlen sat = zlen pv -> (0 <= ic_relax c <= 1)%R ->
  (forall i, 0 <= i < zlen sat -> (0 <= lo i)%R /\ (hi i <= 1)%R /\ (lo i <= nthR sat i <= hi i)%R /\ forall q, (lo i <= inv i q <= hi i)%R) ->
  cap_step c p fc pv inv psolve find sat = Ok (b, t) ->
  b = true /\ forall i, 0 <= i < zlen sat -> (lo i <= nthR t i <= hi i)%R.
Proof.
  intros L Hw Hr H. destruct (cap_step_ok _ _ _ _ _ _ _ _ _ _ L H) as (mobs & src & cp & range & dp & _ & _ & _ & _ & _ & _ & _ & Lt & T1 & T2).
  assert (X : forall i, 0 <= i < zlen sat -> (lo i <= relaxed (ic_relax c) sat cp inv dp i <= hi i)%R).
  { intros i Hi. destruct (Hr i Hi) as (_ & _ & A & B). specialize (B (nthR cp i + dp)%R). unfold relaxed. nra. }
  assert (B : b = true).
  { destruct b; [reflexivity|]. destruct (T2 eq_refl) as (_ & _ & _ & i & Hi & N). exfalso. apply N. specialize (X i Hi). destruct (Hr i Hi) as (P1 & P2 & _). lra. }
  split; [exact B|]. intros i Hi. specialize (T1 B i Hi). specialize (X i Hi). destruct (Hr i Hi) as (P1 & P2 & _). destruct T1 as (C1 & C2 & _).
  destruct (ic_clamp c); [rewrite C1 by reflexivity|rewrite C2 by reflexivity; exact X].
  rewrite Rmax_right by lra. rewrite Rmin_right by lra. exact X.
Qed.

Lemma undefined_ok c p fc pv inv psolve find sat i : 0 <= i < zlen sat ->
  (ep_mob p 0 i (nthR sat i) + ep_mob p 1 i (nthR sat i) = 0)%R -> cap_step c p fc pv inv psolve find sat = UB.
Proof.
  intros Hi H. unfold cap_step.
  assert (E : mapM (fun i => let* s := rget sat i in cap_mobility (ep_mob p 0 i s) (ep_mob p 1 i s)) (zrange 0 (zlen sat)) = UB).
  2:{ rewrite E. reflexivity. }
  assert (G : forall l, (forall k, In k l -> 0 <= k < zlen sat) -> In i l -> mapM (fun i => let* s := rget sat i in cap_mobility (ep_mob p 0 i s) (ep_mob p 1 i s)) l = UB).
  { induction l as [|k l IH]; intros R I; [destruct I|]. cbn [mapM].
    rewrite (proj2 (rget_Ok _ _ _) (zget_nthR sat k (R k (or_introl eq_refl)))). cbn [bind].
    destruct (Z.eq_dec k i) as [->|Hk]; [rewrite cap_mobility_undefined by exact H; reflexivity|].
    destruct I as [|I]; [congruence|]. rewrite IH by (auto; intros; apply R; right; assumption).
    unfold cap_mobility, mdiv. destruct (fdiv _ _); reflexivity. }
  apply G; [intros k I; apply In_zrange in I; lia|apply In_zrange; lia].
Qed.
