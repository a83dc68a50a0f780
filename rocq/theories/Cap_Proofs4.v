From Verif Require Import BaseFacts RBaseFacts Bgrid_Proofs Steady_Proofs Shape_Proofs2 Relp_Spec Relp_Proofs3 Cap_Spec.
Open Scope Z_scope.

Lemma max_satnum_ub l : forall m s, In s l -> s <= fold_left (fun m s => if m <? s then s else m) l m.
Proof.
  assert (G : forall l m, m <= fold_left (fun m s => if m <? s then s else m) l m).
  { induction l0 as [|a l0 IH]; intros m; cbn; [lia|]. specialize (IH (if m <? a then a else m)). destruct (m <? a) eqn:E; [apply Z.ltb_lt in E|]; lia. }
  induction l as [|a l IH]; intros m s; [intros []|]. intros [<-|I]; cbn; [|now apply IH].
  specialize (G l (if m <? a then a else m)). destruct (m <? a) eqn:E; [|apply Z.ltb_ge in E]; lia.
Qed.
Lemma max_satnum_in sat s : In s sat -> s <= max_satnum sat.
Proof. apply max_satnum_ub. Qed.
Lemma max_satnum_pos sat : 0 <= max_satnum sat.
Proof.
  unfold max_satnum. assert (G : forall l m, m <= fold_left (fun m s => if m <? s then s else m) l m); [|apply G].
  induction l as [|a l IH]; intros m; cbn; [lia|]. specialize (IH (if m <? a then a else m)). destruct (m <? a) eqn:E; [apply Z.ltb_lt in E|]; lia.
Qed.
Lemma dbl_max_pos : (0 < dbl_max)%R.
Proof.
  unfold dbl_max. apply Rmult_lt_0_compat; [|apply pow_lt; lra]. assert (/ 2 ^ 52 <= 1)%R; [|lra]. rewrite <- Rinv_1. apply Rinv_le_contravar; [lra|].
  apply pow_R1_Rle. lra.
Qed.
Lemma sum_snoc {A} (f : A -> R) l a : sum_cells f (l ++ [a]) = (sum_cells f l + f a)%R.
Proof. unfold sum_cells. rewrite map_app, Rsum_app. cbn [map]. rewrite Rsum_cons, Rsum_nil. lra. Qed.

Section Limits.
  Variable x : cin.
  Variable cells : list (Z * R).
  Hypothesis pr : proper x cells.
  Lemma sat_get c : 0 <= c < zlen (ci_sat x) -> rget (ci_sat x) c = Ok (sat_of x c) /\ 0 <= sat_of x c <= max_satnum (ci_sat x).
  Proof.
    intros H. destruct (zget_in_range _ _ H) as (s & Es). unfold sat_of. rewrite Es. split; [now apply rget_Ok|]. apply zget_In in Es. split; [now apply pr|now apply max_satnum_in].
  Qed.
  Lemma lev_get c : 0 <= c < zlen (ci_sat x) -> 0 < sat_of x c ->
    rget (ci_poro x) c = Ok (nthR (ci_poro x) c) /\ rget (ci_inv x) (sat_of x c - 1) = Ok (curve_at x c) /\
    leverett x c = Ok (sqrt (nthR (ci_perm x) c * ci_md x / nthR (ci_poro x) c)) /\ (0 < sqrt (nthR (ci_perm x) c * ci_md x / nthR (ci_poro x) c))%R.
  Proof.
    intros H S. destruct pr as (_ & Hm & Hs & _ & _ & Q). destruct (Q c H S) as (A & B & C & D & E).
    assert (Ep : rget (ci_poro x) c = Ok (nthR (ci_poro x) c)) by (apply rget_Ok, zget_nthR; lia).
    assert (Ek : rget (ci_perm x) c = Ok (nthR (ci_perm x) c)) by (apply rget_Ok, zget_nthR; lia).
    split; [exact Ep|]. split.
    - destruct (zget_in_range (ci_inv x) (sat_of x c - 1) ltac:(lia)) as (cu & Ec). unfold curve_at, rock_curve. rewrite Ec. now apply rget_Ok.
    - unfold leverett. rewrite Ek, Ep. cbn [bind]. rewrite mdiv_ok by lra. cbn [bind]. split; [reflexivity|]. apply sqrt_lt_R0. apply Rdiv_lt_0_compat; [apply Rmult_lt_0_compat|]; lra.
  Qed.
  Definition linv (done : list (Z * R)) (st : lims) : Prop :=
    let rk := rocky x done in
    zlen (lm_vol st) = zlen (ci_sat x) /\ zlen (lm_pv st) = zlen (ci_sat x) /\ zlen (lm_rock st) = max_satnum (ci_sat x) + 1 /\
    (forall cv, In cv rk -> zget (lm_vol st) (fst cv) = Some (snd cv) /\ zget (lm_pv st) (fst cv) = Some (pore_of x cv)) /\
    (forall c, 0 <= c < zlen (ci_sat x) -> ~ In c (map fst rk) -> zget (lm_vol st) c = Some 0%R /\ zget (lm_pv st) c = Some 0%R) /\
    Rsum (lm_vol st) = sum_cells snd rk /\ Rsum (lm_pv st) = sum_cells (pore_of x) rk /\
    (forall r, 0 <= r <= max_satnum (ci_sat x) -> zget (lm_rock st) r = Some (sum_cells (pore_of x) (of_rock x r rk))) /\
    is_min (lm_pcmin st) (dbl_max :: map (fun cv => pc_of_j x (fst cv) (cv_minx (curve_at x (fst cv)))) rk) /\
    is_max (lm_pcmax st) ((- dbl_max)%R :: map (fun cv => pc_of_j x (fst cv) (cv_maxx (curve_at x (fst cv)))) rk) /\
    lm_swir st = sum_cells (fun cv => cv_minf (curve_at x (fst cv)) * pore_of x cv)%R rk /\
    lm_swor st = sum_cells (fun cv => cv_maxf (curve_at x (fst cv)) * pore_of x cv)%R rk.
  Lemma lim_fold : exists st, foldM (lim_step x) cells
    (mkLims (zrepeat 0%R (zlen (ci_sat x))) (zrepeat 0%R (zlen (ci_sat x))) (zrepeat 0%R (max_satnum (ci_sat x) + 1)) dbl_max (- dbl_max)%R 0%R 0%R) = Ok st /\ linv cells st.
  Proof.
    pose proof (zlen_nonneg (ci_sat x)) as Hn. pose proof (max_satnum_pos (ci_sat x)) as Hm. apply foldM_split_inv.
    - unfold linv. cbn [rocky filter map lm_vol lm_pv lm_rock lm_pcmin lm_pcmax lm_swir lm_swor]. rewrite !zlen_zrepeat by lia. rewrite !Rsum_zeros.
      unfold sum_cells. cbn [map of_rock filter]. rewrite Rsum_nil. split; [reflexivity|]. split; [reflexivity|]. split; [reflexivity|]. split; [intros cv []|].
      split; [intros c Hc _; split; apply zget_zrepeat; lia|]. split; [reflexivity|]. split; [reflexivity|]. split; [intros r Hr; apply zget_zrepeat; lia|].
      repeat split; try (left; reflexivity); intros y [<-|[]]; lra.
    - intros done [c v] rest st Hall (Lv & Lp & Lr & Gc & Zc & Sv & Sp & Ro & Mn & Mx & Sir & Sor).
      assert (Hc : 0 <= c < zlen (ci_sat x)). { destruct pr as (_ & _ & _ & _ & Q & _). apply (Q (c, v)). rewrite Hall. apply in_or_app. right. now left. }
      assert (Hf : ~ In c (map fst done)).
      { destruct pr as (Nd & _). rewrite Hall, map_app in Nd. cbn [map fst] in Nd. apply NoDup_remove_2 in Nd. intros I. apply Nd. apply in_or_app. now left. }
      unfold lim_step. cbn [fst snd]. destruct (sat_get c Hc) as [Es Hs]. rewrite Es. cbn [bind].
      assert (Rk : rocky x (done ++ [(c, v)]) = rocky x done ++ if 0 <? sat_of x c then [(c, v)] else []).
      { unfold rocky. rewrite filter_app. cbn [filter fst]. destruct (0 <? sat_of x c); reflexivity. }
      unfold linv. rewrite Rk. destruct (0 <? sat_of x c) eqn:E0.
      + apply Z.ltb_lt in E0. destruct (lev_get c Hc E0) as (Ep & Ec & El & Lpos).
        destruct (rset_exists (lm_vol st) c v ltac:(lia)) as (vol' & E1 & L1 & G1 & O1). rewrite E1. cbn [bind]. rewrite Ep. cbn [bind].
        destruct (rset_exists (lm_pv st) c (v * nthR (ci_poro x) c)%R ltac:(lia)) as (pv' & E2 & L2 & G2 & O2). rewrite E2. cbn [bind].
        rewrite Ec. cbn [bind]. rewrite El. cbn [bind]. rewrite !mdiv_ok by lra. cbn [bind].
        pose proof (Ro (sat_of x c) Hs) as Er. rewrite (proj2 (rget_Ok _ _ _) Er). cbn [bind].
        destruct (rset_exists (lm_rock st) (sat_of x c) (sum_cells (pore_of x) (of_rock x (sat_of x c) (rocky x done)) + v * nthR (ci_poro x) c)%R ltac:(lia)) as (ro' & E3 & L3 & G3 & O3). rewrite E3. cbn [bind].
        eexists. split; [reflexivity|]. cbn [lm_vol lm_pv lm_rock lm_pcmin lm_pcmax lm_swir lm_swor].
        assert (Hfr : ~ In c (map fst (rocky x done))).
        { intros I. apply Hf. apply in_map_iff in I. destruct I as (cv & <- & I). apply filter_In in I. apply in_map, I. }
        destruct (Zc c Hc Hfr) as [Z1 Z2].
        split; [lia|]. split; [lia|]. split; [lia|]. split; [|split; [|split; [|split; [|split; [|split; [|split; [|split]]]]]]].
        * intros cv I. apply in_app_or in I. destruct I as [I|[<-|[]]].
          -- rewrite O1, O2; [apply Gc, I| |]; intros E; apply Hfr; rewrite <- E; apply in_map, I.
          -- cbn [fst snd]. rewrite G1, G2. split; reflexivity.
        * intros c' Hc' Hn'. assert (c' <> c) by (intros ->; apply Hn'; rewrite map_app; apply in_or_app; right; now left). rewrite O1, O2 by assumption.
          apply Zc; [exact Hc'|]. intros I. apply Hn'. rewrite map_app. apply in_or_app. now left.
        * rewrite sum_snoc, (Rsum_rset _ _ _ 0%R _ Z1 E1), Sv. cbn [snd]. lra.
        * rewrite sum_snoc, (Rsum_rset _ _ _ 0%R _ Z2 E2), Sp. unfold pore_of. cbn [fst snd]. lra.
        * intros r Hr. unfold of_rock. rewrite filter_app. cbn [filter fst]. destruct (sat_of x c =? r) eqn:Er'.
          -- apply Z.eqb_eq in Er'. subst r. rewrite G3. rewrite sum_snoc. unfold of_rock, pore_of at 3. cbn [fst snd]. reflexivity.
          -- apply Z.eqb_neq in Er'. rewrite O3 by congruence. rewrite app_nil_r. now apply Ro.
        * rewrite map_app. cbn [map fst]. replace (cv_minx (curve_at x c) / sqrt (nthR (ci_perm x) c * ci_md x / nthR (ci_poro x) c) * ci_st x)%R with (pc_of_j x c (cv_minx (curve_at x c))) by (unfold pc_of_j; field; lra).
          apply (is_min_step _ (_ :: _)). exact Mn.
        * rewrite map_app. cbn [map fst]. replace (cv_maxx (curve_at x c) / sqrt (nthR (ci_perm x) c * ci_md x / nthR (ci_poro x) c) * ci_st x)%R with (pc_of_j x c (cv_maxx (curve_at x c))) by (unfold pc_of_j; field; lra).
          apply (is_max_step _ (_ :: _)). exact Mx.
        * rewrite sum_snoc, Sir. reflexivity.
        * rewrite sum_snoc, Sor. reflexivity.
      + exists st. split; [reflexivity|]. rewrite app_nil_r. repeat split; try assumption; try (apply Mn); try (apply Mx); try (now apply Gc); try (now apply Zc).
  Qed.
  Lemma sum_le {A} (f g : A -> R) l : (forall a, In a l -> (f a <= g a)%R) -> (sum_cells f l <= sum_cells g l)%R.
  Proof. apply Rsum_map_le. Qed.
  Lemma sum_nonneg {A} (f : A -> R) l : (forall a, In a l -> (0 <= f a)%R) -> (0 <= sum_cells f l)%R.
  Proof. apply Rsum_map_nonneg. Qed.
  Lemma sum_pos_one {A} (f : A -> R) l a : (forall a, In a l -> (0 <= f a)%R) -> In a l -> (0 < f a)%R -> (0 < sum_cells f l)%R.
  Proof.
    intros P I H. apply in_split in I. destruct I as (l1 & l2 & ->). unfold sum_cells. rewrite map_app, Rsum_app. cbn [map]. rewrite Rsum_cons.
    assert (0 <= Rsum (map f l1))%R by (apply Rsum_map_nonneg; intros; apply P; apply in_or_app; now left).
    assert (0 <= Rsum (map f l2))%R by (apply Rsum_map_nonneg; intros; apply P; apply in_or_app; right; now right). lra.
  Qed.
  Lemma rocky_in cv : In cv (rocky x cells) -> In cv cells /\ 0 < sat_of x (fst cv) /\ 0 <= fst cv < zlen (ci_sat x) /\ (0 <= snd cv)%R /\ (0 < nthR (ci_poro x) (fst cv))%R /\ (0 <= pore_of x cv)%R.
  Proof.
    intros I. apply filter_In in I. destruct I as [I S]. apply Z.ltb_lt in S. destruct pr as (_ & _ & _ & _ & Q & Q'). destruct (Q _ I) as [A B].
    destruct (Q' _ A S) as (_ & _ & _ & D & _). repeat split; try assumption; try lia. unfold pore_of. apply Rmult_le_pos; lra.
  Qed.
  Lemma limits_ok tol : (exists cv, In cv (rocky x cells) /\ (0 < snd cv)%R) ->
    (forall cv, In cv (rocky x cells) -> let cu := curve_at x (fst cv) in
       (0 <= cv_minf cu <= cv_maxf cu)%R /\ (cv_maxf cu <= 1)%R /\ (- dbl_max <= pc_of_j x (fst cv) (cv_minx cu) <= dbl_max)%R /\
       (- dbl_max <= pc_of_j x (fst cv) (cv_maxx cu) <= dbl_max)%R /\ (cv_minx cu <= cv_maxx cu)%R) ->
    exists l, cap_limits x tol cells = Ok l /\
      is_min (li_pcmin l) (map (fun cv => pc_of_j x (fst cv) (cv_minx (curve_at x (fst cv)))) (rocky x cells)) /\
      is_max (li_pcmax l) (map (fun cv => pc_of_j x (fst cv) (cv_maxx (curve_at x (fst cv)))) (rocky x cells)) /\
      (li_pcmin l <= li_pcmax l)%R /\
      li_pore l = sum_cells (pore_of x) (rocky x cells) /\ (0 < li_pore l)%R /\
      (li_phi l * sum_cells snd (rocky x cells) = li_pore l)%R /\
      (li_swir l * li_pore l = sum_cells (fun cv => cv_minf (curve_at x (fst cv)) * pore_of x cv) (rocky x cells))%R /\
      (li_swor l * li_pore l = sum_cells (fun cv => cv_maxf (curve_at x (fst cv)) * pore_of x cv) (rocky x cells))%R /\
      (0 <= li_swir l <= li_swor l)%R /\ (li_swor l <= 1)%R /\
      zlen (li_rock l) = max_satnum (ci_sat x) + 1 /\
      (forall r, 0 <= r <= max_satnum (ci_sat x) -> zget (li_rock l) r = Some (sum_cells (pore_of x) (of_rock x r (rocky x cells)))) /\
      zlen (li_vol l) = zlen (ci_sat x) /\ zlen (li_pv l) = zlen (ci_sat x) /\
      (forall cv, In cv (rocky x cells) -> zget (li_vol l) (fst cv) = Some (snd cv) /\ zget (li_pv l) (fst cv) = Some (pore_of x cv)) /\
      (forall c, 0 <= c < zlen (ci_sat x) -> ~ In c (map fst (rocky x cells)) -> zget (li_vol l) c = Some 0%R /\ zget (li_pv l) c = Some 0%R).
  Proof.
    intros (cv0 & I0 & V0) Cu. destruct lim_fold as (st & E & Lv & Lp & Lr & Gc & Zc & Sv & Sp & Ro & Mn & Mx & Sir & Sor). unfold cap_limits. rewrite E. cbn [bind].
    assert (Pn : forall cv, In cv (rocky x cells) -> (0 <= pore_of x cv)%R) by (intros cv I; now apply rocky_in).
    assert (P0 : (0 < pore_of x cv0)%R) by (unfold pore_of; apply Rmult_lt_0_compat; [assumption|now apply rocky_in]).
    assert (Pore : (0 < sum_cells (pore_of x) (rocky x cells))%R) by (eapply sum_pos_one; eauto).
    assert (Vol : (0 < sum_cells snd (rocky x cells))%R) by (eapply sum_pos_one; [|exact I0|exact V0]; intros cv I; now apply rocky_in).
    assert (Mn' : is_min (lm_pcmin st) (map (fun cv => pc_of_j x (fst cv) (cv_minx (curve_at x (fst cv)))) (rocky x cells))).
    { destruct Mn as [[M|M] M']; split; try assumption; try (intros y Hy; apply M'; now right).
      assert (In (pc_of_j x (fst cv0) (cv_minx (curve_at x (fst cv0)))) (map (fun cv => pc_of_j x (fst cv) (cv_minx (curve_at x (fst cv)))) (rocky x cells))) as I1 by (apply in_map_iff; eauto).
      pose proof (M' _ (or_intror I1)). destruct (Cu _ I0) as (_ & _ & B & _). cbn zeta in B. replace (lm_pcmin st) with (pc_of_j x (fst cv0) (cv_minx (curve_at x (fst cv0)))) by lra. exact I1. }
    assert (Mx' : is_max (lm_pcmax st) (map (fun cv => pc_of_j x (fst cv) (cv_maxx (curve_at x (fst cv)))) (rocky x cells))).
    { destruct Mx as [[M|M] M']; split; try assumption; try (intros y Hy; apply M'; now right).
      assert (In (pc_of_j x (fst cv0) (cv_maxx (curve_at x (fst cv0)))) (map (fun cv => pc_of_j x (fst cv) (cv_maxx (curve_at x (fst cv)))) (rocky x cells))) as I1 by (apply in_map_iff; eauto).
      pose proof (M' _ (or_intror I1)). destruct (Cu _ I0) as (_ & _ & _ & B & _). cbn zeta in B. replace (lm_pcmax st) with (pc_of_j x (fst cv0) (cv_maxx (curve_at x (fst cv0)))) by lra. exact I1. }
    assert (Le : (lm_pcmin st <= lm_pcmax st)%R).
    { apply Rle_trans with (pc_of_j x (fst cv0) (cv_minx (curve_at x (fst cv0)))); [apply Mn'; apply in_map_iff; eauto|].
      apply Rle_trans with (pc_of_j x (fst cv0) (cv_maxx (curve_at x (fst cv0)))); [|apply Mx'; apply in_map_iff; eauto].
      destruct (Cu _ I0) as (_ & _ & _ & _ & B). destruct (rocky_in _ I0) as (_ & S0 & R0 & _). destruct (lev_get _ R0 S0) as (_ & _ & _ & L0). destruct pr as (_ & _ & St & _).
      unfold pc_of_j, Rdiv. apply Rmult_le_compat_r; [apply Rlt_le, Rinv_0_lt_compat, L0|]. apply Rmult_le_compat_l; lra. }
    rewrite Rltb_f by lra. rewrite Sp, Sv, Sir, Sor. rewrite !mdiv_ok by lra. cbn [bind].
    set (T := sum_cells (pore_of x) (rocky x cells)) in *.
    set (A := sum_cells (fun cv => cv_minf (curve_at x (fst cv)) * pore_of x cv)%R (rocky x cells)). set (B := sum_cells (fun cv => cv_maxf (curve_at x (fst cv)) * pore_of x cv)%R (rocky x cells)).
    assert (HA : (0 <= A)%R) by (apply sum_nonneg; intros cv I; destruct (Cu _ I) as (C1 & _); specialize (Pn _ I); apply Rmult_le_pos; lra).
    assert (HAB : (A <= B)%R) by (apply sum_le; intros cv I; destruct (Cu _ I) as (C1 & _); specialize (Pn _ I); apply Rmult_le_compat_r; lra).
    assert (HB : (B <= T)%R).
    { apply sum_le; intros cv I; destruct (Cu _ I) as (_ & C1 & _); specialize (Pn _ I); cbn zeta in C1. rewrite <- (Rmult_1_l (pore_of x cv)) at 2. apply Rmult_le_compat_r; lra. }
    assert (Q1 : (0 <= A / T)%R) by (apply Rmult_le_pos; [lra|apply Rlt_le, Rinv_0_lt_compat; lra]).
    assert (Q2 : (A / T <= B / T)%R) by (apply Rmult_le_compat_r; [apply Rlt_le, Rinv_0_lt_compat|]; lra).
    assert (Q3 : (B / T <= 1)%R) by (apply Rmult_le_reg_r with T; [lra|]; unfold Rdiv; rewrite Rmult_assoc, Rinv_l by lra; lra).
    rewrite (Rltb_f 1 (B / T)) by lra. cbn [andb]. rewrite (Rltb_f (A / T) 0) by lra. cbn [andb]. rewrite (Rltb_f (A / T) 0), (Rltb_f 1 (A / T)), (Rltb_f (B / T) 0), (Rltb_f 1 (B / T)) by lra. cbn [orb].
    eexists. split; [reflexivity|]. cbn [li_vol li_pv li_rock li_pcmin li_pcmax li_pore li_phi li_swir li_swor].
    split; [exact Mn'|]. split; [exact Mx'|]. split; [exact Le|]. split; [reflexivity|]. split; [exact Pore|]. split; [field; lra|]. split; [field; lra|]. split; [field; lra|].
    split; [lra|]. split; [exact Q3|]. split; [exact Lr|]. split; [exact Ro|]. split; [exact Lv|]. split; [exact Lp|]. split; [exact Gc|exact Zc].
  Qed.
  Lemma limits_no_rock tol : rocky x cells = [] -> cap_limits x tol cells = Throw.
  Proof.
    intros H. destruct lim_fold as (st & E & Lv & Lp & Lr & Gc & Zc & Sv & Sp & Ro & Mn & Mx & Sir & Sor). unfold cap_limits. rewrite E. cbn [bind].
    rewrite H in Mn, Mx. cbn [map] in *. destruct Mn as [[Mn|[]] _]. destruct Mx as [[Mx|[]] _]. pose proof dbl_max_pos. rewrite Rltb_t by lra. reflexivity.
  Qed.
End Limits.
Lemma limits_spec x cells tol : proper x cells -> (exists cv, In cv (rocky x cells) /\ (0 < snd cv)%R) ->
    (forall cv, In cv (rocky x cells) -> let cu := curve_at x (fst cv) in
       (0 <= cv_minf cu <= cv_maxf cu)%R /\ (cv_maxf cu <= 1)%R /\ (- dbl_max <= pc_of_j x (fst cv) (cv_minx cu) <= dbl_max)%R /\
       (- dbl_max <= pc_of_j x (fst cv) (cv_maxx cu) <= dbl_max)%R /\ (cv_minx cu <= cv_maxx cu)%R) ->
    exists l, cap_limits x tol cells = Ok l /\
      is_min (li_pcmin l) (map (fun cv => pc_of_j x (fst cv) (cv_minx (curve_at x (fst cv)))) (rocky x cells)) /\
      is_max (li_pcmax l) (map (fun cv => pc_of_j x (fst cv) (cv_maxx (curve_at x (fst cv)))) (rocky x cells)) /\
      (li_pcmin l <= li_pcmax l)%R /\
      li_pore l = sum_cells (pore_of x) (rocky x cells) /\ (0 < li_pore l)%R /\
      (li_phi l * sum_cells snd (rocky x cells) = li_pore l)%R /\
      (li_swir l * li_pore l = sum_cells (fun cv => cv_minf (curve_at x (fst cv)) * pore_of x cv) (rocky x cells))%R /\
      (li_swor l * li_pore l = sum_cells (fun cv => cv_maxf (curve_at x (fst cv)) * pore_of x cv) (rocky x cells))%R /\
      (0 <= li_swir l <= li_swor l)%R /\ (li_swor l <= 1)%R /\
      zlen (li_rock l) = max_satnum (ci_sat x) + 1 /\
      (forall r, 0 <= r <= max_satnum (ci_sat x) -> zget (li_rock l) r = Some (sum_cells (pore_of x) (of_rock x r (rocky x cells)))) /\
      zlen (li_vol l) = zlen (ci_sat x) /\ zlen (li_pv l) = zlen (ci_sat x) /\
      (forall cv, In cv (rocky x cells) -> zget (li_vol l) (fst cv) = Some (snd cv) /\ zget (li_pv l) (fst cv) = Some (pore_of x cv)) /\
      (forall c, 0 <= c < zlen (ci_sat x) -> ~ In c (map fst (rocky x cells)) -> zget (li_vol l) c = Some 0%R /\ zget (li_pv l) c = Some 0%R).
Proof. intros pr. exact (limits_ok x cells pr tol). Qed.
Lemma limits_none x cells tol : proper x cells -> rocky x cells = [] -> cap_limits x tol cells = Throw.
Proof. intros pr. exact (limits_no_rock x cells pr tol). Qed.
