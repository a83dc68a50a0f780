From Verif Require Import BaseFacts RBaseFacts Bgrid_Proofs Steady_Proofs Shape_Proofs2 Relp_Spec Relp_Proofs3 Cap_Proofs4 Cap_Proofs5 Visc_Spec.
Open Scope Z_scope.

Section Limits.
  Variable x : vin.
  Variable cells : list (Z * R).
  Hypothesis pr : vproper x (map fst cells).
  Lemma vsat_get c : 0 <= c < zlen (vi_sat x) -> rget (vi_sat x) c = Ok (vsat x c) /\ 0 <= vsat x c <= zlen (vi_rocks x).
  Proof.
    intros H. destruct (zget_in_range _ _ H) as (s & Es). unfold vsat. rewrite Es. split; [now apply rget_Ok|]. apply zget_In in Es. now apply pr.
  Qed.
  Lemma pair_get s d : 1 <= s <= zlen (vi_rocks x) -> 0 <= d < directions x ->
    exists cs, rget (vi_rocks x) (s - 1) = Ok cs /\ rget cs d = Ok (kr_pair x s d).
  Proof.
    intros Hs Hd. destruct (rget_range (vi_rocks x) (s - 1) ltac:(lia)) as (cs & E & Z1). exists cs. split; [exact E|]. unfold kr_pair. rewrite Z1.
    assert (zlen cs = directions x) as L by (apply pr, (zget_In _ _ _ Z1)). destruct (rget_range cs d ltac:(lia)) as (p & E2 & Z2). rewrite E2, Z2. reflexivity.
  Qed.
  Lemma dirs_pos : 0 < directions x.
  Proof. unfold directions. destruct (vi_aniso x); lia. Qed.
  Definition vinv (done : list (Z * R)) (st : vlims) : Prop :=
    let rk := vrocky x done in
    zlen (vl_vol st) = zlen (vi_sat x) /\ zlen (vl_pv st) = zlen (vi_sat x) /\ zlen (vl_rock st) = zlen (vi_rocks x) /\
    (forall c, 0 <= c < zlen (vi_sat x) -> ~ In c (map fst rk) -> zget (vl_vol st) c = Some 0%R /\ zget (vl_pv st) c = Some 0%R) /\
    Rsum (vl_vol st) = sum_cells snd rk /\ Rsum (vl_pv st) = sum_cells (vpore x) rk /\
    (forall r, 0 <= r < zlen (vi_rocks x) -> zget (vl_rock st) r = Some (sum_cells (vpore x) (vof_rock x (r + 1) rk))) /\
    is_max (vl_kmax st) (0%R :: map (fun cv => nthR (vi_kx x) (fst cv)) rk) /\
    vl_swir st = sum_cells (fun cv => cv_minx (water_curve x (fst cv)) * vpore x cv)%R rk /\
    vl_swor st = sum_cells (fun cv => cv_maxx (water_curve x (fst cv)) * vpore x cv)%R rk.
  Lemma vlim_fold : exists st, foldM (vlim_step x) cells
    (mkVl (zrepeat 0%R (zlen (vi_sat x))) (zrepeat 0%R (zlen (vi_sat x))) (zrepeat 0%R (zlen (vi_rocks x))) 0%R 0%R 0%R) = Ok st /\ vinv cells st.
  Proof.
    pose proof (zlen_nonneg (vi_sat x)) as Hn. pose proof (zlen_nonneg (vi_rocks x)) as Hm. apply foldM_split_inv.
    - unfold vinv. cbn [vrocky filter map vl_vol vl_pv vl_rock vl_kmax vl_swir vl_swor]. rewrite !zlen_zrepeat by lia. rewrite !Rsum_zeros.
      unfold sum_cells. cbn [map vof_rock filter]. rewrite Rsum_nil. split; [reflexivity|]. split; [reflexivity|]. split; [reflexivity|].
      split; [intros c Hc _; split; apply zget_zrepeat; lia|]. split; [reflexivity|]. split; [reflexivity|]. split; [intros r Hr; apply zget_zrepeat; lia|].
      repeat split; try (left; reflexivity); intros y [<-|[]]; lra.
    - intros done [c v] rest st Hall (Lv & Lp & Lr & Zc & Sv & Sp & Ro & Mx & Sir & Sor).
      assert (Hc : 0 <= c < zlen (vi_sat x)). { destruct pr as (_ & Q & _). apply Q. rewrite Hall, map_app. apply in_or_app. right. now left. }
      assert (Hf : ~ In c (map fst done)).
      { destruct pr as (Nd & _). rewrite Hall, map_app in Nd. cbn [map fst] in Nd. apply NoDup_remove_2 in Nd. intros I. apply Nd. apply in_or_app. now left. }
      unfold vlim_step. cbn [fst snd]. destruct (vsat_get c Hc) as [Es Hs]. rewrite Es. cbn [bind].
      assert (Rk : vrocky x (done ++ [(c, v)]) = vrocky x done ++ if 0 <? vsat x c then [(c, v)] else []).
      { unfold vrocky. rewrite filter_app. cbn [filter fst]. destruct (0 <? vsat x c); reflexivity. }
      unfold vinv. rewrite Rk. destruct (0 <? vsat x c) eqn:E0.
      + apply Z.ltb_lt in E0.
        assert (Ep : rget (vi_poro x) c = Ok (nthR (vi_poro x) c)) by (destruct pr as (_ & _ & _ & L & _); apply rget_Ok, zget_nthR; lia).
        assert (Ek : rget (vi_kx x) c = Ok (nthR (vi_kx x) c)) by (destruct pr as (_ & _ & _ & _ & L & _); apply rget_Ok, zget_nthR; lia).
        destruct (rset_exists (vl_vol st) c v ltac:(lia)) as (vol' & E1 & L1 & G1 & O1). rewrite E1. cbn [bind]. rewrite Ep. cbn [bind].
        destruct (rset_exists (vl_pv st) c (v * nthR (vi_poro x) c)%R ltac:(lia)) as (pv' & E2 & L2 & G2 & O2). rewrite E2. cbn [bind].
        pose proof (Ro (vsat x c - 1) ltac:(lia)) as Er. replace (vsat x c - 1 + 1) with (vsat x c) in Er by lia. rewrite (proj2 (rget_Ok _ _ _) Er). cbn [bind].
        destruct (rset_exists (vl_rock st) (vsat x c - 1) (sum_cells (vpore x) (vof_rock x (vsat x c) (vrocky x done)) + v * nthR (vi_poro x) c)%R ltac:(lia)) as (ro' & E3 & L3 & G3 & O3). rewrite E3. cbn [bind].
        rewrite Ek. cbn [bind]. destruct (pair_get (vsat x c) 0 ltac:(lia) ltac:(pose proof dirs_pos; lia)) as (cs & Ecs & Ewo). rewrite Ecs. cbn [bind]. rewrite Ewo. cbn [bind].
        eexists. split; [reflexivity|]. cbn [vl_vol vl_pv vl_rock vl_kmax vl_swir vl_swor].
        assert (Hfr : ~ In c (map fst (vrocky x done))).
        { intros I. apply Hf. apply in_map_iff in I. destruct I as (cv & <- & I). apply filter_In in I. apply in_map, I. }
        destruct (Zc c Hc Hfr) as [Z1 Z2].
        split; [lia|]. split; [lia|]. split; [lia|]. split; [|split; [|split; [|split; [|split; [|split]]]]].
        * intros c' Hc' Hn'. assert (c' <> c) by (intros ->; apply Hn'; rewrite map_app; apply in_or_app; right; now left). rewrite O1, O2 by assumption.
          apply Zc; [exact Hc'|]. intros I. apply Hn'. rewrite map_app. apply in_or_app. now left.
        * rewrite sum_snoc, (Rsum_rset _ _ _ 0%R _ Z1 E1), Sv. cbn [snd]. lra.
        * rewrite sum_snoc, (Rsum_rset _ _ _ 0%R _ Z2 E2), Sp. unfold vpore. cbn [fst snd]. lra.
        * intros r Hr. unfold vof_rock. rewrite filter_app. cbn [filter fst]. destruct (vsat x c =? r + 1) eqn:Er'.
          -- apply Z.eqb_eq in Er'. replace r with (vsat x c - 1) by lia. rewrite G3. rewrite sum_snoc. unfold vof_rock. replace (vsat x c - 1 + 1) with (vsat x c) by lia.
             unfold vpore at 3. cbn [fst snd]. reflexivity.
          -- apply Z.eqb_neq in Er'. rewrite O3 by lia. rewrite app_nil_r. now apply Ro.
        * rewrite map_app. cbn [map fst]. assert (H0 : smax (vl_kmax st) (nthR (vi_kx x) c) = smax (nthR (vi_kx x) c) (vl_kmax st)).
          { unfold smax. destruct (Rltb_spec (vl_kmax st) (nthR (vi_kx x) c)), (Rltb_spec (nthR (vi_kx x) c) (vl_kmax st)); lra. }
          rewrite H0. apply (is_max_step _ (_ :: _)). exact Mx.
        * rewrite sum_snoc, Sir. reflexivity.
        * rewrite sum_snoc, Sor. reflexivity.
      + exists st. split; [reflexivity|]. rewrite app_nil_r. repeat split; try assumption; try (apply Mx); try (now apply Zc).
  Qed.
  Lemma vrocky_in cv : In cv (vrocky x cells) -> In cv cells /\ 1 <= vsat x (fst cv) <= zlen (vi_rocks x) /\ 0 <= fst cv < zlen (vi_sat x).
  Proof.
    intros I. apply filter_In in I. destruct I as [I S]. apply Z.ltb_lt in S. assert (R0 : 0 <= fst cv < zlen (vi_sat x)) by (destruct pr as (_ & Q & _); apply Q, in_map, I).
    destruct (vsat_get _ R0) as [_ B]. repeat split; (assumption || lia).
  Qed.
  Lemma vsum_by_rock (h : Z * R -> R) L n : (forall cv, In cv L -> 1 <= vsat x (fst cv) <= n) ->
    sum_cells (fun r => sum_cells h (vof_rock x (r + 1) L)) (zrange 0 n) = sum_cells h L.
  Proof.
    intros H. induction L as [|a L IH].
    - unfold sum_cells. cbn [vof_rock filter map]. rewrite Rsum_nil. apply Rsum_map_zero. intros; reflexivity.
    - assert (Ha : 1 <= vsat x (fst a) <= n) by (apply H; now left). specialize (IH (fun cv I => H cv (or_intror I))).
      assert (E : sum_cells (fun r => sum_cells h (vof_rock x (r + 1) (a :: L))) (zrange 0 n) =
        (sum_cells (fun r => sum_cells h (vof_rock x (r + 1) L)) (zrange 0 n) + sum_cells (fun r => if r =? vsat x (fst a) - 1 then h a else 0%R) (zrange 0 n))%R).
      { unfold sum_cells. rewrite <- Rsum_map_plus. apply Rsum_map_ext. intros r _. unfold vof_rock. cbn [filter].
        destruct (vsat x (fst a) =? r + 1) eqn:E1, (r =? vsat x (fst a) - 1) eqn:E2; cbn [map]; rewrite ?Rsum_cons; try lia; lra. }
      rewrite E, IH. unfold sum_cells at 2 3. cbn [map]. rewrite Rsum_cons.
      assert (D : Rsum (map (fun r => if r =? vsat x (fst a) - 1 then h a else 0%R) (zrange 0 n)) = h a).
      { rewrite (zrange_app 0 (vsat x (fst a) - 1) n) by lia. rewrite map_app, Rsum_app. rewrite (zrange_cons (vsat x (fst a) - 1) n) by lia. cbn [map]. rewrite Rsum_cons, Z.eqb_refl.
        rewrite Rsum_map_zero, Rsum_map_zero; [lra| |]; intros r Hr; apply In_zrange in Hr; destruct (r =? vsat x (fst a) - 1) eqn:Q; try reflexivity; lia. }
      rewrite D. unfold sum_cells. lra.
  Qed.
  Lemma vlimits_ok tol : (exists cv, In cv (vrocky x cells) /\ (0 < vpore x cv)%R) ->
    (forall cv, In cv (vrocky x cells) -> (0 <= vpore x cv)%R /\ (0 <= cv_minx (water_curve x (fst cv)) <= cv_maxx (water_curve x (fst cv)))%R /\ (cv_maxx (water_curve x (fst cv)) <= 1)%R) ->
    exists l, visc_limits x tol cells = Ok l /\
      vm_pore l = sum_cells (vpore x) (vrocky x cells) /\ (0 < vm_pore l)%R /\ vm_vol l = sum_cells snd (vrocky x cells) /\
      zlen (vm_rock l) = zlen (vi_rocks x) /\
      (forall r, 0 <= r < zlen (vi_rocks x) -> zget (vm_rock l) r = Some (sum_cells (vpore x) (vof_rock x (r + 1) (vrocky x cells)))) /\
      Rsum (vm_rock l) = vm_pore l /\
      (vm_swir l * vm_pore l = sum_cells (fun cv => cv_minx (water_curve x (fst cv)) * vpore x cv) (vrocky x cells))%R /\
      (vm_swor l * vm_pore l = sum_cells (fun cv => cv_maxx (water_curve x (fst cv)) * vpore x cv) (vrocky x cells))%R /\
      (0 <= vm_swir l <= vm_swor l)%R /\ (vm_swor l <= 1)%R /\
      (exists m, is_max m (0%R :: map (fun cv => nthR (vi_kx x) (fst cv)) (vrocky x cells)) /\ vm_kmin l = Rmax (m / vi_contrast x) (vi_minperm x)).
  Proof.
    intros (cv0 & I0 & V0) Cu. destruct vlim_fold as (st & E & Lv & Lp & Lr & Zc & Sv & Sp & Ro & Mx & Sir & Sor). unfold visc_limits. rewrite E. cbn [bind].
    rewrite mdiv_ok by (destruct pr as (_ & _ & C & _); lra). cbn [bind].
    assert (Pore : (0 < sum_cells (vpore x) (vrocky x cells))%R) by (eapply sum_pos_one; eauto; intros cv I; now apply Cu).
    rewrite Sp, Sv, Sir, Sor. rewrite !mdiv_ok by lra. cbn [bind].
    set (T := sum_cells (vpore x) (vrocky x cells)) in *.
    set (A := sum_cells (fun cv => cv_minx (water_curve x (fst cv)) * vpore x cv)%R (vrocky x cells)). set (B := sum_cells (fun cv => cv_maxx (water_curve x (fst cv)) * vpore x cv)%R (vrocky x cells)).
    assert (HA : (0 <= A)%R) by (apply sum_nonneg; intros cv I; destruct (Cu _ I) as (Pn & C1 & _); apply Rmult_le_pos; lra).
    assert (HAB : (A <= B)%R) by (apply sum_le; intros cv I; destruct (Cu _ I) as (Pn & C1 & _); apply Rmult_le_compat_r; lra).
    assert (HB : (B <= T)%R).
    { apply sum_le; intros cv I; destruct (Cu _ I) as (Pn & _ & C1). rewrite <- (Rmult_1_l (vpore x cv)) at 2. apply Rmult_le_compat_r; lra. }
    assert (Q1 : (0 <= A / T)%R) by (apply Rmult_le_pos; [lra|apply Rlt_le, Rinv_0_lt_compat; lra]).
    assert (Q2 : (A / T <= B / T)%R) by (apply Rmult_le_compat_r; [apply Rlt_le, Rinv_0_lt_compat|]; lra).
    assert (Q3 : (B / T <= 1)%R) by (apply Rmult_le_reg_r with T; [lra|]; unfold Rdiv; rewrite Rmult_assoc, Rinv_l by lra; lra).
    rewrite (Rltb_f 1 (B / T)) by lra. cbn [andb]. rewrite (Rltb_f (A / T) 0) by lra. cbn [andb]. rewrite (Rltb_f (A / T) 0), (Rltb_f 1 (A / T)), (Rltb_f (B / T) 0), (Rltb_f 1 (B / T)) by lra. cbn [orb].
    eexists. split; [reflexivity|]. cbn [vm_rock vm_pore vm_vol vm_kmin vm_swir vm_swor].
    split; [reflexivity|]. split; [exact Pore|]. split; [reflexivity|]. split; [exact Lr|]. split; [exact Ro|]. split.
    { unfold T. rewrite <- (vsum_by_rock (vpore x) (vrocky x cells) (zlen (vi_rocks x))) by (intros cv I; now apply vrocky_in). unfold sum_cells at 1. f_equal.
      apply zlist_ext.
      - rewrite Lr. unfold zlen. rewrite map_length, zrange_length. pose proof (zlen_nonneg (vi_rocks x)). unfold zlen in *. lia.
      - intros i. destruct (Z_lt_ge_dec i 0); [rewrite !zget_None_neg by lia; reflexivity|]. destruct (Z_lt_ge_dec i (zlen (vi_rocks x))).
        + rewrite Ro by lia. rewrite zget_map, zget_zrange by lia. reflexivity.
        + rewrite (proj2 (zget_None_iff (vl_rock st) i)) by lia. rewrite zget_map. rewrite (proj2 (zget_None_iff (zrange 0 (zlen (vi_rocks x))) i)); [reflexivity|]. rewrite zlen_zrange by (apply zlen_nonneg). lia. }
    split; [field; lra|]. split; [field; lra|]. split; [lra|]. split; [exact Q3|].
    exists (vl_kmax st). split; [exact Mx|]. unfold smax, Rmax. destruct (Rltb_spec (vl_kmax st / vi_contrast x) (vi_minperm x)), (Rle_dec (vl_kmax st / vi_contrast x) (vi_minperm x)); lra.
  Qed.
  Lemma vlimits_no_pore tol : sum_cells (vpore x) (vrocky x cells) = 0%R -> visc_limits x tol cells = UB.
  Proof.
    intros H. destruct vlim_fold as (st & E & Lv & Lp & Lr & Zc & Sv & Sp & Ro & Mx & Sir & Sor). unfold visc_limits. rewrite E. cbn [bind].
    rewrite mdiv_ok by (destruct pr as (_ & _ & C & _); lra). cbn [bind]. rewrite Sp, H, mdiv_0. reflexivity.
  Qed.
End Limits.
Lemma vlimits_spec x cells tol : vproper x (map fst cells) -> (exists cv, In cv (vrocky x cells) /\ (0 < vpore x cv)%R) ->
    (forall cv, In cv (vrocky x cells) -> (0 <= vpore x cv)%R /\ (0 <= cv_minx (water_curve x (fst cv)) <= cv_maxx (water_curve x (fst cv)))%R /\ (cv_maxx (water_curve x (fst cv)) <= 1)%R) ->
    exists l, visc_limits x tol cells = Ok l /\
      vm_pore l = sum_cells (vpore x) (vrocky x cells) /\ (0 < vm_pore l)%R /\ vm_vol l = sum_cells snd (vrocky x cells) /\
      zlen (vm_rock l) = zlen (vi_rocks x) /\
      (forall r, 0 <= r < zlen (vi_rocks x) -> zget (vm_rock l) r = Some (sum_cells (vpore x) (vof_rock x (r + 1) (vrocky x cells)))) /\
      Rsum (vm_rock l) = vm_pore l /\
      (vm_swir l * vm_pore l = sum_cells (fun cv => cv_minx (water_curve x (fst cv)) * vpore x cv) (vrocky x cells))%R /\
      (vm_swor l * vm_pore l = sum_cells (fun cv => cv_maxx (water_curve x (fst cv)) * vpore x cv) (vrocky x cells))%R /\
      (0 <= vm_swir l <= vm_swor l)%R /\ (vm_swor l <= 1)%R /\
      (exists m, is_max m (0%R :: map (fun cv => nthR (vi_kx x) (fst cv)) (vrocky x cells)) /\ vm_kmin l = Rmax (m / vi_contrast x) (vi_minperm x)).
Proof. intros pr. exact (vlimits_ok x cells pr tol). Qed.
Lemma vlimits_none x cells tol : vproper x (map fst cells) -> sum_cells (vpore x) (vrocky x cells) = 0%R -> visc_limits x tol cells = UB.
Proof. intros pr. exact (vlimits_no_pore x cells pr tol). Qed.
