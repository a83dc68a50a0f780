From Verif Require Import BaseFacts RBaseFacts Bgrid_Proofs Steady_Proofs Shape_Proofs2 Relp_Proofs3 Cap_Proofs Cap_Proofs2 Cap_Proofs3 Cap_Proofs4 Visc_Proofs2 Visc_Proofs3 Visc_Spec.
Open Scope Z_scope.

Lemma stone_ok (aniso : bool) cs q : zlen cs = (if aniso then 3 else 1) -> rock_sat aniso cs q = Ok (stone_sat aniso cs q).
Proof.
  intros L. unfold rock_sat, stone_sat, dir_curve. destruct aniso.
  - destruct (rget_range cs 0 ltac:(lia)) as (a & Ea & Za). destruct (rget_range cs 1 ltac:(lia)) as (b & Eb & Zb). destruct (rget_range cs 2 ltac:(lia)) as (c & Ec & Zc).
    rewrite Ea, Eb, Ec, Za, Zb, Zc. reflexivity.
  - destruct (rget_range cs 0 ltac:(lia)) as (a & Ea & Za). rewrite Ea, Za. reflexivity.
Qed.
Lemma stones_get inv r : 0 <= r < zlen inv -> rget inv r = Ok (stone_curves inv r) /\ In (stone_curves inv r) inv.
Proof. intros H. unfold stone_curves. destruct (rget_range inv r H) as (cs & E & Z1). rewrite E, Z1. split; [reflexivity|apply (zget_In _ _ _ Z1)]. Qed.
Lemma water_ok aniso inv rock q : curves_shaped aniso inv -> zlen rock = zlen inv ->
  visc_water aniso inv rock q = Ok (sum_cells (fun r => stone_sat aniso (stone_curves inv r) q * nthR rock r)%R (zrange 0 (zlen inv)),
    map (fun r => stone_sat aniso (stone_curves inv r) q) (zrange 0 (zlen inv))).
Proof.
  intros Sh L. unfold visc_water. pose proof (zlen_nonneg inv) as Hn.
  rewrite (mapM_all_Ok _ (fun r => stone_sat aniso (stone_curves inv r) q) (zrange 0 (zlen inv))).
  2:{ intros r Hr. apply In_zrange in Hr. destruct (stones_get inv r ltac:(lia)) as [E I]. rewrite E. cbn [bind]. apply stone_ok, Sh, I. }
  cbn [bind]. set (sats := map _ _).
  destruct (foldM_split_inv (fun w i => let* s := rget sats i in let* v := rget rock i in Ok (w + s * v)%R)
     (fun done w => w = sum_cells (fun r => stone_sat aniso (stone_curves inv r) q * nthR rock r)%R done) (zrange 0 (zlen inv)) 0%R) as (w & E & V).
  - unfold sum_cells. cbn [map]. now rewrite Rsum_nil.
  - intros done r rest w Hall Hw. assert (Hr : 0 <= r < zlen inv) by (apply In_zrange; rewrite Hall; apply in_or_app; right; now left).
    assert (zget sats r = Some (stone_sat aniso (stone_curves inv r) q)) as Es by (unfold sats; rewrite zget_map, zget_zrange by lia; reflexivity).
    rewrite (proj2 (rget_Ok _ _ _) Es). cbn [bind]. destruct (rget_range rock r ltac:(lia)) as (v & Ev & Zv). rewrite Ev. cbn [bind].
    eexists. split; [reflexivity|]. unfold sum_cells in *. rewrite map_app, Rsum_app. cbn [map]. rewrite Rsum_cons, Rsum_nil, Hw. unfold nthR. rewrite Zv. lra.
  - rewrite E. cbn [bind]. now rewrite V.
Qed.
Lemma values_ok aniso inv rock pore q : curves_shaped aniso inv -> zlen rock = zlen inv -> pore <> 0%R ->
  exists s, visc_values aniso inv rock pore q = Ok (s, tt) /\ (s * pore = sum_cells (fun r => stone_sat aniso (stone_curves inv r) q * nthR rock r) (zrange 0 (zlen inv)))%R.
Proof.
  intros Sh L P. unfold visc_values. rewrite water_ok by assumption. cbn [bind fst]. rewrite mdiv_ok by assumption. cbn [bind]. eexists. split; [reflexivity|]. field. assumption.
Qed.
(* sum over stone types is a sum over cells *)
Lemma stones_cells x cells tol l (g : Z -> R) : vproper x (map fst cells) -> (exists cv, In cv (vrocky x cells) /\ (0 < vpore x cv)%R) ->
    (forall cv, In cv (vrocky x cells) -> (0 <= vpore x cv)%R /\ (0 <= cv_minx (water_curve x (fst cv)) <= cv_maxx (water_curve x (fst cv)))%R /\ (cv_maxx (water_curve x (fst cv)) <= 1)%R) ->
  visc_limits x tol cells = Ok l ->
  sum_cells (fun r => g r * nthR (vm_rock l) r)%R (zrange 0 (zlen (vi_rocks x))) = sum_cells (fun cv => g (vsat x (fst cv) - 1)%Z * vpore x cv)%R (vrocky x cells).
Proof.
  intros Pr Ex Cu E. destruct (vlimits_spec x cells tol Pr Ex Cu) as (l' & E' & _ & _ & _ & _ & Ro & _). rewrite E in E'. injection E' as <-.
  rewrite <- (vsum_by_rock x (fun cv => g (vsat x (fst cv) - 1)%Z * vpore x cv)%R (vrocky x cells) (zlen (vi_rocks x))).
  2:{ intros cv I. now apply (vrocky_in x cells Pr). }
  unfold sum_cells. apply Rsum_map_ext. intros r Hr. apply In_zrange in Hr. unfold nthR. rewrite Ro by lia. unfold sum_cells. rewrite <- Rsum_map_scale.
  apply Rsum_map_ext. intros cv I. unfold vof_rock in I. apply filter_In in I. destruct I as [_ I]. apply Z.eqb_eq in I. rewrite I. now replace (r + 1 - 1) with r by lia.
Qed.
Lemma sat_values x cells tol l inv q : vproper x (map fst cells) -> (exists cv, In cv (vrocky x cells) /\ (0 < vpore x cv)%R) ->
    (forall cv, In cv (vrocky x cells) -> (0 <= vpore x cv)%R /\ (0 <= cv_minx (water_curve x (fst cv)) <= cv_maxx (water_curve x (fst cv)))%R /\ (cv_maxx (water_curve x (fst cv)) <= 1)%R) ->
  visc_limits x tol cells = Ok l -> curves_shaped (vi_aniso x) inv -> zlen inv = zlen (vi_rocks x) ->
  exists s, visc_values (vi_aniso x) inv (vm_rock l) (vm_pore l) q = Ok (s, tt) /\
    (s * sum_cells (vpore x) (vrocky x cells) = sum_cells (fun cv => cell_sat x inv q (fst cv) * vpore x cv) (vrocky x cells))%R.
Proof.
  intros Pr Ex Cu E Sh Li. destruct (vlimits_spec x cells tol Pr Ex Cu) as (l' & E' & Po & Pp & _ & Lr & _). rewrite E in E'. injection E' as <-.
  destruct (values_ok (vi_aniso x) inv (vm_rock l) (vm_pore l) q Sh ltac:(lia) ltac:(lra)) as (s & Es & V). exists s. split; [exact Es|].
  rewrite <- Po, V, Li. apply (stones_cells x cells tol l (fun r => stone_sat (vi_aniso x) (stone_curves inv r) q) Pr Ex Cu E).
Qed.
Lemma stone_le (aniso : bool) cs q q' : (forall d p p', 0 <= d < (if aniso then 3 else 1) -> (p <= p')%R -> (cv_eval (dir_curve cs d) p <= cv_eval (dir_curve cs d) p')%R) ->
  (q <= q')%R -> (stone_sat aniso cs q <= stone_sat aniso cs q')%R.
Proof.
  intros M H. unfold stone_sat. destruct aniso.
  - pose proof (M 0 q q' ltac:(lia) H). pose proof (M 1 q q' ltac:(lia) H). pose proof (M 2 q q' ltac:(lia) H). lra.
  - apply (M 0 q q' ltac:(lia) H).
Qed.
Lemma stone_in (aniso : bool) cs q lo hi : (forall d, 0 <= d < (if aniso then 3 else 1) -> bounded_by (dir_curve cs d) lo hi) -> (lo <= stone_sat aniso cs q <= hi)%R.
Proof.
  intros M. unfold stone_sat. destruct aniso.
  - pose proof (M 0 ltac:(lia) q). pose proof (M 1 ltac:(lia) q). pose proof (M 2 ltac:(lia) q). lra.
  - apply (M 0 ltac:(lia) q).
Qed.
(* bounds and monotonicity *)
Lemma sat_within x cells tol l inv q s : vproper x (map fst cells) -> (exists cv, In cv (vrocky x cells) /\ (0 < vpore x cv)%R) ->
    (forall cv, In cv (vrocky x cells) -> (0 <= vpore x cv)%R /\ (0 <= cv_minx (water_curve x (fst cv)) <= cv_maxx (water_curve x (fst cv)))%R /\ (cv_maxx (water_curve x (fst cv)) <= 1)%R) ->
  visc_limits x tol cells = Ok l -> curves_shaped (vi_aniso x) inv -> zlen inv = zlen (vi_rocks x) ->
  (forall cv d, In cv (vrocky x cells) -> 0 <= d < directions x ->
     bounded_by (dir_curve (stone_curves inv (vsat x (fst cv) - 1)) d) (cv_minx (water_curve x (fst cv))) (cv_maxx (water_curve x (fst cv)))) ->
  visc_values (vi_aniso x) inv (vm_rock l) (vm_pore l) q = Ok (s, tt) -> (vm_swir l <= s <= vm_swor l)%R.
Proof.
  intros Pr Ex Cu E Sh Li B Es. destruct (sat_values x cells tol l inv q Pr Ex Cu E Sh Li) as (s' & Es' & V). rewrite Es in Es'. injection Es' as <-.
  destruct (vlimits_spec x cells tol Pr Ex Cu) as (l' & E' & Po & Pp & _ & _ & _ & _ & Wi & Wo & _). rewrite E in E'. injection E' as <-. rewrite <- Po in V.
  assert (Bc : forall cv, In cv (vrocky x cells) -> (cv_minx (water_curve x (fst cv)) <= cell_sat x inv q (fst cv) <= cv_maxx (water_curve x (fst cv)))%R).
  { intros cv I. unfold cell_sat. apply stone_in. intros d Hd. apply B; assumption. }
  split; apply Rmult_le_reg_r with (vm_pore l); try lra; rewrite V; [rewrite Wi|rewrite Wo]; apply sum_le; intros cv I; apply Rmult_le_compat_r; try apply (Cu cv I); apply (Bc cv I).
Qed.
Lemma sat_monotone x cells tol l inv lo hi : vproper x (map fst cells) -> (exists cv, In cv (vrocky x cells) /\ (0 < vpore x cv)%R) ->
    (forall cv, In cv (vrocky x cells) -> (0 <= vpore x cv)%R /\ (0 <= cv_minx (water_curve x (fst cv)) <= cv_maxx (water_curve x (fst cv)))%R /\ (cv_maxx (water_curve x (fst cv)) <= 1)%R) ->
  visc_limits x tol cells = Ok l -> curves_shaped (vi_aniso x) inv -> zlen inv = zlen (vi_rocks x) ->
  (forall c q q', In c (List.concat inv) -> (q <= q')%R -> (cv_eval c q <= cv_eval c q')%R) ->
  monotone (visc_values (vi_aniso x) inv (vm_rock l) (vm_pore l)) lo hi.
Proof.
  intros Pr Ex Cu E Sh Li M. right. intros p q s [] s' [] Hp Hq Es Es'.
  destruct (sat_values x cells tol l inv p Pr Ex Cu E Sh Li) as (t & Et & V). rewrite Es in Et. injection Et as <-.
  destruct (sat_values x cells tol l inv q Pr Ex Cu E Sh Li) as (t & Et & V'). rewrite Es' in Et. injection Et as <-.
  destruct (vlimits_spec x cells tol Pr Ex Cu) as (l' & E' & Po & Pp & _). rewrite E in E'. injection E' as <-. rewrite <- Po in V, V'.
  apply Rmult_le_reg_r with (vm_pore l); [exact Pp|]. rewrite V, V'. apply sum_le. intros cv I. apply Rmult_le_compat_r; [apply (Cu cv I)|].
  unfold cell_sat. destruct (vrocky_in x cells Pr cv I) as (_ & Hs & _). destruct (stones_get inv (vsat x (fst cv) - 1) ltac:(lia)) as [_ In1].
  apply stone_le; [|lra]. intros d a b Hd Hab. pose proof (Sh _ In1) as L. unfold dir_curve. destruct (rget_range (stone_curves inv (vsat x (fst cv) - 1)) d) as (c & _ & Z1).
  { unfold directions in *. destruct (vi_aniso x); lia. }
  rewrite Z1. apply M; [|exact Hab]. apply in_concat. eexists. split; [exact In1|apply (zget_In _ _ _ Z1)].
Qed.
(* the tabulation *)
Lemma visc_table x cells tol l inv fuel t : vproper x (map fst cells) -> (exists cv, In cv (vrocky x cells) /\ (0 < vpore x cv)%R) ->
    (forall cv, In cv (vrocky x cells) -> (0 <= vpore x cv)%R /\ (0 <= cv_minx (water_curve x (fst cv)) <= cv_maxx (water_curve x (fst cv)))%R /\ (cv_maxx (water_curve x (fst cv)) <= 1)%R) ->
  visc_limits x tol cells = Ok l -> curves_shaped (vi_aniso x) inv -> zlen inv = zlen (vi_rocks x) ->
  (forall c q q', In c (List.concat inv) -> (q <= q')%R -> (cv_eval c q <= cv_eval c q')%R) ->
  (vm_swir l < vm_swor l)%R -> (fst (frac_range inv) < snd (frac_range inv))%R ->
  tabulate fuel (visc_values (vi_aniso x) inv (vm_rock l) (vm_pore l)) (vm_swir l) (vm_swor l) (fst (frac_range inv)) (snd (frac_range inv)) 500 = Ok (Some t) ->
  ordered t /\
  (forall q s u, In (q, (s, u)) t -> (fst (frac_range inv) <= q <= snd (frac_range inv))%R /\
     (s * sum_cells (vpore x) (vrocky x cells) = sum_cells (fun cv => cell_sat x inv q (fst cv) * vpore x cv) (vrocky x cells))%R) /\
  (exists v, In (fst (frac_range inv), v) t) /\ (exists v, In (snd (frac_range inv), v) t) /\
  (forall a b, adjacent t a b -> (0 <= fst (snd b) - fst (snd a) <= (vm_swor l - vm_swir l) / 500)%R).
Proof.
  intros Pr Ex Cu E Sh Li M Hs Hr T. assert (H500 : (1 < 500)%R) by lra. destruct (tab_values _ _ _ _ _ _ _ _ Hr Hs H500 T) as (O & V & T1 & T2).
  pose proof (sat_monotone x cells tol l inv (fst (frac_range inv)) (snd (frac_range inv)) Pr Ex Cu E Sh Li M) as Mo.
  split; [exact O|]. split; [|split; [exact T1|split; [exact T2|]]].
  - intros q s u I. destruct (V _ I) as [B Fv]. split; [exact B|]. cbn [fst snd] in Fv. destruct (sat_values x cells tol l inv q Pr Ex Cu E Sh Li) as (s' & E1 & V1). rewrite Fv in E1. injection E1 as <- _. exact V1.
  - intros a b Ad. pose proof (tab_resolution _ _ _ _ _ _ _ _ Hr Hs H500 Mo T a b Ad) as Rz.
    assert (Up : (fst (snd a) <= fst (snd b))%R).
    { destruct Ad as (t1 & t2 & ->). destruct (V a ltac:(apply in_or_app; right; now left)) as [Ba Fa]. destruct (V b ltac:(apply in_or_app; right; right; now left)) as [Bb Fb].
      assert (Oab : (fst a < fst b)%R) by (apply O; now exists t1, t2).
      destruct (sat_values x cells tol l inv (fst a) Pr Ex Cu E Sh Li) as (s1 & E1 & V1). destruct (sat_values x cells tol l inv (fst b) Pr Ex Cu E Sh Li) as (s2 & E2 & V2).
      rewrite Fa in E1. rewrite Fb in E2. injection E1 as E1. injection E2 as E2. rewrite E1, E2. cbn [fst].
      destruct (vlimits_spec x cells tol Pr Ex Cu) as (l' & E' & Po & Pp & _). rewrite E in E'. injection E' as <-. rewrite <- Po in V1, V2.
      apply Rmult_le_reg_r with (vm_pore l); [exact Pp|]. rewrite V1, V2. apply sum_le. intros cv I. apply Rmult_le_compat_r; [apply (Cu cv I)|].
      unfold cell_sat. destruct (vrocky_in x cells Pr cv I) as (_ & Hsv & _). destruct (stones_get inv (vsat x (fst cv) - 1) ltac:(lia)) as [_ In1].
      apply stone_le; [|lra]. intros d p p' Hd Hp. pose proof (Sh _ In1) as L. unfold dir_curve. destruct (rget_range (stone_curves inv (vsat x (fst cv) - 1)) d) as (c & _ & Z1).
      { unfold directions in *. destruct (vi_aniso x); lia. }
      rewrite Z1. apply M; [|exact Hp]. apply in_concat. eexists. split; [exact In1|apply (zget_In _ _ _ Z1)]. }
    rewrite Rabs_right in Rz by lra. lra.
Qed.
