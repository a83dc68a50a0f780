From Verif Require Import BaseFacts RBaseFacts Bgrid_Proofs Steady_Proofs Visc_Proofs Visc_Proofs2 Visc_Proofs3 Visc_Proofs4 Visc_Proofs5 Visc_Proofs6 Visc_Proofs7 Visc_Proofs8 Visc_Spec.
Open Scope Z_scope.

Lemma visc_rank_total x cells tol l inv up tec n rank ps : vproper x (map fst cells) -> (exists cv, In cv (vrocky x cells) /\ (0 < vpore x cv)%R) ->
    (forall cv, In cv (vrocky x cells) -> (0 <= vpore x cv)%R /\ (0 <= cv_minx (water_curve x (fst cv)) <= cv_maxx (water_curve x (fst cv)))%R /\ (cv_maxx (water_curve x (fst cv)) <= 1)%R) ->
  visc_limits x tol cells = Ok l -> curves_shaped (vi_aniso x) inv -> zlen inv = zlen (vi_rocks x) -> 0 <= tec <= 9 ->
  (forall ts, exists k, up ts = Ok k /\ zlen k = 9) ->
  exists a, visc_rank (visc_point x inv l (map fst cells) up tec) tec n rank ps = Ok a /\ arrays_ok true tec (zlen ps) a.
Proof.
  intros Pr Ex Cu E Sh Li Ht Up. set (pt := visc_point x inv l (map fst cells) up tec) in *.
  set (sat := fun q => match pt 0 q with Ok v => fst v | _ => 0%R end). set (row := fun ph q => match pt ph q with Ok v => snd v | _ => [] end).
  assert (Hpt : forall ph q, In q ps -> ph = 0 \/ ph = 1 -> pt ph q = Ok (sat q, row ph q) /\ zlen (row ph q) = tec).
  { intros ph q _ Hph. destruct (point_spec x cells tol l inv up tec ph q Pr Ex Cu E Sh Li Ht Up) as (s & rw & ts & k0 & Ep & _ & _ & _ & Lr & _). fold pt in Ep.
    destruct (point_spec x cells tol l inv up tec 0 q Pr Ex Cu E Sh Li Ht Up) as (s0 & rw0 & ts0 & k1 & Ep0 & _). fold pt in Ep0.
    assert (s = s0) as <-. { destruct Hph as [-> | ->]; [congruence|]. symmetry. exact (point_same _ _ _ _ _ _ _ _ _ _ _ Ep0 Ep). }
    unfold sat, row. rewrite Ep, Ep0. auto. }
  destruct (rank_spec pt tec n rank ps sat row ltac:(lia) Hpt) as (a & Ea & Oa & _). eauto.
Qed.

(* ---- examples *)
Definition vw_curve : curve := mkCurve 0 1 0 1 (fun s => s).
Definition vo_curve : curve := mkCurve 0 1 0 1 (fun s => (1 - s)%R).
Definition vinv_curve (c : curve) (k : R) : R := if Rltb (cv_eval c 0) (/ 2) then k else (1 - k)%R.
Lemma ex_physical : physical (vw_curve, vo_curve) /\ cv_eval vw_curve (vinv_curve vw_curve kr_limit) = kr_limit /\ cv_eval vo_curve (vinv_curve vo_curve kr_limit) = kr_limit.
Proof.
  split; [intros s s' H; cbn; lra|]. unfold vinv_curve. cbn [cv_eval vw_curve vo_curve]. rewrite Rltb_t by lra. rewrite Rltb_f by lra. split; lra.
Qed.
Definition vratio_curve : curve := mkCurve 0 2 0 1 (fun q => Rmax 0 (Rmin 1 (q / 2))).
Definition exv : vin := mkVin [1; 0; 1] [/ 2; 0; / 4]%R [1; / 10; 2]%R [] [] [[(vw_curve, vo_curve)]] false (/ 10) 100.
Definition exvc : list (Z * R) := [(0, 1%R); (1, 1%R); (2, 2%R)].
Lemma exv_proper : vproper exv (map fst exvc).
Proof.
  unfold vproper, exv, exvc. cbn [vi_sat vi_poro vi_kx vi_ky vi_kz vi_rocks vi_aniso vi_contrast map fst directions].
  change (zlen [1; 0; 1]) with 3. split; [repeat constructor; cbn; intuition congruence|]. split; [intros c [<-|[<-|[<-|[]]]]; lia|].
  split; [lra|]. split; [reflexivity|]. split; [reflexivity|]. split; [discriminate|]. split; [intros s [<-|[<-|[<-|[]]]]; cbn; lia|]. intros cs [<-|[]]. reflexivity.
Qed.
Lemma exv_rock : (exists cv, In cv (vrocky exv exvc) /\ (0 < vpore exv cv)%R) /\
  forall cv, In cv (vrocky exv exvc) -> (0 <= vpore exv cv)%R /\ (0 <= cv_minx (water_curve exv (fst cv)) <= cv_maxx (water_curve exv (fst cv)))%R /\ (cv_maxx (water_curve exv (fst cv)) <= 1)%R.
Proof.
  change (vrocky exv exvc) with [(0, 1%R); (2, 2%R)].
  assert (P0 : vpore exv (0, 1%R) = (1 * / 2)%R) by reflexivity. assert (P2 : vpore exv (2, 2%R) = (2 * / 4)%R) by reflexivity.
  split; [exists (0, 1%R); split; [now left|rewrite P0; lra]|].
  intros cv [<-|[<-|[]]]; [rewrite P0; change (water_curve exv (fst (0, 1%R))) with vw_curve|rewrite P2; change (water_curve exv (fst (2, 2%R))) with vw_curve]; cbn [cv_minx cv_maxx vw_curve]; lra.
Qed.
Lemma ex_curves_monotone : curves_shaped (vi_aniso exv) [[vratio_curve]] /\ zlen [[vratio_curve]] = zlen (vi_rocks exv) /\
  (forall c q q', In c (List.concat [[vratio_curve]]) -> (q <= q')%R -> (cv_eval c q <= cv_eval c q')%R) /\
  (forall cv d, In cv (vrocky exv exvc) -> 0 <= d < directions exv ->
     bounded_by (dir_curve (stone_curves [[vratio_curve]] (vsat exv (fst cv) - 1)) d) (cv_minx (water_curve exv (fst cv))) (cv_maxx (water_curve exv (fst cv)))).
Proof.
  split; [intros cs [<-|[]]; reflexivity|]. split; [reflexivity|]. split.
  - intros c q q' [<-|[]] H. cbn [cv_eval vratio_curve]. apply Rle_max_compat_l. apply Rle_min_compat_l. lra.
  - change (vrocky exv exvc) with [(0, 1%R); (2, 2%R)]. intros cv d I Hd. change (directions exv) with 1 in Hd. assert (d = 0) as -> by lia.
    assert (B : bounded_by vratio_curve 0 1). { intros q. cbn [cv_eval vratio_curve]. split; [apply Rmax_l|]. apply Rmax_lub; [lra|apply Rmin_l]. }
    destruct I as [<-|[<-|[]]]; exact B.
Qed.
Lemma ex_visc_ranks : exists l (ars : Z -> arrays), visc_limits exv (/ 1000000) exvc = Ok l /\
  forall r, 0 <= r < 2 -> visc_rank (visc_point exv [[vratio_curve]] l (map fst exvc) (fun ts => Ok (zrepeat 1%R 9)) 3) 3 2 r [0; 1; 2]%R = Ok (ars r).
Proof.
  destruct exv_rock as [Ex Cu]. destruct (vlimits_spec exv exvc (/ 1000000) exv_proper Ex Cu) as (l & E & _). exists l.
  destruct ex_curves_monotone as (Sh & Li & _).
  assert (Up : forall ts : list (R * R * R), exists k, (fun _ : list (R * R * R) => Ok (zrepeat 1%R 9)) ts = Ok k /\ zlen k = 9) by (intros ts; eexists; split; reflexivity).
  exists (fun r => match visc_rank (visc_point exv [[vratio_curve]] l (map fst exvc) (fun ts => Ok (zrepeat 1%R 9)) 3) 3 2 r [0; 1; 2]%R with Ok a => a | _ => mkArr [] [] [] end).
  split; [exact E|]. intros r _. destruct (visc_rank_total exv exvc (/ 1000000) l [[vratio_curve]] _ 3 2 r [0; 1; 2]%R exv_proper Ex Cu E Sh Li ltac:(lia) Up) as (a & -> & _). reflexivity.
Qed.
