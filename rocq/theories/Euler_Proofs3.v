From Coq Require Import Lra.
From Verif Require Import BaseFacts RBaseFacts Steady_Proofs Euler_Model Euler_Spec.
Open Scope Z_scope.

(* ---- C51 *)
Lemma cell_flux_spec fl : cell_flux fl = throughput fl.
Proof.
  unfold cell_flux, throughput.
  assert (G : forall l a b, fold_left (fun pn x => if Rltb 0 x then ((fst pn + x)%R, snd pn) else (fst pn, (snd pn - x)%R)) l (a, b)
     = ((a + Rsum (map (fun x => Rmax x 0) l))%R, (b + Rsum (map (fun x => Rmax (- x) 0) l))%R)).
  { induction l as [|x l IH]; intros a b; cbn [fold_left map].
    - rewrite Rsum_nil. f_equal; ring.
    - rewrite !Rsum_cons. destruct (Rltb_spec 0 x); cbn [fst snd]; rewrite IH; f_equal.
      + rewrite (Rmax_left x 0) by lra. ring.
      + rewrite (Rmax_right (- x) 0) by lra. ring.
      + rewrite (Rmax_right x 0) by lra. ring.
      + rewrite (Rmax_left (- x) 0) by lra. ring. }
  rewrite G. cbn [fst snd]. rewrite !Rplus_0_l, smax_Rmax. apply Rmax_comm.
Qed.
Lemma throughput_nonneg fl : (0 <= throughput fl)%R.
Proof.
  unfold throughput. apply Rle_trans with (Rsum (map (fun x => Rmax x 0) fl)); [|apply Rmax_l].
  apply Rsum_map_nonneg. intros; apply Rmax_r.
Qed.
Lemma cfl_huge_pos : (0 < cfl_huge)%R.
Proof. unfold cfl_huge. apply IZR_lt. reflexivity. Qed.
Lemma cfl_start_pos : (0 < cfl_start)%R.
Proof. unfold cfl_start. apply IZR_lt. reflexivity. Qed.

Lemma fdiv_inv' a b q : fdiv a b = Some q -> (b <> 0 /\ q * b = a)%R.
Proof. intros H. destruct (fdiv_inv _ _ _ H) as (N & ->). split; auto. field. auto. Qed.
Lemma fdiv_None' a b : fdiv a b = None -> b = 0%R.
Proof. unfold fdiv. destruct (Req_EM_T b 0); auto. discriminate. Qed.

Lemma cfl_velocity_ok factor cells : (0 < factor)%R -> (forall c, In c cells -> (0 < fst c)%R) ->
  exists dt, cfl_velocity factor cells = Ok dt /\ (0 < dt <= cfl_huge)%R /\
    (forall c, In c cells -> (dt * throughput (snd c) <= factor * fst c)%R) /\
    (dt = cfl_huge \/ exists c, In c cells /\ (throughput (snd c) <> 0 /\ dt * throughput (snd c) = factor * fst c)%R).
Proof.
  intros Hf. unfold cfl_velocity.
  assert (G : forall l d0, (forall c, In c l -> (0 < fst c)%R) -> (0 < d0)%R ->
    exists dt, foldM (fun dt c => match fdiv (factor * fst c)%R (cell_flux (snd c)) with
      | None => Ok dt | Some x => if Req_EM_T x 0 then Throw else Ok (if Rltb x dt then x else dt) end) l d0 = Ok dt /\ (0 < dt <= d0)%R /\
      (forall c, In c l -> (dt * throughput (snd c) <= factor * fst c)%R) /\
      (dt = d0 \/ exists c, In c l /\ (throughput (snd c) <> 0 /\ dt * throughput (snd c) = factor * fst c)%R)).
  { induction l as [|c l IH]; intros d0 Hp Hd; cbn [foldM].
    - exists d0. split; auto. split; [lra|]. split; [intros c []|auto].
    - rewrite cell_flux_spec. pose proof (throughput_nonneg (snd c)) as Tn. pose proof (Hp c (or_introl eq_refl)) as Pc.
      destruct (fdiv (factor * fst c) (throughput (snd c))) as [x|] eqn:E.
      + destruct (fdiv_inv' _ _ _ E) as (N & X). assert (0 < x)%R by nra. destruct (Req_EM_T x 0); [lra|]. cbn [bind].
        set (d1 := if Rltb x d0 then x else d0). assert (D1 : (0 < d1 <= d0)%R /\ (d1 <= x)%R /\ (d1 = d0 \/ d1 = x)).
        { unfold d1. destruct (Rltb_spec x d0); repeat split; try lra; auto. }
        clearbody d1. destruct (IH d1) as (dt & E2 & B & C & D); [intros; apply Hp; right; auto|lra|].
        exists dt. split; auto. split; [lra|]. split.
        * intros c' [<-|I]; auto. nra.
        * destruct D as [->|(c' & I & Q)]; [|right; exists c'; split; [right|]; auto].
          destruct D1 as (_ & _ & [-> | ->]); auto. right. exists c. split; [left|]; auto.
      + cbn [bind]. pose proof (fdiv_None' _ _ E) as Z0. destruct (IH d0) as (dt & E2 & B & C & D); [intros; apply Hp; right; auto|lra|].
        exists dt. split; auto. split; [lra|]. split.
        * intros c' [<-|I]; auto. rewrite Z0. nra.
        * destruct D as [->|(c' & I & Q)]; auto. right; exists c'; split; [right|]; auto. }
  intros Hp. apply G; auto. apply cfl_huge_pos.
Qed.

Lemma cfl_velocity_throw factor cells : 
  cfl_velocity factor cells = Throw <-> exists c, In c cells /\ (throughput (snd c) <> 0 /\ factor * fst c = 0)%R.
Proof.
  unfold cfl_velocity. generalize cfl_huge. induction cells as [|c l IH]; intros d0; cbn [foldM].
  - split; [discriminate|intros (c & [] & _)].
  - rewrite cell_flux_spec. destruct (fdiv (factor * fst c) (throughput (snd c))) as [x|] eqn:E.
    + destruct (fdiv_inv' _ _ _ E) as (N & X). destruct (Req_EM_T x 0).
      * subst x. cbn [bind]. split; auto. intros _. exists c. split; [left; auto|]. split; auto. lra.
      * cbn [bind]. rewrite IH. split; intros (c' & I & Q); [exists c'; split; [right|]; auto|].
        destruct I as [<-|I]; [|eauto]. exfalso. destruct Q as (Q1 & Q2). assert (x * throughput (snd c) = 0)%R by lra.
        apply Rmult_integral in H. tauto.
    + cbn [bind]. rewrite IH. pose proof (fdiv_None' _ _ E) as Z0. split; intros (c' & I & Q); [exists c'; split; [right|]; auto|].
      destruct I as [<-|I]; [|eauto]. tauto.
Qed.

Definition inflow (l : list R) : R := Rsum (map (fun x => Rmax x 0) l).
Lemma pos_acc l : fold_left (fun a x => if Rltb 0 x then (a + x)%R else a) l 0%R = inflow l.
Proof.
  unfold inflow. assert (G : forall l a, fold_left (fun a x => if Rltb 0 x then (a + x)%R else a) l a = (a + Rsum (map (fun x => Rmax x 0) l))%R).
  { induction l0 as [|x l0 IH]; intros a; cbn [fold_left map]; [rewrite Rsum_nil; ring|]. rewrite Rsum_cons, IH.
    destruct (Rltb_spec 0 x); [rewrite Rmax_left by lra|rewrite Rmax_right by lra]; ring. }
  rewrite G. ring.
Qed.
Lemma cfl_gravity_ok factor cells : (0 < factor)%R -> (forall c, In c cells -> (0 < fst c)%R) ->
  let dt := cfl_gravity factor cells in (0 < dt <= cfl_huge)%R /\
    (forall c, In c cells -> (dt * Rsum (map (fun x => Rmax x 0) (snd c)) <= factor * fst c)%R) /\
    (dt = cfl_huge \/ exists c, In c cells /\ (Rsum (map (fun x => Rmax x 0) (snd c)) <> 0 /\ dt * Rsum (map (fun x => Rmax x 0) (snd c)) = factor * fst c)%R).
Proof.
  intros Hf. unfold cfl_gravity.
  change (fun c : R * list R => (Rsum (map (fun x => Rmax x 0) (snd c)))) with (fun c : R * list R => inflow (snd c)).
  assert (G : forall l d0, (forall c, In c l -> (0 < fst c)%R) -> (0 < d0)%R ->
    let dt := fold_left (fun dt c =>
      match fdiv (factor * fst c)%R (fold_left (fun a x => if Rltb 0 x then (a + x)%R else a) (snd c) 0%R) with
      | None => dt
      | Some x => if Rltb x dt then x else dt
      end) l d0 in (0 < dt <= d0)%R /\
      (forall c, In c l -> (dt * inflow (snd c) <= factor * fst c)%R) /\
      (dt = d0 \/ exists c, In c l /\ (inflow (snd c) <> 0 /\ dt * inflow (snd c) = factor * fst c)%R)).
  { cbv zeta. induction l as [|c l IH]; intros d0 Hp Hd; cbn [fold_left].
    - split; [lra|]. split; [intros c []|auto].
    - rewrite pos_acc. assert (Tn : (0 <= inflow (snd c))%R) by (apply Rsum_map_nonneg; intros; apply Rmax_r).
      pose proof (Hp c (or_introl eq_refl)) as Pc.
      assert (exists d1, match fdiv (factor * fst c) (inflow (snd c)) with Some x => if Rltb x d0 then x else d0 | None => d0 end = d1 /\
        (0 < d1 <= d0)%R /\ (d1 * inflow (snd c) <= factor * fst c)%R /\ (d1 = d0 \/ (inflow (snd c) <> 0 /\ d1 * inflow (snd c) = factor * fst c)%R)) as (d1 & E & B1 & B2 & B3).
      { destruct (fdiv (factor * fst c) (inflow (snd c))) as [x|] eqn:E; eexists; (split; [reflexivity|]).
        - destruct (fdiv_inv' _ _ _ E) as (N & X). assert (0 < x)%R by nra. destruct (Rltb_spec x d0); split; try lra; split; auto; try nra.
        - pose proof (fdiv_None' _ _ E) as Z0. split; [lra|]. split; auto. rewrite Z0. nra. }
      rewrite E. destruct (IH d1) as (B & C & D); [intros; apply Hp; right; auto|lra|].
      revert B C D. set (dt := fold_left _ l d1). clearbody dt. intros.
      split; [lra|]. split.
      + intros c' [<-|I]; auto. nra.
      + destruct D as [->|(c' & I & Q)]; [|right; exists c'; split; [right|]; auto].
        destruct B3 as [->|B3]; auto. right. exists c. split; [left|]; auto. }
  intros Hp. apply G; auto. apply cfl_huge_pos.
Qed.
Lemma gravity_flux_ok K n g drho area : gravity_flux K n g drho area = (area * (drho * vdot n (mvec K g)))%R.
Proof.
  unfold gravity_flux. change (pairs (zrange 0 3) (zrange 0 3)) with [(0,0);(0,1);(0,2);(1,0);(1,1);(1,2);(2,0);(2,1);(2,2)].
  cbn [fold_left fst snd]. destruct n as [[a b] c], g as [[x y] z]. unfold vdot, mvec, vdot. cbn. ring.
Qed.

Lemma cfl_capillary_ok factor l : (0 < factor)%R ->
  exists dt, cfl_capillary factor l = Ok dt /\ (dt <= cfl_huge)%R /\ (forall x, In x l -> (dt * factor <= x)%R) /\
    (dt = cfl_huge \/ exists x, In x l /\ (dt * factor = x)%R).
Proof.
  intros Hf. unfold cfl_capillary. generalize cfl_huge. induction l as [|x l IH]; intros d0; cbn [foldM].
  - exists d0. split; auto. split; [lra|]. split; [intros x []|auto].
  - rewrite fdiv_Some by lra. cbn [bind]. set (q := (x / factor)%R). assert (X : (q * factor = x)%R) by (unfold q; field; lra).
    destruct (IH (smin d0 q)) as (dt & E & B & C & D). rewrite smin_Rmin in *. exists dt. split; auto.
    assert (dt <= d0)%R by (eapply Rle_trans; [exact B|apply Rmin_l]). assert (dt <= q)%R by (eapply Rle_trans; [exact B|apply Rmin_r]).
    split; auto. split.
    + intros y [<-|I]; auto. nra.
    + destruct D as [->|(y & I & Q)]; [|right; exists y; split; [right|]; auto].
      unfold Rmin in *. destruct (Rle_dec d0 q); auto. right. exists x. split; [left|]; auto.
Qed.

Lemma cfl_time_ok courant v g c : (0 <= courant)%R ->
  let t := cfl_time courant v g c in
  (forall x, v = Some x \/ g = Some x \/ c = Some x -> (t <= courant * x)%R) /\
  ((t = courant * cfl_start)%R \/ exists x, (v = Some x \/ g = Some x \/ c = Some x) /\ (t = courant * x)%R).
Proof.
  intros Hc. unfold cfl_time. cbv zeta. rewrite !smin_Rmin.
  set (d := fun o : option R => match o with Some x => x | None => cfl_start end).
  match goal with |- context [(?r * courant)%R] => change r with (Rmin (Rmin (d v) (d g)) (d c)) end.
  set (m := Rmin (Rmin (d v) (d g)) (d c)).
  assert (M : (m <= d v)%R /\ (m <= d g)%R /\ (m <= d c)%R /\ (m = d v \/ m = d g \/ m = d c)).
  { unfold m, Rmin. repeat destruct (Rle_dec _ _); repeat split; try lra; auto. }
  clearbody m. destruct M as (M1 & M2 & M3 & M4). split.
  - intros x [-> | [-> | ->]]; (rewrite Rmult_comm; apply Rmult_le_compat_l; assumption).
  - assert (Q : forall o, m = d o -> (m * courant = courant * cfl_start)%R \/ exists x, o = Some x /\ (m * courant = courant * x)%R).
    { intros o ->. unfold d. destruct o as [x|]; [right; exists x; split; auto; ring|left; ring]. }
    destruct M4 as [E|[E|E]]; apply Q in E; (destruct E as [E|(x & E & F)]; [auto|right; exists x; split; auto]).
Qed.

(* ---- C52 *)
Lemma psv_ok pv sat : zlen sat = zlen pv ->
  pore_sat_volumes pv sat = Ok (Rsum pv, Rsum (map (fun i => nthR pv i * nthR sat i)%R (zrange 0 (zlen pv)))).
Proof.
  intros L. unfold pore_sat_volumes.
  assert (G : forall l a, (forall i, In i l -> 0 <= i < zlen pv) ->
     foldM (fun a i => let* v := rget pv i in let* s := rget sat i in Ok ((fst a + v)%R, (snd a + v * s)%R)) l a
     = Ok ((fst a + Rsum (map (nthR pv) l))%R, (snd a + Rsum (map (fun i => nthR pv i * nthR sat i)%R l))%R)).
  { induction l as [|i l IH]; intros [a b] H; cbn [foldM map].
    - cbn [fst snd]. rewrite ?Rsum_nil. do 2 f_equal; ring.
    - pose proof (H i (or_introl eq_refl)). rewrite (proj2 (rget_Ok _ _ _) (zget_nthR pv i ltac:(lia))), (proj2 (rget_Ok _ _ _) (zget_nthR sat i ltac:(lia))).
      cbn [bind]. rewrite IH by (intros; apply H; right; auto). cbn [fst snd]. rewrite !Rsum_cons. do 2 f_equal; ring. }
  rewrite G by (intros i I; apply In_zrange in I; lia). cbn [fst snd]. rewrite !Rplus_0_l. do 3 f_equal.
  apply zlist_ext.
  - rewrite zlen_map, zlen_zrange; pose proof (zlen_nonneg pv); lia.
  - intros i Hi. rewrite zlen_map, zlen_zrange in Hi by (pose proof (zlen_nonneg pv); lia).
    rewrite zget_map, zget_zrange by lia. cbn. symmetry. rewrite zget_nthR by lia. reflexivity.
Qed.

Lemma match_ok pv inv orig cp dp : zlen orig = zlen pv -> zlen cp = zlen pv -> (0 < Rsum pv)%R ->
  match_volume pv inv orig cp dp =
  Ok (Some ((water_volume pv (fun i => inv i (nthR cp i + dp)%R) - water_volume pv (nthR orig)) / Rsum pv)%R).
Proof.
  intros Lo Lc Hp. unfold match_volume. rewrite psv_ok by auto. cbn [bind].
  rewrite (mapM_all_Ok _ (fun c => inv c (nthR cp c + dp)%R)).
  2:{ intros i I. apply In_zrange in I. rewrite (proj2 (rget_Ok _ _ _) (zget_nthR cp i ltac:(lia))). reflexivity. }
  cbn [bind]. pose proof (zlen_nonneg pv). rewrite psv_ok by (rewrite zlen_map, zlen_zrange; lia). cbn [bind fst snd].
  rewrite fdiv_Some by lra. do 3 f_equal. unfold water_volume. f_equal. apply Rsum_map_ext. intros i I. apply In_zrange in I.
  f_equal. apply nthR_get. rewrite zget_map, zget_zrange by lia. cbn. reflexivity.
Qed.
Lemma match_zero pv inv orig cp dp : zlen orig = zlen pv -> zlen cp = zlen pv -> (0 < Rsum pv)%R ->
  (match_volume pv inv orig cp dp = Ok (Some 0%R) <->
   water_volume pv (fun i => inv i (nthR cp i + dp)%R) = water_volume pv (nthR orig)).
Proof.
  intros Lo Lc Hp. rewrite match_ok by auto. split.
  - intros H. injection H as H. unfold Rdiv in H. apply Rmult_integral in H. destruct H as [H|H]; [lra|].
    apply Rinv_neq_0_compat in H; [tauto|lra].
  - intros ->. do 2 f_equal. unfold Rdiv. ring.
Qed.
Lemma match_mono pv inv orig cp d1 d2 x1 x2 : zlen orig = zlen pv -> zlen cp = zlen pv -> (0 < Rsum pv)%R ->
  (forall i, 0 <= i < zlen pv -> (0 <= nthR pv i)%R) ->
  (forall c p q, (p <= q -> inv c q <= inv c p)%R) -> (d1 <= d2)%R ->
  match_volume pv inv orig cp d1 = Ok (Some x1) -> match_volume pv inv orig cp d2 = Ok (Some x2) -> (x2 <= x1)%R.
Proof.
  intros Lo Lc Hp Hv Hi Hd. rewrite !match_ok by auto. intros E1 E2. injection E1 as <-. injection E2 as <-.
  unfold Rdiv. apply Rmult_le_compat_r; [apply Rlt_le, Rinv_0_lt_compat; auto|].
  assert (water_volume pv (fun i => inv i (nthR cp i + d2)%R) <= water_volume pv (fun i => inv i (nthR cp i + d1)%R))%R; [|lra].
  unfold water_volume. apply Rsum_map_le. intros i I. apply In_zrange in I. apply Rmult_le_compat_l; [apply Hv; lia|]. apply Hi. lra.
Qed.
