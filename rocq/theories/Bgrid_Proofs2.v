(* Proofs about the branches of the cubic solver that take cube roots. *)
From Verif Require Import RBaseFacts Bgrid_Spec Bgrid_Proofs.
Open Scope R_scope.

Lemma Rpower_third x : 0 < x -> Rpower x (1 / 3) * Rpower x (1 / 3) * Rpower x (1 / 3) = x.
Proof.
  intro H. rewrite <- !Rpower_plus. replace (1 / 3 + 1 / 3 + 1 / 3) with 1 by field. now apply Rpower_1.
Qed.
Lemma Rpower_pos x t : 0 < Rpower x t.
Proof. apply exp_pos. Qed.
Lemma cbrt_exists x : 0 <= x -> exists c, 0 <= c /\ c * c * c = x.
Proof.
  intros [H | <-].
  - exists (Rpower x (1 / 3)). split; [apply Rlt_le, Rpower_pos | now apply Rpower_third].
  - exists 0. split; lra.
Qed.
Lemma cube_inj a b : a * a * a = b * b * b -> a = b.
Proof.
  intro H. assert (E : (a - b) * (a * a + a * b + b * b) = 0) by (ring_simplify; lra).
  apply Rmult_integral in E. destruct E as [E|E]; [lra|].
  assert (H0 : (2 * a + b) * (2 * a + b) + 3 * (b * b) = 0) by (ring_simplify in E; ring_simplify; lra).
  assert (0 <= (2 * a + b) * (2 * a + b)) by apply Rle_0_sqr.
  assert (0 <= b * b) by apply Rle_0_sqr.
  assert (Hb : b * b = 0) by lra. apply Rmult_integral in Hb.
  assert (b = 0) by tauto. subst b. assert (H4 : a * a = 0) by lra. apply Rmult_integral in H4. lra.
Qed.

Section Cubic.
Context (eps A B C D : R) (He : 0 < eps) (HA : eps < Rabs A).
Let P := (C - B * B / (3 * A)) / (3 * A).
Let Q := ((2 * B * B / (27 * A) - C / 3) * B / A + D) / (2 * A).
Let W := Q * Q + P * P * P.
Let e6 : 0 < eps ^ 6.
Proof. apply pow_lt, He. Qed.
Let A0 : A <> 0.
Proof. apply (A_ne eps); [lra | exact HA]. Qed.
Let dep x : poly A B C D x = A * ((x + B / (3 * A)) ^ 3 + 3 * P * (x + B / (3 * A)) + 2 * Q).
Proof. apply (poly_dep' eps); [lra | exact HA]. Qed.

(* a double root *)
Lemma cubic_double : W = 0 -> Q < 0 ->
  exists x0 x1, cubic_solve (1 / 3) eps A B C D = Some [Some x0; Some x1; Some x1] /\
    forall x, poly A B C D x = A * ((x - x0) * (x - x1) * (x - x1)).
Proof.
  intros HW HQ. unfold cubic_solve. rewrite (Rltb_t _ _ HA). unfold cubic_part. fold P Q. fold W.
  rewrite (Rleb_f W) by lra. cbn [andb]. rewrite (Rltb_t (Rabs W)), (Rltb_t _ _ HQ).
  2: { rewrite HW, Rabs_R0. exact e6. }
  cbn [andb]. unfold fpow. rewrite Rltb_t by lra. cbn [omap map].
  eexists; eexists; split; [reflexivity|]. intro x. rewrite dep.
  assert (Hq : Rpower (- Q) (1 / 3) * Rpower (- Q) (1 / 3) * Rpower (- Q) (1 / 3) = - Q) by (apply Rpower_third; lra).
  set (q := Rpower (- Q) (1 / 3)) in *.
  assert (HP : P = - (q * q)).
  { apply cube_inj. replace (- (q * q) * - (q * q) * - (q * q)) with (- ((q * q * q) * (q * q * q))) by ring.
    rewrite Hq. unfold W in HW. lra. }
  rewrite HP. replace Q with (- (q * q * q)) by lra. f_equal. field. exact A0.
Qed.

(* one real root: the other two numbers returned are not roots *)
Lemma one_root_unique t0 x : t0 ^ 3 + 3 * P * t0 + 2 * Q = 0 -> 0 < t0 * t0 + 4 * P ->
  poly A B C D x = 0 -> x = t0 - B / (3 * A).
Proof.
  intros H0 Hd H. rewrite dep in H. apply Rmult_integral in H. destruct H as [H|H]; [tauto|].
  set (t := x + B / (3 * A)) in *.
  assert (E : (t - t0) * (t * t + t * t0 + t0 * t0 + 3 * P) = 0) by (ring_simplify; ring_simplify in H; ring_simplify in H0; lra).
  apply Rmult_integral in E. destruct E as [E|E]; [unfold t in *; lra|].
  assert (0 <= (2 * t + t0) * (2 * t + t0)) by apply Rle_0_sqr.
  assert ((2 * t + t0) * (2 * t + t0) + 3 * (t0 * t0 + 4 * P) = 4 * (t * t + t * t0 + t0 * t0 + 3 * P)) by ring.
  lra.
Qed.

Lemma cubic_one : eps ^ 6 <= W -> Q < 0 -> P < 0 ->
  exists x0 x1, cubic_solve (1 / 3) eps A B C D = Some [Some x0; Some x1; Some x1] /\
    poly A B C D x0 = 0 /\ (forall x, poly A B C D x = 0 -> x = x0) /\ x1 <> x0.
Proof.
  intros HW HQ HP. assert (HW0 : 0 < W) by lra.
  pose proof (sqrt_def W ltac:(lra)) as Hw. pose proof (sqrt_lt_R0 W HW0) as Hw0. set (w := sqrt W) in *.
  assert (HPPP : P * P * P < 0).
  { assert (0 < - P * - P) by (apply Rmult_lt_0_compat; lra).
    assert (0 < - P * - P * - P) by (apply Rmult_lt_0_compat; lra). lra. }
  assert (Hwq : Q + w < 0).
  { assert (w * w < Q * Q) by (rewrite Hw; unfold W; lra). nra. }
  unfold cubic_solve. rewrite (Rltb_t _ _ HA). unfold cubic_part. fold P Q. fold W. fold w.
  rewrite (Rleb_f W) by lra. cbn [andb]. rewrite (Rltb_f (Rabs W)) by (rewrite Rabs_right; lra). cbn [andb].
  rewrite (Rltb_t (- eps ^ 6)), (Rleb_t 0 W), (Rltb_t (Q + w)), (Rltb_t (Q - w)) by lra. cbn [andb].
  unfold fpow. rewrite (Rltb_t 0 (- Q + w)), (Rltb_t 0 (- Q - w)) by lra. cbn [omap map].
  pose proof (Rpower_third (- Q + w) ltac:(lra)) as Ha. pose proof (Rpower_third (- Q - w) ltac:(lra)) as Hb.
  pose proof (Rpower_pos (- Q + w) (1 / 3)) as Ha0. pose proof (Rpower_pos (- Q - w) (1 / 3)) as Hb0.
  set (a := Rpower (- Q + w) (1 / 3)) in *. set (b := Rpower (- Q - w) (1 / 3)) in *.
  assert (Hab : P = - (a * b)).
  { apply cube_inj. replace (- (a * b) * - (a * b) * - (a * b)) with (- ((a * a * a) * (b * b * b))) by ring.
    rewrite Ha, Hb. unfold W in Hw. ring_simplify. ring_simplify in Hw. lra. }
  assert (Hroot : (a + b) ^ 3 + 3 * P * (a + b) + 2 * Q = 0).
  { rewrite Hab. replace (2 * Q) with (- (a * a * a + b * b * b)) by (rewrite Ha, Hb; ring). ring. }
  eexists; eexists; split; [reflexivity|]. split; [|split].
  - rewrite dep. replace (a + b - B / (3 * A) + B / (3 * A)) with (a + b) by ring. rewrite Hroot. ring.
  - intros x Hx. apply one_root_unique; [exact Hroot | | exact Hx].
    rewrite Hab. replace ((a + b) * (a + b) + 4 * - (a * b)) with ((a - b) * (a - b)) by ring.
    assert (a <> b). { intro E. rewrite E in Ha. lra. }
    apply Rsqr_pos_lt. lra.
  - lra.
Qed.

Lemma cubic_one_pos : eps ^ 6 <= W -> eps ^ 6 < Q -> 0 < P ->
  exists x0 x1, cubic_solve (1 / 3) eps A B C D = Some [Some x0; Some x1; Some x1] /\
    poly A B C D x0 = 0 /\ (forall x, poly A B C D x = 0 -> x = x0) /\ x1 <> x0.
Proof.
  intros HW HQ HP. assert (HW0 : 0 < W) by lra.
  unfold cubic_solve. rewrite (Rltb_t _ _ HA). unfold cubic_part. fold P Q. fold W.
  rewrite (Rleb_f W) by lra. cbn [andb]. rewrite (Rltb_f (Rabs W)) by (rewrite Rabs_right; lra). cbn [andb].
  pose proof (sqrt_lt_R0 W HW0) as Hw0.
  rewrite (Rltb_f (Q + sqrt W)) by lra. rewrite !andb_false_r. cbn [andb].
  rewrite (Rleb_t _ _ HW), (Rltb_t (eps ^ 6)), (Rltb_t _ _ HP) by (rewrite Rabs_right; lra). cbn [andb].
  pose proof (sqrt_def P ltac:(lra)) as Hr. pose proof (sqrt_lt_R0 P HP) as Hr0. set (r := sqrt P) in *.
  assert (Hs : sqrt (P * P * P) = r * r * r).
  { replace (P * P * P) with ((r * r * r) * (r * r * r)) by (rewrite <- Hr; ring).
    apply sqrt_square. apply Rlt_le. repeat apply Rmult_lt_0_compat; assumption. }
  rewrite Hs. assert (Hr3 : 0 < r * r * r) by (repeat apply Rmult_lt_0_compat; assumption).
  set (F := atan _). assert (Ht : tan F = r * r * r / Q) by apply tan_atan.
  assert (HF : 0 < F < PI / 2).
  { split; [rewrite <- atan_0; apply atan_increasing, Rdiv_lt_0_compat; lra | apply (proj2 (atan_bound _))]. }
  pose proof PI_RGT_0 as Hpi.
  set (u := tan (1 / 2 * F)).
  assert (Hu0 : 0 < u) by (apply tan_gt_0; lra).
  assert (Hu1 : u < 1).
  { assert (Hi : u < tan (PI / 4)) by (unfold u; apply tan_increasing; lra). rewrite tan_PI4 in Hi. exact Hi. }
  assert (Hu : tan F = 2 * u / (1 - u * u)).
  { unfold u. replace F with (2 * (1 / 2 * F)) at 1 by field. apply tan_2a.
    - apply Rgt_not_eq, cos_gt_0; lra.
    - replace (2 * (1 / 2 * F)) with F by field. apply Rgt_not_eq, cos_gt_0; lra.
    - fold u. nra. }
  unfold fpow. rewrite (Rltb_t _ _ Hu0). cbn [omap map].
  pose proof (Rpower_third u Hu0) as Hk. pose proof (Rpower_pos u (1 / 3)) as Hk0. set (k := Rpower u (1 / 3)) in *.
  assert (Hk1 : k < 1). { destruct (Rlt_dec k 1); [assumption|]. assert (1 <= k * k) by nra. assert (1 <= k * k * k) by nra. lra. }
  assert (HK : 0 < atan k < PI / 4).
  { split; [rewrite <- atan_0; now apply atan_increasing | rewrite <- atan_1; now apply atan_increasing]. }
  assert (Hkk : k * k < 1) by nra.
  assert (HT : tan (atan k + atan k) = 2 * k / (1 - k * k)).
  { replace (atan k + atan k) with (2 * atan k) by ring. rewrite tan_2a; rewrite ?tan_atan.
    - reflexivity.
    - apply Rgt_not_eq, cos_gt_0; lra.
    - apply Rgt_not_eq, cos_gt_0; lra.
    - lra. }
  rewrite HT. set (t0 := - 2 * r / (2 * k / (1 - k * k))).
  assert (Ht0 : t0 = r * (k - / k)) by (unfold t0; field; lra).
  assert (HQ2 : 2 * Q = r * r * r * (/ u - u)).
  { rewrite Ht in Hu. assert (u * u < 1) by nra.
    assert (E : r * r * r * (1 - u * u) = 2 * u * Q).
    { apply (Rmult_eq_reg_r (/ (Q * (1 - u * u)))).
      - transitivity (r * r * r / Q); [field; split; lra|]. rewrite Hu. field. split; lra.
      - apply Rinv_neq_0_compat. apply Rmult_integral_contrapositive_currified; lra. }
    apply (Rmult_eq_reg_r u); [|lra]. transitivity (2 * u * Q); [ring|]. rewrite <- E. field. lra. }
  assert (Hroot : t0 ^ 3 + 3 * P * t0 + 2 * Q = 0).
  { rewrite HQ2, Ht0, <- Hr. rewrite <- Hk. field. lra. }
  eexists; eexists; split; [reflexivity|]. split; [|split].
  - rewrite dep. replace (t0 - B / (3 * A) + B / (3 * A)) with t0 by ring. rewrite Hroot. ring.
  - intros x Hx. apply one_root_unique; [exact Hroot | | exact Hx].
    assert (0 <= t0 * t0) by apply Rle_0_sqr. lra.
  - assert (t0 < 0).
    { rewrite Ht0. assert (1 < / k) by (rewrite <- Rinv_1; apply Rinv_lt_contravar; lra). nra. }
    lra.
Qed.

(* the same with a root to the right: the result is three times NaN *)
Lemma cubic_nan third : eps ^ 6 <= W -> Q < - eps ^ 6 -> 0 < P ->
  cubic_solve third eps A B C D = Some [None; None; None].
Proof.
  intros HW HQ HP. assert (HW0 : 0 < W) by lra.
  unfold cubic_solve. rewrite (Rltb_t _ _ HA). unfold cubic_part. fold P Q. fold W.
  rewrite (Rleb_f W) by lra. cbn [andb]. rewrite (Rltb_f (Rabs W)) by (rewrite Rabs_right; lra). cbn [andb].
  pose proof (sqrt_lt_R0 W HW0) as Hw0. pose proof (sqrt_def W ltac:(lra)) as Hw.
  assert (HPPP : 0 < P * P * P) by (apply Rmult_lt_0_compat; [apply Rmult_lt_0_compat; exact HP | exact HP]).
  rewrite (Rltb_f (Q + sqrt W)).
  2: { assert (Q * Q < sqrt W * sqrt W) by (rewrite Hw; unfold W; lra). nra. }
  rewrite !andb_false_r. cbn [andb].
  rewrite (Rleb_t _ _ HW), (Rltb_t (eps ^ 6)), (Rltb_t _ _ HP) by (rewrite Rabs_left; lra). cbn [andb].
  set (F := atan _).
  assert (HF : - (PI / 2) < F < 0).
  { split.
    - replace (- (PI / 2)) with (- PI / 2) by field. apply (proj1 (atan_bound _)).
    - rewrite <- atan_0. apply atan_increasing. unfold Rdiv.
      assert (0 < sqrt (P * P * P)) by now apply sqrt_lt_R0.
      assert (/ Q < 0) by (apply Rinv_lt_0_compat; lra). nra. }
  pose proof PI_RGT_0.
  assert (Hu : tan (1 / 2 * F) < 0) by (apply tan_lt_0; lra).
  unfold fpow. rewrite Rltb_f by lra. destruct (Req_EM_T _ 0); [lra|]. reflexivity.
Qed.

(* the only real root is not found when it lies to the left *)
Lemma cubic_missed third : 0 <= W -> 0 <= Q -> P <= 0 ->
  cubic_solve third eps A B C D = None /\ exists x, poly A B C D x = 0.
Proof.
  intros HW HQ HP. pose proof (sqrt_def W HW) as Hw. pose proof (sqrt_pos W) as Hw0. split.
  - unfold cubic_solve. rewrite (Rltb_t _ _ HA). unfold cubic_part. fold P Q. fold W.
    rewrite (Rleb_f W) by lra. cbn [andb]. rewrite (Rltb_f Q 0) by lra. rewrite andb_false_r.
    rewrite (Rltb_f (Q + sqrt W)) by lra. rewrite !andb_false_r. cbn [andb].
    rewrite (Rltb_f 0 P) by lra. rewrite !andb_false_r. reflexivity.
  - set (w := sqrt W) in *.
    assert (HPPP : P * P * P <= 0).
    { assert (0 <= - P * - P) by (apply Rmult_le_pos; lra).
      assert (0 <= - P * - P * - P) by (apply Rmult_le_pos; lra). lra. }
    assert (Hwq : w <= Q). { assert (w * w <= Q * Q) by (rewrite Hw; unfold W; lra). nra. }
    destruct (cbrt_exists (Q + w) ltac:(lra)) as (a & Ha0 & Ha).
    destruct (cbrt_exists (Q - w) ltac:(lra)) as (b & Hb0 & Hb).
    assert (Hab : P = - (a * b)).
    { apply cube_inj. replace (- (a * b) * - (a * b) * - (a * b)) with (- ((a * a * a) * (b * b * b))) by ring.
      rewrite Ha, Hb. unfold W in Hw. ring_simplify. ring_simplify in Hw. lra. }
    exists (- (a + b) - B / (3 * A)). rewrite dep.
    replace (- (a + b) - B / (3 * A) + B / (3 * A)) with (- (a + b)) by ring.
    replace (2 * Q) with (a * a * a + b * b * b) by (rewrite Ha, Hb; ring). rewrite Hab. ring.
Qed.
End Cubic.

(* with the single precision exponent of the code even the one number that ought to be a root is not *)
Lemma third_ne : 1 / 3 < single_third.
Proof. unfold single_third. lra. Qed.
Lemma single_not_root :
  exists x0 x1, cubic_solve single_third (1 / 100000000) 1 0 (-6) (-9) = Some [Some x0; Some x1; Some x1] /\
    poly 1 0 (-6) (-9) 3 = 0 /\ (forall x, poly 1 0 (-6) (-9) x = 0 -> x = 3) /\ 3 < x0 /\ x1 < 0.
Proof.
  assert (e6 : 0 < (1 / 100000000) ^ 6) by (apply pow_lt; lra).
  assert (e6' : (1 / 100000000) ^ 6 < 1).
  { replace 1 with (1 ^ 6) at 2 by ring. rewrite <- (Rpower_pow 6) by lra. rewrite <- (Rpower_pow 6) by lra.
    apply Rlt_Rpower_l; cbn; lra. }
  unfold cubic_solve. rewrite Rltb_t by (rewrite Rabs_R1; lra). unfold cubic_part.
  replace ((-6 - 0 * 0 / (3 * 1)) / (3 * 1)) with (-2) by field.
  replace (((2 * 0 * 0 / (27 * 1) - -6 / 3) * 0 / 1 + -9) / (2 * 1)) with (- (9 / 2)) by field.
  replace (- (9 / 2) * - (9 / 2) + -2 * -2 * -2) with ((7 / 2) * (7 / 2)) by field.
  rewrite sqrt_square by lra.
  rewrite Rleb_f by lra. cbn [andb]. rewrite (Rltb_f (Rabs _)) by (rewrite Rabs_right; lra). cbn [andb].
  rewrite !(Rltb_t (- _)), (Rleb_t 0) by lra. cbn [andb]. rewrite !Rltb_t by lra. cbn [andb].
  unfold fpow. rewrite !Rltb_t by lra. cbn [omap map].
  replace (- - (9 / 2) + 7 / 2) with 8 by field. replace (- - (9 / 2) - 7 / 2) with 1 by field.
  assert (H1 : Rpower 1 single_third = 1) by (unfold Rpower; rewrite ln_1, Rmult_0_r; apply exp_0).
  assert (H8 : 2 < Rpower 8 single_third).
  { assert (E : Rpower 8 (1 / 3) = 2).
    { apply cube_inj. rewrite Rpower_third by lra. lra. }
    rewrite <- E. apply Rpower_lt; [lra | apply third_ne]. }
  rewrite H1. eexists; eexists; split; [reflexivity|].
  split; [unfold poly; ring|]. split; [|split; lra].
  intros x Hx. unfold poly in Hx.
  assert (E : (x - 3) * (x * x + 3 * x + 3) = 0) by (ring_simplify; ring_simplify in Hx; lra).
  apply Rmult_integral in E. destruct E as [E|E]; [lra|].
  assert (0 <= (2 * x + 3) * (2 * x + 3)) by apply Rle_0_sqr. lra.
Qed.
