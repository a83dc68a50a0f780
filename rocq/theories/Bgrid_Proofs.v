(* Proofs about the root finders. *)
From Verif Require Import RBaseFacts Bgrid_Spec.
Open Scope R_scope.

Ltac rb :=
  repeat match goal with
  | H : Rltb _ _ = true |- _ => apply Rltb_true in H
  | H : Rltb _ _ = false |- _ => apply Rltb_false in H
  | H : Rleb _ _ = true |- _ => apply Rleb_true in H
  | H : Rleb _ _ = false |- _ => apply Rleb_false in H
  end.

Lemma Rltb_t x y : x < y -> Rltb x y = true.
Proof. intro; now apply Rltb_true. Qed.
Lemma Rltb_f x y : y <= x -> Rltb x y = false.
Proof. intro; now apply Rltb_false. Qed.
Lemma Rleb_t x y : x <= y -> Rleb x y = true.
Proof. intro; now apply Rleb_true. Qed.
Lemma Rleb_f x y : y < x -> Rleb x y = false.
Proof. intro; now apply Rleb_false. Qed.

Lemma abs_pos_ne eps x : 0 <= eps -> eps < Rabs x -> x <> 0.
Proof. intros H G ->. rewrite Rabs_R0 in G. lra. Qed.

(* ---- the quadratic and the linear part *)
Lemma quadratic_two third eps A B C D :
  0 <= eps -> Rabs A <= eps -> eps < Rabs B -> 0 <= C * C - 4 * B * D ->
  0 < eps \/ 0 < C * C - 4 * B * D ->
  exists x0 x1, cubic_solve third eps A B C D = Some [Some x0; Some x1] /\
    forall x, B * x ^ 2 + C * x + D = B * ((x - x0) * (x - x1)).
Proof.
  intros He HA HB HP Hs. pose proof (abs_pos_ne _ _ He HB) as HB0.
  unfold cubic_solve. rewrite (Rltb_f _ _ HA), (Rltb_t _ _ HB).
  destruct (Rltb 0 (C * C - 4 * B * D)) eqn:E; rb.
  - eexists; eexists; split; [reflexivity|]. intro x.
    pose proof (sqrt_def (C * C - 4 * B * D) HP) as Hq. set (q := sqrt _) in *.
    assert (HD : D = (C * C - q * q) / (4 * B)) by (rewrite Hq; field; lra). rewrite HD. field. lra.
  - assert (C * C - 4 * B * D = 0) by lra.
    rewrite Rltb_t by (assert (0 < eps ^ 4) by (apply pow_lt; lra); lra).
    eexists; eexists; split; [reflexivity|]. intro x.
    assert (HD : D = (C * C) / (4 * B)) by (replace (C * C) with (4 * B * D) by lra; field; lra). rewrite HD. field. lra.
Qed.

(* the discriminant is just below zero: the apex is returned twice *)
Lemma quadratic_near third eps A B C D :
  0 <= eps -> Rabs A <= eps -> eps < Rabs B -> - eps ^ 4 < C * C - 4 * B * D < 0 ->
  exists x0, cubic_solve third eps A B C D = Some [Some x0; Some x0] /\
    B * x0 ^ 2 + C * x0 + D = - (C * C - 4 * B * D) / (4 * B) /\ (forall x, B * x ^ 2 + C * x + D <> 0).
Proof.
  intros He HA HB HP. pose proof (abs_pos_ne _ _ He HB) as HB0.
  unfold cubic_solve. rewrite (Rltb_f _ _ HA), (Rltb_t _ _ HB), Rltb_f by lra. rewrite Rltb_t by lra.
  eexists; split; [reflexivity|]. split; [field; lra|]. intros x Hx.
  assert (0 <= (2 * B * x + C) * (2 * B * x + C)) by apply Rle_0_sqr.
  assert ((2 * B * x + C) * (2 * B * x + C) = 4 * B * (B * x ^ 2 + C * x + D) + (C * C - 4 * B * D)) by ring.
  rewrite Hx in *. lra.
Qed.

Lemma quadratic_none third eps A B C D :
  0 <= eps -> Rabs A <= eps -> eps < Rabs B -> C * C - 4 * B * D <= - eps ^ 4 -> C * C - 4 * B * D <= 0 ->
  cubic_solve third eps A B C D = None.
Proof.
  intros He HA HB HP H0.
  unfold cubic_solve. now rewrite (Rltb_f _ _ HA), (Rltb_t _ _ HB), Rltb_f, Rltb_f by lra.
Qed.

Lemma linear_one third eps A B C D :
  0 <= eps -> Rabs A <= eps -> Rabs B <= eps -> eps < Rabs C ->
  exists x0, cubic_solve third eps A B C D = Some [Some x0] /\ forall x, C * x + D = C * (x - x0).
Proof.
  intros He HA HB HC. pose proof (abs_pos_ne _ _ He HC) as HC0.
  unfold cubic_solve. rewrite (Rltb_f _ _ HA), (Rltb_f _ _ HB), (Rltb_t _ _ HC).
  eexists; split; [reflexivity|]. intro x. field. lra.
Qed.

Lemma constant_none third eps A B C D :
  Rabs A <= eps -> Rabs B <= eps -> Rabs C <= eps -> cubic_solve third eps A B C D = None.
Proof. intros HA HB HC. unfold cubic_solve. now rewrite !Rltb_f by assumption. Qed.

(* ---- the cubic part *)
Section Cubic.
Context (third eps A B C D : R) (He : 0 <= eps) (HA : eps < Rabs A).
Let P := (C - B * B / (3 * A)) / (3 * A).
Let Q := ((2 * B * B / (27 * A) - C / 3) * B / A + D) / (2 * A).
Let W := Q * Q + P * P * P.

Lemma A_ne : A <> 0.
Proof. apply (abs_pos_ne eps); assumption. Qed.

(* the depressed polynomial *)
Lemma poly_dep t : poly A B C D (t - B / (3 * A)) = A * (t ^ 3 + 3 * P * t + 2 * Q).
Proof. pose proof A_ne. unfold poly, P, Q. field. assumption. Qed.

Lemma poly_dep' x : poly A B C D x = A * ((x + B / (3 * A)) ^ 3 + 3 * P * (x + B / (3 * A)) + 2 * Q).
Proof. rewrite <- poly_dep. f_equal. ring. Qed.

Lemma cos_3 t : cos (3 * t) = cos t * cos t * cos t - 3 * (cos t * (sin t * sin t)).
Proof.
  replace (3 * t) with (2 * t + t) by ring. rewrite cos_plus, cos_2a, sin_2a. ring.
Qed.

Lemma cubic_three : W <= - eps ^ 6 -> P < 0 -> W < 0 ->
  exists x0 x1 x2, cubic_solve third eps A B C D = Some [Some x0; Some x1; Some x2] /\
    forall x, poly A B C D x = A * ((x - x0) * (x - x1) * (x - x2)).
Proof.
  intros HW HP HW0. pose proof A_ne as A0.
  unfold cubic_solve. rewrite (Rltb_t _ _ HA). unfold cubic_part. fold P Q. fold W.
  rewrite (Rleb_t _ _ HW), (Rltb_t _ _ HP). cbn [andb omap map].
  eexists; eexists; eexists; split; [reflexivity|]. intro x.
  rewrite poly_dep'. set (r := sqrt (- P)). assert (Hr : r * r = - P) by (apply sqrt_def; lra).
  assert (Hr0 : 0 < r) by (apply sqrt_lt_R0; lra).
  assert (Hs : sqrt (- P * P * P) = r * r * r).
  { replace (- P * P * P) with ((r * r * r) * (r * r * r)).
    - apply sqrt_square. apply Rlt_le. repeat apply Rmult_lt_0_compat; assumption.
    - replace (r * r * r * (r * r * r)) with ((r * r) * (r * r) * (r * r)) by ring. rewrite Hr. ring. }
  rewrite Hs. set (F := acos _). set (th := F / 3).
  assert (Hr3 : 0 < r * r * r) by (repeat apply Rmult_lt_0_compat; assumption).
  assert (HWr : Q * Q < (r * r * r) * (r * r * r)).
  { replace (r * r * r * (r * r * r)) with ((r * r) * (r * r) * (r * r)) by ring. rewrite Hr. unfold W in *. lra. }
  assert (Hq : cos F = - Q / (r * r * r)).
  { apply cos_acos. split; apply (Rmult_le_reg_r (r * r * r)); try assumption; unfold Rdiv;
      rewrite ?Rmult_assoc; (replace (- Q * (/ (r * (r * r)) * (r * (r * r)))) with (- Q) by (field; lra)); nra. }
  assert (HF : F = 3 * th) by (unfold th; field). rewrite HF, cos_3 in Hq.
  assert (Hq' : Q = - (r * r * r) * (cos th * cos th * cos th - 3 * (cos th * (sin th * sin th)))).
  { rewrite Hq. field. lra. }
  replace ((F + PI) / 3) with (th + PI / 3) by (unfold th; field).
  replace ((F - PI) / 3) with (th - PI / 3) by (unfold th; field).
  rewrite cos_plus, cos_minus, cos_PI3, sin_PI3.
  pose proof (sin2_cos2 th) as Hsc. unfold Rsqr in Hsc.
  assert (H3 : sqrt 3 * sqrt 3 = 3) by (apply sqrt_def; lra).
  set (c := cos th) in *. set (s := sin th) in *. set (w := sqrt 3) in *.
  set (t := x + B / (3 * A)).
  replace (x - (2 * r * c - B / (3 * A))) with (t - 2 * r * c) by (unfold t; ring).
  replace (x - (-2 * r * (c * (1 / 2) - s * (w / 2)) - B / (3 * A))) with (t + r * (c - s * w)) by (unfold t; field; lra).
  replace (x - (-2 * r * (c * (1 / 2) + s * (w / 2)) - B / (3 * A))) with (t + r * (c + s * w)) by (unfold t; field; lra).
  f_equal.
  replace ((t - 2 * r * c) * (t + r * (c - s * w)) * (t + r * (c + s * w)))
    with ((t - 2 * r * c) * (t * t + 2 * r * c * t + r * r * (c * c - s * s * (w * w)))) by ring.
  rewrite H3.
  replace (3 * P) with (- 3 * (r * r) * (s * s + c * c)) by (rewrite Hsc, Hr; ring).
  rewrite Hq'. ring.
Qed.
End Cubic.
