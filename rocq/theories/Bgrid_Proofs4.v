(* Proofs about the inverse bilinear map. *)
From Verif Require Import RBaseFacts Bgrid_Spec Bgrid_Proofs Bgrid_Proofs3.
Open Scope R_scope.

Lemma pos_solves q p x y : q_pos q x y = p <-> solves (x_eq q p) (y_eq q p) x y.
Proof.
  destruct p as [px py]. unfold q_pos, solves, x_eq, y_eq, quad_coefs. cbn -[Rplus Rmult Rminus].
  split.
  - intros [= H1 H2]. split; lra.
  - intros [H1 H2]. f_equal; lra.
Qed.

Lemma hypot_0 : hypot 0 0 = 0.
Proof. unfold hypot. rewrite Rmult_0_l, Rplus_0_l. apply sqrt_0. Qed.

(* how many pairs are accepted *)
Definition accepted (tol : R) (l : list (R * R)) : list (R * R) := filter (fun s => Rltb (fst s) tol && Rltb (snd s) tol)%bool l.

Lemma q4_fold q coord tol l : (forall s, In s l -> q_pos q (fst s) (snd s) = coord) -> forall i n r,
  ((0 <= i)%Z /\ (0 <= n)%Z /\ ((0 < i)%Z \/ (0 < n)%Z -> q_pos q (fst r) (snd r) = coord)) ->
  fold_left (q4_step q coord tol) l (i, n, r) = ((i + zlen l)%Z, (n + zlen (accepted tol l))%Z, last l r).
Proof.
  induction l as [|s l IH]; intros Hl i n r (Hi & Hn & Hr).
  - cbn. now rewrite !Z.add_0_r.
  - cbn [fold_left].
    assert (Hs : q_pos q (fst s) (snd s) = coord) by (apply Hl; now left).
    assert (E : q4_step q coord tol (i, n, r) s =
      ((i + 1)%Z, (n + (if Rltb (fst s) tol && Rltb (snd s) tol then 1 else 0))%Z, s)).
    { unfold q4_step. rewrite Hs. rewrite !Rminus_eq_0, hypot_0.
      destruct (Rltb (fst s) tol && Rltb (snd s) tol)%bool.
      - destruct (1 <? n + 1)%Z eqn:E1; [|reflexivity]. cbn [andb]. rewrite Hr by lia.
        rewrite !Rminus_eq_0, hypot_0, Rltb_f by lra. reflexivity.
      - rewrite Z.add_0_r. destruct ((n =? 0)%Z && (0 <? i)%Z)%bool eqn:E1; [|reflexivity]. cbn [andb].
        apply andb_true_iff in E1. rewrite Hr by lia. rewrite !Rminus_eq_0, hypot_0, Rltb_f by lra. reflexivity. }
    rewrite E. rewrite IH.
    + unfold zlen, accepted. cbn [length filter]. f_equal; [f_equal|].
      * lia.
      * destruct (_ && _)%bool; cbn [length]; lia.
      * destruct l; [reflexivity|]. cbn [last]. clear. revert p. induction l; intros; [reflexivity|]. cbn [last] in *. apply IHl.
    + intros. apply Hl. now right.
    + split; [lia|]. split; [destruct (_ && _)%bool; lia|]. intros _. exact Hs.
Qed.

Lemma q4inv_eq q coord ez eo init : 0 <= ez -> clear_system ez (x_eq q coord) (y_eq q coord) ->
  let l := bilinear_solve ez 1 (x_eq q coord) (y_eq q coord) in
  q4inv q coord ez eo init = (zlen (accepted (1 + eo) l), last l init).
Proof.
  intros He Hc l. unfold q4inv. fold (x_eq q coord) (y_eq q coord). fold l.
  rewrite q4_fold with (i := 0%Z) (n := 0%Z); [reflexivity | | lia].
  intros [x y] H. apply pos_solves. eapply bilinear_exact; eassumption.
Qed.

Lemma zlen_pos_in {X} (l : list X) : (0 < zlen l)%Z -> exists a, In a l.
Proof. destruct l; [unfold zlen; cbn; lia|]. intros _. exists x. now left. Qed.
Lemma last_in {X} (l : list X) d : l <> [] -> In (last l d) l.
Proof.
  induction l as [|a l IH]; [congruence|]. intros _. destruct l; [now left|]. right. apply IH. congruence.
Qed.

(* a positive count: some solution is accepted; the point of the coordinates returned is the given one *)
Lemma q4inv_sound q coord ez eo init n xi eta : 0 <= ez -> clear_system ez (x_eq q coord) (y_eq q coord) ->
  q4inv q coord ez eo init = (n, (xi, eta)) -> (0 < n)%Z ->
  q_pos q xi eta = coord /\ exists x y, x < 1 + eo /\ y < 1 + eo /\ q_pos q x y = coord.
Proof.
  intros He Hc E Hn. rewrite q4inv_eq in E by assumption. set (l := bilinear_solve _ _ _ _) in *.
  injection E as En Er. rewrite <- En in Hn.
  destruct (zlen_pos_in _ Hn) as [[x y] Ha]. unfold accepted in Ha. apply filter_In in Ha. destruct Ha as [Ha Hb].
  assert (Hall : forall x y, In (x, y) l -> q_pos q x y = coord).
  { intros u v H. apply pos_solves. eapply bilinear_exact; eassumption. }
  split.
  - apply Hall. rewrite <- Er. apply last_in. intro H. rewrite H in Ha. destruct Ha.
  - exists x, y. apply andb_true_iff in Hb. cbn in Hb. destruct Hb. rb. auto.
Qed.

(* ---- convex quads *)
Section Convex.
Context (eps : R) (A B : coefs) (x y : R) (He : 0 < eps) (Hs : solves A B x y).
Let tol := eps * size_of A B.
Let det := c1 A * c2 B - c1 B * c2 A.
Let P2 := c0 A * c1 B - c0 B * c1 A.
Let P1 := c0 B * c3 A - c0 A * c3 B - det.
Let P0 := c2 B * c3 A - c2 A * c3 B.
Let Q2 := c0 A * c2 B - c0 B * c2 A.
Let Q1 := c0 B * c3 A - c0 A * c3 B + det.
Let Q0 := c1 B * c3 A - c1 A * c3 B.
Let J := (c1 A + c0 A * y) * (c2 B + c0 B * x) - (c2 A + c0 A * x) * (c1 B + c0 B * y).
Context (HJ : eps < J) (HJ2 : tol * tol <= J) (Hc : clear_system eps A B) (Hp : clear_pivots eps A B)
        (Hy : tol < Rabs (c0 A * y + c1 A)).

Let Ht : 0 <= tol.
Proof. apply Rmult_le_pos; [lra | apply size_nonneg]. Qed.

Lemma deriv_x : 2 * P2 * x + P1 = - J.
Proof. destruct Hs as [H1 H2]. unfold P2, P1, J, det. rewrite <- H1, <- H2. ring. Qed.
Lemma deriv_y : 2 * Q2 * y + Q1 = J.
Proof. destruct Hs as [H1 H2]. unfold Q2, Q1, J, det. rewrite <- H1, <- H2. ring. Qed.

Lemma root_order third b c d z : b * z ^ 2 + c * z + d = 0 -> eps < Rabs (2 * b * z + c) -> b = 0 \/ eps < Rabs b ->
  (b = 0 /\ solutions (cubic_solve third eps 0 b c d) = [z]) \/
  (b <> 0 /\ exists z', b * z' ^ 2 + c * z' + d = 0 /\ (forall u, b * u ^ 2 + c * u + d = 0 -> u = z \/ u = z') /\
    solutions (cubic_solve third eps 0 b c d) = if Rltb (2 * b * z + c) 0 then [z'; z] else [z; z']).
Proof.
  intros Hz Hd Hb. assert (HA : Rabs 0 <= eps) by (rewrite Rabs_R0; lra). destruct Hb as [-> | Hb].
  - left. split; [reflexivity|]. unfold cubic_solve. rewrite (Rltb_f _ _ HA).
    rewrite (Rltb_t eps (Rabs c)) by (replace c with (2 * 0 * z + c) by ring; assumption). cbn. f_equal.
    assert (c <> 0). { intros ->. replace (2 * 0 * z + 0) with 0 in Hd by ring. rewrite Rabs_R0 in Hd. lra. }
    apply (Rmult_eq_reg_r c); [|assumption]. field_simplify; [|assumption]. lra.
  - right. pose proof (abs_pos_ne eps b ltac:(lra) Hb) as B0. split; [assumption|].
    set (D := 2 * b * z + c) in *.
    assert (HD : D * D = c * c - 4 * b * d).
    { assert (E : D * D = 4 * b * (b * z ^ 2 + c * z + d) + (c * c - 4 * b * d)) by (unfold D; ring). rewrite Hz in E. lra. }
    assert (HD0 : D <> 0). { intro E. rewrite E, Rabs_R0 in Hd. lra. }
    assert (HDD : 0 < D * D) by (apply Rsqr_pos_lt; assumption).
    exists (- c / b - z). split; [|split].
    + replace (b * (- c / b - z) ^ 2 + c * (- c / b - z) + d) with (b * z ^ 2 + c * z + d) by (field; assumption). assumption.
    + intros u Hu. assert (E : b * ((u - z) * (u - (- c / b - z))) = 0).
      { replace (b * ((u - z) * (u - (- c / b - z)))) with ((b * u ^ 2 + c * u + d) - (b * z ^ 2 + c * z + d)) by (field; assumption). lra. }
      apply Rmult_integral in E. destruct E as [E|E]; [tauto|]. apply Rmult_integral in E. destruct E; [left | right]; lra.
    + unfold cubic_solve. rewrite (Rltb_f _ _ HA), (Rltb_t _ _ Hb), <- HD, (Rltb_t _ _ HDD).
      assert (Hsq : sqrt (D * D) = Rabs D) by apply sqrt_Rsqr_abs. rewrite Hsq.
      assert (Hc' : c = D - 2 * b * z) by (unfold D; ring).
      destruct (Rltb D 0) eqn:E; rb; [rewrite Rabs_left by assumption | rewrite Rabs_right by lra];
        cbn; (apply f_equal2; [|apply f_equal2; [|reflexivity]]); rewrite Hc'; field; repeat split; lra.
Qed.

Lemma x_solutions third :
  (P2 = 0 /\ solutions (cubic_solve third eps 0 P2 P1 P0) = [x]) \/
  (P2 <> 0 /\ exists z, P2 * z ^ 2 + P1 * z + P0 = 0 /\ (forall u, P2 * u ^ 2 + P1 * u + P0 = 0 -> u = x \/ u = z) /\
    solutions (cubic_solve third eps 0 P2 P1 P0) = [z; x]).
Proof.
  pose proof (roots_of_solution _ _ _ _ Hs) as [Hr _]. fold det in Hr. fold P2 P1 P0 in Hr.
  destruct Hc as (_ & [K _] & _). cbv zeta in K. fold P2 in K.
  destruct (root_order third P2 P1 P0 x Hr) as [G | (G1 & z & G2 & G3 & G4)].
  - rewrite deriv_x, Rabs_Ropp, Rabs_right; lra.
  - assumption.
  - now left.
  - right. split; [assumption|]. exists z. rewrite deriv_x, Rltb_t in G4 by lra. auto.
Qed.
Lemma y_solutions third :
  (Q2 = 0 /\ solutions (cubic_solve third eps 0 Q2 Q1 Q0) = [y]) \/
  (Q2 <> 0 /\ exists z, Q2 * z ^ 2 + Q1 * z + Q0 = 0 /\ solutions (cubic_solve third eps 0 Q2 Q1 Q0) = [y; z]).
Proof.
  pose proof (roots_of_solution _ _ _ _ Hs) as [_ Hr]. fold det in Hr. fold Q2 Q1 Q0 in Hr.
  destruct Hc as (_ & _ & [K _]). cbv zeta in K. fold Q2 in K.
  destruct (root_order third Q2 Q1 Q0 y Hr) as [G | (G1 & z & G2 & G3 & G4)].
  - rewrite deriv_y, Rabs_right; lra.
  - assumption.
  - now left.
  - right. split; [assumption|]. exists z. rewrite deriv_y, Rltb_f in G4 by lra. auto.
Qed.

Lemma prod_pivots u v : c0 A * (u * v) + c1 A * u + c2 A * v = c3 A ->
  (c0 A * u + c2 A) * (c0 A * v + c1 A) = c0 A * c3 A + c1 A * c2 A.
Proof. intro H. rewrite <- H. ring. Qed.

Lemma seen XY z : In (x, z) XY \/ (exists u, In (u, z) XY) -> second_step eps 1 A B XY z = XY.
Proof.
  intro H. assert (H' : exists u, In (u, z) XY) by (destruct H as [H|H]; [now exists x | assumption]). clear H.
  destruct H' as [u H]. unfold second_step. cbv zeta. destruct (Rltb _ _); [|reflexivity].
  rewrite (proj2 (existsb_exists _ _)); [reflexivity|]. exists (u, z). split; [assumption|].
  cbn. rewrite Rminus_eq_0, Rabs_R0. apply Rleb_t. lra.
Qed.
Lemma not_pivot XY z : Rabs (c0 A * z + c1 A) <= tol -> second_step eps 1 A B XY z = XY.
Proof. intro H. unfold second_step. cbv zeta. rewrite Rltb_f; [reflexivity | assumption]. Qed.

(* a root of the second polynomial with a pivot belongs to a solution *)
Lemma solution_of_root z : Q2 * z ^ 2 + Q1 * z + Q0 = 0 -> tol < Rabs (c0 A * z + c1 A) ->
  solves A B ((c3 A - c2 A * z) / (c0 A * z + c1 A)) z.
Proof.
  intros Hz H. pose proof (abs_pos_ne _ _ Ht H) as H0. set (u := (c3 A - c2 A * z) / (c0 A * z + c1 A)).
  assert (E : c0 A * (u * z) + c1 A * u + c2 A * z = c3 A).
  { assert ((c0 A * z + c1 A) * u = c3 A - c2 A * z) by (unfold u; field; assumption). lra. }
  split; [assumption|]. pose proof (resultant_y A B u z E) as R. fold det in R. fold Q2 Q1 Q0 in R. rewrite Hz in R.
  apply Rmult_integral in R. destruct R; [tauto | lra].
Qed.

Lemma convex_last : exists l, bilinear_solve eps 1 A B = l ++ [(x, y)].
Proof.
  destruct Hs as [H1 H2]. rewrite bilinear_eq. fold tol det. fold P2 P1 P0 Q2 Q1 Q0.
  destruct (Rltb _ _ && Rltb _ _)%bool eqn:E.
  { apply andb_true_iff in E. destruct E as [E1 E2]. rb. destruct Hc as (K & _ & _). cbv zeta in K.
    destruct (K (conj E1 E2)) as [K1 K2]. exists [].
    assert (EJ : J = det) by (unfold J, det; rewrite K1, K2; ring).
    rewrite Rltb_f by (rewrite Rabs_right; lra). cbn [app]. assert (det <> 0) by lra.
    f_equal. rewrite K1, K2 in *. f_equal; apply (Rmult_eq_reg_r det); try assumption; unfold P0, Rdiv;
      rewrite Rmult_assoc, Rinv_l, Rmult_1_r by assumption; rewrite <- H1, <- H2; unfold det; ring. }
  clear E.
  assert (Hpy : c0 A * y + c1 A <> 0) by now apply (abs_pos_ne tol).
  destruct (Hp x y Hs) as [Hpx | Hpx].
  - (* the first loop passes over x *)
    assert (HK : c0 A * c3 A + c1 A * c2 A = 0) by (rewrite <- (prod_pivots x y H1), Hpx; ring).
    set (XY := first_pairs _ _ _ _).
    assert (HXY : forall u v, In (u, v) XY -> eps < Rabs (v - y)).
    { intros u v Hin. apply in_first in Hin; [|assumption]. destruct Hin as (_ & Hpv & Hv). fold tol in Hpv.
      assert (Hprod : (c0 A * u + c2 A) * (c0 A * v + c1 A) = 0) by (rewrite <- HK; apply prod_pivots; lra).
      apply Rmult_integral in Hprod. pose proof (abs_pos_ne _ _ Ht Hpv). destruct Hprod as [|Hprod]; [tauto|].
      assert (Hy' : Rabs (c0 A) * Rabs (v - y) > tol).
      { rewrite <- Rabs_mult. replace (c0 A * (v - y)) with (- (c0 A * y + c1 A)) by lra. rewrite Rabs_Ropp. lra. }
      pose proof (size_c0 A B) as Hsz. unfold tol in Hy'.
      destruct (Rlt_dec eps (Rabs (v - y))) as [|N]; [assumption|]. exfalso. apply Rnot_lt_le in N.
      pose proof (Rabs_pos (c0 A)). pose proof (Rabs_pos (v - y)).
      assert (Rabs (c0 A) * Rabs (v - y) <= size_of A B * eps) by (apply Rmult_le_compat; lra). lra. }
    assert (Hstep : second_step eps 1 A B XY y = XY ++ [(x, y)]).
    { unfold second_step. cbv zeta. fold tol. rewrite (Rltb_t _ _ Hy).
      destruct (existsb _ _) eqn:Ex.
      - apply existsb_exists in Ex. destruct Ex as ([u v] & Hin & Hv). apply HXY in Hin. cbn in Hv. rb. lra.
      - f_equal. f_equal. f_equal. apply (Rmult_eq_reg_r (c0 A * y + c1 A)); [|assumption].
        unfold Rdiv. rewrite Rmult_assoc, Rinv_l, Rmult_1_r by assumption. lra. }
    destruct (y_solutions single_third) as [(_ & E) | (HQ2 & z & Hz & E)]; rewrite E; cbn [fold_left]; rewrite Hstep.
    + now exists XY.
    + exists XY. destruct (Rlt_dec tol (Rabs (c0 A * z + c1 A))) as [Hpz|Hpz]; [|apply not_pivot; lra].
      pose proof (solution_of_root z Hz Hpz) as Hsol. set (u := (c3 A - c2 A * z) / (c0 A * z + c1 A)) in *.
      destruct Hsol as [S1 S2].
      assert (Hprod : (c0 A * u + c2 A) * (c0 A * z + c1 A) = 0) by (rewrite <- HK; apply prod_pivots; assumption).
      apply Rmult_integral in Hprod. pose proof (abs_pos_ne _ _ Ht Hpz). destruct Hprod as [Hprod|]; [|tauto].
      assert (Ha0 : c0 A <> 0).
      { intro E0. apply HQ2. unfold Q2. rewrite E0 in *. assert (c2 A = 0) by lra. rewrite H0. ring. }
      assert (Hu : u = x). { apply (Rmult_eq_reg_l (c0 A)); [lra | assumption]. }
      assert (Hf : (c0 B * x + c2 B) * (z - y) = 0) by (rewrite Hu in S2; lra).
      apply Rmult_integral in Hf. destruct Hf as [Hf|Hf].
      * exfalso. assert (J = 0). { unfold J. replace (c2 B + c0 B * x) with 0 by lra. replace (c2 A + c0 A * x) with 0 by lra. ring. } lra.
      * apply seen. left. replace z with y by lra. apply in_app_iff. right. now left.
  - (* the first loop finds the solution *)
    assert (Hpx0 : c0 A * x + c2 A <> 0) by now apply (abs_pos_ne tol).
    assert (HK : c0 A * c3 A + c1 A * c2 A <> 0).
    { rewrite <- (prod_pivots x y H1). now apply Rmult_integral_contrapositive_currified. }
    set (Z := solutions (cubic_solve single_third eps 0 P2 P1 P0)).
    assert (HZ : exists l, first_pairs eps A B Z = l ++ [(x, y)]).
    { assert (Ex : first_pairs eps A B [x] = [(x, y)]).
      { unfold first_pairs. cbn [flat_map]. rewrite (Rltb_t _ _ Hpx). cbn [app]. f_equal. f_equal.
        apply (Rmult_eq_reg_r (c0 A * x + c2 A)); [|assumption]. unfold Rdiv.
        rewrite Rmult_assoc, Rinv_l, Rmult_1_r by assumption. lra. }
      unfold Z. destruct (x_solutions single_third) as [(_ & E) | (_ & z & _ & _ & E)]; rewrite E.
      - now exists [].
      - exists (first_pairs eps A B [z]). rewrite <- Ex. change [z; x] with ([z] ++ [x]). apply flat_map_app. }
    destruct HZ as [l HZ]. exists l.
    assert (Hin : In (x, y) (first_pairs eps A B Z)) by (rewrite HZ; apply in_app_iff; right; now left).
    assert (Hstep : second_step eps 1 A B (first_pairs eps A B Z) y = first_pairs eps A B Z) by (apply seen; now left).
    destruct (y_solutions single_third) as [(_ & E) | (HQ2 & z & Hz & E)]; rewrite E; cbn [fold_left]; rewrite Hstep; [exact HZ|].
    rewrite <- HZ.
    destruct (Rlt_dec tol (Rabs (c0 A * z + c1 A))) as [Hpz|Hpz]; [|apply not_pivot; lra].
    pose proof (solution_of_root z Hz Hpz) as Hsol. set (u := (c3 A - c2 A * z) / (c0 A * z + c1 A)) in *.
    destruct (Hp u z Hsol) as [Hpu|Hpu].
    { exfalso. apply HK. destruct Hsol as [S1 _]. rewrite <- (prod_pivots u z S1), Hpu. ring. }
    apply seen. right. exists u. apply first_in; [assumption | assumption | | destruct Hsol; lra].
    pose proof (roots_of_solution _ _ _ _ Hsol) as [Hru _]. fold det in Hru. fold P2 P1 P0 in Hru.
    unfold Z. destruct (x_solutions single_third) as [(EP & E') | (_ & z0 & _ & F & E')]; rewrite E'.
    + left. assert (EQ : P1 * (u - x) = 0).
      { pose proof (roots_of_solution _ _ _ _ Hs) as [Hrx _]. fold det in Hrx. fold P2 P1 P0 in Hrx.
        rewrite EP in Hru, Hrx. lra. }
      apply Rmult_integral in EQ. pose proof deriv_x as Hd. rewrite EP in Hd. destruct EQ; lra.
    + destruct (F u Hru) as [->| ->]; [right; now left | now left].
Qed.
End Convex.

Lemma convex_jacobian m q p x y : convex m q -> 0 <= x <= 1 -> 0 <= y <= 1 ->
  m < (c1 (x_eq q p) + c0 (x_eq q p) * y) * (c2 (y_eq q p) + c0 (y_eq q p) * x)
      - (c2 (x_eq q p) + c0 (x_eq q p) * x) * (c1 (y_eq q p) + c0 (y_eq q p) * y).
Proof.
  intros (H1 & H2 & H3 & H4) Hx Hy. unfold area2 in *. unfold x_eq, y_eq, quad_coefs. cbn [c0 c1 c2 c3].
  destruct q as [[i0 x0 y0] [i1 x1 y1] [i2 x2 y2] [i3 x3 y3] lo hi]. cbn [q_v0 q_v1 q_v2 q_v3 v_x v_y] in *.
  match goal with |- _ < ?e => replace e with
    ((1 - x) * (1 - y) * ((x1 - x0) * (y3 - y0) - (x3 - x0) * (y1 - y0)) +
     x * (1 - y) * ((x2 - x1) * (y0 - y1) - (x0 - x1) * (y2 - y1)) +
     x * y * ((x3 - x2) * (y1 - y2) - (x1 - x2) * (y3 - y2)) +
     (1 - x) * y * ((x0 - x3) * (y2 - y3) - (x2 - x3) * (y0 - y3))) by ring end.
  set (a1 := (x1 - x0) * (y3 - y0) - _) in *. set (a2 := (x2 - x1) * (y0 - y1) - _) in *.
  set (a3 := (x3 - x2) * (y1 - y2) - _) in *. set (a4 := (x0 - x3) * (y2 - y3) - _) in *.
  set (w1 := (1 - x) * (1 - y)). set (w2 := x * (1 - y)). set (w3 := x * y). set (w4 := (1 - x) * y).
  assert (W1 : 0 <= w1) by (apply Rmult_le_pos; lra). assert (W2 : 0 <= w2) by (apply Rmult_le_pos; lra).
  assert (W3 : 0 <= w3) by (apply Rmult_le_pos; lra). assert (W4 : 0 <= w4) by (apply Rmult_le_pos; lra).
  assert (W : w1 + w2 + w3 + w4 = 1) by (unfold w1, w2, w3, w4; ring).
  assert (E : w1 * a1 + w2 * a2 + w3 * a3 + w4 * a4 - m =
    w1 * (a1 - m) + w2 * (a2 - m) + w3 * (a3 - m) + w4 * (a4 - m)) by (replace m with ((w1 + w2 + w3 + w4) * m) at 1 by (rewrite W; ring); ring).
  assert (0 <= w1 * (a1 - m)) by (apply Rmult_le_pos; lra). assert (0 <= w2 * (a2 - m)) by (apply Rmult_le_pos; lra).
  assert (0 <= w3 * (a3 - m)) by (apply Rmult_le_pos; lra). assert (0 <= w4 * (a4 - m)) by (apply Rmult_le_pos; lra).
  assert (Hpos : 0 < w1 * (a1 - m) + w2 * (a2 - m) + w3 * (a3 - m) + w4 * (a4 - m)).
  { destruct (Rlt_dec 0 w1); [assert (0 < w1 * (a1 - m)) by (apply Rmult_lt_0_compat; lra); lra|].
    destruct (Rlt_dec 0 w2); [assert (0 < w2 * (a2 - m)) by (apply Rmult_lt_0_compat; lra); lra|].
    destruct (Rlt_dec 0 w3); [assert (0 < w3 * (a3 - m)) by (apply Rmult_lt_0_compat; lra); lra|].
    assert (0 < w4) by lra. assert (0 < w4 * (a4 - m)) by (apply Rmult_lt_0_compat; lra). lra. }
  lra.
Qed.

(* a point of a convex quad gets its local coordinates *)
Lemma q4inv_convex q xi eta ez eo init :
  let p := q_pos q xi eta in let A := x_eq q p in let B := y_eq q p in let tol := ez * size_of A B in
  0 < ez -> 0 < eo -> 0 <= xi <= 1 -> 0 <= eta <= 1 ->
  convex (Rmax ez (tol * tol)) q -> v_x (q_v0 q) + tol < v_x (q_v1 q) -> v_x (q_v3 q) + tol < v_x (q_v2 q) ->
  clear_system ez A B -> clear_pivots ez A B ->
  exists n, q4inv q p ez eo init = (n, (xi, eta)) /\ (0 < n)%Z.
Proof.
  intros p A B tol Hez Heo Hxi Heta Hconv Hl Hr Hc Hp.
  assert (Hs : solves A B xi eta) by (apply pos_solves; reflexivity).
  pose proof (convex_jacobian _ q p xi eta Hconv Hxi Heta) as HJ. fold A B in HJ.
  pose proof (Rmax_l ez (tol * tol)). pose proof (Rmax_r ez (tol * tol)).
  assert (Hy : tol < Rabs (c0 A * eta + c1 A)).
  { apply Rlt_le_trans with (c0 A * eta + c1 A); [|apply Rle_abs].
    assert (E : c0 A * eta + c1 A = (1 - eta) * (v_x (q_v1 q) - v_x (q_v0 q)) + eta * (v_x (q_v2 q) - v_x (q_v3 q)))
      by (unfold A, x_eq, quad_coefs; cbn [c0 c1]; ring).
    rewrite E. set (d1 := v_x (q_v1 q) - v_x (q_v0 q)) in *. set (d2 := v_x (q_v2 q) - v_x (q_v3 q)) in *.
    assert (tol < d1) by (unfold d1; lra). assert (tol < d2) by (unfold d2; lra).
    assert (0 <= (1 - eta) * (d1 - tol)) by (apply Rmult_le_pos; lra). assert (0 <= eta * (d2 - tol)) by (apply Rmult_le_pos; lra).
    destruct (Rlt_dec 0 eta).
    - assert (0 < eta * (d2 - tol)) by (apply Rmult_lt_0_compat; lra). lra.
    - replace eta with 0 by lra. lra. }
  destruct (convex_last ez A B xi eta Hez Hs ltac:(lra) ltac:(fold tol; lra) Hc Hp Hy) as [l El].
  rewrite q4inv_eq by (try lra; assumption). fold A B. rewrite El.
  eexists. split; [f_equal; apply last_last|].
  unfold accepted. rewrite filter_app. unfold zlen. rewrite app_length. cbn [filter fst snd].
  rewrite !Rltb_t by lra. cbn. lia.
Qed.
