(* Proofs about bilinearSolve. *)
From Verif Require Import RBaseFacts Bgrid_Spec Bgrid_Proofs.
Open Scope R_scope.

Lemma fold_max l : forall a, 0 <= a ->
  fold_left (fun t x => if Rltb t (Rabs x) then Rabs x else t) l a = Rmax a (fold_right Rmax 0 (map Rabs l)).
Proof.
  induction l as [|x l IH]; intros a Ha; cbn [fold_left map fold_right].
  - symmetry. now apply Rmax_left.
  - assert (H : (if Rltb a (Rabs x) then Rabs x else a) = Rmax a (Rabs x)).
    { unfold Rltb. destruct (Rlt_dec a (Rabs x)); [rewrite Rmax_right | rewrite Rmax_left]; lra. }
    rewrite H, IH by (pose proof (Rmax_l a (Rabs x)); lra). now rewrite Rmax_assoc.
Qed.
Lemma max_nonneg l : 0 <= fold_right Rmax 0 l.
Proof.
  induction l as [|x l IH]; cbn [fold_right]; [lra|]. pose proof (Rmax_r x (fold_right Rmax 0 l)). lra.
Qed.
Lemma max_ge l x : In x l -> x <= fold_right Rmax 0 l.
Proof.
  induction l as [|y l IH]; intros []; cbn [fold_right]; [subst; apply Rmax_l|].
  specialize (IH H). pose proof (Rmax_r y (fold_right Rmax 0 l)). lra.
Qed.

Lemma bil_tol_size eps A B : bil_tol eps A B = eps * size_of A B.
Proof.
  unfold bil_tol, size_of. rewrite Rmult_comm. f_equal. rewrite fold_max by lra.
  rewrite Rmax_right; [reflexivity | apply max_nonneg].
Qed.
Lemma size_nonneg A B : 0 <= size_of A B.
Proof. apply max_nonneg. Qed.
Lemma size_c0 A B : Rabs (c0 A) <= size_of A B.
Proof. apply max_ge, in_map. left. reflexivity. Qed.

(* the numbers found for a clear cut quadratic polynomial are its roots *)
Lemma solutions_exact third eps B C D z : 0 <= eps -> clear_cut eps B C D ->
  In z (solutions (cubic_solve third eps 0 B C D)) -> B * z ^ 2 + C * z + D = 0.
Proof.
  intros He [HB HP] Hz. assert (HA : Rabs 0 <= eps) by (rewrite Rabs_R0; lra).
  destruct (Rlt_dec eps (Rabs B)) as [HB'|HB'].
  - pose proof (abs_pos_ne _ _ He HB') as B0.
    destruct (Rlt_dec 0 (C * C - 4 * B * D)) as [Hd|Hd].
    + destruct (quadratic_two third eps 0 B C D He HA HB') as (x0 & x1 & E & F); [lra | tauto |].
      rewrite E in Hz. cbn in Hz. rewrite F. destruct Hz as [<-|[<-|[]]]; ring.
    + destruct HP as [HP|[HP|HP]]; [| |lra].
      * destruct (Rlt_dec 0 eps) as [He'|He'].
        -- destruct (quadratic_two third eps 0 B C D He HA HB' HP) as (x0 & x1 & E & F); [tauto |].
           rewrite E in Hz. cbn in Hz. rewrite F. destruct Hz as [<-|[<-|[]]]; ring.
        -- rewrite quadratic_none in Hz; try assumption; [destruct Hz| | lra].
           replace eps with 0 by lra. rewrite pow_ne_zero by lia. lra.
      * rewrite quadratic_none in Hz; try assumption; [destruct Hz | lra].
  - assert (B = 0) by tauto. subst B. apply Rnot_lt_le in HB'.
    destruct (Rlt_dec eps (Rabs C)) as [HC|HC].
    + destruct (linear_one third eps 0 0 C D He HA HB' HC) as (x0 & E & F).
      rewrite E in Hz. cbn in Hz. destruct Hz as [<-|[]].
      transitivity (C * x0 + D); [ring|]. rewrite F. ring.
    + rewrite constant_none in Hz; try assumption; [destruct Hz | lra].
Qed.

(* in general they nearly are *)
Lemma solutions_near third eps B C D z : 0 < eps ->
  In z (solutions (cubic_solve third eps 0 B C D)) -> Rabs (B * z ^ 2 + C * z + D) <= eps ^ 3 / 4 + eps * (z * z).
Proof.
  intros He' Hz. assert (He : 0 <= eps) by lra. assert (HA : Rabs 0 <= eps) by (rewrite Rabs_R0; lra).
  assert (Hb : 0 <= eps ^ 3 / 4 + eps * (z * z)).
  { assert (0 < eps ^ 3) by now apply pow_lt. assert (0 <= eps * (z * z)) by (apply Rmult_le_pos; [lra | apply Rle_0_sqr]). lra. }
  destruct (Rlt_dec eps (Rabs B)) as [HB'|HB'].
  - pose proof (abs_pos_ne _ _ He HB') as B0.
    destruct (Rle_dec 0 (C * C - 4 * B * D)) as [Hd|Hd].
    + destruct (quadratic_two third eps 0 B C D He HA HB' Hd) as (x0 & x1 & E & F); [tauto |].
      rewrite E in Hz. cbn in Hz. rewrite F.
      replace (B * ((z - x0) * (z - x1))) with 0 by (destruct Hz as [<-|[<-|[]]]; ring). now rewrite Rabs_R0.
    + destruct (Rlt_dec (- eps ^ 4) (C * C - 4 * B * D)) as [HP|HP].
      * destruct (quadratic_near third eps 0 B C D He HA HB') as (x0 & E & F & _); [lra|].
        rewrite E in Hz. cbn in Hz. assert (z = x0) by (destruct Hz as [<-|[<-|[]]]; reflexivity). subst z. rewrite F.
        set (P := C * C - 4 * B * D) in *. unfold Rdiv. rewrite Rabs_mult, Rabs_Ropp, Rabs_inv.
        rewrite (Rabs_left P) by lra. rewrite Rabs_mult, (Rabs_right 4) by lra.
        apply Rle_trans with (eps ^ 3 / 4); [|assert (0 <= eps * (x0 * x0)) by (apply Rmult_le_pos; [lra | apply Rle_0_sqr]); lra].
        apply (Rmult_le_reg_r (4 * Rabs B)); [lra|].
        replace (- P * / (4 * Rabs B) * (4 * Rabs B)) with (- P) by (field; lra).
        replace (eps ^ 3 / 4 * (4 * Rabs B)) with (eps ^ 3 * Rabs B) by field.
        assert (0 < eps ^ 3) by now apply pow_lt.
        assert (eps ^ 3 * eps <= eps ^ 3 * Rabs B) by (apply Rmult_le_compat_l; lra).
        replace (eps ^ 3 * eps) with (eps ^ 4) in * by ring. lra.
      * rewrite quadratic_none in Hz; try assumption; [destruct Hz | lra | lra].
  - apply Rnot_lt_le in HB'.
    destruct (Rlt_dec eps (Rabs C)) as [HC|HC].
    + destruct (linear_one third eps 0 B C D He HA HB' HC) as (x0 & E & F).
      rewrite E in Hz. cbn in Hz. destruct Hz as [<-|[]].
      replace (B * x0 ^ 2 + C * x0 + D) with (B * (x0 * x0)).
      2: { transitivity (B * (x0 * x0) + (C * x0 + D)); [rewrite F|]; ring. }
      rewrite Rabs_mult, (Rabs_right (x0 * x0)) by (apply Rle_ge, Rle_0_sqr).
      assert (Rabs B * (x0 * x0) <= eps * (x0 * x0)) by (apply Rmult_le_compat_r; [apply Rle_0_sqr | lra]).
      assert (0 < eps ^ 3) by now apply pow_lt. lra.
    + rewrite constant_none in Hz; try assumption; [destruct Hz | lra].
Qed.

(* every root of a polynomial that is not nearly constant is found *)
Lemma solutions_complete third eps B C D z : 0 < eps -> eps < Rabs B \/ B = 0 /\ eps < Rabs C ->
  B * z ^ 2 + C * z + D = 0 -> In z (solutions (cubic_solve third eps 0 B C D)).
Proof.
  intros He' H Hz. assert (He : 0 <= eps) by lra. assert (HA : Rabs 0 <= eps) by (rewrite Rabs_R0; lra).
  destruct H as [HB|[-> HC]].
  - pose proof (abs_pos_ne _ _ He HB) as B0.
    assert (Hd : 0 <= C * C - 4 * B * D).
    { assert (0 <= (2 * B * z + C) * (2 * B * z + C)) by apply Rle_0_sqr.
      assert (E : (2 * B * z + C) * (2 * B * z + C) = 4 * B * (B * z ^ 2 + C * z + D) + (C * C - 4 * B * D)) by ring.
      rewrite Hz in E. lra. }
    destruct (quadratic_two third eps 0 B C D He HA HB Hd) as (x0 & x1 & E & F); [tauto |].
    rewrite E. cbn. rewrite F in Hz. apply Rmult_integral in Hz. destruct Hz as [Hz|Hz]; [tauto|].
    apply Rmult_integral in Hz. destruct Hz; [left | right; left]; lra.
  - destruct (linear_one third eps 0 0 C D He HA) as (x0 & E & F); [now rewrite Rabs_R0 | assumption |].
    rewrite E. cbn. left. pose proof (F z) as G. pose proof (abs_pos_ne _ _ He HC).
    assert (E2 : C * (z - x0) = 0) by (rewrite <- G; lra). apply Rmult_integral in E2. lra.
Qed.

Section Bil.
Context (eps order : R) (A B : coefs).
Let tol := eps * size_of A B.
Let det := c1 A * c2 B - c1 B * c2 A.
Let P2 := c0 A * c1 B - c0 B * c1 A.
Let P1 := c0 B * c3 A - c0 A * c3 B - det.
Let P0 := c2 B * c3 A - c2 A * c3 B.
Let Q2 := c0 A * c2 B - c0 B * c2 A.
Let Q1 := c0 B * c3 A - c0 A * c3 B + det.
Let Q0 := c1 B * c3 A - c1 A * c3 B.

(* the list after the first loop, and the second loop *)
Definition first_pairs (Z : list R) : list (R * R) :=
  flat_map (fun z => let Q0 := c0 A * z + c2 A in if Rltb tol (Rabs Q0) then [(z, (c3 A - c1 A * z) / Q0)] else []) Z.
Definition second_step (XY : list (R * R)) (z : R) : list (R * R) :=
  let Q0 := c0 A * z + c1 A in
  if Rltb tol (Rabs Q0) then
    if existsb (fun xy => Rleb (Rabs (snd xy - z)) (eps * order)) XY then XY else XY ++ [((c3 A - c2 A * z) / Q0, z)]
  else XY.

Lemma bilinear_eq : bilinear_solve eps order A B =
  if Rltb (Rabs (c0 A)) tol && Rltb (Rabs (c0 B)) tol then
    if Rltb (Rabs det) (tol * tol) then [] else [(P0 / det, (- c1 B * c3 A + c1 A * c3 B) / det)]
  else fold_left second_step (solutions (cubic_solve single_third eps 0 Q2 Q1 Q0))
                 (first_pairs (solutions (cubic_solve single_third eps 0 P2 P1 P0))).
Proof. unfold bilinear_solve. rewrite bil_tol_size. reflexivity. Qed.

Lemma in_first Z x y : 0 <= tol -> In (x, y) (first_pairs Z) ->
  In x Z /\ tol < Rabs (c0 A * x + c2 A) /\ (c0 A * x + c2 A) * y = c3 A - c1 A * x.
Proof.
  intros Ht H. apply in_flat_map in H. destruct H as (z & Hz & H). cbn in H.
  destruct (Rltb _ _) eqn:E; [|destruct H]. destruct H as [[= <- <-]|[]]. rb. split; [assumption|]. split; [assumption|].
  pose proof (abs_pos_ne _ _ Ht E). field. assumption.
Qed.
Lemma first_in Z x y : tol < Rabs (c0 A * x + c2 A) -> 0 <= tol -> In x Z -> (c0 A * x + c2 A) * y = c3 A - c1 A * x ->
  In (x, y) (first_pairs Z).
Proof.
  intros E Ht H Hy. apply in_flat_map. exists x. split; [assumption|]. cbn. rewrite (Rltb_t _ _ E). left. f_equal.
  rewrite <- Hy. field. now apply (abs_pos_ne tol).
Qed.

Lemma in_second Z : forall XY x y, 0 <= tol -> In (x, y) (fold_left second_step Z XY) ->
  In (x, y) XY \/ In y Z /\ tol < Rabs (c0 A * y + c1 A) /\ (c0 A * y + c1 A) * x = c3 A - c2 A * y.
Proof.
  induction Z as [|z Z IH]; intros XY x y Ht H; cbn [fold_left] in H; [tauto|].
  apply IH in H; [|assumption]. destruct H as [H|(H1 & H2)]; [|cbn; tauto].
  unfold second_step in H. cbv zeta in H. destruct (Rltb _ _) eqn:E; [|tauto]. destruct (existsb _ _); [tauto|].
  apply in_app_iff in H. destruct H as [H|[[= <- <-]|[]]]; [tauto|]. right. rb.
  split; [now left|]. split; [assumption|]. pose proof (abs_pos_ne _ _ Ht E). field. assumption.
Qed.

(* the polynomials are the resultants of the two equations *)
Lemma resultant_x x y : c0 A * (x * y) + c1 A * x + c2 A * y = c3 A ->
  (c0 A * x + c2 A) * (c0 B * (x * y) + c1 B * x + c2 B * y - c3 B) = P2 * x ^ 2 + P1 * x + P0.
Proof.
  intro H. unfold P2, P1, P0, det. rewrite <- H. ring.
Qed.
Lemma resultant_y x y : c0 A * (x * y) + c1 A * x + c2 A * y = c3 A ->
  (c0 A * y + c1 A) * (c0 B * (x * y) + c1 B * x + c2 B * y - c3 B) = Q2 * y ^ 2 + Q1 * y + Q0.
Proof.
  intro H. unfold Q2, Q1, Q0, det. rewrite <- H. ring.
Qed.
Lemma roots_of_solution x y : solves A B x y -> P2 * x ^ 2 + P1 * x + P0 = 0 /\ Q2 * y ^ 2 + Q1 * y + Q0 = 0.
Proof.
  intros [H1 H2]. rewrite <- (resultant_x x y H1), <- (resultant_y x y H1). rewrite H2. split; ring.
Qed.

(* what is returned, in general *)
Lemma bilinear_general x y : 0 <= eps -> In (x, y) (bilinear_solve eps order A B) ->
  (Rabs (c0 A) < tol /\ Rabs (c0 B) < tol /\ c1 A * x + c2 A * y = c3 A /\ c1 B * x + c2 B * y = c3 B) \/
  (~ (Rabs (c0 A) < tol /\ Rabs (c0 B) < tol) /\
   c0 A * (x * y) + c1 A * x + c2 A * y = c3 A /\
   (In x (solutions (cubic_solve single_third eps 0 P2 P1 P0)) /\ tol < Rabs (c0 A * x + c2 A) \/
    In y (solutions (cubic_solve single_third eps 0 Q2 Q1 Q0)) /\ tol < Rabs (c0 A * y + c1 A))).
Proof.
  intros He. assert (Ht : 0 <= tol) by (apply Rmult_le_pos; [assumption | apply size_nonneg]).
  rewrite bilinear_eq. destruct (Rltb _ _ && Rltb _ _)%bool eqn:E.
  - apply andb_true_iff in E. destruct E as [E1 E2]. rb.
    destruct (Rltb (Rabs det) _) eqn:E3; rb; [intros []|]. intros [[= <- <-]|[]]. left.
    assert (Ht0 : 0 < tol) by (pose proof (Rabs_pos (c0 A)); lra).
    assert (Hd : det <> 0). { intro H. rewrite H, Rabs_R0 in E3. nra. }
    split; [assumption|]. split; [assumption|]. unfold P0. split; unfold det in *; field; assumption.
  - intro H. right. apply andb_false_iff in E.
    split. { intros [G1 G2]. apply Rltb_true in G1, G2. destruct E; congruence. }
    apply in_second in H; [|assumption]. destruct H as [H|(H1 & H2 & H3)].
    + apply in_first in H; [|assumption]. destruct H as (H1 & H2 & H3). split; [lra | tauto].
    + split; [lra | tauto].
Qed.

Lemma bilinear_exact x y : 0 <= eps -> clear_system eps A B -> In (x, y) (bilinear_solve eps order A B) -> solves A B x y.
Proof.
  intros He (K1 & K2 & K3) H. cbv zeta in *. fold tol det P2 P1 P0 in K1, K2. fold det Q2 Q1 Q0 in K3.
  assert (Ht : 0 <= tol) by (apply Rmult_le_pos; [assumption | apply size_nonneg]).
  destruct (bilinear_general x y He H) as [(G1 & G2 & G3 & G4)|(_ & G1 & [(G2 & G3)|(G2 & G3)])].
  - destruct (K1 (conj G1 G2)) as [E1 E2]. split; rewrite ?E1, ?E2; lra.
  - split; [assumption|]. apply solutions_exact in G2; try assumption.
    pose proof (resultant_x x y G1) as R. rewrite G2 in R. apply Rmult_integral in R.
    pose proof (abs_pos_ne _ _ Ht G3). destruct R; [tauto | lra].
  - split; [assumption|]. apply solutions_exact in G2; try assumption.
    pose proof (resultant_y x y G1) as R. rewrite G2 in R. apply Rmult_integral in R.
    pose proof (abs_pos_ne _ _ Ht G3). destruct R; [tauto | lra].
Qed.

Lemma bilinear_residual x y : 0 < eps -> In (x, y) (bilinear_solve eps order A B) ->
  (Rabs (c0 A) < tol /\ Rabs (c0 B) < tol /\ c1 A * x + c2 A * y = c3 A /\ c1 B * x + c2 B * y = c3 B) \/
  (c0 A * (x * y) + c1 A * x + c2 A * y = c3 A /\
   tol * Rabs (c0 B * (x * y) + c1 B * x + c2 B * y - c3 B) <= eps ^ 3 / 4 + eps * Rmax (x * x) (y * y)).
Proof.
  intros He H.
  destruct (bilinear_general x y (Rlt_le _ _ He) H) as [G|(_ & G1 & G)]; [tauto|]. right. split; [assumption|].
  set (r := c0 B * (x * y) + c1 B * x + c2 B * y - c3 B) in *.
  destruct G as [(G2 & G3)|(G2 & G3)]; apply solutions_near in G2; try assumption.
  - pose proof (resultant_x x y G1) as R. fold r in R. rewrite <- R, Rabs_mult in G2.
    assert (tol * Rabs r <= Rabs (c0 A * x + c2 A) * Rabs r) by (apply Rmult_le_compat_r; [apply Rabs_pos | lra]).
    assert (eps * (x * x) <= eps * Rmax (x * x) (y * y)) by (apply Rmult_le_compat_l; [lra | apply Rmax_l]). lra.
  - pose proof (resultant_y x y G1) as R. fold r in R. rewrite <- R, Rabs_mult in G2.
    assert (tol * Rabs r <= Rabs (c0 A * y + c1 A) * Rabs r) by (apply Rmult_le_compat_r; [apply Rabs_pos | lra]).
    assert (eps * (y * y) <= eps * Rmax (x * x) (y * y)) by (apply Rmult_le_compat_l; [lra | apply Rmax_r]). lra.
Qed.
End Bil.
