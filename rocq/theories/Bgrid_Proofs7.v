(* Concrete quads. *)
From Verif Require Import BaseFacts RBaseFacts Bgrid_Spec Bgrid_Proofs Bgrid_Proofs3 Bgrid_Proofs4 Bgrid_Proofs5 Bgrid_Proofs6.
Open Scope R_scope.

Lemma max_le l M : 0 <= M -> (forall x, In x l -> x <= M) -> fold_right Rmax 0 l <= M.
Proof.
  intros HM. induction l as [|x l IH]; intro H; cbn [fold_right]; [assumption|].
  apply Rmax_lub; [apply H; now left | apply IH; intros; apply H; now right].
Qed.
Ltac abs_bound := unfold Rabs; destruct (Rcase_abs _); lra.
Lemma size_bounds A B m M : 0 <= M -> m <= Rabs (c3 B) \/ m <= Rabs (c1 A) \/ m <= Rabs (c1 B) ->
  Rabs (c0 A) <= M -> Rabs (c0 B) <= M -> Rabs (c1 A) <= M -> Rabs (c1 B) <= M -> Rabs (c2 A) <= M -> Rabs (c2 B) <= M ->
  Rabs (c3 A) <= M -> Rabs (c3 B) <= M -> m <= size_of A B <= M.
Proof.
  intros HM Hm H1 H2 H3 H4 H5 H6 H7 H8. split.
  - destruct Hm as [Hm|[Hm|Hm]]; eapply Rle_trans; try exact Hm; apply max_ge; cbn; tauto.
  - apply max_le; [assumption|]. cbn. intros x. intuition (subst; assumption).
Qed.


(* a parallelogram and a point to the left of it that lies in its bounding box *)
Lemma outside_accepted init : q4inv (quad_at 0 0 2 0 3 1 1 1) (1 / 5, 4 / 5) tiny tiny init = (1%Z, (- 3 / 10, 4 / 5)).
Proof.
  set (q := quad_at 0 0 2 0 3 1 1 1). set (p := (1 / 5, 4 / 5)).
  assert (EA : x_eq q p = mkCoefs 0 2 1 (1 / 5)) by (unfold x_eq, quad_coefs, q, p; cbn; f_equal; lra).
  assert (EB : y_eq q p = mkCoefs 0 0 1 (4 / 5)) by (unfold y_eq, quad_coefs, q, p; cbn; f_equal; lra).
  assert (Hs : 2 <= size_of (x_eq q p) (y_eq q p) <= 2).
  { rewrite EA, EB. apply size_bounds; cbn [c0 c1 c2 c3]; try lra; try abs_bound. right; left. abs_bound. }
  assert (Hc : clear_system tiny (x_eq q p) (y_eq q p)).
  { split; [|split; split]; cbv zeta; rewrite EA, EB; cbn [c0 c1 c2 c3]; try tauto; try (left; lra); right; right; lra. }
  rewrite q4inv_eq by (try assumption; unfold tiny; lra).
  rewrite bilinear_eq. rewrite EA, EB in *. cbn [c0 c1 c2 c3] in *. set (S := size_of _ _) in *.
  assert (S = 2) by lra. rewrite H. unfold tiny. rewrite Rabs_R0, Rltb_t by lra. cbn [andb].
  rewrite Rltb_f by (rewrite Rabs_right; lra).
  replace ((1 * (1 / 5) - 1 * (4 / 5)) / (2 * 1 - 0 * 1)) with (- 3 / 10) by field.
  replace ((- 0 * (1 / 5) + 2 * (4 / 5)) / (2 * 1 - 0 * 1)) with (4 / 5) by field.
  unfold accepted. cbn [filter fst snd]. rewrite !Rltb_t by lra. reflexivity.
Qed.

(* a convex quad passed clockwise: the coordinates inside are found and then overwritten *)
Lemma overwritten init : q4inv (quad_at 0 0 0 1 (4 / 5) (4 / 5) 1 0) (9 / 20, 9 / 20) tiny tiny init = (1%Z, (9 / 2, 9 / 2)) /\
  q_pos (quad_at 0 0 0 1 (4 / 5) (4 / 5) 1 0) (1 / 2) (1 / 2) = (9 / 20, 9 / 20).
Proof.
  split; [|unfold q_pos, eval_basis; cbn; f_equal; field].
  set (q := quad_at 0 0 0 1 (4 / 5) (4 / 5) 1 0). set (p := (9 / 20, 9 / 20)).
  assert (EA : x_eq q p = mkCoefs (- (1 / 5)) 0 1 (9 / 20)) by (unfold x_eq, quad_coefs, q, p; cbn; f_equal; lra).
  assert (EB : y_eq q p = mkCoefs (- (1 / 5)) 1 0 (9 / 20)) by (unfold y_eq, quad_coefs, q, p; cbn; f_equal; lra).
  assert (Hs : 1 <= size_of (x_eq q p) (y_eq q p) <= 1).
  { rewrite EA, EB. apply size_bounds; cbn [c0 c1 c2 c3]; try lra; try abs_bound. right; right. abs_bound. }
  assert (Hc : clear_system tiny (x_eq q p) (y_eq q p)).
  { unfold tiny. split; [|split; split]; cbv zeta; rewrite EA, EB in *; cbn [c0 c1 c2 c3].
    - intros [G _]. rewrite Rabs_left in G by lra. lra.
    - right. abs_bound.
    - left. lra.
    - right. abs_bound.
    - left. lra. }
  rewrite q4inv_eq by (try assumption; unfold tiny; lra).
  rewrite bilinear_eq. rewrite EA, EB in *. cbn [c0 c1 c2 c3] in *. set (S := size_of _ _) in *.
  assert (ES : S = 1) by lra. unfold tiny in *. rewrite ES.
  rewrite (Rltb_f (Rabs (- (1 / 5)))) by (rewrite Rabs_left; lra). cbn [andb].
  replace (0 * 0 - 1 * 1) with (- 1) by ring.
  replace (- (1 / 5) * 0 - - (1 / 5) * 1) with (1 / 5) by field.
  replace (- (1 / 5) * (9 / 20) - - (1 / 5) * (9 / 20) + -1) with (- 1) by field.
  replace (1 * (9 / 20) - 0 * (9 / 20)) with (9 / 20) by field.
  replace (- (1 / 5) * 1 - - (1 / 5) * 0) with (- (1 / 5)) by field.
  replace (- (1 / 5) * (9 / 20) - - (1 / 5) * (9 / 20) - -1) with 1 by field.
  replace (0 * (9 / 20) - 1 * (9 / 20)) with (- (9 / 20)) by field.
  assert (Hsq : sqrt ((8 / 10) * (8 / 10)) = 8 / 10) by (apply sqrt_square; lra).
  assert (E1 : solutions (cubic_solve single_third (1 / 100000000) 0 (- (1 / 5)) 1 (- (9 / 20))) = [1 / 2; 9 / 2]).
  { unfold cubic_solve. rewrite (Rltb_f _ (Rabs 0)) by (rewrite Rabs_R0; lra).
    rewrite (Rltb_t _ (Rabs (- (1 / 5)))) by (rewrite Rabs_left; lra).
    replace (1 * 1 - 4 * - (1 / 5) * - (9 / 20)) with ((8 / 10) * (8 / 10)) by field.
    rewrite Rltb_t, Hsq by lra. cbn. f_equal; [field|]. f_equal. field. }
  assert (E2 : solutions (cubic_solve single_third (1 / 100000000) 0 (1 / 5) (- 1) (9 / 20)) = [9 / 2; 1 / 2]).
  { unfold cubic_solve. rewrite (Rltb_f _ (Rabs 0)) by (rewrite Rabs_R0; lra).
    rewrite (Rltb_t _ (Rabs (1 / 5))) by (rewrite Rabs_right; lra).
    replace (- 1 * - 1 - 4 * (1 / 5) * (9 / 20)) with ((8 / 10) * (8 / 10)) by field.
    rewrite Rltb_t, Hsq by lra. cbn. f_equal; [field|]. f_equal. field. }
  rewrite E1, E2. unfold first_pairs. cbn [flat_map c0 c1 c2 c3]. fold S. rewrite ES.
  rewrite (Rltb_t _ (Rabs (- (1 / 5) * (1 / 2) + 1))) by (rewrite Rabs_right; lra).
  rewrite (Rltb_t _ (Rabs (- (1 / 5) * (9 / 2) + 1))) by (rewrite Rabs_right; lra). cbn [app].
  replace ((9 / 20 - 0 * (1 / 2)) / (- (1 / 5) * (1 / 2) + 1)) with (1 / 2) by field.
  replace ((9 / 20 - 0 * (9 / 2)) / (- (1 / 5) * (9 / 2) + 1)) with (9 / 2) by field.
  cbn [fold_left]. rewrite (seen (1 / 100000000) _ _ 0) with (z := 9 / 2); [| lra | right; exists (9 / 2); cbn; tauto].
  rewrite (seen (1 / 100000000) _ _ 0) with (z := 1 / 2); [| lra | right; exists (1 / 2); cbn; tauto].
  unfold accepted. cbn [filter fst snd]. rewrite !(Rltb_t (1 / 2)) by lra. rewrite !(Rltb_f (9 / 2)) by lra. reflexivity.
Qed.

(* a quad that meets the hypotheses of the inversion theorem *)
Lemma convex_example :
  let q := quad_at 0 0 1 0 (4 / 5) (4 / 5) 0 1 in let p := q_pos q (1 / 2) (1 / 2) in
  let A := x_eq q p in let B := y_eq q p in let tol := tiny * size_of A B in
  convex (Rmax tiny (tol * tol)) q /\ v_x (q_v0 q) + tol < v_x (q_v1 q) /\ v_x (q_v3 q) + tol < v_x (q_v2 q) /\
  clear_system tiny A B /\ clear_pivots tiny A B.
Proof.
  intros q p A B tol.
  assert (Ep : p = (9 / 20, 9 / 20)) by (unfold p, q_pos, eval_basis; cbn; f_equal; field).
  assert (EA : A = mkCoefs (- (1 / 5)) 1 0 (9 / 20)) by (unfold A, x_eq, quad_coefs, q; rewrite Ep; cbn; f_equal; lra).
  assert (EB : B = mkCoefs (- (1 / 5)) 0 1 (9 / 20)) by (unfold B, y_eq, quad_coefs, q; rewrite Ep; cbn; f_equal; lra).
  assert (Hs : 1 <= size_of A B <= 1).
  { rewrite EA, EB. apply size_bounds; cbn [c0 c1 c2 c3]; try lra; try abs_bound. right; left. abs_bound. }
  assert (Et : tol = tiny) by (unfold tol; replace (size_of A B) with 1 by lra; ring).
  rewrite Et. replace (Rmax tiny (tiny * tiny)) with tiny by (symmetry; apply Rmax_left; unfold tiny; lra).
  unfold convex, area2, tiny, q, quad_at, vtx. cbn [q_v0 q_v1 q_v2 q_v3 v_x v_y].
  split; [repeat split; lra|]. split; [lra|]. split; [lra|]. split.
  - split; [|split; split]; cbv zeta; replace (size_of A B) with 1 by lra; rewrite EA, EB; cbn [c0 c1 c2 c3].
    + intros [G _]. rewrite Rabs_left in G by lra. lra.
    + right. abs_bound.
    + left. lra.
    + right. abs_bound.
    + left. lra.
  - intros x y Hxy. pose proof (roots_of_solution _ _ _ _ Hxy) as [Hx _]. replace (size_of A B) with 1 by lra.
    rewrite EA, EB in *. cbn [c0 c1 c2 c3] in *. right.
    assert (E : (x - 1 / 2) * (x - 9 / 2) = 0) by (ring_simplify; ring_simplify in Hx; lra).
    apply Rmult_integral in E. destruct E as [E|E]; [replace x with (1 / 2) by lra | replace x with (9 / 2) by lra]; rewrite Rabs_left; lra.
Qed.

(* a sorting function *)
Fixpoint ins (d : Z) (v : vertex) (l : list vertex) : list vertex :=
  match l with [] => [v] | w :: t => if Rleb (coord_of d v) (coord_of d w) then v :: l else w :: ins d v t end.
Definition isort : sorter := fun d l => fold_right (ins d) [] l.
Lemma isort_sorts : sorts isort.
Proof.
  intros d l. assert (Hins : forall v t, Permutation (v :: t) (ins d v t) /\
    (StronglySorted (fun a b => coord_of d a <= coord_of d b) t -> StronglySorted (fun a b => coord_of d a <= coord_of d b) (ins d v t))).
  { intros v t. induction t as [|w t [P S]].
    - split; [apply Permutation_refl|]. intros _. repeat constructor.
    - cbn [ins]. destruct (Rleb _ _) eqn:E; rb.
      + split; [apply Permutation_refl|]. intro Hs. constructor; [assumption|]. apply StronglySorted_inv in Hs. destruct Hs as [_ F].
        constructor; [assumption|]. eapply Forall_impl; [|exact F]. cbn. intros. lra.
      + split; [eapply perm_trans; [apply perm_swap | now apply perm_skip]|]. intro Hs. apply StronglySorted_inv in Hs. destruct Hs as [Hs F].
        constructor; [now apply S|]. rewrite Forall_forall in *. intros a Ha. apply (Permutation_in _ (Permutation_sym P)) in Ha.
        destruct Ha as [<-|Ha]; [lra | now apply F]. }
  unfold isort. induction l as [|v l [P S]]; cbn [fold_right]; [split; constructor|]. destruct (Hins v (fold_right (ins d) [] l)) as [P' S'].
  split; [eapply perm_trans; [apply perm_skip; exact P | exact P'] | now apply S'].
Qed.
