From Coq Require Import Lra.
From Verif Require Import BaseFacts RBaseFacts Lin_Spec.
Open Scope Z_scope.

Lemma Sum_ext n f g : (forall i, 0 <= i < n -> f i = g i) -> Sum n f = Sum n g.
Proof. intros H. apply Rsum_map_ext. intros i Hi. apply H. apply In_zrange in Hi. lia. Qed.
Lemma Sum_plus n f g : Sum n (fun i => f i + g i)%R = (Sum n f + Sum n g)%R.
Proof. apply Rsum_map_plus. Qed.
Lemma Sum_scal n c f : Sum n (fun i => c * f i)%R = (c * Sum n f)%R.
Proof. apply Rsum_map_scale. Qed.
Lemma Sum_scal_r n c f : Sum n (fun i => f i * c)%R = (Sum n f * c)%R.
Proof. apply Rsum_map_scale_r. Qed.
Lemma Sum_opp n f : Sum n (fun i => - f i)%R = (- Sum n f)%R.
Proof. replace (- Sum n f)%R with (-1 * Sum n f)%R by ring. rewrite <- Sum_scal. apply Sum_ext. intros. ring. Qed.
Lemma Sum_minus n f g : Sum n (fun i => f i - g i)%R = (Sum n f - Sum n g)%R.
Proof. unfold Rminus. rewrite Sum_plus, Sum_opp. reflexivity. Qed.
Lemma Sum_zero n f : (forall i, 0 <= i < n -> f i = 0%R) -> Sum n f = 0%R.
Proof. intros H. apply Rsum_map_zero. intros i Hi. apply H. apply In_zrange in Hi. lia. Qed.
Lemma Sum_0 f : Sum 0 f = 0%R.
Proof. reflexivity. Qed.
Lemma Sum_neg n f : n <= 0 -> Sum n f = 0%R.
Proof. intros H. unfold Sum. rewrite zrange_empty by lia. reflexivity. Qed.
Lemma Sum_S n f : 0 <= n -> Sum (n + 1) f = (Sum n f + f n)%R.
Proof.
  intros H. unfold Sum. rewrite (zrange_app 0 n (n + 1)) by lia. rewrite map_app, Rsum_app. f_equal.
  rewrite zrange_cons, zrange_empty by lia. cbn [map]. rewrite Rsum_cons, Rsum_nil. ring.
Qed.
Lemma Sum_pred n f : 0 < n -> Sum n f = (Sum (n - 1) f + f (n - 1)%Z)%R.
Proof. intros H. rewrite <- Sum_S by lia. f_equal. lia. Qed.
Lemma Sum_nonneg n f : (forall i, 0 <= i < n -> (0 <= f i)%R) -> (0 <= Sum n f)%R.
Proof. intros H. apply Rsum_map_nonneg. intros i Hi. apply H. apply In_zrange in Hi. lia. Qed.
Lemma Sum_le n f g : (forall i, 0 <= i < n -> (f i <= g i)%R) -> (Sum n f <= Sum n g)%R.
Proof. intros H. apply Rsum_map_le. intros i Hi. apply H. apply In_zrange in Hi. lia. Qed.
Lemma Sum_swap n m f : Sum n (fun i => Sum m (f i)) = Sum m (fun j => Sum n (fun i => f i j)).
Proof.
  unfold Sum. generalize (zrange 0 n) as l. induction l as [|a l IH].
  - cbn [map]. rewrite Rsum_nil. symmetry. apply Rsum_map_zero. intros; reflexivity.
  - cbn [map]. rewrite Rsum_cons, IH, <- Rsum_map_plus. apply Rsum_map_ext. intros. cbn [map]. rewrite Rsum_cons. reflexivity.
Qed.
Lemma Sum_pick n k f : 0 <= k < n -> (forall i, 0 <= i < n -> i <> k -> f i = 0%R) -> Sum n f = f k.
Proof.
  intros Hk H. unfold Sum. rewrite (zrange_app 0 k n) by lia. rewrite (zrange_cons k n) by lia. rewrite map_app. cbn [map].
  rewrite Rsum_app, Rsum_cons. rewrite (Rsum_map_zero f (zrange 0 k)), (Rsum_map_zero f (zrange (k + 1) n)); [ring| |];
    intros i Hi; apply In_zrange in Hi; apply H; lia.
Qed.
Lemma Sum_ident_l n k f : 0 <= k < n -> Sum n (fun i => ident k i * f i)%R = f k.
Proof. intros H. rewrite (Sum_pick n k); [unfold ident; rewrite Z.eqb_refl; ring|exact H|]. intros i _ E. unfold ident. rewrite (proj2 (Z.eqb_neq k i)) by lia. ring. Qed.
Lemma Sum_ident_r n k f : 0 <= k < n -> Sum n (fun i => f i * ident i k)%R = f k.
Proof. intros H. rewrite (Sum_pick n k); [unfold ident; rewrite Z.eqb_refl; ring|exact H|]. intros i _ E. unfold ident. rewrite (proj2 (Z.eqb_neq i k)) by lia. ring. Qed.
Lemma Sum_split n m f : 0 <= n <= m -> Sum m f = (Sum n f + Sum (m - n) (fun i => f (n + i)%Z))%R.
Proof.
  intros H. unfold Sum at 1 2. rewrite (zrange_app 0 n m) by lia. rewrite map_app, Rsum_app. f_equal.
  unfold Sum. unfold zrange. rewrite !map_map. replace (m - n - 0) with (m - n) by ring. f_equal.
Qed.
Lemma Sum_sq_zero n f : Sum n (fun i => f i * f i)%R = 0%R -> forall i, 0 <= i < n -> f i = 0%R.
Proof.
  intros H i Hi. assert (P : (0 < f i * f i \/ f i = 0)%R).
  { destruct (Req_dec (f i) 0) as [E|E]; [right; exact E|left]. destruct (Rdichotomy _ _ E); nra. }
  destruct P as [P|P]; [exfalso|exact P].
  assert (Q : (f i * f i <= Sum n (fun j => f j * f j))%R).
  { unfold Sum. rewrite (zrange_app 0 i n) by lia. rewrite (zrange_cons i n) by lia. rewrite map_app. cbn [map]. rewrite Rsum_app, Rsum_cons.
    assert (A : (0 <= Rsum (map (fun j => f j * f j) (zrange 0 i)))%R) by (apply Rsum_map_nonneg; intros; nra).
    assert (B : (0 <= Rsum (map (fun j => f j * f j) (zrange (i + 1) n)))%R) by (apply Rsum_map_nonneg; intros; nra).
    lra. }
  lra.
Qed.
Lemma dot_sym n x y : dot n x y = dot n y x.
Proof. apply Sum_ext. intros. ring. Qed.
Lemma mvec_mmul m k a b x i : mvec m (mmul k a b) x i = mvec k a (mvec m b x) i.
Proof.
  unfold mvec, mmul. rewrite (Sum_ext m _ (fun j => Sum k (fun l => a i l * (b l j * x j))%R)).
  2:{ intros j _. rewrite <- Sum_scal_r. apply Sum_ext. intros. ring. }
  rewrite Sum_swap. apply Sum_ext. intros l _. rewrite Sum_scal. reflexivity.
Qed.
(* x . (A y) = (A^T x) . y *)
Lemma dot_mvec n m a x y : dot n x (mvec m a y) = dot m (mvec n (fun i j => a j i) x) y.
Proof.
  unfold dot, mvec. rewrite (Sum_ext n _ (fun i => Sum m (fun j => x i * (a i j * y j)))%R) by (intros; rewrite Sum_scal; reflexivity).
  rewrite Sum_swap. apply Sum_ext. intros j _. rewrite <- Sum_scal_r. apply Sum_ext. intros. ring.
Qed.
Lemma mmul_assoc k l a b c i j : mmul k a (mmul l b c) i j = mmul l (mmul k a b) c i j.
Proof.
  unfold mmul. rewrite (Sum_ext k _ (fun p => Sum l (fun q => a i p * (b p q * c q j)))%R) by (intros; rewrite Sum_scal; reflexivity).
  rewrite Sum_swap. apply Sum_ext. intros q _. rewrite <- Sum_scal_r. apply Sum_ext. intros. ring.
Qed.
