(* C76, C79, C83: dense matrices, small inverses and averages.  "holds m o n k f": m is stored in ordering o,
   is n by k and has the entries f (Matx_Spec.v). *)
From Coq Require Import Lra.
From Verif Require Import BaseFacts RBaseFacts Lin_Facts Matx_Spec Matx_Proofs Matx_Proofs2 Matx_Proofs3.
Open Scope Z_scope.

Theorem C76_inverse2x2 : forall m o f, holds m o 2 2 f ->
  (det2 f <> 0%R -> exists mi g, inverse2x2 m = Ok mi /\ holds mi o 2 2 g /\
     forall i j, 0 <= i < 2 -> 0 <= j < 2 -> mmul 2 g f i j = ident i j /\ mmul 2 f g i j = ident i j) /\
  (det2 f = 0%R -> inverse2x2 m = UB).
Proof. exact inverse2_ok. Qed.
Theorem C76_inverse3x3 : forall m o f, holds m o 3 3 f ->
  (det3 f <> 0%R -> f 2 2 <> 0%R -> exists mi g, inverse3x3 m = Ok mi /\ holds mi o 3 3 g /\
     forall i j, 0 <= i < 3 -> 0 <= j < 3 -> mmul 3 g f i j = ident i j /\ mmul 3 f g i j = ident i j) /\
  (det3 f = 0%R \/ f 2 2 = 0%R -> inverse3x3 m = UB).
Proof. exact inverse3_ok. Qed.
(* an invertible matrix for which the routine divides by zero *)
Theorem C76_invertible_refuted : exists m f, holds m COrd 3 3 f /\ det3 f <> 0%R /\ inverse3x3 m = UB.
Proof. exact inverse3_refuted. Qed.
Theorem C76_matprod : forall a b oa ob n k p f g, holds a oa n k f -> holds b ob k p g ->
  exists m, matprod a b = Ok m /\ holds m oa n p (mmul k f g).
Proof. exact matprod_ok. Qed.
Example C76_case : holds (mkMat 2 2 COrd [1; 2; 3; 4]%R) COrd 2 2 (fun r c => IZR (2 * r + c + 1)) /\ det2 (fun r c => IZR (2 * r + c + 1)) <> 0%R.
Proof.
  split; [|unfold det2; cbn; lra]. repeat split; try (cbn; lia). intros r c Hr Hc. destruct (two_cases r Hr) as [-> | ->], (two_cases c Hc) as [-> | ->]; reflexivity.
Qed.
Print Assumptions C76_inverse2x2. Print Assumptions C76_inverse3x3. Print Assumptions C76_invertible_refuted. Print Assumptions C76_matprod.

Theorem C79_ordered : forall a b, (0 < a)%R -> (0 < b)%R ->
  (Rmin a b <= harmonic_average a b <= geometric_average a b /\ geometric_average a b <= arithmetic_average a b <= Rmax a b /\
  harmonic_average a b = 2 / (/ a + / b) /\ geometric_average a b * geometric_average a b = a * b /\ 0 < geometric_average a b /\ arithmetic_average a b = (a + b) / 2)%R.
Proof. exact averages_ok. Qed.
Theorem C79_symmetric : forall a b, arithmetic_average a b = arithmetic_average b a /\ geometric_average a b = geometric_average b a /\ harmonic_average a b = harmonic_average b a.
Proof. exact averages_sym. Qed.
Theorem C79_same : forall a, (0 < a)%R -> arithmetic_average a a = a /\ geometric_average a a = a /\ harmonic_average a a = a.
Proof. exact averages_same. Qed.
Theorem C79_not_positive : forall a b, (a * b <= 0)%R -> geometric_average a b = 0%R /\ harmonic_average a b = 0%R.
Proof. exact averages_nonpos. Qed.
Print Assumptions C79_ordered. Print Assumptions C79_symmetric. Print Assumptions C79_same. Print Assumptions C79_not_positive.

(* C83: every position of the array belongs to exactly one element *)
Theorem C83_index : forall m, 0 <= m_rows m -> 0 <= m_cols m ->
  (forall r c, 0 <= r < m_rows m -> 0 <= c < m_cols m -> 0 <= midx m r c < m_rows m * m_cols m) /\
  (forall r c r' c', 0 <= r < m_rows m -> 0 <= c < m_cols m -> 0 <= r' < m_rows m -> 0 <= c' < m_cols m -> midx m r c = midx m r' c' -> r = r' /\ c = c') /\
  (forall k, 0 <= k < m_rows m * m_cols m -> exists r c, 0 <= r < m_rows m /\ 0 <= c < m_cols m /\ k = midx m r c).
Proof. intros m H1 H2. split; [intros; apply pos_range; assumption|]. split; [intros r c r' c' A B C D; exact (pos_inj (m_ord m) (m_rows m) (m_cols m) r c r' c' A B C D)|intros k; exact (pos_onto (m_ord m) (m_rows m) (m_cols m) k H1 H2)]. Qed.
Theorem C83_read : forall m o rows cols f r c, holds m o rows cols f -> 0 <= r < rows -> 0 <= c < cols -> mget m r c = Ok (f r c).
Proof. exact holds_get. Qed.
Theorem C83_write : forall m o rows cols f r c v, holds m o rows cols f -> 0 <= r < rows -> 0 <= c < cols ->
  exists m', mset m r c v = Ok m' /\ holds m' o rows cols (fun i j => if (i =? r) && (j =? c) then v else f i j).
Proof. exact holds_set. Qed.
(* between any two orderings *)
Theorem C83_assign : forall dst src o o' rows cols g f, holds dst o rows cols g -> holds src o' rows cols f ->
  exists m', massign dst src = Ok m' /\ holds m' o rows cols f.
Proof. exact assign_ok. Qed.
Theorem C83_equal : forall a b o o' rows cols rows' cols' f g, holds a o rows cols f -> holds b o' rows' cols' g ->
  exists e, mequal a b = Ok e /\ (e = true <-> rows = rows' /\ cols = cols' /\ forall r c, 0 <= r < rows -> 0 <= c < cols -> f r c = g r c).
Proof. exact equal_ok. Qed.
Theorem C83_add : forall a b o rows cols f g, holds a o rows cols f -> holds b o rows cols g ->
  exists m, madd a b = Ok m /\ holds m o rows cols (fun r c => f r c + g r c)%R.
Proof. exact add_ok. Qed.
Theorem C83_scale : forall a o rows cols f s, holds a o rows cols f -> holds (mscale a s) o rows cols (fun r c => f r c * s)%R.
Proof. exact scale_ok. Qed.
Theorem C83_zero : forall a o rows cols f, holds a o rows cols f -> exists m, mzero a = Ok m /\ holds m o rows cols (fun _ _ => 0%R).
Proof. exact zero_ok. Qed.
Theorem C83_eye : forall a o rows cols f, holds a o rows cols f -> exists m, meye a = Ok m /\ holds m o rows cols ident.
Proof. exact eye_ok. Qed.
Theorem C83_trace : forall a o rows cols f, holds a o rows cols f -> mtrace a = Ok (Sum (Z.min rows cols) (fun i => f i i)).
Proof. exact trace_ok. Qed.
Theorem C83_prod_vector : forall a o n f x, holds a o n n f -> zlen x = n ->
  exists y, mprodv a n x = Ok y /\ zlen y = n /\ forall r, 0 <= r < n -> nthR y r = mvec n f (nthR x) r.
Proof. exact prodv_ok. Qed.
Theorem C83_prod : forall a b dst oa ob o n k p f g h, holds a oa n k f -> holds b ob k p g -> holds dst o n p h ->
  exists m, mprod a b dst = Ok m /\ holds m o n p (mmul k f g).
Proof. exact prod_ok. Qed.
(* the wrappers of BLAS, for the results BLAS documents *)
Theorem C83_mat_mul_add : forall A B C m n k f g h a1 a2, holds C FOrd m n h ->
  (holds A FOrd m k f -> holds B FOrd k n g -> exists C', mat_mul_add_NN a1 A B a2 C = Ok C' /\ holds C' FOrd m n (fun i j => a1 * mmul k f g i j + a2 * h i j)%R) /\
  (holds A FOrd m k f -> holds B FOrd n k g -> exists C', mat_mul_add_NT a1 A B a2 C = Ok C' /\ holds C' FOrd m n (fun i j => a1 * mmul k f (fun l j => g j l) i j + a2 * h i j)%R) /\
  (holds A FOrd k m f -> holds B FOrd k n g -> exists C', mat_mul_add_TN a1 A B a2 C = Ok C' /\ holds C' FOrd m n (fun i j => a1 * mmul k (fun i l => f l i) g i j + a2 * h i j)%R) /\
  (holds A FOrd m k f -> holds B COrd k n g -> exists C', mat_mul_add_NNc a1 A B a2 C = Ok C' /\ holds C' FOrd m n (fun i j => a1 * mmul k f g i j + a2 * h i j)%R).
Proof.
  intros A B C m n k f g h a1 a2 HC. split; [intros HA HB; exact (NN_ok A B C m n k f g h a1 a2 HA HB HC)|]. split; [intros HA HB; exact (NT_ok A B C m n k f g h a1 a2 HA HB HC)|].
  split; intros HA HB; [exact (TN_ok A B C m n k f g h a1 a2 HA HB HC)|exact (NNc_ok A B C m n k f g h a1 a2 HA HB HC)].
Qed.
Theorem C83_vec_mul_add : forall (tr : bool) A m n f a1 a2 x y, holds A FOrd m n f -> zlen x = (if tr then m else n) -> zlen y = (if tr then n else m) ->
  exists z, vec_mul_add tr a1 A x a2 y = Ok z /\ zlen z = zlen y /\
    forall i, 0 <= i < zlen y -> nthR z i = (a1 * mvec (zlen x) (fun i l => if tr then f l i else f i l) (nthR x) i + a2 * nthR y i)%R.
Proof. exact gemv_ok. Qed.
Theorem C83_vec_mul_add_c : forall A m n f a1 a2 x y, holds A COrd m n f -> zlen x = n -> zlen y = m ->
  exists z, vec_mul_add_c a1 A x a2 y = Ok z /\ zlen z = m /\ forall i, 0 <= i < m -> nthR z i = (a1 * mvec n f (nthR x) i + a2 * nthR y i)%R.
Proof. exact gemv_c_ok. Qed.
Theorem C83_symmetric_update : forall A C n k f h a1 a2, holds A FOrd n k f -> holds C FOrd n n h -> (forall i j, 0 <= i < n -> 0 <= j < n -> h i j = h j i) ->
  exists C', sym_update a1 A a2 C = Ok C' /\ holds C' FOrd n n (fun i j => a1 * mmul k f (fun l j => f j l) i j + a2 * h i j)%R.
Proof. exact sym_update_ok. Qed.
(* A B A for diagonal A ... *)
Theorem C83_congruence : forall A B n f h, holds A FOrd n n f -> holds B FOrd n n h ->
  (forall i j, 0 <= i < n -> 0 <= j < n -> h i j = h j i) -> (forall i j, 0 <= i < n -> 0 <= j < n -> i <> j -> f i j = 0%R) ->
  exists B', sym_update2 A B = Ok B' /\ holds B' FOrd n n (fun i j => f i i * h i j * f j j)%R.
Proof. exact sym_update2_ok. Qed.
(* ... but not for every symmetric A, which is all the comment in the code asks for *)
Theorem C83_congruence_refuted : exists A B B' f h h', holds A FOrd 2 2 f /\ holds B FOrd 2 2 h /\ (forall i j, f i j = f j i) /\ (forall i j, h i j = h j i) /\
  sym_update2 A B = Ok B' /\ holds B' FOrd 2 2 h' /\ h' 1 1 <> mmul 2 (mmul 2 f h) f 1 1.
Proof. exact sym_update2_refuted. Qed.
(* a 2 by 3 matrix in both orderings *)
Example C83_case : holds (mkMat 2 3 COrd [0; 1; 2; 10; 11; 12]%R) COrd 2 3 (fun r c => IZR (10 * r + c)) /\
  holds (mkMat 2 3 FOrd [0; 10; 1; 11; 2; 12]%R) FOrd 2 3 (fun r c => IZR (10 * r + c)).
Proof.
  split; repeat split; try (cbn; lia); intros r c Hr Hc; destruct (two_cases r Hr) as [-> | ->], (three_cases c Hc) as [-> | [-> | ->]]; reflexivity.
Qed.
Print Assumptions C83_index. Print Assumptions C83_read. Print Assumptions C83_write. Print Assumptions C83_assign. Print Assumptions C83_equal. Print Assumptions C83_add. Print Assumptions C83_scale. Print Assumptions C83_zero. Print Assumptions C83_eye. Print Assumptions C83_trace. Print Assumptions C83_prod_vector. Print Assumptions C83_prod. Print Assumptions C83_mat_mul_add. Print Assumptions C83_vec_mul_add. Print Assumptions C83_vec_mul_add_c. Print Assumptions C83_symmetric_update. Print Assumptions C83_congruence. Print Assumptions C83_congruence_refuted.
