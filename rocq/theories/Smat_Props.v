From Verif Require Import Smat_Proofs2 Smat_Spec.
Open Scope Z_scope.

(* C96: sparse matrix helpers *)
Theorem C96_from_dense : forall n m T, 0 <= n -> 0 <= m ->
  exists r, from_dense n m T = Ok r /\ wf_smat r /\ dims r n m /\
    (forall a b, stored r a b <-> 0 <= a < n /\ 0 <= b < m /\ (/ 10 ^ 14 < Rabs (T a b))%R) /\
    (forall a b, stored r a b -> coef r a b = T a b) /\ (forall a b, ~ stored r a b -> coef r a b = 0%R).
Proof. exact Smat_Proofs2.from_dense_ok. Qed.
Theorem C96_axpy : forall A B alpha, wf_smat A -> wf_smat B -> dims B (sm_n A) (sm_m A) ->
  exists r, axpy A B alpha = Ok r /\ wf_smat r /\ dims r (sm_n A) (sm_m A) /\
    (forall i j, stored r i j <-> stored A i j \/ stored B i j) /\ forall i j, coef r i j = (coef A i j + alpha * coef B i j)%R.
Proof. exact Smat_Proofs2.axpy_ok. Qed.
Theorem C96_augment : forall A B r0 c0, wf_smat A -> wf_smat B -> 0 <= r0 -> 0 <= c0 ->
  exists r, augment A B r0 c0 false = Ok r /\ wf_smat r /\ dims r (Z.max (sm_n A) (r0 + sm_n B)) (Z.max (sm_m A) (c0 + sm_m B)) /\
    (forall a b, stored r a b <-> stored A a b \/ stored B (a - r0) (b - c0)) /\
    (forall a b, stored B (a - r0) (b - c0) -> coef r a b = coef B (a - r0) (b - c0)) /\
    (forall a b, ~ stored B (a - r0) (b - c0) -> coef r a b = coef A a b).
Proof. exact Smat_Proofs2.augment_plain. Qed.
Theorem C96_augment_symmetric : forall A B r0 c0, wf_smat A -> wf_smat B -> 0 <= r0 -> 0 <= c0 -> sm_n A = sm_m A ->
  (forall i j i' j', stored B i j -> stored B i' j' -> i + r0 = j' + c0 -> j + c0 = i' + r0 -> coef B i j = coef B i' j') ->
  exists r n, augment A B r0 c0 true = Ok r /\ wf_smat r /\ n = Z.max (sm_n A) (Z.max (r0 + sm_n B) (c0 + sm_m B)) /\ dims r n n /\
    (forall a b, stored r a b <-> stored A a b \/ stored B (a - r0) (b - c0) \/ stored B (b - r0) (a - c0) \/ (a = b /\ 0 <= a < n)) /\
    (forall a b, stored B (a - r0) (b - c0) -> coef r a b = coef B (a - r0) (b - c0) /\ coef r b a = coef B (a - r0) (b - c0)) /\
    (forall a b, ~ stored B (a - r0) (b - c0) -> ~ stored B (b - r0) (a - c0) -> coef r a b = coef A a b) /\
    ((forall a b, coef A a b = coef A b a) -> forall a b, coef r a b = coef r b a).
Proof. exact Smat_Proofs2.augment_symmetric. Qed.
Theorem C96_diagonal : forall n, 0 <= n -> exists r, diagonal n = Ok r /\ wf_smat r /\ dims r n n /\ (forall a b, stored r a b <-> a = b /\ 0 <= a < n) /\ forall a b, coef r a b = 0%R.
Proof. exact Smat_Proofs2.diagonal_ok. Qed.
Theorem C96_extract_diagonal : forall A, wf_smat A -> (forall i, 0 <= i < sm_m A -> stored A i i) ->
  exists r, extract_diagonal A = Ok r /\ wf_smat r /\ dims r (sm_m A) (sm_m A) /\ forall a b, coef r a b = if (a =? b) && (0 <=? a) && (a <? sm_m A) then coef A a a else 0%R.
Proof. exact Smat_Proofs2.extract_diagonal_ok. Qed.
Theorem C96_extract_diagonal_missing : forall A i, wf_smat A -> 0 <= i < sm_m A -> ~ stored A i i -> extract_diagonal A = UB.
Proof. exact Smat_Proofs2.extract_diagonal_missing. Qed.
Theorem C96_extract_block : forall A r0 n c0 m, wf_smat A -> 0 <= n -> 0 <= m ->
  exists r, extract_block A r0 n c0 m = Ok r /\ wf_smat r /\ dims r n m /\
    (forall a b, stored r a b <-> 0 <= a < n /\ 0 <= b < m /\ stored A (a + r0) (b + c0)) /\
    forall a b, 0 <= a < n -> 0 <= b < m -> coef r a b = coef A (a + r0) (b + c0).
Proof. exact Smat_Proofs2.extract_block_ok. Qed.
Theorem C96_save : forall A, wf_smat A -> fst (save_asc A) = (sm_n A, sm_m A) /\ zlen (snd (save_asc A)) = sm_n A /\
  forall i line, zget (snd (save_asc A)) i = Some line -> zlen line = sm_m A /\ forall j, 0 <= j < sm_m A -> zget line j = Some (coef A i j).
Proof. exact Smat_Proofs2.save_asc_ok. Qed.
Theorem C96_print : forall A i j v, wf_smat A -> (In (i, j, v) (print_lines A) <-> stored A i j /\ v = coef A i j /\ (/ 10 ^ 14 <= Rabs v)%R).
Proof. exact Smat_Proofs2.print_ok. Qed.

(* the sparse 2x2 matrix with rows (1 0), (2 3) *)
Example C96_case : wf_smat ex_smat /\ dims ex_smat 2 2 /\ (forall i, 0 <= i < sm_m ex_smat -> stored ex_smat i i) /\ ~ stored ex_smat 0 1 /\
  (forall i j i' j', stored ex_smat i j -> stored ex_smat i' j' -> i + 0 = j' + 2 -> j + 2 = i' + 0 -> coef ex_smat i j = coef ex_smat i' j').
Proof. exact ex_smat_ok. Qed.
Print Assumptions C96_from_dense. Print Assumptions C96_axpy. Print Assumptions C96_augment. Print Assumptions C96_augment_symmetric. Print Assumptions C96_diagonal. Print Assumptions C96_extract_diagonal. Print Assumptions C96_extract_diagonal_missing. Print Assumptions C96_extract_block. Print Assumptions C96_save. Print Assumptions C96_print.
