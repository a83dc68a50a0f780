From Verif Require Import Mort_Proofs Mort_Proofs2 Mort_Proofs3 Mort_Spec.
Open Scope Z_scope.

(* C97: the saddle point system *)
Theorem C97_apply : forall A B n m x y, coupled A B n m -> zlen x = n + m -> zlen y = n + m ->
  exists y', mortar_apply A B x y = Ok y' /\ zlen y' = n + m /\ forall i, 0 <= i < n + m -> nthR y' i = mvec (n + m) (saddle n (coef A) (coef B)) (nthR x) i.
Proof. exact Mort_Proofs2.mortar_apply_ok. Qed.
Theorem C97_direct : forall A B n m, coupled A B n m ->
  exists r, augment A B 0 (sm_m A) true = Ok r /\ wf_smat r /\ dims r (n + m) (n + m) /\
    forall i j, 0 <= i < n + m -> 0 <= j < n + m -> coef r i j = saddle n (coef A) (coef B) i j.
Proof. exact Mort_Proofs2.direct_matrix. Qed.
Theorem C97_scaled : forall alpha A B n m x y, coupled A B n m -> zlen x = n + m -> zlen y = n + m ->
  exists y', mortar_scaleadd alpha A B x y = Ok y' /\ zlen y' = n + m /\ forall i, 0 <= i < n + m ->
    nthR y' i = (nthR y i + alpha * mvec (n + m) (saddle n (coef A) (coef B)) (nthR x) i
                 + if i <? n then (1 - alpha) * mvec m (coef B) (fun j => nthR x (n + j)) i else 0)%R.
Proof. exact Mort_Proofs2.mortar_scaleadd_ok. Qed.
Theorem C97_scaled_iff : forall alpha A B n m x y y', coupled A B n m -> zlen x = n + m -> zlen y = n + m -> mortar_scaleadd alpha A B x y = Ok y' ->
  ((forall i, 0 <= i < n + m -> nthR y' i = (nthR y i + alpha * mvec (n + m) (saddle n (coef A) (coef B)) (nthR x) i)%R) <->
   alpha = 1%R \/ forall i, 0 <= i < n -> mvec m (coef B) (fun j => nthR x (n + j)) i = 0%R).
Proof. exact Mort_Proofs2.mortar_scaleadd_iff. Qed.
Theorem C97_uzawa : forall A B n m inner outer x b, coupled A B n m -> (forall i j, 0 <= i < n -> 0 <= j < n -> coef A i j = coef A j i) ->
  exact_for n (coef A) inner (fun _ => True) -> outer_exact n m B inner outer -> zlen x = n + m -> zlen b = n + m ->
  exists x', uzawa inner outer B x b = Ok x' /\ zlen x' = n + m /\
    forall i, 0 <= i < n + m -> mvec (n + m) (saddle n (coef A) (coef B)) (nthR x') i = if i <? n then nthR b i else 0%R.
Proof. exact Mort_Proofs2.uzawa_ok. Qed.
Theorem C97_uzawa_load : forall inner outer B n m x b b', dims B n m -> zlen b = n + m -> zlen b' = n + m -> (forall i, 0 <= i < n -> nthR b i = nthR b' i) ->
  0 <= n -> 0 <= m -> uzawa inner outer B x b = uzawa inner outer B x b'.
Proof. exact Mort_Proofs2.uzawa_ignores. Qed.

(* C124: chunks of work *)
Theorem C124_partition : forall max chunks, 0 <= max -> 0 < chunks ->
  exists g ab, log_groups max chunks = Ok g /\ mapM (log_group g) (zrange 0 chunks) = Ok ab /\
    concat (map (fun p => zrange (fst p) (snd p)) ab) = zrange 0 max /\
    forall p, In p ab -> snd p - fst p = max / chunks \/ snd p - fst p = max / chunks + 1.
Proof. exact Mort_Proofs2.chunk_partition. Qed.

(* C125: multiplier operators and preconditioners *)
Theorem C125_operator : forall op B n m W init alpha x y, wf_smat B -> dims B n m -> multiplies_by n W op -> m <= zlen x -> m <= zlen y ->
  exists y', block_scaleadd op B init alpha x y = Ok y' /\ zlen y' = zlen y /\
    forall k, nthR y' k = (nthR y k + alpha * mvec m (schur n (coef B) W) (nthR x) k)%R.
Proof. exact Mort_Proofs2.block_ok. Qed.
Theorem C125_matrix : forall op B n m W init order T, wf_smat B -> dims B n m -> multiplies_by n W op -> m <= n ->
  (forall i, In i order <-> 0 <= i < m) -> zlen T = m ->
  exists T' P, mortar_columns op B init order T = Ok T' /\ from_dense m m (by_columns T') = Ok P /\ wf_smat P /\ dims P m m /\
    forall i j, 0 <= i < m -> 0 <= j < m -> coef P i j = (if Rltb (/ 10 ^ 14) (Rabs (schur n (coef B) W i j)) then schur n (coef B) W i j else 0)%R.
Proof. exact Mort_Proofs2.mortar_matrix_ok. Qed.
Theorem C125_matrix_short : forall op B n m init order T T', wf_smat B -> dims B n m -> n < m -> (forall i, In i order <-> 0 <= i < m) ->
  mortar_columns op B init order T <> Ok T'.
Proof. exact Mort_Proofs2.mortar_matrix_none. Qed.
Theorem C125_diagonal : forall A n row, wf_smat A -> dims A n n -> stored A row row -> coef A row row <> 0%R ->
  Sum n (fun j => if j =? row then 0 else Rabs (coef A row j))%R <> 0%R ->
  simple_diag A row = Ok (Sum n (fun j => if j =? row then 0 else Rabs (coef A row j)) / coef A row row)%R.
Proof. exact Mort_Proofs2.simple_diag_ok. Qed.
Theorem C125_block : forall apre lsolve B n m P Ah sym init2 v d, wf_smat B -> dims B n m ->
  (forall init r, zlen r = m -> zlen (fst (lsolve init r)) = m /\ forall j, 0 <= j < m -> mvec m P (nthR (fst (lsolve init r))) j = nthR r j) ->
  (forall r, zlen r = n -> zlen (apre (zrepeat 0%R n) r) = n /\ forall i, 0 <= i < n -> mvec n Ah (nthR (apre (zrepeat 0%R n) r)) i = nthR r i) ->
  zlen v = n + m -> zlen d = n + m ->
  exists v', schur_apply apre lsolve B sym init2 v d = Ok v' /\ zlen v' = n + m /\
    (forall j, 0 <= j < m -> mvec m P (fun k => nthR v' (n + k)) j = nthR d (n + j)) /\
    (forall i, 0 <= i < n -> (mvec n Ah (nthR v') i + if sym then 0 else mvec m (coef B) (fun k => nthR v' (n + k)) i)%R = nthR d i).
Proof. exact Mort_Proofs2.schur_apply_ok. Qed.
Theorem C125_prepare : forall pre B n m x b x1 b1, wf_smat B -> dims B n m -> zlen x = n + m -> zlen b = n + m ->
  (forall tx tb, zlen tx = n -> zlen tb = n -> (forall i, 0 <= i < n -> nthR tx i = nthR x i /\ nthR tb i = nthR b i) -> pre tx tb = (x1, b1)) -> zlen x1 = n -> zlen b1 = n ->
  exists x' b', schur_pre pre B x b = Ok (x', b') /\ zlen x' = n + m /\ zlen b' = n + m /\
    forall i, nthR x' i = (if (0 <=? i) && (i <? n) then nthR x1 i else nthR x i) /\ nthR b' i = (if (0 <=? i) && (i <? n) then nthR b1 i else nthR b i).
Proof. exact Mort_Proofs2.schur_pre_ok. Qed.

Example C97_case : coupled ex_A ex_B 1 1 /\ (forall i j, 0 <= i < 1 -> 0 <= j < 1 -> coef ex_A i j = coef ex_A j i) /\ exact_for 1 (coef ex_A) ex_inner (fun _ => True) /\ outer_exact 1 1 ex_B ex_inner ex_outer.
Proof. exact ex_uzawa. Qed.
(* y + 2 M x is not what applyscaleadd gives *)
Example C97_scaled_case : exists y', mortar_scaleadd 2 ex_A ex_B [0; 1]%R [0; 0]%R = Ok y' /\ nthR y' 0 = 1%R /\ mvec 2 (saddle 1 (coef ex_A) (coef ex_B)) (nthR [0; 1]%R) 0 = 1%R.
Proof. exact ex_scaleadd. Qed.
Example C125_case : multiplies_by 1 (fun _ _ => 1 / 2)%R ex_half.
Proof. exact ex_multiplies. Qed.
Example C125_diagonal_case : wf_smat ex_tri /\ dims ex_tri 2 2 /\ stored ex_tri 0 0 /\ coef ex_tri 0 0 <> 0%R /\ Sum 2 (fun j => if j =? 0 then 0 else Rabs (coef ex_tri 0 j))%R <> 0%R.
Proof. exact ex_diag. Qed.
Print Assumptions C97_apply. Print Assumptions C97_direct. Print Assumptions C97_scaled. Print Assumptions C97_scaled_iff. Print Assumptions C97_uzawa. Print Assumptions C97_uzawa_load. Print Assumptions C124_partition. Print Assumptions C125_operator. Print Assumptions C125_matrix. Print Assumptions C125_matrix_short. Print Assumptions C125_diagonal. Print Assumptions C125_block. Print Assumptions C125_prepare.
