(* Vocabulary for the mortar saddle point system. *)
From Verif Require Export Mort_Model Lin_Spec Smat_Spec.
Open Scope Z_scope.

(* the matrix [A B; B^T 0], A of size n *)
Definition saddle (n : Z) (A B : Z -> Z -> R) (i j : Z) : R :=
  if i <? n then (if j <? n then A i j else B i (j - n)) else if j <? n then B j (i - n) else 0%R.
Definition transpose (B : Z -> Z -> R) (i j : Z) : R := B j i.
(* a square matrix and a coupling matrix that fit together *)
Definition coupled (A B : smat) (n m : Z) : Prop := wf_smat A /\ wf_smat B /\ dims A n n /\ dims B n m.
(* started from zero the solver returns an x with A x = b, for the right-hand sides b of the given kind *)
Definition exact_for (n : Z) (A : Z -> Z -> R) (s : solver) (ok : list R -> Prop) : Prop :=
  forall b, zlen b = n -> ok b ->
    zlen (fst (s (zrepeat 0%R n) b)) = n /\ forall i, 0 <= i < n -> mvec n A (nthR (fst (s (zrepeat 0%R n) b))) i = nthR b i.
(* b = B^T v for some v *)
Definition in_range_of (n : Z) (B : Z -> Z -> R) (b : list R) : Prop :=
  exists v, forall j, 0 <= j < zlen b -> nthR b j = mvec n (transpose B) v j.
(* a preconditioner or inverse operator that multiplies by W and has nothing to prepare *)
Definition multiplies_by (n : Z) (W : Z -> Z -> R) (op : applier) : Prop :=
  (forall x b, zlen b = n -> ap_pre op x b = (x, b)) /\ (forall x, ap_post op x = x) /\
  forall b, zlen b = n -> zlen (ap_apply op (zrepeat 0%R n) b) = n /\ forall i, 0 <= i < n -> nthR (ap_apply op (zrepeat 0%R n) b) i = mvec n W (nthR b) i.
(* B^T W B *)
Definition schur (n : Z) (B W : Z -> Z -> R) : Z -> Z -> R := mmul n (transpose B) (mmul n W B).
(* the outer solver inverts the Schur operator evaluated with the inner solver, for right-hand sides B^T v *)
Definition outer_exact (n m : Z) (B : smat) (inner outer : solver) : Prop :=
  forall r, zlen r = m -> in_range_of n (coef B) r ->
    zlen (fst (outer (zrepeat 0%R m) r)) = m /\
    forall init y, zlen y = m -> exists q, block_apply (inverse_applier inner) B init (fst (outer (zrepeat 0%R m) r)) y = Ok q /\
      forall j, 0 <= j < m -> nthR q j = nthR r j.
(* column b of a matrix stored by columns *)
Definition by_columns (T : list (list R)) (a b : Z) : R := match zget T b with Some c => nthR c a | None => 0%R end.
