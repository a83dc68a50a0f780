From Verif Require Export Matx_Model Lin_Spec.
Open Scope Z_scope.

(* m is a rows by cols matrix in the given ordering with the entries f r c: row after row for C
   ordering, column after column for Fortran ordering *)
Definition holds (m : mat) (o : ordering) (rows cols : Z) (f : Z -> Z -> R) : Prop :=
  m_ord m = o /\ m_rows m = rows /\ m_cols m = cols /\ 0 <= rows /\ 0 <= cols /\ zlen (m_data m) = rows * cols /\
  forall r c, 0 <= r < rows -> 0 <= c < cols ->
    nthR (m_data m) (match o with COrd => r * cols + c | FOrd => r + c * rows end) = f r c.
Definition det2 (f : Z -> Z -> R) : R := (f 0%Z 0%Z * f 1%Z 1%Z - f 0%Z 1%Z * f 1%Z 0%Z)%R.
Definition det3 (f : Z -> Z -> R) : R :=
  (f 0%Z 0%Z * (f 1%Z 1%Z * f 2%Z 2%Z - f 1%Z 2%Z * f 2%Z 1%Z)
   - f 0%Z 1%Z * (f 1%Z 0%Z * f 2%Z 2%Z - f 1%Z 2%Z * f 2%Z 0%Z)
   + f 0%Z 2%Z * (f 1%Z 0%Z * f 2%Z 1%Z - f 1%Z 1%Z * f 2%Z 0%Z))%R.
