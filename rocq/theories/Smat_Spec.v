From Verif Require Export Smat_Model.
Open Scope Z_scope.

(* the mathematical matrix of a sparse matrix *)
Definition stored (m : smat) (i j : Z) : Prop := exists row v, zget (sm_rows m) i = Some row /\ In (j, v) row.
Definition coef (m : smat) (i j : Z) : R :=
  match zget (sm_rows m) i with Some row => match row_find row j with Some v => v | None => 0%R end | None => 0%R end.
Fixpoint increasing (l : list Z) : Prop :=
  match l with [] => True | x :: t => (forall y, In y t -> x < y) /\ increasing t end.
(* n rows, columns increasing and between 0 and m-1 *)
Definition wf_smat (m : smat) : Prop :=
  zlen (sm_rows m) = sm_n m /\ 0 <= sm_m m /\
  forall row, In row (sm_rows m) -> increasing (map fst row) /\ forall e, In e row -> 0 <= fst e < sm_m m.
Definition dims (m : smat) (r c : Z) : Prop := sm_n m = r /\ sm_m m = c.
