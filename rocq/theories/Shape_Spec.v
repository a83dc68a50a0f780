(* Vocabulary for shape functions. *)
From Verif Require Export Shape_Model Lin_Spec.
Open Scope Z_scope.

(* corner number i of the unit square or cube: bit k of i is coordinate k *)
Definition corner (i k : Z) : R := if Z.testbit i k then 1%R else 0%R.
(* the point x with coordinate k replaced by t *)
Definition put (x : Z -> R) (k : Z) (t : R) : Z -> R := fun j => if j =? k then t else x j.
(* f depends on the first dim coordinates only, and on each of them affinely: multilinear functions *)
Definition multilinear (dim : Z) (f : (Z -> R) -> R) : Prop :=
  (forall x y, (forall k, 0 <= k < dim -> x k = y k) -> f x = f y) /\
  (forall x k t, 0 <= k < dim -> f (put x k t) = ((1 - t) * f (put x k 0) + t * f (put x k 1))%R).
(* c0 + c1 x + c2 x^2 + ... *)
Definition peval (c : list R) (x : R) : R := fold_right (fun a r => a + x * r)%R 0%R c.
(* a point at which the Newton iteration for (1 - x^2) P'(x), P the Legendre polynomial of degree n-1, moved by at most the tolerance *)
Definition settled (n : Z) (y : R) : Prop := exists x P D, legendre x (n - 1) = Ok P /\ legendre_derivative x (n - 1) = Ok D /\
  (y - x = ((1 - x * x) * D) / ((IZR n - 1) * IZR n * P) /\ ((IZR n - 1) * IZR n * P <> 0) /\ Rabs (y - x) <= / 10 ^ 15)%R.
