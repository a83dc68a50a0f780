(* Sums over index ranges and the matrix vocabulary used in specifications. *)
From Verif Require Export RBase Steady_Spec.
Open Scope Z_scope.

(* f 0 + ... + f (n-1) *)
Definition Sum (n : Z) (f : Z -> R) : R := Rsum (map f (zrange 0 n)).
(* entries of an n by m matrix times a vector, of a product and of the identity *)
Definition mvec (m : Z) (a : Z -> Z -> R) (x : Z -> R) (i : Z) : R := Sum m (fun j => a i j * x j)%R.
Definition mmul (k : Z) (a b : Z -> Z -> R) (i j : Z) : R := Sum k (fun l => a i l * b l j)%R.
Definition ident (i j : Z) : R := if i =? j then 1%R else 0%R.
(* scalar product of two vectors of length n *)
Definition dot (n : Z) (x y : Z -> R) : R := Sum n (fun i => x i * y i)%R.
