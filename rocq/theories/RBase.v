(* Shared vocabulary for code working on doubles, modelled as real numbers. *)
From Verif Require Export Base.
From Coq Require Export Reals.
From Coq Require Export Lra.
Open Scope Z_scope.

(* C++ comparisons on doubles *)
Definition Rltb (x y : R) : bool := if Rlt_dec x y then true else false.
Definition Rleb (x y : R) : bool := if Rle_dec x y then true else false.

(* std::max(a, b) returns a unless a < b; std::min(a, b) returns a unless b < a *)
Definition smax (a b : R) : R := if Rltb a b then b else a.
Definition smin (a b : R) : R := if Rltb b a then b else a.

(* accumulation loop  s += f(x)  *)
Definition Rsum (l : list R) : R := fold_right Rplus 0%R l.

(* *std::max_element(range): dereferencing the end of an empty range is UB *)
Fixpoint lmax (l : list R) : res R :=
  match l with
  | [] => UB
  | [x] => Ok x
  | x :: t => let* m := lmax t in Ok (smax x m)
  end.
Fixpoint lmin (l : list R) : res R :=
  match l with
  | [] => UB
  | [x] => Ok x
  | x :: t => let* m := lmin t in Ok (smin x m)
  end.
(* the half-open iterator range [begin+a, begin+b) *)
Definition zslice {A} (l : list A) (a b : Z) : list A :=
  firstn (Z.to_nat (b - a)) (skipn (Z.to_nat a) l).

(* x / y on doubles; None: the quotient is not a finite number *)
Definition fdiv (x y : R) : option R := if Req_EM_T y 0 then None else Some (x / y)%R.
(* the loop  double s = 0.0; for (x : l) s += f(x);  *)
Definition racc {A} (f : A -> R) (l : list A) : R := fold_left (fun s x => (s + f x)%R) l 0%R.
