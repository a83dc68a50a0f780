(* Shared vocabulary: outcomes, bounds-checked arrays, counting loops. *)
From Coq Require Export List ZArith Lia Bool Arith.
From Coq Require Export ZifyBool ZifyNat.
Export ListNotations.
Open Scope Z_scope.
Ltac Zify.zify_post_hook ::= Z.div_mod_to_equations.

(* Outcome of a modelled C++ call: normal return, thrown exception, or
   undefined behaviour (out-of-range access, dereferenced end iterator, ...). *)
Inductive res (A : Type) : Type :=
| Ok (a : A)
| Throw
| UB.
Arguments Ok {A} a.
Arguments Throw {A}.
Arguments UB {A}.

Definition bind {A B} (x : res A) (f : A -> res B) : res B :=
  match x with Ok a => f a | Throw => Throw | UB => UB end.
Notation "'let*' x ':=' e 'in' k" := (bind e (fun x => k))
  (at level 200, x pattern, e at level 100, k at level 200, right associativity).

(* std::vector element read with a (signed) index; out of range is UB. *)
Definition zget {A} (l : list A) (i : Z) : option A :=
  if i <? 0 then None else nth_error l (Z.to_nat i).
Definition rget {A} (l : list A) (i : Z) : res A :=
  match zget l i with Some a => Ok a | None => UB end.

Fixpoint nset {A} (l : list A) (n : nat) (x : A) : list A :=
  match l, n with
  | [], _ => []
  | _ :: t, O => x :: t
  | h :: t, S m => h :: nset t m x
  end.
Definition zlen {A} (l : list A) : Z := Z.of_nat (length l).
(* element write; out of range is UB. *)
Definition rset {A} (l : list A) (i : Z) (x : A) : res (list A) :=
  if (0 <=? i) && (i <? zlen l) then Ok (nset l (Z.to_nat i) x) else UB.

(* for (int i = lo; i < hi; ++i) *)
Definition zrange (lo hi : Z) : list Z :=
  map (fun n => lo + Z.of_nat n) (seq 0 (Z.to_nat (hi - lo))).

Fixpoint foldM {A S} (f : S -> A -> res S) (l : list A) (s : S) : res S :=
  match l with
  | [] => Ok s
  | a :: t => let* s' := f s a in foldM f t s'
  end.

Fixpoint mapM {A B} (f : A -> res B) (l : list A) : res (list B) :=
  match l with
  | [] => Ok []
  | a :: t => let* b := f a in let* bs := mapM f t in Ok (b :: bs)
  end.

(* a sequence of element writes, performed in order *)
Definition writes {A} (ws : list (Z * A)) (l : list A) : res (list A) :=
  foldM (fun a w => rset a (fst w) (snd w)) ws l.

(* std::vector(n, x) / resize of an empty vector *)
Definition zrepeat {A} (x : A) (n : Z) : list A := repeat x (Z.to_nat n).
(* v.resize(n, x) on an empty vector; a negative int becomes a huge size_t, for
   which std::vector throws std::length_error *)
Definition vresize {A} (n : Z) (x : A) : res (list A) :=
  if n <? 0 then Throw else Ok (zrepeat x n).

(* loop nests: for j in js, for i in is; for k in ks, for j in js, for i in is *)
Definition pairs (js is : list Z) : list (Z * Z) :=
  flat_map (fun j => map (fun i => (j, i)) is) js.
Definition triples (ks js is : list Z) : list (Z * (Z * Z)) :=
  flat_map (fun k => map (fun ji => (k, ji)) (pairs js is)) ks.
