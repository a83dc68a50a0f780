From Verif Require Export Asm_Model Lin_Spec Smat_Spec.
Open Scope Z_scope.

(* ---- orders *)
Definition strict_weak {A} (lt : A -> A -> bool) : Prop :=
  (forall x, lt x x = false) /\ (forall x y z, lt x y = true -> lt y z = true -> lt x z = true) /\
  (forall x y z, lt x y = false -> lt y x = false -> lt y z = false -> lt z y = false -> lt x z = false /\ lt z x = false).

(* ---- constraints *)
Definition slaveof (M : mpcmap) (k : Z) : Prop := mm_find M k <> None.
(* the slave dof k has the master dof x with coefficient c *)
Definition couples (dim : Z) (M : mpcmap) (k x : Z) (c : R) : Prop :=
  exists p m, mm_find M k = Some p /\ In m (mp_master p) /\ dof_key dim m = x /\ md_coeff m = c.
(* a chain of constraints from k to x; c is the product of the coefficients *)
Inductive chain (dim : Z) (M : mpcmap) : Z -> Z -> R -> Prop :=
| chain_one k x c : couples dim M k x c -> chain dim M k x c
| chain_more k y x c d : couples dim M k y c -> chain dim M y x d -> chain dim M k x (c * d).
Definition cyclic (dim : Z) (M : mpcmap) : Prop := exists k c, chain dim M k k c.
(* no product of coefficients along a chain is smaller than the tolerance *)
Definition no_loss (dim : Z) (M : mpcmap) : Prop := forall k x c, chain dim M k x c -> (mpc_tol < Rabs c)%R.
(* different keys, every constraint under the number of its slave, local dofs between 1 and dim and
   coefficients larger than the tolerance (as addMaster makes them) *)
Definition wf_mpc (dim : Z) (k : Z) (p : mpc) : Prop :=
  dof_key dim (mp_slave p) = k /\ forall m, In m (mp_master p) -> 1 <= md_dof m <= dim /\ (mpc_tol < Rabs (md_coeff m))%R.
Definition wf_mpcs (dim : Z) (M : mpcmap) : Prop := increasing (map fst M) /\ forall k p, mm_find M k = Some p -> wf_mpc dim k p.
(* s = c0 + c1 m1 + ... *)
Definition mpc_value (dim : Z) (u : Z -> R) (p : mpc) : R :=
  (md_coeff (mp_slave p) + Rsum (map (fun m => md_coeff m * u (dof_key dim m))%R (mp_master p)))%R.
Definition obeys (dim : Z) (M : mpcmap) (u : Z -> R) : Prop := forall k p, mm_find M k = Some p -> u k = mpc_value dim u p.
(* no master is a slave *)
Definition resolved (dim : Z) (M : mpcmap) : Prop := forall k x c, couples dim M k x c -> ~ slaveof M x.

(* ---- equation numbers *)
(* dof d = node*dim + direction is neither a slave nor fixed *)
Definition free_dof (dim : Z) (M : mpcmap) (F : fixmap) (d : Z) : Prop := ~ slaveof M d /\ fx_flag F (d / dim) (d mod dim) = false.
(* the free ones of the dofs 0 .. N-1 are numbered first .. last-1 in increasing order, the others have -1 *)
Definition numbering (N first last : Z) (free : Z -> Prop) (eqn : list Z) : Prop :=
  zlen eqn = N /\ (forall d, 0 <= d < N -> ~ free d -> zget eqn d = Some (-1)) /\
  (forall d, 0 <= d < N -> free d -> exists q, zget eqn d = Some q /\ first <= q < last) /\
  (forall q, first <= q < last -> exists d, 0 <= d < N /\ free d /\ zget eqn d = Some q) /\
  (forall d d' q q', free d -> free d' -> d < d' -> zget eqn d = Some q -> zget eqn d' = Some q' -> q < q').

(* ---- assembly *)
Definition eq_of (eqn : list Z) (d : Z) : Z := match zget eqn d with Some q => q | None => -1 end.
(* the transformation: dof d is the sum over the equations e of trans d e times unknown e *)
Definition trans (dim : Z) (M : mpcmap) (eqn : list Z) (d e : Z) : R :=
  match mm_find M d with
  | Some p => Rsum (map (fun m => if eq_of eqn (dof_key dim m) =? e then md_coeff m else 0%R) (mp_master p))
  | None => if eq_of eqn d =? e then 1%R else 0%R
  end.
(* equation e occurs in the expression of dof d *)
Definition acts (dim : Z) (M : mpcmap) (eqn : list Z) (d e : Z) : Prop :=
  match mm_find M d with
  | Some p => exists m, In m (mp_master p) /\ eq_of eqn (dof_key dim m) = e
  | None => eq_of eqn d = e
  end.
(* dof number of local dof a of a cell with the given nodes *)
Definition cell_dof (dim : Z) (verts : list Z) (a : Z) : Z := match zget verts (a / dim) with Some n => n * dim + a mod dim | None => -1 end.
(* an element: nodes, stiffness matrix and load vector, either of which may be absent *)
Record elem := mkElem { el_verts : list Z; el_K : option (Z -> Z -> R); el_S : option (Z -> R) }.
Definition kval (K : option (Z -> Z -> R)) (a b : Z) : R := match K with Some K => K a b | None => 0%R end.
Definition sval (S : option (Z -> R)) (a : Z) : R := match S with Some f => f a | None => 0%R end.
Definition el_dofs (dim : Z) (el : elem) : Z := zlen (el_verts el) * dim.
(* entry (e, f) of T^T K T and entry e of T^T S for one element *)
Definition el_matrix (dim : Z) (s : asm) (el : elem) (e f : Z) : R :=
  Sum (el_dofs dim el) (fun a => Sum (el_dofs dim el) (fun b =>
    trans dim (as_mpcs s) (as_meqn s) (cell_dof dim (el_verts el) a) e * kval (el_K el) a b *
    trans dim (as_mpcs s) (as_meqn s) (cell_dof dim (el_verts el) b) f)%R).
Definition el_load (dim : Z) (s : asm) (el : elem) (e : Z) : R :=
  Sum (el_dofs dim el) (fun a => trans dim (as_mpcs s) (as_meqn s) (cell_dof dim (el_verts el) a) e * sval (el_S el) a)%R.
(* elements one after the other *)
Definition add_elements (dim : Z) (els : list elem) (s : asm) : res asm :=
  foldM (fun s el => add_element dim s (el_K el) (el_S el) (el_verts el)) els s.
(* the nodes of the cells and the masters exist; no slave dof is fixed; every fixed node has its values *)
Definition grid_ok (dim nodes : Z) (cells : list (list Z)) (M : mpcmap) (F : fixmap) : Prop :=
  0 < dim /\ 0 <= nodes /\ (forall v n, In v cells -> In n v -> 0 <= n < nodes) /\
  (forall k x c, couples dim M k x c -> 0 <= x < nodes * dim) /\
  (forall k, slaveof M k -> 0 <= k < nodes * dim /\ fx_flag F (k / dim) (k mod dim) = false) /\
  (forall n d v, fx_find F n = Some (d, v) -> zlen v = dim).

(* ---- solutions *)
Definition is_fixed (dim : Z) (F : fixmap) (d : Z) : Prop := fx_flag F (d / dim) (d mod dim) = true.
Definition fixed_val (dim : Z) (F : fixmap) (d : Z) : R := match fx_find F (d / dim) with Some (_, v) => nthR v (d mod dim) | None => 0%R end.
(* what a constraint gets from its constant and its fixed masters *)
Definition defect (dim : Z) (F : fixmap) (p : mpc) : R :=
  (md_coeff (mp_slave p) + Rsum (map (fun m => if fx_flag F (dof_key dim m / dim) (dof_key dim m mod dim) then (md_coeff m * fixed_val dim F (dof_key dim m))%R else 0%R) (mp_master p)))%R.
(* constraints without constant and fixed values that are zero *)
Definition homogeneous (dim : Z) (M : mpcmap) (F : fixmap) : Prop :=
  (forall k p, mm_find M k = Some p -> md_coeff (mp_slave p) = 0%R) /\ forall d, is_fixed dim F d -> fixed_val dim F d = 0%R.
(* the displacement of dof d for the unknowns u *)
Definition displacement (dim : Z) (s : asm) (u : Z -> R) (d : Z) : R := Sum (as_neq s) (fun e => trans dim (as_mpcs s) (as_meqn s) d e * u e)%R.
(* x^T K x of an element *)
Definition el_energy (dim : Z) (s : asm) (u : Z -> R) (el : elem) : R :=
  Sum (el_dofs dim el) (fun a => Sum (el_dofs dim el) (fun b =>
    displacement dim s u (cell_dof dim (el_verts el) a) * kval (el_K el) a b * displacement dim s u (cell_dof dim (el_verts el) b))%R).
