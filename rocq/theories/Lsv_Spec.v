From Verif Require Export Lsv_Model Hyb_Spec.
Open Scope Z_scope.

(* conditions of the same kind, whatever their values *)
Definition same_kind (a b : fcond) : Prop :=
  match a, b with CDirichlet _, CDirichlet _ => True | CPeriodic _, CPeriodic _ => True | CNeumann _, CNeumann _ => True | _, _ => False end.
(* boundary conditions with the same kinds and the same periodic partners *)
Definition same_kinds (bc bc' : hbc) : Prop := forall b, same_kind (hb_cond bc b) (hb_cond bc' b) /\ hb_partner bc b = hb_partner bc' b.
(* matrices of order n with the same stored entries and values, except perhaps the first diagonal value *)
Definition same_but_first (n : Z) (a b : lmat) : Prop :=
  lm_pat a = lm_pat b /\ forall i j, 0 <= i < n -> 0 <= j < n -> i <> 0 \/ j <> 0 -> lm_val a i j = lm_val b i j.
Definition same_matrices (n : Z) (a b : lmat) : Prop := lm_pat a = lm_pat b /\ forall i j, 0 <= i < n -> 0 <= j < n -> lm_val a i j = lm_val b i j.
(* a solve that builds a multigrid preconditioner *)
Definition builds (o : sop) : Prop := match o with SSolve c => 1 <= sc_type c <= 3 /\ sc_same c = false | SInit _ _ => False end.
(* x solves the system handed to the iterative solver *)
Definition solved (c : lcall) (n : Z) (x : list R) : Prop :=
  forall i, 0 <= i < n -> Sum n (fun j => lm_val (lc_op c) i j * nthR x j)%R = nthR (lc_rhs c) i.
(* what flows in by the sources flows out by the prescribed outfluxes *)
Definition balanced (g : list hcell) (bc : hbc) (src : list R) : Prop :=
  Sum (zlen g) (fun k => nthR src (idx g k)) = Sum (zlen g) (fun k => Sum (nfaces g k) (outflux_at g bc k)).
(* equation i of the system involves no unknown but i *)
Definition alone (a : lmat) (n i : Z) : Prop := forall j, 0 <= j < n -> j <> i -> lm_val a i j = 0%R.
(* the solve call with its arguments spelled out *)
Definition call_for (c : scall) (bc : hbc) (ip : hip) (src : list R) : Prop := sc_bc c = bc /\ sc_ip c = ip /\ sc_src c = src.
