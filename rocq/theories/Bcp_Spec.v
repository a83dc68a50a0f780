(* What a user asks for with the parameters of the boundary conditions. *)
From Verif Require Export Bcp_Model.
Open Scope string_scope.
Open Scope Z_scope.

(* a parameter, or its documented default *)
Inductive value_or {A} (o : option A) (d : A) : A -> Prop :=
| Value_given x : o = Some x -> value_or o d x
| Value_default : o = None -> value_or o d d.

(* neither upscaling nor region based conditions are asked for *)
Definition plain (p : bparam) : Prop := value_or (bp_upscaling p) false false /\ value_or (bp_region p) false false.

(* conditions wanted on the left and on the right side *)
Inductive requested (p : bparam) : cond -> cond -> Prop :=
| Requested_pressure l r : value_or (bp_flow p) "dirichlet" "dirichlet" -> value_or (bp_lpress p) 100000%R l -> value_or (bp_rpress p) 0%R r ->
    requested p (mkCond Dirichlet l) (mkCond Dirichlet r)
| Requested_flux l r : bp_flow p = Some "neumann" -> bp_lflux p = Some l -> value_or (bp_rflux p) (- l)%R r ->
    requested p (mkCond Neumann l) (mkCond Neumann r).

(* a point is strictly inside the given block; the block is the unit cube by default *)
Definition inside_block (p : bparam) (c : vec) : Prop :=
  let '(x, y, z) := c in let '(lx, ly, lz) := bp_low p in let '(hx, hy, hz) := bp_high p in
  (exists a b, value_or lx 0%R a /\ value_or hx 1%R b /\ (a < x < b)%R) /\ (exists a b, value_or ly 0%R a /\ value_or hy 1%R b /\ (a < y < b)%R) /\ (exists a b, value_or lz 0%R a /\ value_or hz 1%R b /\ (a < z < b)%R).

(* the table entry from before, or a closed side *)
Definition kept (b : bcs) (i : Z) : cond := match zget (t_flow b) i with Some c => c | None => mkCond Neumann 0%R end.

(* examples: no parameters at all, a block with a given pressure, a grid with one boundary face of side 3 *)
Definition no_param : bparam := mkBparam None None None None None None None (None, None, None) (None, None, None) None None None None None None.
Definition block_param : bparam := mkBparam None None None None None None (Some true) (None, None, None) (None, None, None) (Some 5%R) None None None None None.
Definition third_side : list gface := [mkGface 3 1%R (/2, /2, /2)%R].
