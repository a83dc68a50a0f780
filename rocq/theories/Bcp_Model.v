(* Model of setupBoundaryConditions (opm/porsol/common/setupBoundaryConditions.hpp), which chooses the boundary
   conditions of a simulation from parameters.  Parameters as in Sim_Model (None: not given; conversion errors are not
   modelled).  Line numbers without a file name are those of setupBoundaryConditions.hpp. *)
From Verif Require Export Bound_Model Sim_Model.
Open Scope string_scope.
Open Scope Z_scope.

(* the parameters read *)
(* 55-61, 64, 72-85, 190-199 *)
Record bparam := mkBparam {
  bp_upscaling : option bool; bp_type : option Z; bp_dir : option Z; bp_drop : option R; bp_sat : option R; bp_2d : option bool;
  bp_region : option bool; bp_low : option R * option R * option R; bp_high : option R * option R * option R; bp_block : option R;
  bp_flow : option string; bp_lflux : option R; bp_rflux : option R; bp_lpress : option R; bp_rpress : option R }.
(* unit::barsa *)
(* 74 *)
Definition barsa : R := 100000%R.
(* 189-197: a corner of the box, with the default coordinate *)
Definition corner (o : option R * option R * option R) (d : R) : vec := (given (fst (fst o)) d, given (snd (fst o)) d, given (snd o) d).
(* 72-88: conditions on the sides 1 and 2 *)
Definition side_conditions (p : bparam) : res (cond * cond) :=
  let ty := given (bp_flow p) "dirichlet" in
  if String.eqb ty "neumann" then
    let* l := required (bp_lflux p) in Ok (mkCond Neumann l, mkCond Neumann (given (bp_rflux p) (- l)%R))
  else if String.eqb ty "dirichlet" then Ok (mkCond Dirichlet (given (bp_lpress p) barsa), mkCond Dirichlet (given (bp_rpress p) 0%R))
  else Throw.
(* 50-95 setupBoundaryConditions; [srt] is std::sort as in setup_upscaling, [b] the table before the call *)
Definition setup_conditions (srt : list bface -> list bface) (g : list gface) (p : bparam) (b : bcs) : res bcs :=
  if given (bp_upscaling p) false then
    let* bct := required (bp_type p) in
    setup_upscaling srt g bct (given (bp_dir p) 0) (given (bp_drop p) 100000%R) (given (bp_sat p) 1%R) (given (bp_2d p) false) b
  else if given (bp_region p) false then
    let* pressure := required (bp_block p) in
    region_conditions g (corner (bp_low p) 0) (corner (bp_high p) 1) pressure b
  else
    let* lr := side_conditions p in
    let* b0 := bcs_resize 7 b in
    let* b1 := set_flow 1 (fst lr) b0 in
    set_flow 2 (snd lr) b1.
