(* Model of the simulator framework: opm/porsol/common/SimulatorBase.hpp (line numbers without a file
   name), examples/SimulatorTester.hpp, examples/SimulatorTesterFlexibleBC.hpp,
   opm/porsol/common/setupGridAndProps.hpp, opm/upscaling/initCPGrid.cpp and tests/compareUpscaling.cpp.
   Parameters are given as what the parameter group finds (None: not given); a parameter that cannot be
   converted (exception) is not modelled.  Grid construction, flow and transport solver are arguments. *)
From Verif Require Export Bound_Model RBase.
From Coq Require Export String Ascii Reals.
Open Scope string_scope.
Open Scope list_scope.
Open Scope Z_scope.

(* param.getDefault *)
(* 150-152, 160-162 *)
Definition given {A} (p : option A) (d : A) : A := match p with Some x => x | None => d end.
(* param.get: throws if the parameter is missing *)
(* 168; SimulatorTesterFlexibleBC.hpp:78, 92 *)
Definition required {A} (p : option A) : res A := match p with Some x => Ok x | None => Throw end.

(* ------- control and initial saturation *)
(* a file of saturations: the integer at its start (None: none can be read; the value is then 0 and the
   stream has failed) and the numbers up to the end or the first text that is no number *)
(* 169-184: argument *)
Record sat_file := mkSatFile { sf_count : option Z; sf_values : list R }.
(* a box with the density of its sources *)
(* SimulatorTesterFlexibleBC.hpp:70-78, 84-92; the coordinates default to 0 and 1 *)
Record block := mkBlock { bl_low : list R; bl_high : list R; bl_density : option R }.
(* parameters read by init; files that cannot be opened are None *)
(* 150-152, 167-168, 193; SimulatorTesterFlexibleBC.hpp:68, 82 *)
Record sparam := mkSparam {
  sp_steps : option Z; sp_stepsize : option R;
  sp_from_file : option bool; sp_file : option (option sat_file); sp_sat : option R;
  sp_inj : option block; sp_prod : option block }.
(* 130-132, 142-143: the members; the entries (value, index) of injection_rates_ in the order they were added *)
Record sim := mkSim { si_steps : Z; si_step : R; si_sat : list R; si_inj : list (R * Z); si_psolver : list R }.
(* 91-99 constructor *)
Definition sim_new : sim := mkSim 1 1%R [] [] [].
(* unit::day *)
(* 152 *)
Definition day : R := 86400%R.
(* 148-153 initControl *)
Definition init_control (p : sparam) (s : sim) : sim :=
  mkSim (given (sp_steps p) (si_steps s)) (given (sp_stepsize p) (si_step s) * day)%R (si_sat s) (si_inj s) (si_psolver s).
(* 165-197 initInitialConditions for a grid of [nc] cells *)
Definition init_saturation (p : sparam) (nc : Z) : res (list R) :=
  if given (sp_from_file p) false then
    let* name := required (sp_file p) in
    match name with
    | None => Throw
    | Some f =>
        let n := given (sf_count f) 0 in
        if negb (n =? nc) then Throw
        else
          let values := match sf_count f with Some _ => sf_values f | None => [] end in
          if negb (zlen values =? n) then Throw else Ok values
    end
  else Ok (zrepeat (given (sp_sat p) 0%R) nc).
(* 204-213 initSources: no sources *)
Definition base_sources (nc : Z) (s : sim) : sim := mkSim (si_steps s) (si_step s) (si_sat s) [] (vec_resize nc 0%R (si_psolver s)).

(* ------- sources in boxes *)
(* a cell of the grid: index, volume and centroid *)
(* SimulatorTesterFlexibleBC.hpp:124-127: argument *)
Record scell := mkScell { sc_index : Z; sc_vol : R; sc_centre : list R }.
(* SimulatorTesterFlexibleBC.hpp:108-116 isInside *)
Definition box_inside (low high pt : list R) : res bool :=
  let* l0 := rget low 0 in let* l1 := rget low 1 in let* l2 := rget low 2 in
  let* h0 := rget high 0 in let* h1 := rget high 1 in let* h2 := rget high 2 in
  let* p0 := rget pt 0 in let* p1 := rget pt 1 in let* p2 := rget pt 2 in
  Ok (Rltb l0 p0 && Rltb l1 p1 && Rltb l2 p2 && Rltb p0 h0 && Rltb p1 h1 && Rltb p2 h2).
(* SimulatorTesterFlexibleBC.hpp:124-135 setSourceBlock: total, entries of the sparse vector and rates
   of the pressure solver.  addElement appends; that the index has to be larger than the last one is
   asserted there only. *)
Definition source_cell (b : block) (density : R) (injection : bool) (st : R * (list (R * Z) * list R)) (c : scell) : res (R * (list (R * Z) * list R)) :=
  let* i := box_inside (bl_low b) (bl_high b) (sc_centre c) in
  if i then
    let rate := if injection then (density * sc_vol c)%R else (- (density * sc_vol c))%R in
    let* ps := rset (snd (snd st)) (sc_index c) rate in
    Ok ((fst st + rate)%R, (fst (snd st) ++ [(rate, sc_index c)], ps))
  else Ok st.
(* SimulatorTesterFlexibleBC.hpp:118-137 *)
Definition source_block (b : block) (density : R) (injection : bool) (cells : list scell) (inj : list (R * Z)) (ps : list R) : res (R * (list (R * Z) * list R)) :=
  foldM (source_cell b density injection) cells (0%R, (inj, ps)).
(* SimulatorTesterFlexibleBC.hpp:67-80, 81-94: one of the two blocks *)
Definition source_option (o : option block) (injection : bool) (cells : list scell) (inj : list (R * Z)) (ps : list R) : res (R * (list (R * Z) * list R)) :=
  match o with
  | None => Ok (0%R, (inj, ps))
  | Some b => let* d := required (bl_density b) in source_block b d injection cells inj ps
  end.
(* SimulatorTesterFlexibleBC.hpp:54-100 initSources; result: the totals reported and the object *)
Definition flex_sources (p : sparam) (cells : list scell) (s : sim) : res ((R * R) * sim) :=
  let s := base_sources (zlen cells) s in
  let* a := source_option (sp_inj p) true cells (si_inj s) (si_psolver s) in
  let* b := source_option (sp_prod p) false cells (fst (snd a)) (snd (snd a)) in
  Ok ((fst a, fst b), mkSim (si_steps s) (si_step s) (si_sat s) (fst (snd b)) (snd (snd b))).
(* 103-116 init, as far as the members above are concerned *)
Definition sim_init (p : sparam) (cells : list scell) (s : sim) : res ((R * R) * sim) :=
  let s := init_control p s in
  let* sat := init_saturation p (zlen cells) in
  flex_sources p cells (mkSim (si_steps s) (si_step s) sat (si_inj s) (si_psolver s)).

(* ------- time loop *)
(* SimulatorTester.hpp:96-100: the largest change *)
Definition max_change (s old : list R) : res R :=
  foldM (fun m c => let* a := rget s c in let* b := rget old c in Ok (smax m (Rabs (a - b)))) (zrange 0 (zlen s)) 0%R.
(* SimulatorTester.hpp:73-105: the steps of the simulation.  [flow] is the solution of the flow solver
   in a step and [transport] the saturation after it; they may depend on the number of the step, hence on
   everything that happened before.  Result: saturations written and changes reported, one per step
   completed, and how the loop ended.  (A transport solver that changes the number of cells, which is
   undefined behaviour in 99, would have written its result before.) *)
Fixpoint sim_loop {F} (flow : Z -> list R -> res F) (transport : Z -> list R -> F -> res (list R)) (i : Z) (n : nat) (s old : list R) : list (list R * R) * res (list R) :=
  match n with
  | O => ([], Ok s)
  | S m =>
      match (let* f := flow i s in let* s' := transport i s f in let* d := max_change s' old in Ok (s', d)) with
      | Ok (s', d) => let r := sim_loop flow transport (i + 1) m s' s' in ((s', d) :: fst r, snd r)
      | Throw => ([], Throw)
      | UB => ([], UB)
      end
  end.
(* SimulatorTester.hpp:59-106 run *)
Definition sim_run {F} (flow : Z -> list R -> res F) (transport : R -> Z -> list R -> F -> res (list R)) (s : sim) : list (list R * R) * res (list R) :=
  sim_loop flow (transport (si_step s)) 0 (Z.to_nat (si_steps s)) (si_sat s) (si_sat s).

(* ------- grid and properties *)
(* parameters of setupGridAndProps *)
(* setupGridAndProps.hpp:77-143 *)
Record gparam := mkGparam {
  gp_format : option string; gp_file : option string;
  gp_periodic : option bool; gp_clip : option bool; gp_turn : option bool; gp_ecl : option bool;
  gp_threshold : option R; gp_rocks : option string; gp_usej : option bool; gp_sigma : option R; gp_theta : option R;
  gp_visc1 : option R; gp_visc2 : option R;
  gp_dims : list (option Z); gp_sizes : list (option R); gp_poro : option R; gp_perm : option R; gp_unique : option bool }.
(* the calls that make the grid: processEclipseFormat(file, periodic, turn_normals, clip_z) and
   createCartesian(dims, sizes) *)
(* setupGridAndProps.hpp:91-96, 133; initCPGrid.cpp:58-64, 72 *)
Inductive grid_call := Corner (file : string) (periodic turn clip : bool) | Cartesian (dims : list Z) (sizes : list R).
(* the calls that make the properties: init from the deck (threshold, rock list, use of J-functions, sigma,
   theta) and uniform ones (porosity, permeability) *)
(* setupGridAndProps.hpp:124-125, 138 *)
Inductive prop_call := FromDeck (threshold : R) (rocks : option string) (usej : bool) (sigma theta : R) | Uniform (poro perm : R).
(* everything done: grid, viscosities set, properties, unique boundary ids *)
(* setupGridAndProps.hpp:71-146 *)
Record setup := mkSetup { su_grid : grid_call; su_visc : option (R * R); su_props : prop_call; su_unique : bool }.
(* setupGridAndProps.hpp:110-111, 166: "no_list" stands for no list *)
Definition rock_option (s : string) : option string := if String.eqb s "no_list" then None else Some s.
(* setupGridAndProps.hpp:127-133: nx ny nz and dx dy dz *)
Definition cartesian_call (p : gparam) : grid_call := Cartesian (map (fun o => given o 1) (gp_dims p)) (map (fun o => given o 1%R) (gp_sizes p)).
(* setupGridAndProps.hpp:71-146 setupGridAndProps; [jdefault] is useJ of the kind of properties, [md] the
   unit milli darcy *)
Definition setup_grid (md : R) (jdefault : bool) (p : gparam) : res setup :=
  let format := given (gp_format p) "cartesian" in
  let* r :=
    if String.eqb format "eclipse" then
      let* file := required (gp_file p) in
      let grid := Corner file (given (gp_periodic p) false) (given (gp_turn p) false) (given (gp_clip p) false) in
      if given (gp_ecl p) false then Throw
      else
        let usej := given (gp_usej p) jdefault in
        let sigma := if usej then given (gp_sigma p) 1%R else 1%R in
        let theta := if usej then given (gp_theta p) 0%R else 0%R in
        let visc := match gp_visc1 p, gp_visc2 p with None, None => None | v1, v2 => Some (given v1 (1 / 1000)%R, given v2 (3 / 1000)%R) end in
        Ok (grid, (visc, FromDeck (given (gp_threshold p) 0%R * md)%R (rock_option (given (gp_rocks p) "no_list")) usej sigma theta))
    else if String.eqb format "cartesian" then
      Ok (cartesian_call p, (None, Uniform (given (gp_poro p) (1 / 5)%R) (given (gp_perm p) 100%R * md)%R))
    else Throw in
  Ok (mkSetup (fst r) (fst (snd r)) (snd (snd r)) (given (gp_unique p) false)).
(* setupGridAndProps.hpp:152-180 setupGridAndPropsEclipse *)
Definition setup_eclipse (file : string) (periodic turn clip unique : bool) (threshold : R) (rocks : string) (usej : bool) (sigma theta : R) : setup :=
  mkSetup (Corner file periodic turn clip) None (FromDeck threshold (rock_option rocks) usej sigma theta) unique.
(* initCPGrid.cpp:46-76 *)
Definition init_cp_grid (p : gparam) : res grid_call :=
  let* format := required (gp_format p) in
  if String.eqb format "eclipse" then
    let* file := required (gp_file p) in
    Ok (Corner file (given (gp_periodic p) false) (given (gp_turn p) false) false)
  else if String.eqb format "cartesian" then Ok (cartesian_call p)
  else Throw.

(* ------- comparison of results *)
(* compareUpscaling.cpp:30-46 readData: the numbers of a line, up to a word starting with '#'; words are
   given with what atof makes of them *)
Fixpoint line_numbers (l : list (string * R)) : list R :=
  match l with
  | [] => []
  | (w, x) :: t => if String.eqb (substring 0 1 w) "#" then [] else x :: line_numbers t
  end.
(* compareUpscaling.cpp:58-61: the entries differ too much; two zeros give the quotient 0/0, with which
   every comparison is false *)
Definition too_far (abs_tol rel_tol a b : R) : bool :=
  let dev := Rabs (a - b) in
  match fdiv dev (smax (Rabs a) (Rabs b)) with
  | None => false
  | Some rel => Rltb rel_tol rel && Rltb abs_tol dev
  end.
(* compareUpscaling.cpp:48-68 startTest *)
Definition compare_files (abs_tol rel_tol : R) (f g : list (list (string * R))) : res unit :=
  let a := flat_map line_numbers f in
  let b := flat_map line_numbers g in
  if negb (zlen a =? zlen b) then Throw
  else
    let* _ := mapM (fun i => let* x := rget a i in let* y := rget b i in if too_far abs_tol rel_tol x y then Throw else Ok tt) (zrange 0 (zlen a)) in
    Ok tt.
