(* opm/upscaling/writeECLData.cpp and the restart output (output_ecl) of the loop in
   SteadyStateUpscalerImplicit_impl.hpp.  Doubles are reals; the conversion to float is an argument. *)
From Coq Require Export String.
From Verif Require Export Steady_Model.
Open Scope Z_scope.

(* ------- the solution container of opm-common *)
(* data::CellData: is the target RESTART_SOLUTION, and the values; the unit is not looked at *)
(* writeECLData.cpp:139-145; SteadyStateUpscalerImplicit_impl.hpp:279-281 *)
Record field := mkField { fl_restart : bool; fl_data : list R }.
(* data::Solution: a std::map, sorted by name *)
(* SteadyStateUpscalerImplicit_impl.hpp:279 *)
Definition solution := list (string * field).
(* insert: does nothing when the name is present *)
(* SteadyStateUpscalerImplicit_impl.hpp:280-281 *)
Fixpoint sol_insert (name : string) (f : field) (sol : solution) : solution :=
  match sol with
  | [] => [(name, f)]
  | (n, g) :: t => match String.compare name n with
                   | Lt => (name, f) :: sol
                   | Eq => sol
                   | Gt => (n, g) :: sol_insert name f t
                   end
  end.

(* ------- records of a restart file *)
(* INTEHEAD: dimensions, active cells and date; DOUBHEAD: start of the simulation and elapsed time (seconds);
   the constant items of the headers are left out *)
(* writeECLData.cpp:53-87 *)
Inductive record :=
| RIntehead (nx ny nz nactive posix : Z)
| RDoubhead (start elapsed : R)
| RMessage (s : string)
| RArray (name : string) (v : list R).
(* a report step: number (SEQNUM) and records *)
(* writeECLData.cpp:127-147 *)
Definition rstep : Type := Z * list record.
(* opening a unified file for a report step: what is in the file is kept up to the first step with this or a larger
   number (Opm::EclIO::OutputStream::Restart of opm-common, as documented there) *)
(* writeECLData.cpp:127-132 *)
Fixpoint rst_open (file : list rstep) (step : Z) : list rstep :=
  match file with [] => [] | e :: t => if fst e <? step then e :: rst_open t step else [] end.
(* writeECLData.cpp:119-148 *)
Definition write_ecl (rnd : R -> R) (nx ny nz nactive : Z) (data : solution) (step : Z) (time : R) (posix : Z) (file : list rstep) : list rstep :=
  let arrays := flat_map (fun e => if fl_restart (snd e) then [RArray (fst e) (map rnd (fl_data (snd e)))] else []) data in
  rst_open file step ++
    [(step, [RIntehead nx ny nz nactive posix; RDoubhead (IZR posix - time)%R time; RMessage "STARTSOL"] ++ arrays ++ [RMessage "ENDSOL"])].

(* ------- the dump of a step *)
(* opm/porsol/common/SimulatorUtilities.hpp:182-191 getCellPressure; cells are (index, pressure) *)
Definition cell_pressures (n : Z) (cells : list (Z * R)) : res (list R) :=
  foldM (fun v c => rset v (fst c) (snd c)) cells (zrepeat 0%R n).
(* conversion of a double to int, toward zero; UB when the result is not an int *)
(* SteadyStateUpscalerImplicit_impl.hpp:284 *)
Definition to_int (x : R) : res Z :=
  let z := if Rltb x 0 then - Int_part (- x) else Int_part x in
  if (- 2 ^ 31 <=? z) && (z <? 2 ^ 31) then Ok z else UB.
(* seconds from 1970-01-01 to 2012-01-01: 15340 days *)
(* SteadyStateUpscalerImplicit_impl.hpp:283-286 *)
Definition start_2012 : Z := 15340 * 86400.
(* SteadyStateUpscalerImplicit_impl.hpp:283-286 *)
Definition posix_time (time : R) : res Z := let* z := to_int time in Ok (start_2012 + z).
(* std::to_string of the character fd[flow_direction], fd = "xyz": a char is converted to int, so that the code of
   the character is printed; fd[3] is the final 0 *)
(* SteadyStateUpscalerImplicit_impl.hpp:272-276 *)
Definition direction_text (dir : Z) : res string :=
  if dir =? 0 then Ok "120"%string else if dir =? 1 then Ok "121"%string else if dir =? 2 then Ok "122"%string else if dir =? 3 then Ok "0"%string else UB.
(* the base name of the file; [dec] is std::to_string of a double (six decimals) *)
(* SteadyStateUpscalerImplicit_impl.hpp:272-276 *)
Definition dump_name (dec : R -> string) (boundary_saturation : R) (dir : Z) (pressure_drop : R) : res string :=
  let* d := direction_text dir in
  Ok ("ecldump-steadystate" ++ "-" ++ dec boundary_saturation ++ "-" ++ d ++ "-" ++ dec pressure_drop)%string.
(* what the output needs: cartdims, number of cells, conversion to float *)
(* SteadyStateUpscalerImplicit_impl.hpp:287-294 *)
Record dcfg := mkDcfg { dc_nx : Z; dc_ny : Z; dc_nz : Z; dc_cells : Z; dc_rnd : R -> R }.
(* SteadyStateUpscalerImplicit_impl.hpp:277-294: time is ecl_time after the increment *)
Definition dump_step (cfg : dcfg) (press sat : list R) (it : Z) (time : R) (file : list rstep) : res (list rstep) :=
  let* both := water_to_both sat in
  let sol := sol_insert "PRESSURE" (mkField true press) [] in
  let* sw := destripe 0%R both 2 0 in
  let sol := sol_insert "SWAT" (mkField true sw) sol in
  let* posix := posix_time time in
  Ok (write_ecl (dc_rnd cfg) (dc_nx cfg) (dc_ny cfg) (dc_nz cfg) (dc_cells cfg) sol it time posix file).

(* ------- the loop with output *)
(* loop variables, ecl_time, and the file of the run *)
(* SteadyStateUpscalerImplicit_impl.hpp:229-236 *)
Record dstate := mkD { d_ss : sstate; d_time : R; d_file : list rstep }.
(* SteadyStateUpscalerImplicit_impl.hpp:236-330 with output_ecl_; the flow solution is computed before the loop, so that
   the pressures are the same in all passes.  The file name does not change in the loop. *)
Definition dump_body (cfg : dcfg) (p : sparams) (pv : list R) (tr : tsolver) (press : list R) (st : dstate) : res dstate :=
  let ss := d_ss st in
  let out := tr (ss_calls ss) (ss_sat ss) (ss_step ss) in
  let* tf := (if fst out then
                let time := (d_time st + ss_step ss)%R in
                let* f := dump_step cfg press (snd out) (ss_it ss) time (d_file st) in Ok (time, f)
              else Ok (d_time st, d_file st)) in
  let* ss' := ss_body p pv tr ss in
  Ok (mkD ss' (fst tf) (snd tf)).
(* SteadyStateUpscalerImplicit_impl.hpp:236; Throw: more than [fuel] passes *)
Fixpoint dump_loop (fuel : nat) (cfg : dcfg) (p : sparams) (pv : list R) (tr : tsolver) (press : list R) (st : dstate) : res dstate :=
  if negb (ss_stat (d_ss st)) && (ss_it (d_ss st) <? sp_max_it p) then
    match fuel with
    | O => Throw
    | S f => let* st' := dump_body cfg p pv tr press st in dump_loop f cfg p pv tr press st'
    end
  else Ok st.
(* SteadyStateUpscalerImplicit_impl.hpp:209, 228-331: [file] is what the file of this name holds before the run *)
Definition dump_run (cfg : dcfg) (p : sparams) (pv : list R) (tr : tsolver) (sat0 press : list R) (file : list rstep) : res dstate :=
  dump_loop (Z.to_nat (sp_max_it p)) cfg p pv tr press (mkD (mkSs sat0 sat0 false 0 (sp_init p) []) 0%R file).
