(* Vocabulary for restart files. *)
From Coq Require Export Sorted Ascii DecimalString.
From Verif Require Export Dump_Model Steady_Spec.
Open Scope Z_scope.

(* names in increasing order, no name twice *)
Definition by_name (names : list string) : Prop := StronglySorted (fun a b => String.compare a b = Lt) names.
(* report steps in increasing order, no number twice *)
Definition in_order (file : list rstep) : Prop := StronglySorted (fun a b => fst a < fst b) file.
(* the report steps of a file before number k *)
Definition before (k : Z) (file : list rstep) : list rstep := filter (fun e => fst e <? k) file.
(* time covered by the converged calls *)
Definition conv_time (calls : list tcall) : R := Rsum (map tc_step (filter tc_conv calls)).
(* the converged calls with their numbers, counted from k *)
Fixpoint converged (k : Z) (calls : list tcall) : list (Z * tcall) :=
  match calls with [] => [] | c :: t => if tc_conv c then (k, c) :: converged (k + 1) t else converged (k + 1) t end.
(* the report step of call c, number k of all calls: t is the time up to the end of this call *)
Definition step_for (cfg : dcfg) (press : list R) (calls : list tcall) (e : rstep) (kc : Z * tcall) : Prop :=
  let t := conv_time (firstn (Z.to_nat (fst kc + 1)) calls) in
  exists z, (IZR z <= t < IZR z + 1)%R /\
    e = (fst kc, [RIntehead (dc_nx cfg) (dc_ny cfg) (dc_nz cfg) (dc_cells cfg) (start_2012 + z); RDoubhead (IZR (start_2012 + z) - t)%R t; RMessage "STARTSOL";
                  RArray "PRESSURE" (map (dc_rnd cfg) press); RArray "SWAT" (map (dc_rnd cfg) (tc_out (snd kc))); RMessage "ENDSOL"]).
(* what a run leaves of the file that was there: everything if no call converged, otherwise the steps before the first one *)
Definition kept (calls : list tcall) (file : list rstep) : list rstep :=
  match converged 0 calls with [] => file | (k, _) :: _ => before k file end.
(* the default parameters (SteadyStateUpscalerImplicit_impl.hpp:62-71, 88-98): ten days, 100 steps, 10000 years *)
Definition default_params : sparams := mkSp (10 * 86400) 100 (10000 * (365 * 86400)) (1 / 100) (1 / 100000) true (365 * 86400).
(* the letter of a direction, and its character code in decimal digits *)
Definition letter (dir : Z) : Ascii.ascii := if dir =? 0 then "x"%char else if dir =? 1 then "y"%char else "z"%char.
Definition code_text (c : Ascii.ascii) : string := DecimalString.NilEmpty.string_of_uint (Nat.to_uint (Ascii.nat_of_ascii c)).
(* a one-cell solver whose saturation goes back and forth by 0.005 *)
Definition swing : tsolver := fun h _ _ => (true, [if Z.even (zlen h) then 101 / 200 else 1 / 2]%R).
(* a solver that fails once and then stands still *)
Definition late : tsolver := fun h s _ => (match h with [] => false | _ => true end, s).
