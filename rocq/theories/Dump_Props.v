From Verif Require Import Dump_Proofs Dump_Spec.
Open Scope Z_scope.

(* C211: one report step *)
Theorem C211_insert : forall name f sol, by_name (map fst sol) -> by_name (map fst (sol_insert name f sol)) /\
  forall n g, In (n, g) (sol_insert name f sol) <-> In (n, g) sol \/ (n = name /\ g = f /\ ~ In name (map fst sol)).
Proof. exact Dump_Proofs.insert_ok. Qed.
Theorem C211_write : forall rnd nx ny nz na data step time posix file, in_order file -> by_name (map fst data) -> exists arrays,
  write_ecl rnd nx ny nz na data step time posix file = before step file ++ [(step, [RIntehead nx ny nz na posix; RDoubhead (IZR posix - time)%R time; RMessage "STARTSOL"] ++ arrays ++ [RMessage "ENDSOL"])] /\
  in_order (write_ecl rnd nx ny nz na data step time posix file) /\ (exists names, by_name names /\ map (fun r => match r with RArray n _ => Some n | _ => None end) arrays = map Some names) /\
  forall n v, In (RArray n v) arrays <-> exists d, In (n, mkField true d) data /\ v = map rnd d.
Proof. exact Dump_Proofs.write_ok. Qed.
Theorem C211_pressures : forall n cells, 0 <= n -> NoDup (map fst cells) -> (forall i p, In (i, p) cells -> 0 <= i < n) -> exists v, cell_pressures n cells = Ok v /\ zlen v = n /\ forall i p, In (i, p) cells -> zget v i = Some p.
Proof. exact Dump_Proofs.pressures_ok. Qed.

(* C212: the restart file of a run: kept and converged are defined in Dump_Spec *)
Theorem C212_file : forall cfg p pv tr sat0 press file st, (0 < sp_init p)%R -> (0 < sp_max_step p)%R -> in_order file -> steady_run p pv tr sat0 = Ok st ->
  ((conv_time (ss_calls st) < IZR (2 ^ 31))%R -> exists d new, dump_run cfg p pv tr sat0 press file = Ok d /\ d_ss d = st /\ d_file d = kept (ss_calls st) file ++ new /\ in_order (d_file d) /\ Forall2 (step_for cfg press (ss_calls st)) new (converged 0 (ss_calls st))) /\
  ((IZR (2 ^ 31) <= conv_time (ss_calls st))%R -> dump_run cfg p pv tr sat0 press file = UB).
Proof. exact Dump_Proofs.dump_ok. Qed.
Theorem C212_start : forall cfg press calls e kc start elapsed, step_for cfg press calls e kc -> In (RDoubhead start elapsed) (snd e) ->
  (IZR start_2012 - 1 < start <= IZR start_2012)%R /\ (start = IZR start_2012 <-> exists z, elapsed = IZR z).
Proof. exact Dump_Proofs.start_date. Qed.
Theorem C212_name : forall dec s dir pd, (0 <= dir <= 2 -> dump_name dec s dir pd = Ok ("ecldump-steadystate-" ++ dec s ++ "-" ++ code_text (letter dir) ++ "-" ++ dec pd)%string) /\ (~ (0 <= dir <= 3) -> dump_name dec s dir pd = UB).
Proof. exact Dump_Proofs.name_text. Qed.

(* C213: with the default parameters the output can end the run *)
Theorem C213_overflow : forall cfg p pv tr sat0 press file st, (0 < sp_init p)%R -> (0 < sp_max_step p)%R -> steady_run p pv tr sat0 = Ok st ->
  (dump_run cfg p pv tr sat0 press file = UB <-> (IZR (2 ^ 31) <= conv_time (ss_calls st))%R) /\ dump_run cfg p pv tr sat0 press file <> Throw.
Proof. exact Dump_Proofs.overflow_iff. Qed.
Theorem C213_default_refuted : forall cfg press file, (exists st, steady_run default_params [1]%R swing [1 / 2]%R = Ok st) /\ dump_run cfg default_params [1]%R swing [1 / 2]%R press file = UB.
Proof. exact Dump_Proofs.swing_dump. Qed.

(* two fields, one of them for another target *)
Example C211_case : by_name (map fst [("PRESSURE"%string, mkField true [1%R]); ("SWAT"%string, mkField false [2%R])]) /\ in_order [(0, [RMessage "ENDSOL"]); (3, [])].
Proof. split; repeat constructor. Qed.
(* a solver that fails once and then stands still: one report step, number 1 *)
Example C212_case : exists st c, steady_run (mkSp 1 2 4 (/ 100) (/ 100) true 1) [1; 1]%R late [1; 0]%R = Ok st /\ (conv_time (ss_calls st) < IZR (2 ^ 31))%R /\ converged 0 (ss_calls st) = [(1, c)] /\ tc_out c = [1; 0]%R.
Proof. exact late_case. Qed.
Print Assumptions C211_insert. Print Assumptions C211_write. Print Assumptions C211_pressures. Print Assumptions C212_file. Print Assumptions C212_start. Print Assumptions C212_name. Print Assumptions C213_overflow. Print Assumptions C213_default_refuted.
