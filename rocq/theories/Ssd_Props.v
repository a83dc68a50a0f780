From Verif Require Import Ssd_Proofs Ssd_Spec.
Open Scope Z_scope.

(* C170: saturation range of upscale_steadystate_implicit *)
Theorem C170_range : forall sat poro ends cells, grid_fits sat poro cells -> (forall s, In s sat -> s <= zlen ends) ->
  sat_range sat poro ends cells = if Req_EM_T (total_pore sat poro cells) 0 then UB else Ok (mean_end fst sat poro ends cells, mean_end snd sat poro ends cells).
Proof. exact Ssd_Proofs.range_ok. Qed.
Theorem C170_bounds : forall sat poro ends cells lo hi, grid_fits sat poro cells -> (forall s, In s sat -> s <= zlen ends) ->
  (forall cv, In cv cells -> (0 <= snd cv)%R /\ (0 <= nthR poro (fst cv))%R) -> sat_range sat poro ends cells = Ok (lo, hi) ->
  (forall a b, (forall e, In e ends -> (a <= fst e /\ snd e <= b)%R) -> (forall e, In e ends -> (fst e <= snd e)%R) -> (a <= lo /\ lo <= hi /\ hi <= b)%R) /\
  (forall n s, (lo <= hi)%R -> In s (sat_sweep n lo hi) -> (lo <= s <= hi)%R).
Proof. exact Ssd_Proofs.range_bounds. Qed.
Theorem C170_upper_unchecked_refuted : exists load l e, rock_ends load l = Ok e /\ (1 < snd e)%R.
Proof. exact Ssd_Proofs.upper_unchecked_refuted. Qed.

(* C171: input of upscale_steadystate_implicit *)
Theorem C171_direction : forall s d, flow_dir s = Ok d <-> (s = "x" /\ d = 0) \/ (s = "y" /\ d = 1) \/ (s = "z" /\ d = 2).
Proof. exact Ssd_Proofs.flow_dir_ok. Qed.
Theorem C171_conditions : forall s t n, bc_choice s = Ok (t, n) <->
  (In s ["fixed"; "f"]%string /\ t = 0 /\ n = 3) \/ (In s ["periodic"; "p"]%string /\ t = 2 /\ n = 6) \/ (In s ["linear"; "l"]%string /\ t = 1 /\ n = 9).
Proof. exact Ssd_Proofs.bc_choice_ok. Qed.
Theorem C171_first_word : forall l w, word_of l w <-> w = first_word l.
Proof. exact Ssd_Proofs.word_unique. Qed.
Theorem C171_rock_list : forall load, forall n lines es, read_ends load n lines = Some (Ok es) <-> exists specs, rock_specs n lines = Some specs /\ Forall2 (good_rock load) specs es.
Proof. exact Ssd_Proofs.read_ends_ok. Qed.
Theorem C171_rock_numbers : forall cells satnum rocktype, (forall s, satnum = Some s -> sat_numbers cells satnum rocktype = s) /\
  (forall s, satnum = None -> rocktype = Some s -> sat_numbers cells satnum rocktype = s) /\
  (satnum = None -> rocktype = None -> sat_numbers cells satnum rocktype = repeat 1 (Z.to_nat cells)).
Proof. exact Ssd_Proofs.numbers_ok. Qed.
Theorem C171_rock_count : forall sat ends, (types_check sat ends = UB <-> sat = []) /\
  (types_check sat ends = Ok tt <-> In (zlen ends) sat /\ forall s, In s sat -> s <= zlen ends).
Proof. exact Ssd_Proofs.types_ok. Qed.
Theorem C171_stops : forall load file d p limits run cl, (sd_has d = false \/ (forall fd, flow_dir (sp_flowdir p) <> Ok fd) \/ (forall r, bc_choice (sp_bc p) <> Ok r) -> driver load file d p limits run cl = Some Throw) /\
  (file = None \/ (exists n lines, file = Some (n, lines) /\ n < 0) -> driver load file d p limits run cl = Some Throw) /\
  (forall n lines ends, sd_has d = true -> file = Some (n, lines) -> 0 <= n -> read_ends load (Z.to_nat n) lines = Some (Ok ends) ->
     let sat := sat_numbers (zlen (sd_poro d)) (sd_satnum d) (sd_rocktype d) in
     sat <> [] -> ~ (In (zlen ends) sat /\ forall s, In s sat -> s <= zlen ends) -> driver load file d p limits run cl = Some Throw).
Proof. exact Ssd_Proofs.program_stops. Qed.
Theorem C171_hangs : forall load n lines d p limits run cl fd bt, sd_has d = true -> flow_dir (sp_flowdir p) = Ok fd -> bc_choice (sp_bc p) = Ok bt -> 0 <= n ->
  (driver load (Some (n, lines)) d p limits run cl = None <->
   exists k specs es, (k < Z.to_nat n)%nat /\ rock_specs k lines = Some specs /\ rock_specs (S k) lines = None /\ Forall2 (good_rock load) specs es).
Proof. exact Ssd_Proofs.program_hangs. Qed.

(* C172: runs and tables of upscale_steadystate_implicit *)
Theorem C172_runs : forall lo hi run cfl cl nc nsat npd smin smax pmin pmax i s, 0 <= nc -> (forall x v, cl x = Some v -> zlen v = nc) -> 0 <= nsat -> 0 <= npd ->
  zget (sat_sweep nsat smin smax) i = Some s ->
  let all := driver_runs (init_sat_limits lo hi) run cfl cl nc [] (driver_points nsat npd smin smax pmin pmax) in
  zlen all = nsat /\
  exists rs init, zget all i = Some rs /\ zlen rs = npd /\
    (cfl = true -> forall v, cl s = Some v -> init = v) /\ (cfl = false \/ cl s = None -> init = repeat s (Z.to_nat nc)) /\
    forall k r, zget rs k = Some r ->
      let prev := firstn (Z.to_nat k) rs in
      dr_sat r = s /\ zget (pdrop_sweep npd pmin pmax) k = Some (dr_pdrop r) /\ dr_start r = init_sat_limits lo hi (last_good prev init) /\
      run (List.concat (firstn (Z.to_nat i) all) ++ prev) s (dr_pdrop r) (dr_start r) = (dr_success r, dr_final r, (dr_k1 r, dr_k2 r)).
Proof. exact Ssd_Proofs.runs_ok. Qed.
Theorem C172_tables : forall tec nsat npd runs, 0 <= tec <= 9 -> 0 <= nsat -> 0 <= npd -> zlen runs = nsat ->
  (forall rs, In rs runs -> zlen rs = npd /\ forall r, In r rs -> zlen (dr_k1 r) = 9 /\ zlen (dr_k2 r) = 9) ->
  exists a b, driver_tables tec nsat npd runs = Ok (a, b) /\ shape3 nsat npd tec a /\ shape3 nsat npd tec b /\
    forall i j v rs r, zget runs i = Some rs -> zget rs j = Some r -> 0 <= v < tec -> entry3 a i j v = ordered_entry (dr_k1 r) v /\ entry3 b i j v = ordered_entry (dr_k2 r) v.
Proof. exact Ssd_Proofs.tables_ok. Qed.
Theorem C172_program : forall load n lines specs ends d p limits run cl fd bct tec, sd_has d = true -> flow_dir (sp_flowdir p) = Ok fd -> bc_choice (sp_bc p) = Ok (bct, tec) -> 0 <= n ->
  rock_specs (Z.to_nat n) lines = Some specs -> Forall2 (good_rock load) specs ends ->
  let sat := sat_numbers (zlen (sd_poro d)) (sd_satnum d) (sd_rocktype d) in
  In n sat -> (forall s, In s sat -> s <= n) -> grid_fits sat (sd_poro d) (sd_cells d) -> total_pore sat (sd_poro d) (sd_cells d) <> 0%R ->
  0 <= sp_nsat p -> 0 <= sp_npd p ->
  (forall a b h s q x ok fin k1 k2, run a b h s q x = (ok, fin, (k1, k2)) -> zlen k1 = 9 /\ zlen k2 = 9) ->
  exists t1 t2, let lo := mean_end fst sat (sd_poro d) ends (sd_cells d) in let hi := mean_end snd sat (sd_poro d) ends (sd_cells d) in
    let runs := driver_runs limits (run fd bct) (sp_cl p) cl (sd_ncells d) [] (driver_points (sp_nsat p) (sp_npd p) lo hi (sp_pmin p) (sp_pmax p)) in
    driver load (Some (n, lines)) d p limits run cl = Some (Ok (runs, (t1, t2))) /\
    shape3 (sp_nsat p) (sp_npd p) tec t1 /\ shape3 (sp_nsat p) (sp_npd p) tec t2 /\
    forall i j v rs r, zget runs i = Some rs -> zget rs j = Some r -> 0 <= v < tec ->
      entry3 t1 i j v = ordered_entry (dr_k1 r) v /\ entry3 t2 i j v = ordered_entry (dr_k2 r) v.
Proof. exact Ssd_Proofs.program_ok. Qed.

Example C170_case : grid_fits [1; 0; 2] (sd_poro ex_deck) (sd_cells ex_deck) /\ total_pore [1; 0; 2] (sd_poro ex_deck) (sd_cells ex_deck) = (4 / 5)%R /\
  mean_end fst [1; 0; 2] (sd_poro ex_deck) ex_ends (sd_cells ex_deck) = (7 / 40)%R /\ (forall s, In s [1; 0; 2] -> s <= zlen ex_ends).
Proof. destruct ex_fits as (A & B & C). repeat split; try exact B; try exact C; try apply A; try assumption. intros s [<-|[<-|[<-|[]]]]; discriminate. Qed.
Example C171_case : exists specs, rock_specs 2 (map list_ascii_of_string [""; "a.txt"; " b.txt x"]%string) = Some specs /\
  Forall2 (good_rock (fun w => if list_eq_dec Ascii.ascii_dec w (list_ascii_of_string "a.txt") then Ok (1 / 10, 4 / 5)%R else if list_eq_dec Ascii.ascii_dec w (list_ascii_of_string "b.txt") then Ok (1 / 5, 9 / 10)%R else Throw)) specs ex_ends.
Proof. exact ex_list. Qed.
Example C171_hang : rock_specs 1 [["a"%char]] = Some [["a"%char]] /\ rock_specs 2 [["a"%char]] = None.
Proof. split; reflexivity. Qed.
Example C172_case : forall a b c x, let lim := fun s : list R => s in
  let run := fun (h : list srun) (_ _ : R) (_ : list R) => (match h with [_] => false | _ => true end, match h with [] => a | [_] => b | _ => c end, ([], [])) in
  map dr_start (driver_series lim run [] 0%R x [1; 2; 3]%R) = [x; a; a].
Proof. reflexivity. Qed.
Print Assumptions C170_range. Print Assumptions C170_bounds. Print Assumptions C170_upper_unchecked_refuted. Print Assumptions C171_direction. Print Assumptions C171_conditions. Print Assumptions C171_first_word. Print Assumptions C171_rock_list. Print Assumptions C171_rock_numbers. Print Assumptions C171_rock_count. Print Assumptions C171_stops. Print Assumptions C171_hangs. Print Assumptions C172_runs. Print Assumptions C172_tables. Print Assumptions C172_program.
