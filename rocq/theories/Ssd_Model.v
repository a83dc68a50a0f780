(* Model of examples/upscale_steadystate_implicit.cpp (line numbers without a file name).  exit(1) and
   exceptions are Throw.  Parameters and deck are given as what their lookups return; printing is not
   modelled. *)
From Coq Require Export String.
From Verif Require Export Steady_Model Fluid_Model Relp_Model.
Open Scope string_scope.
Open Scope list_scope.
Open Scope Z_scope.

(* ------- choices *)
(* 213-229: fldir *)
Definition flow_dir (s : string) : res Z :=
  if String.eqb s "x" then Ok 0 else if String.eqb s "y" then Ok 1 else if String.eqb s "z" then Ok 2 else Throw.
(* 238-255: boundary_condition_type and tensorElementCount *)
Definition bc_choice (s : string) : res (Z * Z) :=
  if String.eqb s "fixed" || String.eqb s "f" then Ok (0, 3)
  else if String.eqb s "periodic" || String.eqb s "p" then Ok (2, 6)
  else if String.eqb s "linear" || String.eqb s "l" then Ok (1, 9)
  else Throw.

(* ------- rock list *)
(* 120-122 specstream >> rockname skips and stops at white space *)
Definition is_blank (c : ascii) : bool :=
  Ascii.eqb c " " || Ascii.eqb c "009" || Ascii.eqb c "011" || Ascii.eqb c "012" || Ascii.eqb c "013".
(* 120-122: white space before the word *)
Fixpoint skip_blanks (l : list ascii) : list ascii :=
  match l with [] => [] | c :: t => if is_blank c then skip_blanks t else l end.
(* 120-122: the characters up to the next white space *)
Fixpoint take_word (l : list ascii) : list ascii :=
  match l with [] => [] | c :: t => if is_blank c then [] else c :: take_word t end.
(* 120-123: the first word of the line, empty if there is none *)
Definition first_word (l : list ascii) : list ascii := take_word (skip_blanks l).
(* 121-149: one rock (anisorocks is never set, 99 and 260): opening the file, reading it as a table of J against the saturation, the
   extreme saturations; [load] fails if the file cannot be opened or read *)
Definition rock_ends (load : list ascii -> res (R * R)) (spec : list ascii) : res (R * R) :=
  let* e := load (first_word spec) in
  if Rltb (fst e) 0 || Rltb 1 (fst e) then Throw else Ok e.
(* 113-163: the loop over the rocks; None: it never ends (getline at the end of the file) *)
Fixpoint read_ends (load : list ascii -> res (R * R)) (n : nat) (lines : list (list ascii)) : option (res (list (R * R))) :=
  match n with
  | O => Some (Ok [])
  | S n =>
      match next_spec lines with
      | None => None
      | Some (l, t) =>
          match rock_ends load l with
          | Ok e => option_map (fun r => let* es := r in Ok (e :: es)) (read_ends load n t)
          | Throw => Some Throw
          | UB => Some UB
          end
      end
  end.
(* 99-112, 258-260: [file] is the number read from the list and the lines after it (starting with the rest of
   its own line); None: "no_list" or a file that cannot be opened.  the assertion at 110 is
   not compiled in a release build, and resize of a negative number throws *)
Definition extreme_sats (load : list ascii -> res (R * R)) (file : option (Z * list (list ascii))) : option (res (list (R * R))) :=
  match file with
  | None => Some Throw
  | Some (n, lines) => if n <? 0 then Some Throw else read_ends load (Z.to_nat n) lines
  end.

(* ------- rock types and saturation range *)
(* 265-274: SATNUM, else ROCKTYPE, else all 1 *)
Definition sat_numbers (cells : Z) (satnum rocktype : option (list Z)) : list Z :=
  match satnum with Some s => s | None => match rocktype with Some s => s | None => zrepeat 1 cells end end.
(* 276: max_element of an empty range is dereferenced: UB *)
Definition greatest (l : list Z) : res Z :=
  match l with [] => UB | x :: t => Ok (fold_left (fun m s => if m <? s then s else m) t x) end.
(* 275-282 *)
Definition types_check (sat : list Z) (ends : list (R * R)) : res unit :=
  let* m := greatest sat in if m =? zlen ends then Ok tt else Throw.
(* 294-301: one cell with global number and volume; cellPoreVolumes, swirvolume, sworvolume *)
Definition range_cell (sat : list Z) (poro : list R) (ends : list (R * R)) (st : list R * (R * R)) (cv : Z * R) : res (list R * (R * R)) :=
  let* s := rget sat (fst cv) in
  if 0 <? s then
    let* p := rget poro (fst cv) in
    let v := (snd cv * p)%R in
    let* pv := rset (fst st) (fst cv) v in
    let* e := rget ends (s - 1) in
    Ok (pv, ((fst (snd st) + fst e * v)%R, (snd (snd st) + snd e * v)%R))
  else Ok st.
(* 287-307: min_sat and max_sat *)
Definition sat_range (sat : list Z) (poro : list R) (ends : list (R * R)) (cells : list (Z * R)) : res (R * R) :=
  let* st := foldM (range_cell sat poro ends) cells (zrepeat 0%R (zlen sat), (0, 0)%R) in
  let pore := racc (fun v => v) (fst st) in
  let* lo := mdiv (fst (snd st)) pore in
  let* hi := mdiv (snd (snd st)) pore in Ok (lo, hi).

(* ------- points and runs *)
(* 312-330: saturations and all_pdrops; sat_sweep and pdrop_sweep are the same loops as in
   SteadyStateUpscalerManagerImplicit.hpp:159-181 (the logarithms are taken at 210-211) *)
Definition driver_points (nsat npd : Z) (lo hi pmin pmax : R) : list (R * list R) :=
  map (fun s => (s, pdrop_sweep npd pmin pmax)) (sat_sweep nsat lo hi).
(* 351-362: the start profile.  [cl] is setToCapillaryLimit, None when it throws (before it assigns its
   result).  The block at 360-362 is run in every case: it changes nothing but the length *)
Definition driver_profile (start_from_cl : bool) (cl : option (list R)) (num_cells : Z) (s : R) : list R :=
  let v := if start_from_cl then match cl with Some v => v | None => vec_resize num_cells s [] end else [] in
  vec_resize num_cells s v.
(* 366-377: a run: pressure drop, start, success, final state, and the tensors of the two phases *)
Record srun := mkSrun { dr_sat : R; dr_pdrop : R; dr_start : list R; dr_success : bool; dr_final : list R; dr_k1 : list R; dr_k2 : list R }.
(* 363-383: the loop over the pressure drops; [run] is upscaleSteadyState with lastSaturationState:
   runs before, saturation, pressure drop and start to success, final state and tensors *)
Fixpoint driver_series (limits : list R -> list R) (run : list srun -> R -> R -> list R -> bool * list R * (list R * list R))
    (before : list srun) (s : R) (init : list R) (pdrops : list R) : list srun :=
  match pdrops with
  | [] => []
  | p :: t =>
      let start := limits init in
      let '(ok, fin, ks) := run before s p start in
      let r := mkSrun s p start ok fin (fst ks) (snd ks) in
      r :: driver_series limits run (before ++ [r]) s (if ok then fin else start) t
  end.
(* 350-384: the loop over the saturations *)
Fixpoint driver_runs (limits : list R -> list R) (run : list srun -> R -> R -> list R -> bool * list R * (list R * list R))
    (start_from_cl : bool) (cl : R -> option (list R)) (num_cells : Z) (before : list srun) (points : list (R * list R)) : list (list srun) :=
  match points with
  | [] => []
  | (s, pd) :: t =>
      let rs := driver_series limits run before s (driver_profile start_from_cl (cl s) num_cells s) pd in
      rs :: driver_runs limits run start_from_cl cl num_cells (before ++ rs) t
  end.
(* 379-382: RelPermPhase[satidx][pidx][voigtIdx] = getVoigtValue(...) for all voigtIdx *)
Definition store_row (tec i j : Z) (K : list R) (t : list (list (list R))) : res (list (list (list R))) :=
  foldM (fun t v => let* x := get_voigt K v in
    let* r := rget t i in let* row := rget r j in let* row := rset row v x in
    let* r := rset r j row in rset t i r) (zrange 0 tec) t.
(* 343-348, 378-382: the two tables, one entry after the other *)
Definition driver_tables (tec nsat npd : Z) (runs : list (list srun)) : res (list (list (list R)) * list (list (list R))) :=
  let zero := zrepeat (zrepeat (zrepeat 0%R tec) npd) nsat in
  foldM (fun t ij => let* rs := rget runs (fst ij) in let* r := rget rs (snd ij) in
      let* a := store_row tec (fst ij) (snd ij) (dr_k1 r) (fst t) in
      let* b := store_row tec (fst ij) (snd ij) (dr_k2 r) (snd t) in Ok (a, b))
    (pairs (zrange 0 nsat) (zrange 0 npd)) (zero, zero).

(* ------- the program *)
(* 191-196, 262-274, 292-301, 341: what the deck provides: keywords present, PORO, SATNUM, ROCKTYPE,
   active cells with their volumes, and the number of cells of the grid of the upscaler *)
Record sdeck := mkSdeck { sd_has : bool; sd_poro : list R; sd_satnum : option (list Z); sd_rocktype : option (list Z); sd_cells : list (Z * R); sd_ncells : Z }.
(* 205-230: the parameters *)
Record sparam := mkSparam { sp_bc : string; sp_flowdir : string; sp_nsat : Z; sp_npd : Z; sp_pmin : R; sp_pmax : R; sp_cl : bool }.
(* 188-384: up to the tables; [run] gets the flow direction and the type of the boundary conditions, and
   the tensors come with the runs.  resize of a negative number throws.  None: the program does not end *)
Definition driver (load : list ascii -> res (R * R)) (file : option (Z * list (list ascii))) (d : sdeck) (p : sparam)
    (limits : list R -> list R) (run : Z -> Z -> list srun -> R -> R -> list R -> bool * list R * (list R * list R))
    (cl : R -> option (list R)) : option (res (list (list srun) * (list (list (list R)) * list (list (list R))))) :=
  if negb (sd_has d) then Some Throw else
  match flow_dir (sp_flowdir p), bc_choice (sp_bc p) with
  | Ok fd, Ok (bct, tec) =>
      match extreme_sats load file with
      | None => None
      | Some (Ok ends) => Some (
          let sat := sat_numbers (zlen (sd_poro d)) (sd_satnum d) (sd_rocktype d) in
          let* _ := types_check sat ends in
          let* r := sat_range sat (sd_poro d) ends (sd_cells d) in
          if (sp_nsat p <? 0) || (sp_npd p <? 0) then Throw else
          let points := driver_points (sp_nsat p) (sp_npd p) (fst r) (snd r) (sp_pmin p) (sp_pmax p) in
          let runs := driver_runs limits (run fd bct) (sp_cl p) cl (sd_ncells d) [] points in
          let* t := driver_tables tec (sp_nsat p) (sp_npd p) runs in Ok (runs, t))
      | Some Throw => Some Throw
      | Some UB => Some UB
      end
  | _, _ => Some Throw
  end.
