(* Model of opm/upscaling/SteadyStateUpscalerImplicit_impl.hpp and
   SteadyStateUpscalerManagerImplicit.hpp.  Doubles are reals.  The pressure and
   transport solvers, the capillary limit search and the rock functions are arguments. *)
From Verif Require Export RBase Bound_Model.
Open Scope Z_scope.

(* ------- steady state iteration *)
(* the members used by the loop; sp_year is Opm::unit::year *)
(* SteadyStateUpscalerImplicit.hpp:120-128 *)
Record sparams := mkSp { sp_init : R; sp_max_it : Z; sp_max_step : R; sp_dt_tol : R; sp_change : R;
                         sp_maxdiff : bool; sp_year : R }.
(* a call of transportSolve: saturation and step size passed in, what it returned *)
(* SteadyStateUpscalerImplicit_impl.hpp:242-247 *)
Record tcall := mkCall { tc_in : list R; tc_step : R; tc_conv : bool; tc_out : list R }.
(* a transport solver: may depend on everything it was called with before *)
(* SteadyStateUpscalerImplicit_impl.hpp:242-247 *)
Definition tsolver := list tcall -> list R -> R -> bool * list R.

(* SteadyStateUpscalerImplicit_impl.hpp:287-295: maxdiff and euclidean_diff; None: division
   by a zero pore volume *)
Definition sat_diff (pv sat old : list R) : res (R * option R) :=
  let* me := foldM (fun me i =>
      let* s := rget sat i in let* o := rget old i in let* v := rget pv i in
      Ok (smax (fst me) (Rabs (s - o)), (snd me + (s - o) * (s - o) * v)%R))
    (zrange 0 (zlen pv)) (0%R, 0%R) in
  Ok (fst me, option_map sqrt (fdiv (snd me) (racc (fun v => v) pv))).
(* comparison of a possibly non-finite value with a bound is false *)
(* SteadyStateUpscalerImplicit_impl.hpp:297-325 *)
Definition below (x : option R) (b : R) : bool := match x with Some v => Rltb v b | None => false end.

(* SteadyStateUpscalerImplicit_impl.hpp:229-236: the variables of the loop *)
Record sstate := mkSs { ss_sat : list R; ss_old : list R; ss_stat : bool; ss_it : Z; ss_step : R; ss_calls : list tcall }.
(* SteadyStateUpscalerImplicit_impl.hpp:236-330: one pass of the loop body (output left out) *)
Definition ss_body (p : sparams) (pv : list R) (tr : tsolver) (st : sstate) : res sstate :=
  let out := tr (ss_calls st) (ss_sat st) (ss_step st) in
  let sat := snd out in
  let calls := ss_calls st ++ [mkCall (ss_sat st) (ss_step st) (fst out) sat] in
  if fst out then
    let* me := sat_diff pv sat (ss_old st) in
    let d := if sp_maxdiff p then Some (fst me) else snd me in
    let rate := option_map (fun d => d * sp_year p / ss_step st)%R d in
    let step := if below d (sp_dt_tol p) then smin (sp_max_step p) (2 * ss_step st)%R else ss_step st in
    Ok (mkSs sat sat (below rate (sp_change p)) (ss_it st + 1) step calls)
  else Ok (mkSs sat sat false (ss_it st + 1) (ss_step st / 2)%R calls).
(* SteadyStateUpscalerImplicit_impl.hpp:236: while ((!stationary) && (it_count < max_it_)).
   Throw: more than [fuel] passes. *)
Fixpoint ss_loop (fuel : nat) (p : sparams) (pv : list R) (tr : tsolver) (st : sstate) : res sstate :=
  if negb (ss_stat st) && (ss_it st <? sp_max_it p) then
    match fuel with
    | O => Throw
    | S f => let* st' := ss_body p pv tr st in ss_loop f p pv tr st'
    end
  else Ok st.
(* SteadyStateUpscalerImplicit_impl.hpp:209, 228-236, 331: the run; success is ss_stat *)
Definition steady_run (p : sparams) (pv : list R) (tr : tsolver) (sat0 : list R) : res sstate :=
  ss_loop (Z.to_nat (sp_max_it p)) p pv tr (mkSs sat0 sat0 false 0 (sp_init p) []).

(* ------- mobilities *)
(* SteadyStateUpscalerImplicit_impl.hpp:112-137 maxMobility, thresholdMobility: a mobility
   is the list of its diagonal entries (one entry: scalar mobility) *)
Definition max_mobility (m1 : R) (m2 : list R) : R := fold_left smax m2 m1.
(* SteadyStateUpscalerImplicit_impl.hpp:112-137 *)
Definition threshold_mobility (t : R) (m : list R) : list R := map (fun x => smax x t) m.
(* SteadyStateUpscalerImplicit_impl.hpp:335-364 for one phase with viscosity mu: [mobs] are
   the phase mobilities of the cells *)
Definition phase_mobilities (relperm_threshold mu contrast : R) (mobs : list (list R)) : list (list R) :=
  let mmax := fold_left max_mobility mobs 0%R in
  let t := smax (relperm_threshold / mu)%R (mmax / contrast)%R in
  map (threshold_mobility t) mobs.

(* SteadyStateUpscalerImplicit_impl.hpp:400-412 lastSaturationUpscaled: cells are (index,
   volume times porosity) *)
Definition last_saturation (cells : list (Z * R)) (sat : list R) : res (option R) :=
  let* ps := foldM (fun ps c => let* s := rget sat (fst c) in
                                Ok ((fst ps + snd c)%R, (snd ps + snd c * s)%R)) cells (0%R, 0%R) in
  Ok (fdiv (snd ps) (fst ps)).

(* ------- saturation vectors *)
(* 1e-4 *)
(* SteadyStateUpscalerImplicit_impl.hpp:416-424 *)
Definition sat_margin : R := (/ 10000)%R.
(* SteadyStateUpscalerImplicit_impl.hpp:416-424 initSatLimits; smin c, smax c are the limits
   of cell c *)
Definition init_sat_limits (lo hi : Z -> R) (s : list R) : list R :=
  map (fun cs => smin (hi (fst cs) - sat_margin)%R (smax (lo (fst cs) + sat_margin)%R (snd cs)))
      (combine (zrange 0 (zlen s)) s).
(* SteadyStateUpscalerImplicit_impl.hpp:154-163 waterSatToBothSat *)
Definition water_to_both (sw : list R) : res (list R) :=
  foldM (fun sb i =>
      let* s := rget sw i in
      let* sb1 := rset sb (2 * i) s in
      rset sb1 (2 * i + 1) (1 - s)%R) (zrange 0 (zlen sw)) (zrepeat 0%R (2 * zlen sw)).
(* SteadyStateUpscalerImplicit_impl.hpp:140-150 destripe; number of passes of the loop
   for (i = offset; i < v.size(); i += stride); division by a zero stride is UB *)
Definition destripe {A} (zero : A) (v : list A) (stride offset : Z) : res (list A) :=
  if stride <=? 0 then UB
  else
    let n := if zlen v <=? offset then 0 else (zlen v - offset + stride - 1) / stride in
    foldM (fun dst di => let* x := rget v (offset + di * stride) in rset dst di x)
          (zrange 0 n) (zrepeat zero (zlen v / stride)).

(* ------- in and out flows *)
(* a boundary face in the double loop over cells and faces: boundary id, cell, outflux,
   saturation condition, periodic partner id *)
(* SteadyStateUpscalerImplicit_impl.hpp:460-502 *)
Record ioface := mkIo { io_bid : Z; io_cell : Z; io_flux : R; io_cond : cond; io_partner : Z }.
(* SteadyStateUpscalerImplicit_impl.hpp:450-510: water and oil *)
Record iosum := mkIosum { is_w : R; is_o : R }.
(* SteadyStateUpscalerImplicit_impl.hpp:492-502: outflow, pass 0 *)
Definition io_out (ff : Z -> R -> R) (sat : list R) (st : (R * R) * list (Z * R)) (f : ioface)
    : res ((R * R) * list (Z * R)) :=
  if Rltb (io_flux f) 0 then Ok st
  else
    let* s := rget sat (io_cell f) in
    let x := ff (io_cell f) s in
    let m := match c_type (io_cond f) with Periodic => (io_bid f, x) :: snd st | _ => snd st end in
    Ok (((fst (fst st) + io_flux f * x)%R, (snd (fst st) + io_flux f * (1 - x))%R), m).
(* std::map::find on the values inserted with operator[]: the last one assigned *)
(* SteadyStateUpscalerImplicit_impl.hpp:473-491 *)
Fixpoint bid_find (m : list (Z * R)) (b : Z) : option R :=
  match m with [] => None | (k, x) :: t => if k =? b then Some x else bid_find t b end.
(* SteadyStateUpscalerImplicit_impl.hpp:473-491: inflow, pass 1 *)
Definition io_in (ff : Z -> R -> R) (m : list (Z * R)) (st : R * R) (f : ioface) : res (R * R) :=
  if Rltb (io_flux f) 0 then
    let* x := (match c_type (io_cond f) with
               | Periodic => match bid_find m (io_partner f) with Some x => Ok x | None => Throw end
               | _ => Ok (ff (io_cell f) (c_val (io_cond f)))
               end) in
    Ok ((fst st + io_flux f * x)%R, (snd st + io_flux f * (1 - x))%R)
  else Ok st.
(* SteadyStateUpscalerImplicit_impl.hpp:453-512: ((water in, water out), (oil in, oil out)) *)
Definition in_out_flows (ff : Z -> R -> R) (sat : list R) (faces : list ioface) : res ((R * R) * (R * R)) :=
  let* o := foldM (io_out ff sat) faces ((0, 0)%R, []) in
  let* i := foldM (io_in ff (snd o)) faces (0, 0)%R in
  Ok ((fst i, fst (fst o)), (snd i, snd (fst o))).

(* ------- manager *)
(* SteadyStateUpscalerManagerImplicit.hpp:161-164, 171-174: factor and interpolation; an int
   converted to double is IZR *)
Definition sweep_factor (n i : Z) : R := if n =? 1 then 0%R else (IZR i / IZR (n - 1))%R.
(* SteadyStateUpscalerManagerImplicit.hpp:161-166 *)
Definition sat_sweep (n : Z) (lo hi : R) : list R :=
  map (fun i => ((1 - sweep_factor n i) * lo + sweep_factor n i * hi)%R) (zrange 0 n).
(* SteadyStateUpscalerManagerImplicit.hpp:169-177 *)
Definition pdrop_sweep (n : Z) (lo hi : R) : list R :=
  map (fun i => exp ((1 - sweep_factor n i) * ln lo + sweep_factor n i * ln hi)%R) (zrange 0 n).

(* SteadyStateUpscalerManagerImplicit.hpp:234-256: the runs for one saturation.  [run] is
   upscaleSteadyState: pressure drop and start saturation to success and final saturation,
   possibly depending on the runs before.  The result lists start and outcome of every run. *)
Record ssrun := mkRun { sr_pdrop : R; sr_start : list R; sr_success : bool; sr_final : list R }.
(* SteadyStateUpscalerManagerImplicit.hpp:234-256 *)
Fixpoint sat_series (limits : list R -> list R) (run : list ssrun -> R -> list R -> bool * list R)
    (before : list ssrun) (init : list R) (pdrops : list R) : list ssrun :=
  match pdrops with
  | [] => []
  | p :: t =>
      let start := limits init in
      let out := run before p start in
      let r := mkRun p start (fst out) (snd out) in
      r :: sat_series limits run (before ++ [r]) (if fst out then snd out else start) t
  end.
(* SteadyStateUpscalerManagerImplicit.hpp:218-232: the start profile for one saturation;
   [cl] is setToCapillaryLimit, None when it throws (its output is assigned last) *)
Definition start_profile (start_from_cl : bool) (cl : option (list R)) (num_cells : Z) (s : R) : list R :=
  match start_from_cl, cl with
  | true, Some v => v
  | _, _ => zrepeat s num_cells
  end.

(* SteadyStateUpscalerManagerImplicit.hpp:216-257: all saturations with their pressure drops;
   [before] are the runs done so far, the result has one series per saturation *)
Fixpoint manager_runs (limits : list R -> list R) (run : list ssrun -> R -> list R -> bool * list R)
    (start_from_cl : bool) (cl : R -> option (list R)) (num_cells : Z)
    (before : list ssrun) (ctl : list (R * list R)) : list (list ssrun) :=
  match ctl with
  | [] => []
  | (s, pd) :: t =>
      let rs := sat_series limits run before (start_profile start_from_cl (cl s) num_cells s) pd in
      rs :: manager_runs limits run start_from_cl cl num_cells (before ++ rs) t
  end.

(* ------- files *)
(* SteadyStateUpscalerManagerImplicit.hpp:100-132 writeRelPerm: the numbers of a row; K is
   read by (row, column) *)
Definition relperm_row (K : Z -> Z -> R) (sat pdrop : R) (success : bool) : list R * bool :=
  ([pdrop; sat; K 0 0; K 1 1; K 2 2; K 1 2; K 0 2; K 0 1; K 2 1; K 2 0; K 1 2], success).
(* text as written: integers and numbers in some precision, separated by white space *)
(* SteadyStateUpscalerManagerImplicit.hpp:54-98 *)
Inductive item := TInt (n : Z) | TNum (x : R) | WS.
(* SteadyStateUpscalerManagerImplicit.hpp:54-98 *)
Definition isWS (i : item) : bool := match i with WS => true | _ => false end.
(* operator>>: skip white space, then read up to white space or the end; two items without
   white space between them do not form a number (None: failbit) *)
(* SteadyStateUpscalerManagerImplicit.hpp:58-68 *)
Fixpoint skip_ws (s : list item) : list item := match s with WS :: t => skip_ws t | _ => s end.
(* SteadyStateUpscalerManagerImplicit.hpp:58-68 *)
Definition sep (s : list item) : bool := match s with [] => true | i :: _ => isWS i end.
(* SteadyStateUpscalerManagerImplicit.hpp:58, 65 *)
Definition read_int (s : list item) : option (Z * list item) :=
  match skip_ws s with TInt n :: t => if sep t then Some (n, t) else None | _ => None end.
(* SteadyStateUpscalerManagerImplicit.hpp:63, 68 *)
Definition read_num (s : list item) : option (R * list item) :=
  match skip_ws s with
  | TNum x :: t => if sep t then Some (x, t) else None
  | TInt n :: t => if sep t then Some (IZR n, t) else None
  | _ => None
  end.
(* SteadyStateUpscalerManagerImplicit.hpp:67-69 *)
Fixpoint read_nums (n : nat) (s : list item) : option (list R * list item) :=
  match n with
  | O => Some ([], s)
  | S m => match read_num s with
           | Some (x, t) => match read_nums m t with Some (l, u) => Some (x :: l, u) | None => None end
           | None => None
           end
  end.
(* SteadyStateUpscalerManagerImplicit.hpp:62-71: one saturation with its pressure drops *)
Fixpoint read_rows (n : nat) (s : list item) : option (list (R * list R)) :=
  match n with
  | O => Some []
  | S m =>
      match read_num s with
      | Some (sat, t) =>
          match read_int t with
          | Some (np, u) =>
              match read_nums (Z.to_nat np) u with
              | Some (pd, w) => match read_rows m w with Some l => Some ((sat, pd) :: l) | None => None end
              | None => None
              end
          | None => None
          end
      | None => None
      end
  end.
(* SteadyStateUpscalerManagerImplicit.hpp:55-74 readControl; None: a read failed (the code
   does not check, its values are then unspecified) *)
Definition read_control (s : list item) : option (list R * list (list R)) :=
  match read_int s with
  | Some (n, t) => option_map (fun l => (map fst l, map snd l)) (read_rows (Z.to_nat n) t)
  | None => None
  end.
(* SteadyStateUpscalerManagerImplicit.hpp:81-94 writeControl; rnd is the value of a number
   printed in the stream's precision *)
Definition write_control (rnd : R -> R) (sats : list R) (pdrops : list (list R)) : res (list item) :=
  let* rows := mapM (fun is =>
      let* row := rget pdrops (fst is) in
      Ok ([TNum (rnd (snd is)); WS; TInt (zlen row)] ++ flat_map (fun x => [WS; TNum (rnd x)]) row ++ [WS]))
    (combine (zrange 0 (zlen sats)) sats) in
  Ok ([TInt (zlen sats); WS] ++ concat rows).
