(* Model of examples/upscale_cap.cpp and examples/upscale_cond.cpp, and of the tabulation of the
   upscaled capillary pressure they share with opm/upscaling/RelPermUtils.cpp.  Doubles are reals; a
   quotient with zero denominator, which the program would carry on as inf or nan, is UB.  exit(1) is
   Throw.  Printing is not modelled.  The curves are those of Relp_Model (MonotCubicInterpolator is
   part of another project). *)
From Verif Require Export Relp_Model Mpi_Model Matx_Model.
From Coq Require Export String Ascii.
Open Scope Z_scope.
Open Scope list_scope.

(* ------- command line *)
(* upscale_cap.cpp:145-156, upscale_cond.cpp:163-207: the options map *)
Definition optmap := string -> option string.
(* upscale_cap.cpp:178, upscale_cond.cpp:231: assignment options[searchfor] = ... *)
Definition opt_set (o : optmap) (k v : string) : optmap := fun q => if String.eqb q k then Some v else o q.
(* upscale_cap.cpp:174-175, upscale_cond.cpp:227-228: substr(0,1) == "-" and the text after it *)
Definition dash (s : string) : option string :=
  match s with
  | String c t => if Ascii.eqb c "-"%char then Some t else None
  | EmptyString => None
  end.
(* upscale_cap.cpp:172-193, upscale_cond.cpp:225-246: the loop over the arguments in steps of two;
   [rest] are the arguments from number [idx] on, [ecl] is argeclindex.  An option that is the last
   argument reads vararg[varnum], a null pointer (UB). *)
Fixpoint parse_args (o : optmap) (idx ecl : Z) (rest : list string) : res (optmap * Z) :=
  match rest with
  | [] => Ok (o, ecl)
  | a :: t =>
      match dash a with
      | None => Ok (o, idx)
      | Some k =>
          match o k with
          | None => Throw
          | Some _ => match t with [] => UB | v :: t' => parse_args (opt_set o k v) (idx + 2) (idx + 2) t' end
          end
      end
  end.
(* upscale_cap.cpp:137-140, 195-209, upscale_cond.cpp:155-157, 249-262: options, grid file and the
   arguments after it; args are vararg[1], vararg[2], ... *)
Definition command_line (defaults : optmap) (args : list string) : res (optmap * (string * list string)) :=
  match args with
  | [] => Throw
  | _ =>
      let* p := parse_args defaults 1 0 args in
      if 1 + zlen args <=? snd p + 1 then Throw
      else let* f := rget args (snd p - 1) in Ok (fst p, (f, skipn (Z.to_nat (snd p)) args))
  end.
(* upscale_cap.cpp:311-381, upscale_cond.cpp:331-400: the file of each rock type, then its curve;
   [load] fails when the file cannot be read or its J-function cannot be inverted *)
Definition rock_curves {A} (load : string -> res A) (stones : Z) (files : list string) : res (list A) :=
  if zlen files =? stones then mapM (fun i => let* f := rget files i in load f) (zrange 0 stones)
  else if zlen files =? 1 then mapM (fun _ => let* f := rget files 0 in load f) (zrange 0 stones)
  else Throw.

(* ------- input check *)
(* upscale_cap.cpp:254-283: one cell; result: porosity and permeability *)
Definition cap_cell (minperm minporo : R) (s : Z) (po k : R) : res (R * R) :=
  if (s <? 0) || (1000 <? s) then Throw
  else
    let po := if negb (Rltb po 0) && Rltb po minporo then minporo else po in
    if Rltb po 0 || Rltb 1 po then Throw
    else
      let k := if negb (Rltb k 0) && Rltb k minperm then minperm else k in
      if Rltb k 0 then Throw
      else Ok (if s =? 0 then (0%R, minperm) else (po, k)).
(* upscale_cond.cpp:454-483: the same with another treatment of small permeabilities *)
Definition cond_cell (minperm minporo : R) (s : Z) (po k : R) : res (R * R) :=
  if (s <? 0) || (1000 <? s) then Throw
  else
    let po := if negb (Rltb po 0) && Rltb po minporo then minporo else po in
    if Rltb po 0 || Rltb 1 po then Throw
    else
      let k := if Req_EM_T k 0 then minperm else k in
      if Rltb k 0 then Throw
      else Ok (if s =? 0 then (0%R, minperm) else (po, k)).
(* the loops over the cells: porosities and permeabilities for the rest of the program *)
(* upscale_cap.cpp:261-290, upscale_cond.cpp:456-490 *)
Definition check_cells (cell : Z -> R -> R -> res (R * R)) (sat : list Z) (poro perm : list R) : res (list R * list R) :=
  let* l := mapM (fun i => let* s := rget sat i in let* po := rget poro i in let* k := rget perm i in cell s po k)
                 (zrange 0 (zlen sat)) in
  Ok (map fst l, map snd l).
(* upscale_cap.cpp:259-261 maxSatnum (starts at 0) *)
Definition max_satnum (sat : list Z) : Z := fold_left (fun m s => if m <? s then s else m) sat 0.

(* ------- capillary pressure limits and end points *)
(* arrays by global cell number, curves by rock type - 1, milliDarcyToSqMetre, surfaceTension *)
(* upscale_cap.cpp:240-300, upscale_cond.cpp:330-495 *)
Record cin := mkCin { ci_sat : list Z; ci_poro : list R; ci_perm : list R; ci_inv : list curve; ci_md : R; ci_st : R }.
(* sqrt(permxs[c] * milliDarcyToSqMetre / poros[c]) in upscale_cap.cpp:449, 591, upscale_cond.cpp:515,
   709, 834 *)
Definition leverett (x : cin) (c : Z) : res R :=
  let* k := rget (ci_perm x) c in let* po := rget (ci_poro x) c in
  let* q := mdiv (k * ci_md x)%R po in Ok (sqrt q).
(* upscale_cap.cpp:432-436, 399-413: state of the loop over the cells *)
Record lims := mkLims { lm_vol : list R; lm_pv : list R; lm_rock : list R; lm_pcmin : R; lm_pcmax : R; lm_swir : R; lm_swor : R }.
(* upscale_cap.cpp:440-470, upscale_cond.cpp:507-533 (which has no rock type volumes): one cell and
   its volume *)
Definition lim_step (x : cin) (st : lims) (cv : Z * R) : res lims :=
  let c := fst cv in
  let* s := rget (ci_sat x) c in
  if 0 <? s then
    let* vol := rset (lm_vol st) c (snd cv) in
    let* po := rget (ci_poro x) c in
    let v := (snd cv * po)%R in
    let* pv := rset (lm_pv st) c v in
    let* cu := rget (ci_inv x) (s - 1) in
    let* lev := leverett x c in
    let* lo := mdiv (cv_minx cu) lev in
    let* hi := mdiv (cv_maxx cu) lev in
    let* r := rget (lm_rock st) s in
    let* rock := rset (lm_rock st) s (r + v)%R in
    Ok (mkLims vol pv rock (smin (lo * ci_st x)%R (lm_pcmin st)) (smax (hi * ci_st x)%R (lm_pcmax st))
               (lm_swir st + cv_minf cu * v)%R (lm_swor st + cv_maxf cu * v)%R)
  else Ok st.
(* results of the step *)
(* upscale_cap.cpp:430-518, upscale_cond.cpp:496-581 *)
Record limits := mkLim { li_vol : list R; li_pv : list R; li_rock : list R; li_pcmin : R; li_pcmax : R;
                         li_pore : R; li_phi : R; li_swir : R; li_swor : R }.
(* upscale_cap.cpp:399-518, upscale_cond.cpp:496-581: [cells] are the active cells, global number and
   volume *)
Definition cap_limits (x : cin) (tol : R) (cells : list (Z * R)) : res limits :=
  let n := zlen (ci_sat x) in
  let* st := foldM (lim_step x) cells
    (mkLims (zrepeat 0%R n) (zrepeat 0%R n) (zrepeat 0%R (max_satnum (ci_sat x) + 1)) dbl_max (- dbl_max)%R 0%R 0%R) in
  if Rltb (lm_pcmax st) (lm_pcmin st) then Throw
  else
    let pore := Rsum (lm_pv st) in
    let* swir := mdiv (lm_swir st) pore in
    let* swor := mdiv (lm_swor st) pore in
    let* phi := mdiv pore (Rsum (lm_vol st)) in
    let swor := if Rltb 1 swor && Rltb (swor - tol) 1 then 1%R else swor in
    let swir := if Rltb swir 0 && Rltb 0 (swir + tol) then 0%R else swir in
    if Rltb swir 0 || Rltb 1 swir || Rltb swor 0 || Rltb 1 swor then Throw
    else Ok (mkLim (lm_vol st) (lm_pv st) (lm_rock st) (lm_pcmin st) (lm_pcmax st) pore phi swir swor).

(* ------- tabulation of saturation against capillary pressure *)
(* A table is the data of MonotCubicInterpolator objects that receive the same abscissae: (pressure,
   (saturation, further values)) in increasing order of pressure. *)
(* upscale_cap.cpp:531-540, upscale_cond.cpp:658 *)
Definition table (A : Type) := list (R * (R * A)).
(* addPair (opm-common): a new entry, or a new value for an old one *)
(* called at upscale_cap.cpp:599-608, upscale_cond.cpp:715 *)
Fixpoint add_pair {A} (t : table A) (x : R) (v : R * A) : table A :=
  match t with
  | [] => [(x, v)]
  | e :: r => if Rltb x (fst e) then (x, v) :: t
              else if Rltb (fst e) x then e :: add_pair r x v else (x, v) :: r
  end.
(* the middle of every interval and the difference of the saturations at its ends *)
(* as computed by getMissingX (opm-common), called at upscale_cap.cpp:564 *)
Fixpoint gaps {A} (t : table A) : list (R * R) :=
  match t with
  | a :: ((b :: _) as r) => ((fst a + fst b) / 2, Rabs (fst (snd b) - fst (snd a)))%R :: gaps r
  | _ => []
  end.
(* getMissingX (opm-common): middle of the first interval with the largest difference, which has to
   exceed 0 to displace the first interval; throws with less than two entries *)
(* upscale_cap.cpp:564, upscale_cond.cpp:686 *)
Definition missing {A} (t : table A) : res (R * R) :=
  match gaps t with
  | [] => Throw
  | g :: _ => Ok (fold_left (fun b h => if Rltb (snd b) (snd h) then h else b) (gaps t) (fst g, 0%R))
  end.
(* upscale_cap.cpp:543-621, upscale_cond.cpp:664-723, RelPermUtils.cpp:897-963: the loop; [f] gives
   the values at a test pressure, [fuel] bounds the number of rounds (None: not enough).  The test
   for nan and inf does not apply to reals. *)
Fixpoint tab_loop {A} (fuel : nat) (f : R -> res (R * A)) (pcmin pcmax bound largest : R) (t : table A) : res (option (table A)) :=
  if Rltb bound largest then
    match fuel with
    | O => Ok None
    | S n =>
        let* pl := (if Req_EM_T pcmax pcmin then Ok (pcmin, 0%R)
                    else if zlen t =? 0 then Ok (pcmax, largest)
                    else if zlen t =? 1 then Ok (pcmin, largest)
                    else missing t) in
        let* v := f (fst pl) in
        tab_loop n f pcmin pcmax bound (snd pl) (add_pair t (fst pl) v)
    end
  else Ok (Some t).
(* the same lines with their start values; [parts] is 200 (upscale_cap.cpp:543) or 500 *)
Definition tabulate {A} (fuel : nat) (f : R -> res (R * A)) (swir swor pcmin pcmax parts : R) : res (option (table A)) :=
  tab_loop fuel f pcmin pcmax ((swor - swir) / parts)%R (swor - swir)%R [].
(* RelPermUtils.cpp:928-963: the values at a test pressure there *)
Definition helper_sat (h : helper) (pv : list R) (pore p : R) : res (R * unit) :=
  let* w := sweep_sat h pv pore p in match w with Some s => Ok (s, tt) | None => UB end.

(* saturation of a rock cell at a test pressure: upscale_cap.cpp:589-595, upscale_cond.cpp:707-713 *)
Definition j_sat (x : cin) (p : R) (c s : Z) : res R :=
  let* lev := leverett x c in
  let* j := mdiv (lev * p)%R (ci_st x) in
  let* cu := rget (ci_inv x) (s - 1) in Ok (cv_eval cu j).
(* upscale_cap.cpp:579-602: water volume and water volumes of the rock types; emptycellvolumecutoff
   is 1e-10 (line 220) *)
Definition cap_water (x : cin) (l : limits) (p : R) : res (R * list R) :=
  foldM (fun w c =>
    let* v := rget (li_vol l) c in
    if Rltb (/ 10000000000) v then
      let* s := rget (ci_sat x) c in
      let* sw := (if 0 <? s then j_sat x p c s else Ok 0%R) in
      let* pv := rget (li_pv l) c in
      let* r := rget (snd w) s in
      let* rock := rset (snd w) s (r + sw * pv)%R in
      Ok ((fst w + sw * pv)%R, rock)
    else Ok w) (zrange 0 (zlen (ci_sat x))) (0%R, zrepeat 0%R (max_satnum (ci_sat x) + 1)).
(* upscale_cap.cpp:603-619: the values entered into the tables: saturation, saturations of rock types
   1, 2, ... *)
Definition cap_values (x : cin) (l : limits) (p : R) : res (R * list R) :=
  let* w := cap_water x l p in
  let* s := mdiv (fst w) (li_pore l) in
  let* rs := mapM (fun r => let* pv := rget (li_rock l) r in let* wv := rget (snd w) r in
                            if Rltb 0 pv then mdiv wv pv else Ok 0%R)
                  (zrange 1 (max_satnum (ci_sat x) + 1)) in
  Ok (s, rs).
(* upscale_cond.cpp:701-722 *)
Definition cond_values (x : cin) (l : limits) (ecl : list Z) (p : R) : res (R * unit) :=
  let* w := foldM (fun w c =>
    let* s := rget (ci_sat x) c in
    let* sw := (if 0 <? s then j_sat x p c s else Ok 0%R) in
    let* pv := rget (li_pv l) c in Ok (w + sw * pv)%R) ecl 0%R in
  let* s := mdiv w (li_pore l) in Ok (s, tt).

(* ------- output *)
(* upscale_cap.cpp:684-695, upscale_cond.cpp:1091-1102: xmin and xmax *)
Definition sat_min (l : list R) : R := fold_left (fun m s => if Rltb s m then s else m) l dbl_max.
(* upscale_cap.cpp:682-690, upscale_cond.cpp:1108-1115 *)
Definition sat_max (l : list R) : R := fold_left (fun m s => if Rltb m s then s else m) l (- dbl_max)%R.
(* upscale_cap.cpp:696-700, upscale_cond.cpp:1103-1107: SatvaluesInterp *)
Definition sat_grid (n : Z) (sats : list R) : res (list R) :=
  mapM (fun i => let* q := mdiv (IZR i) (IZR (n - 1)) in Ok (sat_min sats + q * (sat_max sats - sat_min sats))%R) (zrange 0 n).
(* evaluation of the interpolator built from abscissae and values (opm-common) *)
(* upscale_cap.cpp:700-706, upscale_cond.cpp:1126-1132 *)
Definition interpolation := list R -> list R -> R -> R.
(* upscale_cap.cpp:682-720, upscale_cond.cpp:1089-1130: columns of pressure, saturation and further
   values; an interpolator without data is dereferenced (UB) *)
Definition out_columns (interp : interpolation) (on : bool) (n : Z) (ps sats : list R) (cols : list (list R)) : res (list R * (list R * list (list R))) :=
  if on then
    match sats with
    | [] => UB
    | _ => let* g := sat_grid n sats in
           Ok (map (interp sats ps) g, (g, map (fun col => map (interp sats col) g) cols))
    end
  else Ok (ps, (sats, cols)).
(* upscale_cap.cpp:723-733, upscale_cond.cpp:1133-1143: the printed rows *)
Definition out_rows (t : list R * (list R * list (list R))) : res (list (list R)) :=
  mapM (fun i => let* p := rget (fst t) i in let* s := rget (fst (snd t)) i in
                 let* v := mapM (fun col => rget col i) (snd (snd t)) in Ok (p :: s :: v))
       (zrange 0 (zlen (fst (snd t)))).
(* upscale_cap.cpp:645-653: the columns of rock types 1 .. n of a table *)
Definition rock_columns (n : Z) (t : table (list R)) : list (list R) :=
  map (fun r => map (fun e => match zget (snd (snd e)) r with Some x => x | None => 0%R end) t) (zrange 0 n).
(* upscale_cap.cpp:541-733: the rows printed by upscale_cap; interpolation with points > 0 *)
Definition cap_report (fuel : nat) (interp : interpolation) (points : Z) (x : cin) (l : limits) : res (option (list (list R))) :=
  let* t := tabulate fuel (cap_values x l) (li_swir l) (li_swor l) (li_pcmin l) (li_pcmax l) 200 in
  match t with
  | None => Ok None
  | Some t =>
      let* o := out_columns interp (0 <? points) points (map fst t) (map (fun e => fst (snd e)) t)
                  (rock_columns (max_satnum (ci_sat x)) t) in
      let* rows := out_rows o in Ok (Some rows)
  end.

(* ------- resistivity (upscale_cond) *)
(* pow for nonnegative bases; a pole or a negative base is UB *)
(* upscale_cond.cpp:851-852 *)
Definition cpow (x y : R) : res R :=
  if Rltb x 0 then UB
  else if Req_EM_T x 0 then (if Rltb y 0 then UB else Ok (if Req_EM_T y 0 then 1%R else 0%R))
  else Ok (Rpower x y).
(* upscale_cond.cpp:585-595 and 605-633: resistivityCutoff, mudresistivity, mud1rocktype,
   mud2rocktype, lithologyCoeff, waterresistivity and the exponents by rock type *)
Record archie := mkArchie { ar_cut : R; ar_mud : R; ar_m1 : Z; ar_m2 : Z; ar_a : R; ar_rw : R; ar_cem : list R; ar_sexp : list R }.
(* upscale_cond.cpp:611-629: exponents by rock type, entry 0 unused; [given] are the values of the
   options rock<i>..., 0 when there is no such option *)
Definition exponents (given : Z -> R) (global : R) (maxsat : Z) : list R :=
  0%R :: map (fun i => if Rltb 0 (given i) then given i else global) (zrange 1 (maxsat + 1)).
(* upscale_cond.cpp:599-638: the petrophysical parameters; water resistivity must be positive *)
Definition archie_init (cut mud : R) (m1 m2 : Z) (a rw cem sexp : R) (gcem gsat : Z -> R) (maxsat : Z) : res archie :=
  if Rltb 0 rw then Ok (mkArchie cut mud m1 m2 a rw (exponents gcem cem maxsat) (exponents gsat sexp maxsat)) else Throw.
(* upscale_cond.cpp:846-855: resistivity of a rock cell; x/0 with positive x is inf, which the cutoff
   replaces, any other x/0 is UB *)
Definition cell_resistivity (a : archie) (s : Z) (po sw : R) : res R :=
  if (s =? ar_m1 a) || (s =? ar_m2 a) then Ok (ar_mud a)
  else
    let* m := rget (ar_cem a) s in
    let* n := rget (ar_sexp a) s in
    let* d1 := cpow po m in
    let* q := mdiv (ar_a a * ar_rw a)%R d1 in
    let* d2 := cpow sw n in
    if Req_EM_T d2 0 then (if Rltb 0 q then Ok (ar_cut a) else UB)
    else Ok (smin (q / d2)%R (ar_cut a)).
(* upscale_cond.cpp:826-866: one pressure point: water volume and the conductivity of every active
   cell (the diagonal entries of its tensor) *)
Definition cond_cells (x : cin) (l : limits) (a : archie) (ecl : list Z) (p : R) : res (R * list R) :=
  foldM (fun w c =>
    let* s := rget (ci_sat x) c in
    if 0 <? s then
      let* sw := j_sat x p c s in
      let* pv := rget (li_pv l) c in
      let* po := rget (ci_poro x) c in
      let* r := cell_resistivity a s po sw in
      let* g := mdiv 1 r in
      Ok ((fst w + sw * pv)%R, snd w ++ [g])
    else
      let* g := mdiv 1 (ar_cut a) in Ok (fst w, snd w ++ [g])) ecl (0%R, []).
(* upscale_cond.cpp:779-784: the pressure points; [pc_of] is CapPressureVsWaterSaturation.evaluate *)
Definition pressure_points (pc_of : R -> R) (swir swor : R) (points : Z) : res (list R) :=
  mapM (fun i => let* d := mdiv (swor - swir)%R (IZR (points - 1)) in Ok (pc_of (swir + d * IZR (i - 1))%R)) (zrange 1 (points + 1)).
(* upscale_cond.cpp:274-297: number of tensor elements by boundary condition (first letter) *)
Definition element_count (bc : string) : res Z :=
  match bc with
  | String "f" _ => Ok 3
  | String "l" _ => Ok 9
  | String "p" _ => Ok 9
  | _ => Throw
  end.
(* upscaleSinglePhase for the conductivities of the active cells, and the inversion of the tensor *)
(* upscale_cond.cpp:876 *)
Definition upscaling := list R -> res (list R).
(* upscale_cond.cpp:814-913: the loop over the points on process [rank] of [n]: state: arrays, water
   volume and conductivities left from the last point computed.  Points of other processes are
   upscaled too, with what is left over. *)
Definition rank_step (x : cin) (l : limits) (a : archie) (ecl : list Z) (up inv : upscaling) (tec n rank : Z) (ps : list R)
    (st : (list R * list (list R)) * (R * list R)) (idx : Z) : res ((list R * list (list R)) * (R * list R)) :=
  let* wg := (if mpi_node n idx =? rank then let* p := rget ps idx in cond_cells x l a ecl p else Ok (snd st)) in
  let* k := up (snd wg) in
  let* s := mdiv (fst wg) (li_pore l) in
  let* ws := rset (fst (fst st)) idx s in
  let* r := inv k in
  let* row := mapM (get_voigt r) (zrange 0 tec) in
  let* rows := rset (snd (fst st)) idx row in
  Ok ((ws, rows), wg).
(* upscale_cond.cpp:756-771, 814-913; [g0] are the conductivities before the first point *)
Definition rank_arrays (x : cin) (l : limits) (a : archie) (ecl : list Z) (up inv : upscaling) (tec n rank : Z) (ps g0 : list R) : res arrays :=
  let points := zlen ps in
  let* st := foldM (rank_step x l a ecl up inv tec n rank ps) (zrange 0 points)
               ((zrepeat 0%R points, zrepeat (zrepeat 0%R tec) points), (0%R, g0)) in
  Ok (mkArr (fst (fst st)) (snd (fst st)) []).
(* upscale_cond.cpp:1057-1084: setVoigtValue and getVoigtValue again on a zero tensor *)
Definition revoigt (tec : Z) (row : list R) : res (list R) :=
  let* t := foldM (fun t v => let* e := rget row v in set_voigt t v e) (zrange 0 tec) (zrepeat 0%R 9) in
  mapM (get_voigt t) (zrange 0 tec).
(* upscale_cond.cpp:1045-1143: the rows printed by the master; interpolation with more than one point *)
Definition cond_report (interp : interpolation) (ipoints tec : Z) (ps : list R) (ar : arrays) : res (list (list R)) :=
  let* rows := mapM (fun i => let* r := rget (ar_p0 ar) i in revoigt tec r) (zrange 0 (zlen ps)) in
  let* cols := mapM (fun v => mapM (fun r => rget r v) rows) (zrange 0 tec) in
  let* o := out_columns interp (1 <? ipoints) ipoints ps (ar_ws ar) cols in
  out_rows o.
