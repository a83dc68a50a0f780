(* Model of examples/upscale_relpermvisc.cpp: relative permeability upscaling in the viscous limit.
   Doubles are reals; a quotient with zero denominator, which the program would carry on as inf or
   nan, is UB.  usageandexit(), exit(1) and return 1 are Throw.  Printing of progress is not modelled.
   The curves are those of Relp_Model (MonotCubicInterpolator is part of another project).  The option
   list (lines 120-260), the boundary conditions (267-285) and the tabulation loop (1098-1147) are the
   ones of Cap_Model: command_line, element_count, tabulate.  The number of points (line 295, a double)
   is an integer. *)
From Verif Require Export Cap_Model.
Open Scope Z_scope.
Open Scope list_scope.

(* ------- input check *)
(* upscale_relpermvisc.cpp:414-469: one cell; result: porosity, PERMX, PERMY, PERMZ.  The y and z
   values are only looked at with anisotropic input. *)
Definition visc_cell (aniso : bool) (minperm maxperm minporo : R) (s : Z) (po kx ky kz : R) : res (R * (R * (R * R))) :=
  if (s <? 0) || (1000 <? s) then Throw
  else
    let po := if negb (Rltb po 0) && Rltb po minporo then minporo else po in
    if Rltb po 0 || Rltb 1 po then Throw
    else
      let kx := if negb (Rltb kx 0) && Rltb kx minperm then minperm else kx in
      let kx := if Rltb maxperm kx then maxperm else kx in
      if Rltb kx 0 then Throw
      else if aniso && (Rltb ky 0 || Rltb kz 0) then Throw
      else Ok (if s =? 0 then (0%R, (minperm, if aniso then (minperm, minperm) else (ky, kz)))
               else (po, (kx, (ky, kz)))).
(* upscale_relpermvisc.cpp:409-412 and the loop over the cells *)
Definition visc_check (aniso : bool) (contrast minperm maxperm minporo : R) (cells : list (Z * (R * (R * (R * R))))) : res (list (R * (R * (R * R)))) :=
  if Rleb contrast 0 then Throw
  else mapM (fun c => visc_cell aniso minperm maxperm minporo (fst c) (fst (snd c)) (fst (snd (snd c)))
                        (fst (snd (snd (snd c)))) (snd (snd (snd (snd c))))) cells.

(* ------- relative permeability curves *)
(* a column of a rock file as a function of another one, and whether the values are strictly
   increasing (Some true), strictly decreasing (Some false) or neither; fails if the file cannot be
   read *)
(* upscale_relpermvisc.cpp:515, 533, 582, 600, 670-672, 703-705, 767-769, 801-803 *)
Definition column_load := string -> Z -> Z -> res (curve * option bool).
(* upscale_relpermvisc.cpp:511-555, 570-621: one file with both curves as functions of column 1 *)
Definition iso_rock (load : column_load) (wcol ocol : Z) (file : string) : res (list (curve * curve)) :=
  let* w := load file 1 wcol in
  match snd w with
  | None => Throw
  | Some dw =>
      let* o := load file 1 ocol in
      match snd o with
      | None => Throw
      | Some d => if Bool.eqb dw d then Throw else Ok [(fst w, fst o)]
      end
  end.
(* upscale_relpermvisc.cpp:664-687, 694-717, 757-809: the curves of one phase in the three directions *)
Definition aniso_phase (load : column_load) (file : string) : res (list curve) :=
  mapM (fun col => let* c := load file 2 col in match snd c with None => Throw | Some _ => Ok (fst c) end) [3; 4; 5].
(* upscale_relpermvisc.cpp:643-733: a file for each phase *)
Definition aniso_rock (load : column_load) (wfile ofile : string) : res (list (curve * curve)) :=
  let* w := aniso_phase load wfile in let* o := aniso_phase load ofile in Ok (combine w o).
(* upscale_relpermvisc.cpp:502-846: for every stone type, by direction, the curves of water and oil;
   [files] are the arguments after the grid file *)
Definition visc_rocks (load : column_load) (wcol ocol : Z) (aniso : bool) (stones : Z) (files : list string) : res (list (list (curve * curve))) :=
  if aniso then
    if zlen files =? 2 * stones then
      mapM (fun i => let* w := rget files (2 * i) in let* o := rget files (2 * i + 1) in aniso_rock load w o) (zrange 0 stones)
    else if zlen files =? 2 then
      let* w := rget files 0 in let* o := rget files 1 in
      let* c := aniso_rock load w o in Ok (zrepeat c stones)
    else Throw
  else
    if zlen files =? stones then mapM (fun i => let* f := rget files i in iso_rock load wcol ocol f) (zrange 0 stones)
    else if zlen files =? 1 then
      let* f := rget files 0 in let* c := iso_rock load wcol ocol f in Ok (zrepeat c stones)
    else Throw.

(* ------- volumes and end points *)
(* arrays by global cell number; curves of the stone types by direction (one or three), water and oil *)
(* upscale_relpermvisc.cpp:330-500 *)
Record vin := mkVin { vi_sat : list Z; vi_poro : list R; vi_kx : list R; vi_ky : list R; vi_kz : list R;
                      vi_rocks : list (list (curve * curve)); vi_aniso : bool; vi_minperm : R; vi_contrast : R }.
(* upscale_relpermvisc.cpp:887-898: state of the loop over the cells *)
Record vlims := mkVl { vl_vol : list R; vl_pv : list R; vl_rock : list R; vl_kmax : R; vl_swir : R; vl_swor : R }.
(* upscale_relpermvisc.cpp:904-931: one cell and its volume *)
Definition vlim_step (x : vin) (st : vlims) (cv : Z * R) : res vlims :=
  let c := fst cv in
  let* s := rget (vi_sat x) c in
  if 0 <? s then
    let* vol := rset (vl_vol st) c (snd cv) in
    let* po := rget (vi_poro x) c in
    let v := (snd cv * po)%R in
    let* pv := rset (vl_pv st) c v in
    let* r := rget (vl_rock st) (s - 1) in
    let* rock := rset (vl_rock st) (s - 1) (r + v)%R in
    let* kx := rget (vi_kx x) c in
    let* cs := rget (vi_rocks x) (s - 1) in
    let* wo := rget cs 0 in
    Ok (mkVl vol pv rock (smax (vl_kmax st) kx)
             (vl_swir st + cv_minx (fst wo) * v)%R (vl_swor st + cv_maxx (fst wo) * v)%R)
  else Ok st.
(* results of the step *)
(* upscale_relpermvisc.cpp:930-974 *)
Record vlimits := mkVlim { vm_rock : list R; vm_pore : R; vm_vol : R; vm_kmin : R; vm_swir : R; vm_swor : R }.
(* upscale_relpermvisc.cpp:887-974: [cells] are the active cells, global number and volume *)
Definition visc_limits (x : vin) (tol : R) (cells : list (Z * R)) : res vlimits :=
  let n := zlen (vi_sat x) in
  let* st := foldM (vlim_step x) cells
    (mkVl (zrepeat 0%R n) (zrepeat 0%R n) (zrepeat 0%R (zlen (vi_rocks x))) 0%R 0%R 0%R) in
  let* q := mdiv (vl_kmax st) (vi_contrast x) in
  let kmin := smax q (vi_minperm x) in
  let pore := Rsum (vl_pv st) in
  let vol := Rsum (vl_vol st) in
  let* swir := mdiv (vl_swir st) pore in
  let* swor := mdiv (vl_swor st) pore in
  let swor := if Rltb 1 swor && Rltb (swor - tol) 1 then 1%R else swor in
  let swir := if Rltb swir 0 && Rltb 0 (swir + tol) then 0%R else swir in
  if Rltb swir 0 || Rltb 1 swir || Rltb swor 0 || Rltb 1 swor then Throw
  else Ok (mkVlim (vl_rock st) pore vol kmin swir swor).

(* ------- fractional flow *)
(* upscale_relpermvisc.cpp:994 lowerRelPermLimit *)
Definition kr_limit : R := (/ 1000000000000)%R.
(* upscale_relpermvisc.cpp:1019-1034: extreme saturations of one phase over the directions *)
Definition phase_min (cs : list curve) : R :=
  match cs with [] => 0%R | c :: t => fold_left (fun m d => smin m (cv_minx d)) t (cv_minx c) end.
(* upscale_relpermvisc.cpp:1019-1034 *)
Definition phase_max (cs : list curve) : R :=
  match cs with [] => 0%R | c :: t => fold_left (fun m d => smax m (cv_maxx d)) t (cv_maxx c) end.
(* upscale_relpermvisc.cpp:1017-1045: leftBound and rightBound; [cinv] evaluates the interpolator
   with the columns of a curve exchanged *)
Definition frac_bounds (cinv : curve -> R -> R) (cs : list (curve * curve)) : res (R * R) :=
  let* wo := rget cs 0 in
  let left := smin (phase_min (map snd cs)) (phase_min (map fst cs)) in
  let right := smax (phase_max (map snd cs)) (phase_max (map fst cs)) in
  Ok (if Rltb (cv_eval (fst wo) left) kr_limit then cinv (fst wo) kr_limit else left,
      if Rltb (cv_eval (snd wo) right) kr_limit then cinv (snd wo) kr_limit else right).
(* upscale_relpermvisc.cpp:1048, 1052-1054: the saturation points; interpPoints is 1000 *)
Definition frac_sats (b : R * R) : list R :=
  map (fun i => fst b + IZR i * ((snd b - fst b) / 999))%R (zrange 0 1000).
(* upscale_relpermvisc.cpp:1055-1057, 1059-1064: the flow ratio at a saturation; [vw] and [vo] are the
   viscosities *)
Definition frac_ratio (vw vo : R) (wo : curve * curve) (sw : R) : res R :=
  let* q := mdiv (smax (cv_eval (fst wo) sw) kr_limit) (smax (cv_eval (snd wo) sw) kr_limit) in
  mdiv (q * vo)%R vw.
(* upscale_relpermvisc.cpp:1050-1065: a table over the saturation points *)
Definition frac_table (vw vo : R) (b : R * R) (wo : curve * curve) : res (list R) :=
  mapM (frac_ratio vw vo wo) (frac_sats b).
(* upscale_relpermvisc.cpp:997-1068: saturation as a function of the ratio, by direction; [build] makes
   the interpolator of two columns.  Line 1067 makes the z curve of the values of the y direction. *)
Definition frac_curves (build : list R -> list R -> curve) (cinv : curve -> R -> R) (aniso : bool) (vw vo : R) (cs : list (curve * curve)) : res (list curve) :=
  let* b := frac_bounds cinv cs in
  let* wo := rget cs 0 in
  let* f := frac_table vw vo b wo in
  if aniso then
    let* woy := rget cs 1 in
    let* fy := frac_table vw vo b woy in
    let* woz := rget cs 2 in
    let* fz := frac_table vw vo b woz in
    Ok [build f (frac_sats b); build fy (frac_sats b); build fy (frac_sats b)]
  else Ok [build f (frac_sats b)].
(* upscale_relpermvisc.cpp:1071-1090: smallest and largest ratio over stone types and directions *)
Definition frac_range (inv : list (list curve)) : R * R :=
  fold_left (fun m c => (smin (fst m) (cv_minx c), smax (snd m) (cv_maxx c))) (List.concat inv) (dbl_max, 0%R).
(* upscale_relpermvisc.cpp:1136-1142, 1303-1309: saturation of a stone type at a ratio *)
Definition rock_sat (aniso : bool) (cs : list curve) (q : R) : res R :=
  let* c := rget cs 0 in
  if aniso then
    let* cy := rget cs 1 in let* cz := rget cs 2 in
    Ok ((cv_eval c q + cv_eval cy q + cv_eval cz q) / 3)%R
  else Ok (cv_eval c q).
(* upscale_relpermvisc.cpp:1131-1144, 1299-1311: water volume and the saturations of the stone types *)
Definition visc_water (aniso : bool) (inv : list (list curve)) (rock : list R) (q : R) : res (R * list R) :=
  let* sats := mapM (fun i => let* cs := rget inv i in rock_sat aniso cs q) (zrange 0 (zlen inv)) in
  let* w := foldM (fun w i => let* s := rget sats i in let* v := rget rock i in Ok (w + s * v)%R) (zrange 0 (zlen inv)) 0%R in
  Ok (w, sats).
(* upscale_relpermvisc.cpp:1145: the value entered into the table *)
Definition visc_values (aniso : bool) (inv : list (list curve)) (rock : list R) (pore q : R) : res (R * unit) :=
  let* w := visc_water aniso inv rock q in let* s := mdiv (fst w) pore in Ok (s, tt).

(* ------- phase permeabilities *)
(* upscale_relpermvisc.cpp:1188-1206: the tensors for single phase upscaling, active cells in order *)
Definition visc_single (x : vin) (kmin : R) (ecl : list Z) : res (list (R * R * R)) :=
  mapM (fun c =>
    let* kx := rget (vi_kx x) c in
    if vi_aniso x then
      let* ky := rget (vi_ky x) c in let* kz := rget (vi_kz x) c in
      Ok (smax kmin kx, smax kmin ky, smax kmin kz)
    else let k := smax kx kmin in Ok (k, k, k)) ecl.
(* the curve of a phase (0: water, 1: oil) *)
(* upscale_relpermvisc.cpp:1312-1358 *)
Definition phase_curve (ph : Z) (wo : curve * curve) : curve := if ph =? 0 then fst wo else snd wo.
(* upscale_relpermvisc.cpp:1312-1358: the values of one cell: cellPhasePerm and cellPhasePermDiag *)
Definition visc_cell_perm (x : vin) (ph : Z) (sats : list R) (c : Z) : res (R * (R * (R * R))) :=
  let m := vi_minperm x in
  let* s := rget (vi_sat x) c in
  if 0 <? s then
    let* sw := rget sats (s - 1) in
    let* cs := rget (vi_rocks x) (s - 1) in
    let* kx := rget (vi_kx x) c in
    let* wo := rget cs 0 in
    if vi_aniso x then
      let* woy := rget cs 1 in let* woz := rget cs 2 in
      let* ky := rget (vi_ky x) c in let* kz := rget (vi_kz x) c in
      Ok (m, ((cv_eval (phase_curve ph wo) sw * kx)%R, ((cv_eval (phase_curve ph woy) sw * ky)%R, (cv_eval (phase_curve ph woz) sw * kz)%R)))
    else Ok ((cv_eval (phase_curve ph wo) sw * kx)%R, (m, (m, m)))
  else Ok (m, (m, (m, m))).
(* upscale_relpermvisc.cpp:1361-1363: the largest value so far *)
Definition perm_max (m : R) (v : R * (R * (R * R))) : R :=
  let d := snd v in smax (smax m (fst v)) (smax (smax (fst d) (fst (snd d))) (snd (snd d))).
(* upscale_relpermvisc.cpp:1312-1395: the tensors of the active cells in order.  The values are kept by
   cell number there; every active cell is visited once. *)
Definition visc_perms (x : vin) (ph : Z) (sats : list R) (ecl : list Z) : res (list (R * R * R)) :=
  let* vs := mapM (visc_cell_perm x ph sats) ecl in
  let* q := mdiv (fold_left perm_max vs 0%R) (vi_contrast x) in
  let low := smax q (vi_minperm x) in
  Ok (map (fun v => if vi_aniso x
                    then (smax low (fst (snd v)), smax low (fst (snd (snd v))), smax low (snd (snd (snd v))))
                    else let k := smax low (smax low (fst v)) in (k, k, k)) vs).
(* upscaleSinglePhase: the tensors of the active cells to the entries of the upscaled one *)
(* upscale_relpermvisc.cpp:1207, 1395 *)
Definition tensor_upscaling := list (R * R * R) -> res (list R).
(* upscale_relpermvisc.cpp:1287-1414: one point and phase: saturation and the stored tensor entries *)
Definition visc_point (x : vin) (inv : list (list curve)) (l : vlimits) (ecl : list Z) (up : tensor_upscaling) (tec ph : Z) (q : R) : res (R * list R) :=
  let* w := visc_water (vi_aniso x) inv (vm_rock l) q in
  let* ts := visc_perms x ph (snd w) ecl in
  let* k := up ts in
  let* s := mdiv (fst w) (vm_pore l) in
  let* row := mapM (get_voigt k) (zrange 0 tec) in
  Ok (s, row).
(* PhasePerm[phase] *)
(* upscale_relpermvisc.cpp:1239-1243, 1412 *)
Definition phase_rows (a : arrays) (ph : Z) : list (list R) := if ph =? 0 then ar_p0 a else ar_p1 a.
(* upscale_relpermvisc.cpp:1412 *)
Definition with_rows (a : arrays) (ph : Z) (ws : list R) (rows : list (list R)) : arrays :=
  if ph =? 0 then mkArr ws rows (ar_p1 a) else mkArr ws (ar_p0 a) rows.
(* upscale_relpermvisc.cpp:1281-1418: the loops over phases and points on process [rank] of [n];
   [point] computes one point of one phase *)
Definition visc_rank (point : Z -> R -> res (R * list R)) (tec n rank : Z) (ps : list R) : res arrays :=
  let points := zlen ps in
  foldM (fun a t =>
    let ph := fst t in let idx := snd t in
    if mpi_node n idx =? rank then
      let* q := rget ps idx in
      let* r := point ph q in
      let* ws := rset (ar_ws a) idx (fst r) in
      let* rows := rset (phase_rows a ph) idx (snd r) in
      Ok (with_rows a ph ws rows)
    else Ok a) (pairs [0; 1] (zrange 0 points))
    (mkArr (zrepeat 0%R points) (zrepeat (zrepeat 0%R tec) points) (zrepeat (zrepeat 0%R tec) points)).

(* ------- exchange *)
(* upscale_relpermvisc.cpp:1452-1458: the buffer for a phase and point *)
Definition vpack (tec : Z) (a : arrays) (t : Z * Z) : res (list R) :=
  let* s := rget (ar_ws a) (snd t) in
  let* r := rget (phase_rows a (fst t)) (snd t) in
  let* v := mapM (rget r) (zrange 0 tec) in
  Ok (IZR (snd t) :: s :: v).
(* upscale_relpermvisc.cpp:1437-1441: storing a received buffer; the phase is the one of the master's
   loop, the point is the one of the buffer *)
Definition vunpack (tec : Z) (a : arrays) (ph : Z) (buf : list R) : res arrays :=
  let* x0 := rget buf 0 in
  let i := ctrunc x0 in
  let* s := rget buf 1 in
  let* ws := rset (ar_ws a) i s in
  let* r := mapM (fun v => rget buf (2 + v)) (zrange 0 tec) in
  let* rows := rset (phase_rows a ph) i r in
  Ok (with_rows a ph ws rows).
(* the arrays of the master, the receives it has still to post (phase and source), the messages in
   flight from each rank, and the phases and points each rank has still to send *)
(* upscale_relpermvisc.cpp:1425-1460 *)
Record vmpi := mkVm { vp_master : arrays; vp_recv : list (Z * Z); vp_chan : Z -> list (list R); vp_send : Z -> list (Z * Z) }.
(* upscale_relpermvisc.cpp:1429-1431, 1448-1450: the loops with their tests *)
Definition vmpi_init (n points : Z) (a : Z -> arrays) : vmpi :=
  mkVm (a 0)
       (map (fun t => (fst t, mpi_node n (snd t))) (filter (fun t => negb (mpi_node n (snd t) =? 0)) (pairs [0; 1] (zrange 0 points))))
       (fun _ => [])
       (fun r => if r =? 0 then [] else filter (fun t => mpi_node n (snd t) =? r) (pairs [0; 1] (zrange 0 points))).
(* transitions as in Mpi_Model: a send may be buffered or wait for the receive; a receive takes the
   oldest message of its source *)
(* upscale_relpermvisc.cpp:1435-1436 (receive), 1457 (send) *)
Inductive vmpi_step (tec : Z) (a : Z -> arrays) : vmpi -> vmpi -> Prop :=
| vmpi_send st r i t m : vp_send st r = i :: t -> vpack tec (a r) i = Ok m ->
    vmpi_step tec a st (mkVm (vp_master st) (vp_recv st) (upd (vp_chan st) r (vp_chan st r ++ [m])) (upd (vp_send st) r t))
| vmpi_recv st ph r t m q a' : vp_recv st = (ph, r) :: t -> vp_chan st r = m :: q -> vunpack tec (vp_master st) ph m = Ok a' ->
    vmpi_step tec a st (mkVm a' t (upd (vp_chan st) r q) (vp_send st))
| vmpi_rdv st ph r t i u m a' : vp_recv st = (ph, r) :: t -> vp_chan st r = [] -> vp_send st r = i :: u ->
    vpack tec (a r) i = Ok m -> vunpack tec (vp_master st) ph m = Ok a' ->
    vmpi_step tec a st (mkVm a' t (vp_chan st) (upd (vp_send st) r u)).

(* ------- output *)
(* upscale_relpermvisc.cpp:1494-1508, RelPermUtils.cpp:320-330: relative permeability of one point;
   [kinv] is permTensorInv (C-ordered entries) *)
Definition phase_relperm (tec : Z) (kinv row : list R) : res (list R) :=
  let* t := foldM (fun t v => let* e := rget row v in set_voigt t v e) (zrange 0 tec) (zrepeat 0%R 9) in
  let* p := mprod (mkMat 3 3 COrd t) (mkMat 3 3 COrd kinv) (mnew COrd 3 3) in
  mapM (get_voigt (m_data p)) (zrange 0 tec).
(* upscale_relpermvisc.cpp:1484-1512, RelPermUtils.cpp:316-332: RelPermValues[phase], one column per
   tensor element *)
Definition relperm_columns (tec : Z) (kinv : list R) (rows : list (list R)) : res (list (list R)) :=
  let* rs := mapM (phase_relperm tec kinv) rows in
  mapM (fun v => mapM (fun r => rget r v) rs) (zrange 0 tec).
(* RelPermUtils.cpp:336-348: the critical end of one column.  The program throws if the smaller end
   value is not below the threshold. *)
Definition critical_end (thresh : R) (points : Z) (col : list R) : res (list R) :=
  let* a := rget col 0 in
  let* b := rget col (points - 1) in
  let i := if Rltb a b then 0 else points - 1 in
  let* v := rget col i in
  if Rltb v thresh then rset col i 0%R else Throw.
(* RelPermUtils.cpp:311-353 getRelPerm on the master: [rows] are PhasePerm[phase], [check] is
   doEclipseCheck *)
Definition helper_relperm (check : bool) (thresh : R) (points tec : Z) (kinv : list R) (rows : list (list R)) : res (list (list R)) :=
  let* rs := mapM (fun i => rget rows i) (zrange 0 points) in
  let* cols := relperm_columns tec kinv rs in
  if check then mapM (critical_end thresh points) cols else Ok cols.
(* upscale_relpermvisc.cpp:1608-1654: flow ratios, saturations and relative permeabilities to be
   printed.  [sat_of_ratio] is WaterSaturationVsFractionalFlow.evaluate, which line 1627 applies to
   the saturations. *)
Definition visc_columns (interp : interpolation) (sat_of_ratio : R -> R) (on : bool) (n : Z) (ps sats : list R) (cols : list (list R)) : res (list R * (list R * list (list R))) :=
  if on then
    match sats with
    | [] => UB
    | _ => let* g := sat_grid n sats in
           Ok (map sat_of_ratio g, (g, map (fun col => map (interp sats col) g) cols))
    end
  else Ok (ps, (sats, cols)).
(* upscale_relpermvisc.cpp:1657-1667, 1670-1680: the loop over the rows with its break *)
Fixpoint cut_rows (sats : list R) (rows : list (list R)) : list (list R) :=
  match sats, rows with
  | s :: st, r :: rt => r :: (if Req_EM_T s 0 then [] else cut_rows st rt)
  | _, _ => []
  end.
(* upscale_relpermvisc.cpp:1523-1525, 1606-1680: the rows printed for one phase *)
Definition visc_report (interp : interpolation) (sat_of_ratio : R -> R) (ipoints tec : Z) (kinv ps : list R) (a : arrays) (ph : Z) : res (list (list R)) :=
  match ar_ws a with
  | [] => Throw
  | _ =>
      let* cols := relperm_columns tec kinv (phase_rows a ph) in
      let* o := visc_columns interp sat_of_ratio (1 <? ipoints) ipoints ps (ar_ws a) cols in
      let* rows := out_rows o in
      Ok (cut_rows (fst (snd o)) rows)
  end.
