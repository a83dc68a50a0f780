(* Statistics of grid properties: examples/upscale_avg.cpp (line numbers without a file name) and examples/grdecldips.cpp.
   Values that are not finite (quotients by zero, logarithms of numbers that are not positive) are UB. *)
From Verif Require Export Mload_Model.
Open Scope Z_scope.

(* 92 *)
Definition cutoff : R := (1 / 10000000000)%R.
(* 249-253: cellVolumes, cellPoreVolumes, netCellVolumes, netCellPoreVolumes, active_cell_count *)
Record volumes := mkVolumes { v_cell : list R; v_pore : list R; v_net : list R; v_netpore : list R; v_count : Z }.
(* 274-294: one grid cell, with its number in the deck and its volume. actnum: only with use_actnum; ntgs is used
   with poros only *)
Definition visit_cell (actnum : option (list Z)) (poros ntgs : option (list R)) (s : volumes) (c : Z * R) : res volumes :=
  let '(i, vol) := c in
  let* v := match actnum with None => Ok vol | Some a => let* x := rget a i in Ok (vol * IZR x)%R end in
  let* cell := rset (v_cell s) i v in
  if Rltb cutoff v then
    match poros with
    | None => Ok (mkVolumes cell (v_pore s) (v_net s) (v_netpore s) (v_count s + 1))
    | Some p =>
      let* phi := rget p i in
      let* pore := rset (v_pore s) i (v * phi)%R in
      match ntgs with
      | None => Ok (mkVolumes cell pore (v_net s) (v_netpore s) (v_count s + 1))
      | Some n => let* g := rget n i in
                  let* np := rset (v_netpore s) i (v * phi * g)%R in
                  let* net := rset (v_net s) i (v * g)%R in
                  Ok (mkVolumes cell pore net np (v_count s + 1))
      end
    end
  else Ok (mkVolumes cell (v_pore s) (v_net s) (v_netpore s) (v_count s)).
(* 249-294; nc is num_eclipse_cells *)
Definition cell_volumes (nc : Z) (leaf : list (Z * R)) (actnum : option (list Z)) (poros ntgs : option (list R)) : res volumes :=
  let zeros := zrepeat 0%R nc in
  foldM (visit_cell actnum poros ntgs) leaf (mkVolumes zeros zeros zeros zeros 0).
(* 297-334: what is printed about the volumes: total volume, pore volume and porosity, net volume, NTG, net pore
   volume and net porosity *)
Record volume_stats := mkVstats { vs_volume : R; vs_active : Z; vs_pore : option (R * R); vs_net : option (R * R * R * R) }.
(* 297-334: the sums and quotients *)
Definition volume_statistics (v : volumes) (poros ntgs : option (list R)) : res volume_stats :=
  let sum l := racc (fun x => x) l in
  let volume := sum (v_cell v) in
  let* pore := match poros with None => Ok None | Some _ => let* q := mdiv (sum (v_pore v)) volume in Ok (Some (sum (v_pore v), q)) end in
  let* net := match poros, ntgs with
    | Some _, Some _ => let* ntg := mdiv (sum (v_net v)) volume in let* np := mdiv (sum (v_netpore v)) (sum (v_net v)) in
                        Ok (Some (sum (v_net v), ntg, sum (v_netpore v), np))
    | _, _ => Ok None
    end in
  Ok (mkVstats volume (v_count v) pore net).
(* log of a double *)
(* 353-354, 366-367, 373-374 *)
Definition mln (x : R) : res R := if Rltb 0 x then Ok (ln x) else UB.
(* 338-343: the sums for one direction, in the order of their declaration *)
Record psums := mkPsums { ps_k : R; ps_inv : R; ps_vk : R; ps_vinv : R; ps_log : R; ps_vlog : R }.
(* 347-375: one cell with volume v and permeability k (three times the same code) *)
Definition perm_cell (s : psums) (vk : R * R) : res psums :=
  let '(v, k) := vk in
  if Rltb cutoff v then
    let* q := mdiv 1 k in let* w := mdiv v k in let* l := mln k in
    Ok (mkPsums (ps_k s + k) (ps_inv s + q) (ps_vk s + k * v) (ps_vinv s + w) (ps_log s + l) (ps_vlog s + l * v))%R
  else Ok s.
(* 379-384, 388-401: arithmetic, harmonic and geometric average, with and without volume weights *)
Record averages := mkAverages { a_arith : R; a_harm : R; a_geom : R; u_arith : R; u_harm : R; u_geom : R }.
(* 347-401: the loop over the cells and the quotients *)
Definition perm_averages (volume : R) (count : Z) (vols perms : list R) : res averages :=
  let* cells := mapM (fun i => let* v := rget vols i in let* k := if Rltb cutoff v then rget perms i else Ok 0%R in Ok (v, k)) (zrange 0 (zlen vols)) in
  let* s := foldM perm_cell cells (mkPsums 0 0 0 0 0 0) in
  let* a := mdiv (ps_vk s) volume in
  let* h := mdiv volume (ps_vinv s) in
  let* g := mdiv (ps_vlog s) volume in
  let* ua := mdiv (ps_k s) (IZR count) in
  let* uh := mdiv (IZR count) (ps_inv s) in
  let* ug := mdiv (ps_log s) (IZR count) in
  Ok (mkAverages a h (exp g) ua uh (exp ug)).
(* 427-438 maxsatnumvalue; values outside 0..1000 end the program *)
Definition check_satnums (satnums : list Z) : res Z :=
  foldM (fun m s => if (s <? 0) || (1000 <? s) then Throw else Ok (Z.max m s)) satnums 0.
(* 440-466: the sums per rock type (counts are reals here): cells, active cells, volume, permeability, its inverse, both
   weighted, pore volume *)
Record rsums := mkRsums { r_total : list R; r_active : list R; r_vol : list R; r_k : list R; r_inv : list R; r_vk : list R; r_vinv : list R; r_pv : list R }.
(* 468-485 *)
Definition rock_cell (satnums : list Z) (vols : list R) (perms poros : option (list R)) (s : rsums) (i : Z) : res rsums :=
  let* t := rget satnums i in
  let* total := add_vol (r_total s) t 1%R in
  let* v := rget vols i in
  if Rltb cutoff v then
    let* active := add_vol (r_active s) t 1%R in
    let* vol := add_vol (r_vol s) t v in
    let* kk := match perms with
      | None => Ok (r_k s, r_inv s, r_vk s, r_vinv s)
      | Some p => let* k := rget p i in let* q := mdiv 1 k in let* w := mdiv v k in
                  let* a := add_vol (r_k s) t k in let* b := add_vol (r_inv s) t q in
                  let* c := add_vol (r_vk s) t (k * v)%R in let* d := add_vol (r_vinv s) t w in Ok (a, b, c, d)
      end in
    let '(a, b, c, d) := kk in
    let* pv := match poros with None => Ok (r_pv s) | Some p => let* phi := rget p i in add_vol (r_pv s) t (v * phi)%R end in
    Ok (mkRsums total active vol a b c d pv)
  else Ok (mkRsums total (r_active s) (r_vol s) (r_k s) (r_inv s) (r_vk s) (r_vinv s) (r_pv s)).
(* 492-500: the porosity variance sums *)
Definition var_cell (satnums : list Z) (vols poros : list R) (s : rsums) (l : list R) (i : Z) : res (list R) :=
  let* v := rget vols i in
  if Rltb cutoff v then
    let* t := rget satnums i in
    let* phi := rget poros i in
    let* a := rget (r_pv s) t in let* b := rget (r_vol s) t in let* avg := mdiv a b in
    add_vol l t (v * ((phi - avg) * (phi - avg)))%R
  else Ok l.
(* 505-526: what is printed for rock type t; percentages as fractions *)
Record rock_stats := mkRstats { k_type : Z; k_vol : R; k_frac : R; k_total : R; k_totfrac : R; k_active : R; k_actfrac : R;
  k_poro : option (R * R * R); k_perm : option (R * R * R * R) }.
(* 505-526 *)
Definition rock_statistics (nc : Z) (volume : R) (s : rsums) (var : list R) (doporo doperm : bool) (t : Z) : res rock_stats :=
  let* vol := rget (r_vol s) t in let* total := rget (r_total s) t in let* active := rget (r_active s) t in
  let* f1 := mdiv vol volume in let* f2 := mdiv total (IZR nc) in let* f3 := mdiv active total in
  let* poro := if doporo then let* pv := rget (r_pv s) t in let* x := rget var t in let* p := mdiv pv vol in let* y := mdiv x vol in Ok (Some (pv, p, y)) else Ok None in
  let* perm := if doperm then
      let* vk := rget (r_vk s) t in let* a := mdiv vk vol in
      let* vi := rget (r_vinv s) t in let* h := mdiv vol vi in
      let* k := rget (r_k s) t in let* ua := mdiv k active in
      let* ki := rget (r_inv s) t in let* uh := mdiv active ki in Ok (Some (a, h, ua, uh)) else Ok None in
  Ok (mkRstats t vol f1 total f2 active f3 poro perm).
(* 413-528; satnums holds SATNUM or else ROCKTYPE *)
Definition rock_report (nc : Z) (volume : R) (satnums : list Z) (vols : list R) (perms poros : option (list R)) : res (list rock_stats) :=
  let* m := check_satnums satnums in
  let z := zrepeat 0%R (m + 1) in
  let* s := foldM (rock_cell satnums vols perms poros) (zrange 0 nc) (mkRsums z z z z z z z z) in
  let* var := match poros with None => Ok z | Some p => foldM (var_cell satnums vols p s) (zrange 0 nc) z end in
  let some {A} (o : option A) := match o with Some _ => true | None => false end in
  let* ts := mapM (fun t => let* a := rget (r_active s) t in Ok (t, Rltb 0 a)) (zrange 0 (m + 1)) in
  mapM (rock_statistics nc volume s var (some poros) (some perms)) (map fst (filter (fun p => snd p) ts)).

(* ---- examples/grdecldips.cpp. cellVolumeVerticalPillars and cellDips belong to another library: vol and dips *)
(* grdecldips.cpp:94-117: the listed cells (i, j, k), dips and volumes, and ignoredCellCount *)
Definition dip_cells (nx ny nz : Z) (vol : Z * (Z * Z) -> R) (dips : Z * (Z * Z) -> R * R) (minvol : R) : list (Z * (Z * Z) * (R * R) * R) * Z :=
  fold_left (fun s kji => let v := vol kji in if Rltb minvol v then (fst s ++ [(kji, dips kji, v)], snd s) else (fst s, snd s + 1))
            (triples (zrange 0 nz) (zrange 0 ny) (zrange 0 nx)) ([], 0).
(* grdecldips.cpp:120-121 *)
Definition dip_averages (l : list (Z * (Z * Z) * (R * R) * R)) : res (R * R) :=
  let n := IZR (zlen l) in
  let* x := mdiv (racc (fun c => fst (snd (fst c))) l) n in
  let* y := mdiv (racc (fun c => snd (snd (fst c))) l) n in Ok (x, y).
(* cpchop.cpp:524-528: dip and azimuth *)
Definition dip_azimuth (disp x y : R) : res (R * R) :=
  let* q := mdiv x y in Ok (acos (1 / sqrt (x * x + y * y + 1)), atan q + disp)%R.
