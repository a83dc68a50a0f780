(* Sampling drivers: examples/cpregularize.cpp, cpchop.cpp, cpchop_depthtrend.cpp and exp_variogram.cpp.
   The upscaling of a chopped piece and the random generator are inputs; values that are not finite are UB. *)
From Verif Require Export Chop_Model Avg_Model.
Open Scope Z_scope.

(* ---- cpregularize.cpp *)
(* cpregularize.cpp:136-144 (and 146-154): coarse to fine indices; imax is the last entry *)
Definition index_table (dim ires imax : Z) : res (list Z) :=
  if ires =? 0 then UB else
  let f := Z.quot dim ires in
  let r := dim - ires * f in
  Ok (map (fun c => c * (f + 1)) (zrange 0 (r + 1)) ++ map (fun c => c * f + r) (zrange (r + 1) ires) ++ [imax]).
(* cpregularize.cpp:157-161 *)
Definition depth_table (zmin zmax : R) (zres : Z) : list R :=
  map (fun k => zmin + IZR k * (zmax - zmin) / IZR zres)%R (zrange 0 zres) ++ [zmax].
(* cpregularize.cpp:112-172: the tables and the loop over the blocks, whose body throws after chopping the block;
   piece: whether chop succeeds. The output below the loop writes an empty grid if zres <= 0 *)
Definition regularize (nx ny : Z) (azmin azmax : R) (imin imax jmin jmax : Z) (zmin zmax : R) (ires jres zres : Z)
    (piece : Z -> Z -> Z -> Z -> R -> R -> res unit) : res (list Z * list Z * list R) :=
  let* _ := verify_shoebox nx ny azmin azmax imin 0 imax jmin 0 jmax zmin 0 zmax in
  let* is := index_table nx ires imax in
  let* js := index_table ny jres jmax in
  let zs := depth_table zmin zmax zres in
  let* _ := foldM (fun _ kji => let '(k, (j, i)) := kji in
      let* a := rget is i in let* b := rget is (i + 1) in let* c := rget js j in let* d := rget js (j + 1) in
      let* e := rget zs k in let* f := rget zs (k + 1) in
      let* _ := piece a b c d e f in Throw) (triples (zrange 0 zres) (zrange 0 jres) (zrange 0 ires)) tt in
  Ok (is, js, zs).

(* ---- cpchop.cpp: the windows *)
(* cpchop.cpp:275-276: constructing std::uniform_int_distribution(a, b) requires a <= b *)
Definition uniform_int (a b : Z) : res unit := if b <? a then UB else Ok tt.
(* cpchop.cpp:277 *)
Definition z_upper (zmin zlen zmax : R) : R := smax (zmax - zlen) (zmin + 1 / 1000000)%R.
(* cpchop.cpp:275-308: the window handed to chop; x, y, z are the draws *)
Definition chop_window (use_random : bool) (imin ilen imax jmin jlen jmax : Z) (zmin zlen : R) (x y : Z) (z : R) : res (Z * Z * Z * Z * R * R) :=
  let* _ := uniform_int imin (imax - ilen) in
  let* _ := uniform_int jmin (jmax - jlen) in
  let i := if use_random then x else 0 in
  let j := if use_random then y else 0 in
  let k := if use_random then z else zmin in
  Ok (i, i + ilen, j, j + jlen, k, (k + zlen)%R).

(* ---- cpchop.cpp: the table of results *)
(* cpchop.cpp:283-300: the result vectors; every entry is a list, of one number except for Pc and Rock *)
Inductive col := Poro | NetPoro | Ntg | Swcr | Sowcr | Kx | Ky | Kz | Kyz | Kxz | Kxy | Swir | Swor | Pc | Dip | Azim | Rock.
(* comparison of the names of cpchop.cpp:283-300 *)
Definition col_eq_dec (a b : col) : {a = b} + {a <> b}.
Proof. decide equality. Defined.
(* cpchop.cpp:283-300 *)
Definition columns := col -> list (list R).
(* cpchop.cpp:334-345, 412-413 and others: push_back *)
Definition push (c : col) (v : list R) (t : columns) : columns := fun d => if col_eq_dec d c then t d ++ [v] else t d.
(* cpchop.cpp:86, 97, 101, 113-115, 249-261 and what the deck contains *)
Record opts := mkOpts { o_upscale : bool; o_periodic : bool; o_ntg : bool; o_swcr : bool; o_sowcr : bool; o_end : bool; o_cappres : bool; o_dips : bool; o_satvol : bool; o_azim : R }.
(* cpchop.cpp:330-331, 343-348: the upscaled tensor in milli darcy *)
Record perm6 := mkPerm6 { p_xx : R; p_yy : R; p_zz : R; p_yz : R; p_xz : R; p_xy : R }.
(* a cell of a subsample: SATNUM, volume, porosity, candidates for the least and largest capillary pressure
   (cpchop.cpp:373-389, from tables of another library) *)
Record endcell := mkEndcell { e_sat : Z; e_vol : R; e_phi : R; e_pcmin : R; e_pcmax : R }.
(* what a subsample gives; None where the computation throws. s_chop: whether chop succeeds; s_perm: lines 325-331;
   s_cells and s_poro2: 352-371, 402; s_pc: 417-484, depending on Pcmin, Pcmax, Swir and Swor; s_dips: the listed cells;
   s_sat: SATNUM and volume of all cells *)
Record sample := mkSample { s_chop : bool; s_perm : option perm6; s_poro : option R; s_netporo : option R; s_ntg : option R; s_swcr : option R; s_sowcr : option R;
  s_cells : option (list endcell); s_poro2 : option R; s_pc : option (R -> R -> R -> R -> list R); s_dips : option (list (Z * (Z * Z) * (R * R) * R)); s_sat : option (list (Z * R)) }.
(* the variables that live across subsamples: vectors, Pcmin and Pcmax (226), maxSatnum (301), finished_subsamples (303) *)
Record state := mkState { t_cols : columns; t_pcmin : R; t_pcmax : R; t_max : Z; t_done : Z }.
(* cpchop.cpp:283-300: replace the vectors *)
Definition with_cols (t : state) (c : columns) : state := mkState c (t_pcmin t) (t_pcmax t) (t_max t) (t_done t).
(* cpchop.cpp:323-567: what a statement in the try block leads to: the next one, the catch clause, or undefined behaviour *)
Inductive outcome := Next (t : state) | Fail (t : state) | Undef.
(* cpchop.cpp:334-345, 403: push a scalar that may fail to be computed *)
Definition put (c : col) (v : option R) (t : state) : outcome :=
  match v with None => Fail t | Some x => Next (with_cols t (push c [x] (t_cols t))) end.
(* cpchop.cpp:325-331: a value that may fail to be computed *)
Definition need {A} (v : option A) (t : state) : outcome := match v with None => Fail t | Some _ => Next t end.
(* cpchop.cpp:360-398: sums over the cells: Swirvolume, Sworvolume, pore volume; rocks holds rocksatendpoints_ *)
Definition end_sums (rocks : list (R * R)) (cells : list endcell) : res (R * R * R) :=
  foldM (fun s c => let '(a, b, p) := s in
    if 0 <? e_sat c then let* r := rget rocks (e_sat c - 1) in let pv := (e_vol c * e_phi c)%R in Ok (a + fst r * pv, b + snd r * pv, p + pv)%R else Ok s) cells (0, 0, 0)%R.
(* cpchop.cpp:390-393 *)
Definition pc_limits (cells : list endcell) (lim : R * R) : R * R :=
  fold_left (fun l c => if 0 <? e_sat c then (smin (e_pcmin c) (fst l), smax (e_pcmax c) (snd l)) else l) cells lim.
(* cpchop.cpp:406-411 *)
Definition end_points (rocks : list (R * R)) (cells : list endcell) : res (R * R) :=
  let* s := end_sums rocks cells in let '(a, b, p) := s in let* x := mdiv a p in let* y := mdiv b p in Ok (x, y).
(* cpchop.cpp:348-411 up to the push of the porosity *)
Definition scan (o : opts) (rocks : list (R * R)) (cells : option (list endcell)) (t : state) : outcome :=
  match cells with
  | None => Fail t
  | Some cs => match end_points rocks cs with
               | Ok _ => let lim := if o_cappres o then pc_limits cs (t_pcmin t, t_pcmax t) else (t_pcmin t, t_pcmax t) in
                          Next (mkState (t_cols t) (fst lim) (snd lim) (t_max t) (t_done t))
               | Throw => Fail t
               | UB => Undef
               end
  end.
(* cpchop.cpp:412-413; the quotients of 410-411 are computed in scan and again here, which makes no difference *)
Definition put_sw (rocks : list (R * R)) (cells : option (list endcell)) (t : state) : outcome :=
  match cells with
  | None => Fail t
  | Some cs => match end_points rocks cs with
               | Ok sw => Next (with_cols t (push Swor [snd sw] (push Swir [fst sw] (t_cols t))))
               | Throw => Fail t
               | UB => Undef
               end
  end.
(* cpchop.cpp:414-485; likewise *)
Definition put_pc (rocks : list (R * R)) (cells : option (list endcell)) (f : option (R -> R -> R -> R -> list R)) (t : state) : outcome :=
  match cells, f with
  | Some cs, Some g => match end_points rocks cs with
               | Ok sw => Next (with_cols t (push Pc (g (t_pcmin t) (t_pcmax t) (fst sw) (snd sw)) (t_cols t)))
               | Throw => Fail t
               | UB => Undef
               end
  | _, _ => Fail t
  end.
(* cpchop.cpp:490-530 *)
Definition put_dips (o : opts) (l : option (list (Z * (Z * Z) * (R * R) * R))) (t : state) : outcome :=
  match l with
  | None => Fail t
  | Some cells => match (let* xy := dip_averages cells in dip_azimuth (o_azim o) (fst xy) (snd xy)) with
                  | Ok (d, a) => Next (with_cols t (push Azim [a] (push Dip [d] (t_cols t))))
                  | Throw => Fail t
                  | UB => Undef
                  end
  end.
(* cpchop.cpp:545-550: volumes per SATNUM; the vector is enlarged to maxSatnum *)
Definition sat_volumes (maxsat : Z) (cells : list (Z * R)) : res (Z * list R) :=
  foldM (fun s c => let m := Z.max (fst s) (fst c) in
    let row := snd s ++ zrepeat 0%R (m - zlen (snd s)) in
    let* row' := add_vol row (fst c - 1) (snd c) in Ok (m, row')) cells (maxsat, []).
(* cpchop.cpp:552-559 *)
Definition normalised (row : list R) : res (list R) := mapM (fun v => mdiv v (racc (fun x => x) row)) row.
(* cpchop.cpp:532-560 *)
Definition put_rock (cells : option (list (Z * R))) (t : state) : outcome :=
  match cells with
  | None => Fail t
  | Some cs => match (let* r := sat_volumes (t_max t) cs in let* row := normalised (snd r) in Ok (fst r, row)) with
               | Ok (m, row) => Next (mkState (push Rock row (t_cols t)) (t_pcmin t) (t_pcmax t) m (t_done t))
               | Throw => Fail t
               | UB => Undef
               end
  end.
(* cpchop.cpp:323-562: the statements of the try block in order *)
Definition acts (o : opts) (rocks : list (R * R)) (s : sample) : list (state -> outcome) :=
  (if o_upscale o then
     [need (s_perm s); put Poro (s_poro s)] ++ (if o_ntg o then [put NetPoro (s_netporo s); put Ntg (s_ntg s)] else []) ++
     (if o_swcr o then [put Swcr (s_swcr s)] else []) ++ (if o_sowcr o then [put Sowcr (s_sowcr s)] else []) ++
     [put Kx (option_map p_xx (s_perm s)); put Ky (option_map p_yy (s_perm s)); put Kz (option_map p_zz (s_perm s));
      put Kyz (option_map p_yz (s_perm s)); put Kxz (option_map p_xz (s_perm s)); put Kxy (option_map p_xy (s_perm s))]
   else []) ++
  (if o_end o then [scan o rocks (s_cells s)] ++ (if o_upscale o then [] else [put Poro (s_poro2 s)]) ++ [put_sw rocks (s_cells s)] ++ (if o_cappres o then [put_pc rocks (s_cells s) (s_pc s)] else []) else []) ++
  (if o_dips o then [put_dips o (s_dips s)] else []) ++
  (if o_satvol o then [put_rock (s_sat s)] else []).
(* cpchop.cpp:323-567: the statements one after the other *)
Fixpoint run (l : list (state -> outcome)) (t : state) : outcome :=
  match l with [] => Next t | a :: l' => match a t with Next t' => run l' t' | Fail t' => Fail t' | Undef => Undef end end.
(* cpchop.cpp:304-567: one subsample; chop is outside the try block *)
Definition subsample (o : opts) (rocks : list (R * R)) (t : state) (s : sample) : res state :=
  if s_chop s then
    match run (acts o rocks s) t with
    | Next t' => Ok (mkState (t_cols t') (t_pcmin t') (t_pcmax t') (t_max t') (t_done t' + 1))
    | Fail t' => Ok t'
    | Undef => UB
    end
  else Throw.
(* cpchop.cpp:226: the largest double *)
Definition pc_start : R := IZR (2 ^ 1024 - 2 ^ 971).
(* cpchop.cpp:226, 283-567 *)
Definition subsamples (o : opts) (rocks : list (R * R)) (ss : list sample) : res state :=
  foldM (subsample o rocks) ss (mkState (fun _ => []) pc_start (- pc_start)%R 0 0).
(* cpchop.cpp:645-706: entry r of a vector of numbers *)
Definition cell_at (t : columns) (c : col) (r : Z) : res R := let* l := rget (t c) r in rget l 0.
(* cpchop.cpp:645-706: the numbers printed in row r (counted from 0) *)
Definition print_row (o : opts) (t : columns) (maxsat r : Z) : res (list R) :=
  let get := fun c => cell_at t c r in
  let poro := mapM get ([Poro] ++ if o_ntg o then [NetPoro; Ntg] else []) in
  let* a := if o_upscale o then
      let* p := poro in
      let* k := mapM get ([Kx; Ky; Kz] ++ if o_periodic o then [Kyz; Kxz; Kxy] else []) in
      let* h := if o_ntg o then let* x := get Kx in let* y := get Ky in let* n := get Ntg in let* q := mdiv (x + y) (2 * n) in Ok [q] else Ok [] in
      let* w := mapM get ((if o_swcr o then [Swcr] else []) ++ (if o_sowcr o then [Sowcr] else [])) in
      Ok (p ++ k ++ h ++ w) else Ok [] in
  let* b := if o_end o then
      let* p := if o_upscale o then Ok [] else poro in
      let* e := mapM get [Swir; Swor] in
      let* pc := if o_cappres o then let* l := rget (t Pc) r in mapM (rget l) (zrange 0 5) else Ok [] in
      Ok (p ++ e ++ pc) else Ok [] in
  let* c := if o_dips o then mapM get [Dip; Azim] else Ok [] in
  let* d := if o_satvol o then let* l := rget (t Rock) r in mapM (rget (l ++ zrepeat 0%R (maxsat - zlen l))) (zrange 0 maxsat) else Ok [] in
  Ok (a ++ b ++ c ++ d).
(* cpchop.cpp:645-712 *)
Definition print_rows (o : opts) (t : state) : res (list (list R)) := mapM (print_row o (t_cols t) (t_max t)) (zrange 0 (t_done t)).

(* ---- cpchop_depthtrend.cpp *)
(* cpchop_depthtrend.cpp:149-188: the loop over depths; fuel bounds the number of turns (None: not finished). piece zlo zhi: chop;
   up: porosity and tensor of the piece at zstart, tried after the push of zstart *)
Record trend := mkTrend { d_z : list R; d_poro : list R; d_k : list (R * R * R) }.
(* cpchop_depthtrend.cpp:149-188 *)
Fixpoint trend_loop (fuel : nat) (zlen zmax zresolution : R) (upscale : bool) (piece : R -> R -> res unit) (up : R -> option (option R * perm6)) (z : R) (d : trend) : option (res trend) :=
  if Rleb z (zmax - zlen) then
    match fuel with
    | O => None
    | S n => match piece z (smin (z + zlen) zmax) with
             | Throw => Some Throw
             | UB => Some UB
             | Ok _ => let d' := if upscale then match up z with
                           | None => d
                           | Some (None, _) => mkTrend (d_z d ++ [z]) (d_poro d) (d_k d)
                           | Some (Some phi, k) => mkTrend (d_z d ++ [z]) (d_poro d ++ [phi]) (d_k d ++ [(p_xx k, p_yy k, p_zz k)])
                           end else d in
                       trend_loop n zlen zmax zresolution upscale piece up (z + zresolution)%R d'
             end
    end
  else Some (Ok d).
(* cpchop_depthtrend.cpp:149-188 *)
Definition depth_trend (fuel : nat) (zlen zmax zresolution : R) (upscale : bool) (piece : R -> R -> res unit) (up : R -> option (option R * perm6)) : option (res trend) :=
  trend_loop fuel zlen zmax zresolution upscale piece up 0 (mkTrend [] [] []).
(* cpchop_depthtrend.cpp:214-222 *)
Definition trend_rows (d : trend) : res (list (R * R * (R * R * R))) :=
  mapM (fun r => let* z := rget (d_z d) r in let* p := rget (d_poro d) r in let* k := rget (d_k d) r in Ok (z, p, k)) (zrange 0 (zlen (d_poro d))).

(* ---- exp_variogram.cpp *)
(* exp_variogram.cpp:158-218: one pair; the draws are i1 j1 z1 and then i2 j2 (horizontal) or z2 (vertical); up: chop and upscale,
   giving porosity and the diagonal, throwing on failure *)
Record draws := mkDraws { w_i1 : Z; w_j1 : Z; w_z1 : R; w_i2 : Z; w_j2 : Z; w_z2 : R }.
(* exp_variogram.cpp:158-218 *)
Definition one_pair (vertical : bool) (ilen jlen : Z) (zlen : R) (up : Z -> Z -> Z -> Z -> R -> R -> res (R * (R * R * R))) (w : draws) : res (R * R * (R * R * R)) :=
  let* a := up (w_i1 w) (w_i1 w + ilen) (w_j1 w) (w_j1 w + jlen) (w_z1 w) (w_z1 w + zlen)%R in
  let i2 := if vertical then w_i1 w else w_i2 w in
  let j2 := if vertical then w_j1 w else w_j2 w in
  let z2 := if vertical then w_z2 w else w_z1 w in
  let* b := up i2 (i2 + ilen) j2 (j2 + jlen) z2 (z2 + zlen)%R in
  let dist := if vertical then Rabs (z2 - w_z1 w) else sqrt (IZR (i2 - w_i1 w) * IZR (i2 - w_i1 w) + IZR (j2 - w_j1 w) * IZR (j2 - w_j1 w))%R in
  let '(k1, k2, k3) := snd a in let '(l1, l2, l3) := snd b in
  Ok (dist, Rabs (fst b - fst a), (Rabs (l1 - k1), Rabs (l2 - k2), Rabs (l3 - k3)))%R.
(* exp_variogram.cpp:105-116, 141-143, 158-219: exit(1) is Throw *)
Definition variogram (vertical : bool) (nx ny : Z) (azmin azmax : R) (imin ilen imax jmin jlen jmax : Z) (zmin zlen zmax : R) (ws : list draws)
    (up : Z -> Z -> Z -> Z -> R -> R -> res (R * (R * R * R))) : res (list (R * R * (R * R * R))) :=
  if (ilen <=? 0) || (jlen <=? 0) || Rleb zlen 0 then Throw else
  let* _ := verify_shoebox nx ny azmin azmax imin ilen imax jmin jlen jmax zmin zlen zmax in
  let* _ := uniform_int imin (imax - ilen) in
  let* _ := uniform_int jmin (jmax - jlen) in
  mapM (one_pair vertical ilen jlen zlen up) ws.
