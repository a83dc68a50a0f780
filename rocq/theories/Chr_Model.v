(* opm/upscaling/CornerpointChopper.hpp: a chopper that is used several times.  The members new_... keep their contents
   between the calls of chop, and also when chop throws. *)
From Verif Require Export Grd_Model.
Open Scope Z_scope.

(* the members new_... and new_to_old_cell_ *)
(* CornerpointChopper.hpp:334-347 *)
Record cstate := mkCs { cs_mem : members; cs_map : list Z }.
(* result of a call: returns, throws (with the members as they are then), undefined behaviour *)
(* CornerpointChopper.hpp:137-252 *)
Inductive outcome := Done (s : cstate) | Raised (s : cstate) | Undef.
(* CornerpointChopper.hpp:137-252 *)
Definition step {A} (r : res A) (s : cstate) (k : A -> outcome) : outcome := match r with Ok a => k a | Throw => Raised s | UB => Undef end.
(* std::vector::resize of a vector with contents; a negative int becomes a huge size, for which it throws *)
(* CornerpointChopper.hpp:154, 216-217 *)
Definition resize {A} (prev : list A) (n : Z) (x : A) : res (list A) :=
  if n <? 0 then Throw else Ok (firstn (Z.to_nat n) prev ++ zrepeat x (n - zlen prev)).
(* CornerpointChopper.hpp:139-140 *)
Definition set_dims (s : cstate) (nx ny : Z) : cstate :=
  let m := cs_mem s in mkCs (mkMem nx ny (m_nz m) (m_coord m) (m_zcorn m) (m_actnum m) (m_poro m) (m_ntg m) (m_swcr m) (m_sowcr m) (m_permx m) (m_permy m) (m_permz m) (m_satnum m)) (cs_map s).
(* CornerpointChopper.hpp:154-169 *)
Definition set_coord (s : cstate) (co : list R) : cstate :=
  let m := cs_mem s in mkCs (mkMem (m_nx m) (m_ny m) (m_nz m) co (m_zcorn m) (m_actnum m) (m_poro m) (m_ntg m) (m_swcr m) (m_sowcr m) (m_permx m) (m_permy m) (m_permz m) (m_satnum m)) (cs_map s).
(* CornerpointChopper.hpp:209 *)
Definition set_nz (s : cstate) (nz : Z) : cstate :=
  let m := cs_mem s in mkCs (mkMem (m_nx m) (m_ny m) nz (m_coord m) (m_zcorn m) (m_actnum m) (m_poro m) (m_ntg m) (m_swcr m) (m_sowcr m) (m_permx m) (m_permy m) (m_permz m) (m_satnum m)) (cs_map s).
(* CornerpointChopper.hpp:216-240 *)
Definition set_zcorn (s : cstate) (zc : list R) : cstate :=
  let m := cs_mem s in mkCs (mkMem (m_nx m) (m_ny m) (m_nz m) (m_coord m) zc (m_actnum m) (m_poro m) (m_ntg m) (m_swcr m) (m_sowcr m) (m_permx m) (m_permy m) (m_permz m) (m_satnum m)) (cs_map s).
(* CornerpointChopper.hpp:143-169: [prev] is new_COORD_ before the call.  Throw: before any change of it. *)
Definition chop_coord_on (prev : list R) (g : grid) (imin imax jmin jmax : Z) (zmin zmax : R) (reset : bool) : res (list R) :=
  let nnx := imax - imin in
  let nny := jmax - jmin in
  if negb (zlen (g_coord g) =? 6 * (g_nx g + 1) * (g_ny g + 1)) then Throw
  else
    let* xc := rget (g_coord g) (6 * ((g_nx g + 1) * jmin + imin)) in
    let* yc := rget (g_coord g) (6 * ((g_nx g + 1) * jmin + imin) + 1) in
    let* start := resize prev (6 * (nnx + 1) * (nny + 1)) fill_value in
    let* ws := mapM (pillar_writes g imin jmin nnx xc yc zmin zmax reset) (pairs (zrange jmin (jmax + 1)) (zrange imin (imax + 1))) in
    writes (concat ws) start.
(* CornerpointChopper.hpp:416-442: without the keyword the vector is left as it is; otherwise it is resized and every
   entry is assigned *)
Definition filter_on {A} (prev : list A) (kw : option (list A)) (cmap : list Z) : res (list A) :=
  match kw with None => Ok prev | Some f => filter_field f cmap end.
(* CornerpointChopper.hpp:137-252 chop *)
Definition chop_on (d : cdeck) (s : cstate) (imin imax jmin jmax : Z) (zmin zmax : R) (reset : bool) : outcome :=
  let g := dk_grid d in
  let nnx := imax - imin in
  let nny := jmax - jmin in
  let s := set_dims s nnx nny in
  step (chop_coord_on (m_coord (cs_mem s)) g imin imax jmin jmax zmin zmax reset) s (fun co =>
  let s := set_coord s co in
  if negb (zlen (g_zcorn g) =? layersz g * g_nz g) then Raised s
  else
    step (botmax g) s (fun bm =>
    step (topmin g) s (fun tm =>
    let zlo := smax zmin bm in
    let zhi := smin zmax tm in
    if Rleb zhi zlo then Raised s
    else
      step (find_kmin g zlo (zrange 0 (g_nz g))) s (fun kmin =>
      step (find_kmax g zhi (rev (zrange 1 (g_nz g + 1)))) s (fun kmax =>
      let nnz := kmax - kmin in
      let s := set_nz s nnz in
      let corr := if reset then zlo else 0%R in
      let cells := triples (zrange kmin kmax) (zrange jmin jmax) (zrange imin imax) in
      let cmap := map (fun kji => g_nx g * g_ny g * fst kji + g_nx g * fst (snd kji) + snd (snd kji)) cells in
      step (resize (m_zcorn (cs_mem s)) (8 * nnx * nny * nnz) fill_value) s (fun startz =>
      let s := set_zcorn s startz in
      step (resize (cs_map s) (nnx * nny * nnz) (-1)) s (fun startm =>
      step (writes (combine (zrange 0 (zlen cmap)) cmap) startm) s (fun nmap =>
      step (mapM (cell_writes g imin jmin kmin nnx nny zlo zhi corr) cells) s (fun ws =>
      step (writes (concat ws) startz) s (fun zc =>
      let m := cs_mem s in
      step (filter_on (m_actnum m) (dk_actnum d) nmap) s (fun actnum =>
      step (filter_on (m_poro m) (dk_poro d) nmap) s (fun poro =>
      step (filter_on (m_ntg m) (dk_ntg d) nmap) s (fun ntg =>
      step (filter_on (m_swcr m) (dk_swcr d) nmap) s (fun swcr =>
      step (filter_on (m_sowcr m) (dk_sowcr d) nmap) s (fun sowcr =>
      step (filter_on (m_permx m) (dk_permx d) nmap) s (fun permx =>
      step (filter_on (m_permy m) (dk_permy d) nmap) s (fun permy =>
      step (filter_on (m_permz m) (dk_permz d) nmap) s (fun permz =>
      step (filter_on (m_satnum m) (dk_satnum d) nmap) s (fun satnum =>
      Done (mkCs (mkMem nnx nny nnz (m_coord m) zc actnum poro ntg swcr sowcr permx permy permz satnum) nmap)))))))))))))))))))).
(* a chopper after construction: the vectors are empty; the new dimensions are not set, and 0 here *)
(* CornerpointChopper.hpp:42-63 *)
Definition fresh : cstate := mkCs (mkMem 0 0 0 [] [] [] [] [] [] [] [] [] [] []) [].
