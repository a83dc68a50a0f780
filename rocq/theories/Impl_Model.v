(* Model of the implicit transport discretisation: opm/core/transport/implicit/
   ImplicitAssembly.hpp, SinglePointUpwindTwoPhase.hpp, JacobianSystem.hpp and the block
   assembler opm/porsol/common/BCRSMatrixBlockAssembler.hpp. *)
From Verif Require Export RBase Steady_Spec.
Open Scope Z_scope.

(* the members of UnstructuredGrid used by the code: number_of_cells, number_of_faces,
   cell_facepos, cell_faces, face_cells *)
(* as read at ImplicitAssembly.hpp:61-68, 96, 112-116 *)
Record tgrid := mkTgrid { t_nc : Z; t_nf : Z; t_pos : list Z; t_cf : list Z; t_fc : list Z }.

(* ImplicitAssembly.hpp:112-114, 148-150, 183-185, 215-217: the faces of cell c *)
Definition cell_face_list (g : tgrid) (c : Z) : res (list Z) :=
  let* b := rget (t_pos g) c in
  let* e := rget (t_pos g) (c + 1) in
  mapM (rget (t_cf g)) (zrange b e).
(* face_cells[2*f+0], face_cells[2*f+1] (ImplicitAssembly.hpp:115-116) *)
Definition face_ends (g : tgrid) (f : Z) : res (Z * Z) :=
  let* a := rget (t_fc g) (2 * f) in
  let* b := rget (t_fc g) (2 * f + 1) in
  Ok (a, b).
(* the faces of a cell with their two cells *)
(* ImplicitAssembly.hpp:112-116 *)
Definition cell_conns (g : tgrid) (c : Z) : res (list (Z * (Z * Z))) :=
  let* fs := cell_face_list g c in
  mapM (fun f => let* n := face_ends g f in Ok (f, n)) fs.
(* ImplicitAssembly.hpp:118, 154, 189 *)
Definition two_sided (fn : Z * (Z * Z)) : bool := (0 <=? fst (snd fn)) && (0 <=? snd (snd fn)).
(* ImplicitAssembly.hpp:109-122 *)
Definition count_connections (g : tgrid) (c : Z) : res Z :=
  let* l := cell_conns g c in Ok (fold_left (fun n fn => n + (if two_sided fn then 1 else 0)) l 0).

(* ---- the local buffer, for any number of unknowns per cell *)
(* buffer[off + k] += v[k] *)
(* as the Model classes do: SinglePointUpwindTwoPhase.hpp:357-472 *)
Fixpoint add_block (buf : list R) (off : Z) (v : list R) : res (list R) :=
  match v with
  | [] => Ok buf
  | x :: t => let* y := rget buf off in
              let* b := rset buf off (y + x)%R in
              add_block b (off + 1) t
  end.
(* buffer[off + k] = v[k] *)
(* as the Model classes do: SinglePointUpwindTwoPhase.hpp:357-361 *)
Fixpoint set_block (buf : list R) (off : Z) (v : list R) : res (list R) :=
  match v with
  | [] => Ok buf
  | x :: t => let* b := rset buf off x in set_block b (off + 1) t
  end.
(* What the Model class adds for a cell: initial residual, blocks of a connection (own
   Jacobian, neighbour Jacobian, residual), accumulation (Jacobian, residual) *)
(* ImplicitAssembly.hpp:164-198 *)
Record blocks := mkBlocks {
  k_init : list R; k_flux : Z -> list R * list R * list R; k_accJ : list R; k_accF : list R }.
(* ImplicitAssembly.hpp:164-198 computeCellContrib; ndof = DofPerCell *)
Definition compute_cell_contrib (ndof : Z) (g : tgrid) (c : Z) (k : blocks) : res (list R) :=
  let nd2 := ndof * ndof in
  let* n := count_connections g c in
  let buf := zrepeat 0%R ((2 * n + 1) * nd2 + (n + 2) * ndof) in
  let* buf := set_block buf ((2 * n + 1) * nd2) (k_init k) in
  let* l := cell_conns g c in
  let* st := foldM (fun (st : list R * (Z * Z * Z)) fn =>
      if two_sided fn then
        let '(j1, j2, f) := snd st in
        let '(b1, b2, bf) := k_flux k (fst fn) in
        let* x := add_block (fst st) j1 b1 in
        let* x := add_block x j2 b2 in
        let* x := add_block x f bf in
        Ok (x, (j1 + nd2, j2 + nd2, f + ndof))
      else Ok st)
    l (buf, (nd2, nd2 + n * nd2, (2 * n + 1) * nd2 + ndof)) in
  let '(j1, j2, f) := snd st in
  let* x := add_block (fst st) 0 (k_accJ k) in
  add_block x f (k_accF k).

(* ---- the system, one unknown per cell (SinglePointUpwindTwoPhase.hpp:355) *)
(* matrix rows as (column, value), and the residual *)
Record jsys := mkJsys { y_mat : list (list (Z * R)); y_res : list R }.
(* ImplicitAssembly.hpp:138-160 createRowStructure and createBlockRow
   (BCRSMatrixBlockAssembler.hpp:143-160): the set of inserted columns *)
Definition row_structure (g : tgrid) (c : Z) : res (list Z) :=
  let* l := cell_conns g c in
  Ok (nodup Z.eq_dec (c :: map (fun fn => if fst (snd fn) =? c then snd (snd fn) else fst (snd fn)) (filter two_sided l))).
(* ImplicitAssembly.hpp:58-83 createSystem followed by the zeroing of matrix and residual
   (ImplicitTransport.hpp:126-128) *)
Definition create_system (g : tgrid) : res jsys :=
  let* rows := mapM (row_structure g) (zrange 0 (t_nc g)) in
  Ok (mkJsys (map (map (fun j => (j, 0%R))) rows) (zrepeat 0%R (t_nc g))).
(* BCRSMatrixBlockAssembler.hpp:133-139: mat[i][j] += v; an entry that is not in the pattern is
   undefined behaviour *)
Fixpoint row_add (row : list (Z * R)) (j : Z) (v : R) : res (list (Z * R)) :=
  match row with
  | [] => UB
  | (j', x) :: t => if j' =? j then Ok ((j', (x + v)%R) :: t)
                    else let* t' := row_add t j v in Ok ((j', x) :: t')
  end.
(* BCRSMatrixBlockAssembler.hpp:133-146 *)
Definition mat_add (s : jsys) (i j : Z) (v : R) : res jsys :=
  let* row := rget (y_mat s) i in
  let* row' := row_add row j v in
  let* m := rset (y_mat s) i row' in
  Ok (mkJsys m (y_res s)).
(* JacobianSystem.hpp VectorBlockAssembler / BCRSMatrixBlockAssembler.hpp:92-101 *)
Definition vec_add (s : jsys) (i : Z) (v : R) : res jsys :=
  let* x := rget (y_res s) i in
  let* r := rset (y_res s) i (x + v)%R in
  Ok (mkJsys (y_mat s) r).
(* ImplicitAssembly.hpp:202-236 assembleCellContrib with one unknown; nconn_ is the count left
   by computeCellContrib *)
Definition assemble_cell_contrib (g : tgrid) (c : Z) (nconn : Z) (buf : list R) (s : jsys) : res jsys :=
  let* v := rget buf 0 in
  let* s := mat_add s c c v in
  let* l := cell_conns g c in
  let* st := foldM (fun (st : jsys * (Z * Z)) fn =>
      let c1 := fst (snd fn) in
      let c2 := if c1 =? c then snd (snd fn) else c1 in
      if 0 <=? c2 then
        let* v1 := rget buf (fst (snd st)) in
        let* v2 := rget buf (snd (snd st)) in
        let* s := mat_add (fst st) c c v1 in
        let* s := mat_add s c c2 v2 in
        Ok (s, (fst (snd st) + 1, snd (snd st) + 1))
      else Ok st) l (s, (1, nconn + 1)) in
  foldM (fun s k => let* v := rget buf ((2 * nconn + 1) + k) in vec_add s c v) (zrange 0 (nconn + 2)) (fst st).

(* ---- SinglePointUpwindTwoPhase *)
(* the parameters stored per cell and face, and the state: mobilities, their derivatives, pore
   volume, saturation change, capillary pressure and derivative, transmissibility, gravity flux
   (gravityFlux, see below) and total flux per face.  Arrays are total functions here; that the
   accesses are in bounds is C62 *)
Record ustore := mkUstore {
  u_m0 : Z -> R; u_m1 : Z -> R; u_d0 : Z -> R; u_d1 : Z -> R; u_pv : Z -> R; u_ds : Z -> R;
  u_pc : Z -> R; u_dpc : Z -> R; u_trans : Z -> R; u_gflux : Z -> R; u_dflux : Z -> R }.
(* SinglePointUpwindTwoPhase.hpp:628-664 upwindMobility; pick k n is n[k] *)
Definition pick (k : Z) (n : Z * Z) : Z := if k =? 0 then fst n else snd n.
(* SinglePointUpwindTwoPhase.hpp:628-664 upwindMobility *)
Definition upwind (u : ustore) (dflux gflux : R) (n : Z * Z) : Z * Z :=
  let equal_sign := (negb (Rltb dflux 0) && negb (Rltb gflux 0)) || (negb (Rltb 0 dflux) && negb (Rltb 0 gflux)) in
  if equal_sign then
    let p0 := if negb (Rltb dflux 0) && negb (Rltb gflux 0) then 0 else 1 in
    let m0 := u_m0 u (pick p0 n) in
    let p1 := if negb (Rltb (dflux - m0 * gflux) 0) then 0 else 1 in
    (p0, p1)
  else
    let p1 := if negb (Rltb dflux 0) && negb (Rltb 0 gflux) then 0 else 1 in
    let m1 := u_m1 u (pick p1 n) in
    let p0 := if Rltb 0 (dflux + m1 * gflux) then 0 else 1 in
    (p0, p1).
(* SinglePointUpwindTwoPhase.hpp:709-718 capFlux *)
Definition cap_flux (u : ustore) (f : Z) (n : Z * Z) : R * R * R :=
  ((u_trans u f * (u_pc u (snd n) - u_pc u (fst n)))%R, (- u_trans u f * u_dpc u (fst n))%R, (u_trans u f * u_dpc u (snd n))%R).
(* SinglePointUpwindTwoPhase.hpp:366-422 fluxConnection: (J1, J2, F).  The division by the total
   mobility is only used with a positive one (asserted in line 390) *)
Definition flux_connection (u : ustore) (dt : R) (c f : Z) (n : Z * Z) : R * R * R :=
  let '(pcf, dpc0, dpc1) := cap_flux u f n in
  let dflux := u_dflux u f in
  let gflux := (u_gflux u f + pcf)%R in
  let pix := upwind u dflux gflux n in
  let m0 := u_m0 u (pick (fst pix) n) in
  let m1 := u_m1 u (pick (snd pix) n) in
  let dm0 := u_d0 u (pick (fst pix) n) in
  let dm1 := u_d1 u (pick (snd pix) n) in
  let mt := (m0 + m1)%R in
  let own := fst n =? c in
  let sgn := if own then 1%R else (-1)%R in
  let dflux := (dflux * sgn)%R in
  let gflux := (gflux * sgn)%R in
  let f1 := (m0 / mt)%R in
  let v1 := (dflux + m1 * gflux)%R in
  let F := (dt * f1 * v1)%R in
  let J1 := (sgn * dt * f1 * (if own then dpc0 else dpc1) * m1)%R in
  let J2 := (sgn * dt * f1 * (if own then dpc1 else dpc0) * m1)%R in
  (* J[k] is J1 for the side k of cell c *)
  let j0 := (dt * (1 - f1) / mt * v1 * dm0)%R in
  let j1 := (- (dt * f1 / mt * v1 * dm1) + dt * f1 * gflux * dm1)%R in
  let at1 (k : Z) := if own then k =? 0 else negb (k =? 0) in
  ((J1 + (if at1 (fst pix) then j0 else 0) + (if at1 (snd pix) then j1 else 0))%R,
   (J2 + (if at1 (fst pix) then 0 else j0) + (if at1 (snd pix) then 0 else j1))%R, F).
(* SinglePointUpwindTwoPhase.hpp:357-361, 366-436: the blocks of a cell (n f: the cells of f) *)
Definition cell_blocks (u : ustore) (dt : R) (n : Z -> Z * Z) (c : Z) : blocks :=
  mkBlocks [0%R] (fun f => let '(a, b, x) := flux_connection u dt c f (n f) in ([a], [b], [x]))
    [u_pv u c] [(u_pv u c * u_ds u c)%R].
(* a source: cell, rate of inflow, saturation of the inflow *)
(* transport_source.h:43-54, as read at ImplicitAssembly.hpp:240-260 *)
Record tsource := mkTsource { q_cell : Z; q_flux : R; q_sat : R }.
(* SinglePointUpwindTwoPhase.hpp:441-472 sourceTerms: (J, F) *)
Definition source_terms (u : ustore) (dt : R) (q : tsource) : R * R :=
  let dflux := (- q_flux q)%R in
  if Rltb dflux 0 then (0%R, (dt * dflux * q_sat q)%R)
  else
    let c := q_cell q in
    let mt := (u_m0 u c + u_m1 u c)%R in
    let f := (u_m0 u c / mt)%R in
    let df := (((1 - f) * u_d0 u c - f * u_d1 u c) / mt)%R in
    ((dt * dflux * df)%R, (dt * dflux * f)%R).
(* ImplicitAssembly.hpp:90-104, 240-260 assemble *)
(* face_cells of a face, ImplicitAssembly.hpp:115-116 *)
Definition ends_of (g : tgrid) (f : Z) : Z * Z := match face_ends g f with Ok n => n | _ => (-1, -1) end.
(* ImplicitAssembly.hpp:90-104, 240-260 *)
Definition assemble (g : tgrid) (u : ustore) (dt : R) (src : list tsource) (s : jsys) : res jsys :=
  let* s := foldM (fun s c =>
      let* buf := compute_cell_contrib 1 g c (cell_blocks u dt (ends_of g) c) in
      let* n := count_connections g c in
      assemble_cell_contrib g c n buf s) (zrange 0 (t_nc g)) s in
  foldM (fun s q => let '(j, f) := source_terms u dt q in
                    let* s := mat_add s (q_cell q) (q_cell q) j in
                    vec_add s (q_cell q) f) src s.

(* ---- saturations *)
(* range of the saturation of a cell, mobilities with derivatives and capillary pressure with
   derivative as functions of the two saturations (ImplicitTransportDefs.hpp:52-221) *)
Record tfluid := mkTfluid {
  l_min : Z -> R; l_max : Z -> R; l_mob : Z -> R -> R -> R * R; l_dmob : Z -> R -> R -> R * R; l_pc : Z -> R -> R -> R * R }.
(* sat_tol_, SinglePointUpwindTwoPhase.hpp:292 *)
Definition sat_tol : R := (/ 100000)%R.
(* SinglePointUpwindTwoPhase.hpp:551-576: values stored for a cell and whether it is in range;
   l_dmob gives the diagonal entries dmob[0], dmob[3] *)
Definition init_cell (fl : tfluid) (c : Z) (s x : R) : (R * R) * (R * R) * (R * R) * bool :=
  let s0 := (s + x)%R in
  let ok := negb (Rltb s0 (l_min fl c - sat_tol) || Rltb (l_max fl c + sat_tol) s0) in
  let s0 := smin (l_max fl c) (smax (l_min fl c) s0) in
  let s1 := (1 - s0)%R in
  let d := l_dmob fl c s0 s1 in
  (l_mob fl c s0 s1, (fst d, (- snd d)%R), l_pc fl c s0 s1, ok).
(* SinglePointUpwindTwoPhase.hpp:539-587 initIteration: the stored values of all cells and the
   returned flag; sat holds both saturations of every cell *)
Definition init_iteration (fl : tfluid) (sat x : list R) : res (list ((R * R) * (R * R) * (R * R)) * bool) :=
  foldM (fun st cx =>
      let* s := rget sat (fst cx * 2) in
      let '(v, ok) := init_cell fl (fst cx) s (snd cx) in
      Ok (fst st ++ [v], snd st && ok)) (combine (zrange 0 (zlen x)) x) ([], true).
(* SinglePointUpwindTwoPhase.hpp:513-533 initStep *)
Definition init_step (use_previous : bool) (nc : Z) (sat : list R) : res (list R) :=
  if use_previous then Ok (zrepeat 0%R nc)
  else mapM (fun c => let* s := rget sat (2 * c) in Ok (/ 2 - s)%R) (zrange 0 nc).
(* SinglePointUpwindTwoPhase.hpp:604-624 finishStep *)
Definition finish_step (fl : tfluid) (x sat : list R) : res (list R) :=
  foldM (fun s cx =>
      let c := fst cx in
      let* s0 := rget s (2 * c) in
      let v := smin (l_max fl c) (smax (l_min fl c) (s0 + snd cx)%R) in
      let* s := rset s (2 * c) v in
      rset s (2 * c + 1) (1 - v)%R) (combine (zrange 0 (zlen x)) x) sat.

(* ---- storage, SinglePointUpwindTwoPhase.hpp:91-117: the start of every segment in data_ *)
Inductive seg := SMob | SDmob | SPorevol | SDg | SDs | SPc | SDpc | STrans.
(* SinglePointUpwindTwoPhase.hpp:97-116 *)
Definition seg_start (nc totconn : Z) (k : seg) : Z :=
  let dmob := 2 * nc in let porevol := dmob + 2 * nc in let dg := porevol + nc in
  let ds := dg + totconn in let pc := ds + nc in let dpc := pc + nc in
  match k with
  | SMob => 0 | SDmob => dmob | SPorevol => porevol | SDg => dg
  | SDs => ds | SPc => pc | SDpc => dpc | STrans => dpc + nc
  end.
(* SinglePointUpwindTwoPhase.hpp:91-117 *)
Definition storage_size (nc totconn : Z) : Z :=
  2 * nc + 2 * nc + nc + totconn + nc + nc + nc + totconn.
(* SinglePointUpwindTwoPhase.hpp:123-257: address of the k-th value of cell, half face or
   face i *)
Definition address (nc totconn : Z) (s : seg) (i k : Z) : Z :=
  seg_start nc totconn s + (match s with SMob | SDmob => 2 * i + k | _ => i end).

(* ---- half faces and gravity *)
(* the double loop of SinglePointUpwindTwoPhase.hpp:299-305, 487-496, 670-687: half face index,
   cell, face *)
Definition half_faces (g : tgrid) : res (list (Z * (Z * Z))) :=
  let* r := foldM (fun (st : Z * list (Z * (Z * Z))) c =>
      let* e := rget (t_pos g) (c + 1) in
      let* hs := mapM (fun i => let* f := rget (t_cf g) i in Ok (i, (c, f))) (zrange (fst st) e) in
      Ok (Z.max (fst st) e, snd st ++ hs)) (zrange 0 (t_nc g)) (0, []) in
  Ok (snd r).
(* SinglePointUpwindTwoPhase.hpp:298-305 *)
Definition face_to_half (g : tgrid) : res (list Z) :=
  let* hs := half_faces g in
  foldM (fun m h =>
      let c := fst (snd h) in let f := snd (snd h) in
      let* n0 := rget (t_fc g) (2 * f) in
      rset m (2 * f + (1 - (if n0 =? c then 1 else 0))) (fst h)) hs (zrepeat (-1) (2 * t_nf g)).
(* SinglePointUpwindTwoPhase.hpp:475-498: face transmissibilities.  The reciprocal of zero, for
   a face that belongs to no cell, is infinite in the code and unspecified here *)
Definition face_trans (g : tgrid) (htrans : list R) : res (list R) :=
  let* hs := half_faces g in
  let* t := foldM (fun t h =>
      let* x := rget htrans (fst h) in
      let* y := rget t (snd (snd h)) in
      rset t (snd (snd h)) (y + 1 / x)%R) hs (zrepeat 0%R (t_nf g)) in
  Ok (map (fun x => 1 / x)%R t).
(* SinglePointUpwindTwoPhase.hpp:668-688 computeStaticGravity; gx h is gravity . (face centroid -
   cell centroid) of the half face *)
Definition static_gravity (g : tgrid) (trans : list R) (gx : Z -> Z -> R) : res (list R) :=
  let* hs := half_faces g in
  mapM (fun h => let* t := rget trans (snd (snd h)) in Ok (t * gx (fst (snd h)) (snd (snd h)))%R) hs.
(* SinglePointUpwindTwoPhase.hpp:691-707 gravityFlux; a negative half face index is asserted
   away and undefined *)
Definition gravity_flux_face (gravity : bool) (drho : R) (f2hf : list Z) (dg : list R) (f : Z) : res R :=
  if gravity then
    let* i1 := rget f2hf (2 * f) in
    let* i2 := rget f2hf (2 * f + 1) in
    let* a := rget dg i1 in
    let* b := rget dg i2 in
    Ok ((a - b) * drho)%R
  else Ok 0%R.
