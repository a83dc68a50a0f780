(* Boundary conditions and mortar couplings of the elasticity upscaler: opm/elasticity/elasticity_upscale_impl.hpp
   (line numbers without a file name). A grid is the list of its vertex positions, numbered and visited in order, and
   the list of the eight vertex numbers of its cells in visiting order. exit() and failing assertions are Throw. *)
From Verif Require Export Bgrid_Model Shape_Model Asm_Model.
Open Scope Z_scope.

(* component p of a position *)
(* GlobalCoordinate, elasticity_upscale_impl.hpp 24-60 *)
Definition pos3 : Type := R * R * R.
(* as in elasticity_upscale_impl.hpp 24-60 *)
Definition pc (c : pos3) (p : Z) : R := let '(x, y, z) := c in if p =? 0 then x else if p =? 1 then y else z.
(* int(log2(float(dir))): X = 1, Y = 2, Z = 4 (mpc.hh 24) *)
Definition dir_index (dir : Z) : Z := Z.log2 dir.

(* 143-158 findBoundaries: min and max *)
Definition find_boundaries (verts : list pos3) : (Z -> R) * (Z -> R) :=
  fold_left (fun st c => let '(mn, mx) := st in
    (fun i => smin (mn i) (pc c i), fun i => smax (mx i) (pc c i)))
    verts (fun _ => 100000%R, fun _ => (-100000)%R).

(* 385-394 isOnPlane *)
Definition is_on_plane (tol : R) (plane : Z) (c : pos3) (value : R) : bool :=
  if (plane <? 1) || (4 <? plane) then false else Rltb (Rabs (value - pc c (dir_index plane))) tol.
(* 417-433 isOnLine *)
Definition is_on_line (tol : R) (dir : Z) (c : pos3) (x y : R) : bool :=
  if (dir <? 1) || (4 <? dir) then false else
  let dx := (x - pc c ((dir_index dir + 1) mod 3))%R in
  if Rltb tol dx || Rltb dx (- tol) then false else
  let dy := (y - pc c ((dir_index dir + 2) mod 3))%R in
  if Rltb tol dy || Rltb dy (- tol) then false else true.
(* 435-440 isOnPoint: the one norm of the difference *)
Definition is_on_point (tol : R) (c point : pos3) : bool :=
  Rltb (Rabs (pc point 0 - pc c 0) + Rabs (pc point 1 - pc c 1) + Rabs (pc point 2 - pc c 2))%R tol.
(* 365-383 fixPoint *)
Definition fix_point (tol : R) (verts : list pos3) (F : fixmap) (dir : Z) (coord : pos3) (value : list R) : res fixmap :=
  foldM (fun F n => let* c := rget verts n in
    if is_on_point tol c coord then update_fixed 3 F n (dir, value) else Ok F) (zrange 0 (zlen verts)) F.
(* 396-415 fixLine *)
Definition fix_line (tol : R) (verts : list pos3) (F : fixmap) (dir : Z) (x y : R) (value : list R) : res fixmap :=
  foldM (fun F n => let* c := rget verts n in
    if is_on_line tol dir c x y then update_fixed 3 F n (7, value) else Ok F) (zrange 0 (zlen verts)) F.
(* 775-782 the eight corners *)
Definition box_corners (mn mx : Z -> R) : list pos3 :=
  [(mn 0, mn 1, mn 2); (mx 0, mn 1, mn 2); (mn 0, mx 1, mn 2); (mx 0, mx 1, mn 2);
   (mn 0, mn 1, mx 2); (mx 0, mn 1, mx 2); (mn 0, mx 1, mx 2); (mx 0, mx 1, mx 2)].
(* 773-788 fixCorners; the value is the default NodeValue(0) *)
Definition fix_corners (tol : R) (verts : list pos3) (F : fixmap) (mn mx : Z -> R) : res fixmap :=
  foldM (fun F c => fix_point tol verts F 7 c [0; 0; 0]%R) (box_corners mn mx) F.

(* 30-51 extractFace *)
Definition extract_face (tol : R) (verts : list pos3) (dir : Z) (coord : R) : res (list vertex) :=
  foldM (fun l n => let* c := rget verts n in
    if is_on_plane tol dir c coord then
      let* xy := bg_extract c (dir_index dir) in Ok (l ++ [mkVertex n (fst xy) (snd xy)])
    else Ok l) (zrange 0 (zlen verts)) [].

(* 59-64 the vertices of the faces: side false is LEFT, true is RIGHT *)
Definition face_verts (side : bool) (i : Z) : list Z :=
  if side then (if i =? 0 then [1; 3; 5; 7] else if i =? 1 then [2; 3; 6; 7] else [4; 5; 6; 7])
  else (if i =? 0 then [0; 2; 4; 6] else if i =? 1 then [0; 1; 4; 5] else [0; 1; 2; 3]).
(* 76-98 the vertices of a cell's face that are on the plane; none when the first is not *)
Definition cell_face (tol : R) (verts : list pos3) (dir : Z) (coord : R) (side : bool) (cell : list Z) : res (list vertex) :=
  let i := dir_index dir in
  let* first := rget (face_verts side i) 0 in
  let* idx := rget cell first in
  let* p := rget verts idx in
  if is_on_plane tol dir p coord then
    foldM (fun l f => let* idx := rget cell f in let* p := rget verts idx in
      if is_on_plane tol dir p coord then
        let* xy := bg_extract p i in Ok (l ++ [mkVertex idx (fst xy) (snd xy)])
      else Ok l) (face_verts side i) []
  else Ok [].
(* 99-109 the quad; its bounding box is computed by add only *)
Definition face_quad (srt : sorter) (dc : bool) (vs : list vertex) : res quad :=
  let* a := minx_miny srt vs in
  let* b := maxx_miny srt vs in
  let* c := if dc then minx_maxy srt vs else maxx_maxy srt vs in
  let* d := if dc then maxx_maxy srt vs else minx_maxy srt vs in
  Ok (mkQuad a b c d (0, 0)%R (0, 0)%R).
(* std::map<double, vector<Quad>> nodeMap (70): increasing keys *)
Definition colmap := list (R * list quad).
(* 111-116 the first column whose key is within 1e-7 *)
Fixpoint col_match (m : colmap) (q : quad) : option colmap :=
  match m with
  | [] => None
  | (k, l) :: t => if Rltb (Rabs (k - v_x (q_v0 q))) (1 / 10000000)%R then Some ((k, l ++ [q]) :: t)
                   else match col_match t q with Some t' => Some ((k, l) :: t') | None => None end
  end.
(* 117-118 nodeMap[key].push_back(q) *)
Fixpoint col_insert (m : colmap) (key : R) (q : quad) : colmap :=
  match m with
  | [] => [(key, [q])]
  | (k, l) :: t => if Rltb key k then (key, [q]) :: (k, l) :: t
                   else if Rltb k key then (k, l) :: col_insert t key q else (k, l ++ [q]) :: t
  end.
(* 110-118 *)
Definition col_add (m : colmap) (q : quad) : colmap :=
  match col_match m q with Some m' => m' | None => col_insert m (v_x (q_v0 q)) q end.
(* 54-130 extractMasterFace: the quads of the grid and its columns *)
Definition extract_master_face (tol : R) (verts : list pos3) (cells : list (list Z)) (srt : sorter)
    (dir : Z) (coord : R) (side dc : bool) : res (list quad * list (list quad)) :=
  let* r := foldM (fun st cell => let '(m, grid) := st in
      let* vs := cell_face tol verts dir coord side cell in
      if zlen vs =? 4 then
        let* q := face_quad srt dc vs in Ok (col_add m q, bg_add grid q)
      else Ok st) cells ([], []) in
  let '(m, grid) := r in Ok (grid, map snd m).

(* 159-171 addMPC; the float literal 1.f and log2 are exact *)
Definition periodic_mpc (dir slavenode : Z) (loc : located) : mpc :=
  let p := mpc_new slavenode (dir_index dir + 1) 0 in
  match loc with
  | AtNode i _ => add_master p i (dir_index dir + 1) 1
  | Within xi eta q =>
      fold_left (fun p nv => add_master p (v_i (snd nv)) (dir_index dir + 1) (fst nv))
        (combine (eval_basis xi eta) (q_verts q)) p
  end.
(* 173-186 periodicPlane; a vertex that is not found fails the assertion of boundarygrid.cpp 144, or is left
   out when assertions are off (ndebug). Vertex() sets the coordinates to 0 (boundarygrid.hh 64). *)
Definition periodic_plane (ndebug : bool) (F : fixmap) (slaves : list vertex) (grid : list quad) (M : mpcmap) : res mpcmap :=
  foldM (fun M v =>
    match bg_find grid (v_x v, v_y v) (0, 0)%R with
    | Some loc => Ok (fold_left (fun M dir => add_mpc 3 F M (periodic_mpc dir (v_i v) loc)) [1; 2; 4] M)
    | None => if ndebug then Ok M else Throw
    end) slaves M.
(* 790-814 periodicBCs with 132-141 determineSideFaces: fixed nodes and constraints *)
Definition periodic_bcs (ndebug : bool) (tol : R) (verts : list pos3) (cells : list (list Z)) (srt : sorter)
    (mn mx : Z -> R) (F : fixmap) (M : mpcmap) : res (fixmap * mpcmap) :=
  let* F := fix_corners tol verts F mn mx in
  let* masters := mapM (fun d => extract_master_face tol verts cells srt (2 ^ d) (mn d) false false) [0; 1; 2] in
  let* slaves := mapM (fun d => extract_face tol verts (2 ^ d) (mx d)) [0; 1; 2] in
  let* M := foldM (fun M d => let* s := rget slaves d in let* m := rget masters d in
                              periodic_plane ndebug F s (fst m) M) [0; 1; 2] M in
  Ok (F, M).

(* 833-842 of periodicBCsMortar: the corners are fixed and the top face is tied to the bottom face *)
Definition mortar_strong (ndebug : bool) (tol : R) (verts : list pos3) (cells : list (list Z)) (srt : sorter)
    (mn mx : Z -> R) (F : fixmap) (M : mpcmap) : res (fixmap * mpcmap) :=
  let* F := fix_corners tol verts F mn mx in
  let* top := extract_face tol verts 4 (mx 2) in
  let* bottom := extract_master_face tol verts cells srt 4 (mn 2) false false in
  let* M := periodic_plane ndebug F top (fst bottom) M in
  Ok (F, M).

(* elasticity_upscale_impl.hpp 193-229: nodes[e].push_back(v) *)
Definition push_at (nodes : list (list Z)) (e v : Z) : res (list (list Z)) :=
  let* l := rget nodes e in rset nodes e (l ++ [v]).
(* elasticity_upscale_impl.hpp 193-229: nodes[e][i] *)
Definition node_at (nodes : list (list Z)) (e i : Z) : res Z := let* l := rget nodes e in rget l i.
(* 206-226 one row i2 of element e of a grid with m elements *)
Definition renumber_row (m n1 n2 e i2 : Z) (st : list (list Z) * Z) : res (list (list Z) * Z) :=
  let '(nodes, total) := st in
  let* nodes := if negb (e =? 0) then let* v := node_at nodes (e - 1) (i2 * n1 + n1 - 1) in push_at nodes e v else Ok nodes in
  let start := if (e =? 0) && negb (i2 =? 0) then 0 else 1 in
  if (i2 =? n2 - 1) && (2 <? n2) then
    let* nodes := foldM (fun nodes i1 => let* v := node_at nodes e i1 in push_at nodes e v)
                        (zrange (if e =? 0 then 0 else 1) n1) nodes in
    Ok (nodes, total)
  else
    foldM (fun st i1 => let '(nodes, total) := st in
      if e =? m - 1 then let* v := node_at nodes 0 (i2 * n1) in let* nodes := push_at nodes e v in Ok (nodes, total)
      else let* nodes := push_at nodes e total in Ok (nodes, total + 1)) (zrange start n1) (nodes, total).
(* 193-230 renumber for a boundary grid with m quads: the node numbers and totalDOFs *)
Definition renumber (m n1 n2 : Z) : res (list (list Z) * Z) :=
  let* nodes := push_at (zrepeat [] m) 0 (-1) in
  foldM (fun st e => foldM (fun st i2 => renumber_row m n1 n2 e i2 st) (zrange 0 n2) st) (zrange 0 m) (nodes, 0).

(* 246-264, 320-345: the equations of direction d of a node: those of the masters of its constraint, or its own. The
   coefficients of the masters are not used, and the direction of the master is taken to be d. *)
Definition face_eqs (M : mpcmap) (meqn : list Z) (node d : Z) : res (list Z) :=
  match get_mpc 3 M node d with
  | Some p => mapM (fun m => rget meqn (md_node m * 3 + d)) (mp_master p)
  | None => let* e := rget meqn (node * 3 + d) in Ok [e]
  end.
(* 251-254, 262-266: columns of the multipliers *)
Definition mult_cols (lnodes : list Z) (d colofs : Z) : list Z :=
  map (fun l => 3 * l + d + colofs) (filter (fun l => -1 <? 3 * l + d) lnodes).
(* 232-277 addBBlockMortar: the columns of b1, the interface with m quads; the pattern (Bpatt, sized neq when
   empty) and the number of multiplier equations *)
Definition add_bblock (M : mpcmap) (meqn : list Z) (neq : Z) (cols : list (list quad)) (m n1 n2 colofs : Z)
    (patt : list (list Z)) : res (list (list Z) * Z) :=
  let* r := renumber m (n1 + 1) (n2 + 1) in
  let '(lnodes, total) := r in
  let patt := match patt with [] => zrepeat [] neq | _ => patt end in
  let* patt := foldM (fun patt p => let* col := rget cols p in let* ln := rget lnodes p in
      foldM (fun patt q => foldM (fun patt v => foldM (fun patt d =>
          let* es := face_eqs M meqn (v_i v) d in
          foldM (fun patt e => if -1 <? e then foldM (fun patt c => adj_insert patt (e, c)) (mult_cols ln d colofs) patt
                               else Ok patt) es patt) [0; 1; 2] patt) (q_verts q) patt) col patt)
    (zrange 0 m) patt in
  Ok (patt, 3 * total).
(* 305-327 the element matrix lE of a quad (hex) of the face and a quad (lg) of the interface: ubasis are the four
   P1 functions, lf the multiplier functions; rule holds the points and weights of the quadrature rule. None: the
   Newton iteration of lg.local does not end. The determinant is never negative (boundarygrid.hh 476-480). *)
Definition local_matrix (fuel : nat) (rule : list ((R * R) * R)) (lf : list (list (list R * Z))) (lg hex : hexgeo)
    : res (option (list (list R))) :=
  let nl := zlen lf in
  foldM (fun acc r => match acc with
    | None => Ok None
    | Some lE =>
      let pt := fst r in
      let detJ := hex_integration hex pt in
      let* loc := hex_local fuel lg (hex_global hex pt) in
      match loc with
      | None => Ok None
      | Some loc =>
        if Rleb (fst loc) (1 + 1 / 10000) && Rleb 0 (fst loc) && Rleb (snd loc) (1 + 1 / 10000) && Rleb 0 (snd loc) then
          let* lE := mapM (fun i => let* row := rget lE i in mapM (fun j => let* x := rget row j in
                let* u := p1_eval 2 i (fun k => if k =? 0 then fst pt else snd pt) in
                let* f := rget lf j in
                let* l := tp_eval f (fun k => if k =? 0 then fst loc else snd loc) in
                Ok (x + u * l * detJ * snd r)%R) (zrange 0 nl)) (zrange 0 4) in
          Ok (Some lE)
        else Throw
      end
    end) rule (Some (zrepeat (zrepeat 0%R nl) 4)).
(* 329-356 the contributions of one quad with element matrix lE *)
Definition assemble_quad (M : mpcmap) (meqn : list Z) (lnodes : list Z) (colofs : Z) (alpha : R) (q : quad)
    (lE : list (list R)) (B : smat) : res smat :=
  foldM (fun B d => foldM (fun B i =>
      let* v := rget (q_verts q) i in
      let* es := face_eqs M meqn (v_i v) d in
      foldM (fun B e => if -1 <? e then
          foldM (fun B j => let* l := rget lnodes j in
              if -1 <? l * 3 + d then
                let* row := rget lE i in let* x := rget row j in
                sm_upd B e (l * 3 + d + colofs) (fun b => b + alpha * x)%R
              else Ok B) (zrange 0 (zlen lnodes)) B
        else Ok B) es B) (zrange 0 4) B) [0; 1; 2] B.
(* 279-363 assembleBBlockMortar: the pillars in turn (in five groups, logutils.hpp). les gives the element matrices
   of the quads of every pillar, which depend on the geometry alone. *)
Definition assemble_bblock (M : mpcmap) (meqn : list Z) (cols : list (list quad)) (les : list (list (list (list R))))
    (m n1 n2 colofs : Z) (alpha : R) (B : smat) : res smat :=
  let* r := renumber m (n1 + 1) (n2 + 1) in
  foldM (fun B p => let* col := rget cols p in let* ln := rget (fst r) p in let* le := rget les p in
      foldM (fun B qe => assemble_quad M meqn ln colofs alpha (fst qe) (snd qe) B) (combine col le) B)
    (zrange 0 m) B.
(* 869-885 of periodicBCsMortar: the matrix B of the four faces (left, right, front, back) with their element matrices *)
Definition mortar_matrix4 (M : mpcmap) (meqn : list Z) (neq : Z)
    (f0 f1 f2 f3 : list (list quad) * list (list (list (list R)))) (nx ny p1 p2 : Z) : res smat :=
  let* r := add_bblock M meqn neq (fst f0) nx 1 p2 0 [] in
  let* r := add_bblock M meqn neq (fst f1) nx 1 p2 0 (fst r) in
  let eqns := snd r in
  let* r := add_bblock M meqn neq (fst f2) ny 1 p1 eqns (fst r) in
  let* r := add_bblock M meqn neq (fst f3) ny 1 p1 eqns (fst r) in
  let* B := from_adjacency (fst r) neq (eqns + snd r) in
  let* B := assemble_bblock M meqn (fst f0) (snd f0) nx 1 p2 0 1 B in
  let* B := assemble_bblock M meqn (fst f1) (snd f1) nx 1 p2 0 (-1) B in
  let* B := assemble_bblock M meqn (fst f2) (snd f2) ny 1 p1 eqns 1 B in
  assemble_bblock M meqn (fst f3) (snd f3) ny 1 p1 eqns (-1) B.
