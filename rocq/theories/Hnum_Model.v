(* Numbering of the faces of a grid: IncompFlowSolverHybrid.hpp enumerateGridDof and
   GridInterfaceEuler.hpp buildFaceIndices. *)
From Verif Require Export RBase.
Open Scope Z_scope.

(* GridInterfaceEuler.hpp:85-217 class Face: neighbourCellIndex() with None for boundary(), and
   boundaryId().  localIndex() counts from 0 along facebegin()..faceend() (283-287, 320-323), so it is
   the position in the list of faces. *)
Record hface := mkHFace { hf_nb : option Z; hf_bid : Z }.
(* GridInterfaceEuler.hpp:302-355 class Cell: index() and the faces in iteration order.  A grid is the
   list of its cells in iteration order (cellbegin()..cellend()). *)
Record hcell := mkHCell { hc_idx : Z; hc_faces : list hface }.

(* std::find(begin, end, v) - begin; the length when v is absent *)
(* IncompFlowSolverHybrid.hpp:1043, GridInterfaceEuler.hpp:583 *)
Fixpoint find_pos (v : Z) (l : list Z) : Z :=
  match l with [] => 0 | x :: t => if x =? v then 0 else 1 + find_pos v t end.
(* l.resize(n, 0): keeps the leading elements *)
(* IncompFlowSolverHybrid.hpp:1015, GridInterfaceEuler.hpp:560 *)
Definition vfit (n : Z) (l : list Z) : list Z := firstn (Z.to_nat n) l ++ zrepeat 0 (n - zlen l).

(* the variables of the first pass: cell, the face counts in index order (num_cf of the hybrid solver,
   num_faces of the grid interface) and in iterator order (num_cf of the grid interface, not kept by
   the hybrid solver), fpos, faces and max_ncf *)
(* IncompFlowSolverHybrid.hpp:953-990, GridInterfaceEuler.hpp:500-535 *)
Record pass1 := mkP1 { p1_cell : list Z; p1_byidx : list Z; p1_iter : list Z; p1_fpos : list Z; p1_faces : list Z; p1_max : Z }.
(* IncompFlowSolverHybrid.hpp:972-983, GridInterfaceEuler.hpp:520-531: one face of the first pass *)
Definition discover (cell : list Z) (s : list Z * Z) (f : hface) : res (list Z * Z) :=
  let '(faces, ncf) := s in
  let* faces := match hf_nb f with
    | None => Ok faces
    | Some c1 => let* k := rget cell c1 in Ok (if k =? -1 then faces ++ [c1] else faces)
    end in
  Ok (faces, ncf + 1).
(* IncompFlowSolverHybrid.hpp:964-988, GridInterfaceEuler.hpp:513-537: one cell of the first pass *)
Definition pass1_cell (s : pass1) (kc : Z * hcell) : res pass1 :=
  let '(cellno, c) := kc in
  let* cell := rset (p1_cell s) (hc_idx c) cellno in
  let* n0 := rget (p1_byidx s) (hc_idx c) in
  let* r := foldM (discover cell) (hc_faces c) (p1_faces s, n0) in let '(faces, ncf) := r in
  let* byidx := rset (p1_byidx s) (hc_idx c) ncf in
  Ok (mkP1 cell byidx (p1_iter s ++ [ncf]) (p1_fpos s ++ [zlen faces]) faces (Z.max (p1_max s) ncf)).
(* IncompFlowSolverHybrid.hpp:963-990, GridInterfaceEuler.hpp:511-535 *)
Definition first_pass (max0 : Z) (g : list hcell) : res pass1 :=
  let nc := zlen g in
  foldM pass1_cell (combine (zrange 0 nc) g) (mkP1 (zrepeat (-1) nc) (zrepeat 0 nc) [] [0] [] max0).

(* IncompFlowSolverHybrid.hpp:1018-1046, GridInterfaceEuler.hpp:562-588: one face of the second pass *)
Definition number_face (p : pass1) (c0 : Z) (s : Z * list Z) (kf : Z * hface) : res (Z * list Z) :=
  let '(total, l2g) := s in let '(k, f) := kf in
  match hf_nb f with
  | None => let* l2g := rset l2g k total in Ok (total + 1, l2g)
  | Some c1 =>
      let* k0 := rget (p1_cell p) c0 in
      let* k1 := rget (p1_cell p) c1 in
      let '(t, seek) := if k1 <? k0 then (c1, c0) else (c0, c1) in
      let* kt := rget (p1_cell p) t in
      let* s := rget (p1_fpos p) kt in
      let* e := rget (p1_fpos p) (kt + 1) in
      let* l2g := rset l2g k (s + find_pos seek (zslice (p1_faces p) s e)) in
      Ok (total, l2g)
  end.
(* IncompFlowSolverHybrid.hpp:1017-1050, GridInterfaceEuler.hpp:562-590: all faces of a cell *)
Definition number_faces (p : pass1) (c : hcell) (s : Z * list Z) : res (Z * list Z) :=
  foldM (number_face p (hc_idx c)) (combine (zrange 0 (zlen (hc_faces c))) (hc_faces c)) s.

(* result of enumerateGridDof: flowSolution_.cellno_, flowSolution_.cellFaces_, num_internal_faces_,
   total_num_faces_ and max_ncf_ *)
(* IncompFlowSolverHybrid.hpp:945-1056 *)
Record numbering := mkNum { nm_cell : list Z; nm_cf : list (list Z); nm_internal : Z; nm_total : Z; nm_max : Z }.
(* IncompFlowSolverHybrid.hpp:945-1056; max_ncf_ is -1 after clear() (490-491); l2g is kept from cell
   to cell and resized, with the count looked up in num_cf (index order) under the cell number *)
Definition enumerate_grid (g : list hcell) : res numbering :=
  let* p := first_pass (-1) g in
  let ni := zlen (p1_faces p) in
  let* r := foldM (fun (s : Z * list Z * list (list Z)) c =>
      let '(total, l2g, cf) := s in
      let* k0 := rget (p1_cell p) (hc_idx c) in
      let* ncf := rget (p1_byidx p) k0 in
      let* r := number_faces p c (total, vfit ncf l2g) in let '(total, l2g) := r in
      Ok (total, l2g, cf ++ [l2g])) g (ni, [], []) in
  let '(total, _, cf) := r in
  Ok (mkNum (p1_cell p) cf ni total (p1_max p)).
(* GridInterfaceEuler.hpp:488-606 buildFaceIndices: face_indices_ (one row per cell, in index order),
   num_faces_ and max_faces_per_cell_.  The flat array with cumulative offsets is modelled as a table
   of rows; a row that does not have num_faces[c0] entries would be written over its neighbour. *)
Definition build_face_indices (g : list hcell) : res (list (list Z) * Z * Z) :=
  let* p := first_pass 0 g in
  let* r := foldM (fun (s : Z * list Z * list (list Z)) c =>
      let '(total, l2g, tbl) := s in
      let* k0 := rget (p1_cell p) (hc_idx c) in
      let* ncf := rget (p1_iter p) k0 in
      let* r := number_faces p c (total, vfit ncf l2g) in let '(total, l2g) := r in
      let* n := rget (p1_byidx p) (hc_idx c) in
      let* tbl := if zlen l2g =? n then rset tbl (hc_idx c) l2g else UB in
      Ok (total, l2g, tbl)) g (zlen (p1_faces p), [], zrepeat [] (zlen g)) in
  let '(total, _, tbl) := r in
  Ok (tbl, total, p1_max p).
(* IncompFlowSolverHybrid.hpp:108-129 topologyIsSane: the neighbours of a cell are pairwise different.
   The code sorts them and looks for equal neighbours in the sorted list. *)
Fixpoint distinct (l : list Z) : bool :=
  match l with [] => true | x :: t => negb (existsb (Z.eqb x) t) && distinct t end.
(* IncompFlowSolverHybrid.hpp:108-129 topologyIsSane *)
Definition topology_is_sane (g : list hcell) : bool :=
  forallb (fun c => distinct (flat_map (fun f => match hf_nb f with Some c1 => [c1] | None => [] end) (hc_faces c))) g.
