(* ReservoirPropertyCommon_impl.hpp: rock properties read from a deck.  Line numbers refer to that file.
   Rock_impl.hpp (36-186) repeats the porosity and permeability parts line by line. *)
From Verif Require Export Matx_Model.
Open Scope Z_scope.

(* the permeability keywords PERMX PERMXY PERMXZ PERMYX PERMY PERMYZ PERMZX PERMZY PERMZ (72-82) *)
Inductive pkw := KX | KXY | KXZ | KYX | KY | KYZ | KZX | KZY | KZ.
(* Opm::Deck: the arrays of the keywords that are present, in SI units, and the product of
   EclipseGridInspector::gridSize(). A keyword given more than once: the last occurrence (back()). *)
(* read at ReservoirPropertyCommon_impl.hpp:72-82, 196-330 *)
Record deck := mkDeck { dk_size : Z; dk_perm : pkw -> option (list R);
  dk_poro : option (list R); dk_ntg : option (list R); dk_swcr : option (list R); dk_sowcr : option (list R);
  dk_satnum : option (list Z); dk_rocktype : option (list Z) }.
(* deck.hasKeyword *)
(* ReservoirPropertyCommon_impl.hpp:72-82, 196 *)
Definition has {A} (o : option A) : bool := match o with Some _ => true | None => false end.
(* enum PermeabilityKind (ReservoirPropertyCommon.hpp:50) *)
Inductive pkind := ScalarPerm | DiagonalPerm | TensorPerm | NonePerm | InvalidPerm.
(* bool in an integer sum (84-85) *)
Definition b2z (b : bool) : Z := if b then 1 else 0.

(* 70-115 classifyPermeability *)
Definition classify (d : deck) : pkind :=
  let xx := has (dk_perm d KX) in let xy := has (dk_perm d KXY) in let xz := has (dk_perm d KXZ) in
  let yx := has (dk_perm d KYX) in let yy := has (dk_perm d KY) in let yz := has (dk_perm d KYZ) in
  let zx := has (dk_perm d KZX) in let zy := has (dk_perm d KZY) in let zz := has (dk_perm d KZ) in
  let num_cross := b2z xy + b2z xz + b2z yx + b2z yz + b2z zx + b2z zy in
  let num := b2z xx + b2z yy + b2z zz + num_cross in
  let retval := if 0 <? num_cross then TensorPerm
                else if num =? 1 then ScalarPerm else if 2 <=? num then DiagonalPerm else NonePerm in
  let ok := if 0 <? num then
              (xx || negb (xy || xz || yx || zx)) && (yy || negb (yx || yz || xy || zy)) && (zz || negb (zx || zy || xz || yz))
            else true in
  if ok then retval else InvalidPerm.

(* 138-143 setScalarPermIfNeeded *)
Definition scalar_if_needed (kmap : list Z) (i j k : Z) : res (list Z) :=
  let* ki := rget kmap i in
  let* kj := rget kmap j in
  let* kmap := if kj =? 0 then rset kmap j ki else Ok kmap in
  let* kk := rget kmap k in
  if kk =? 0 then rset kmap k ki else Ok kmap.
(* tensor and kmap (180-181) *)
Definition tstate := (list (list R) * list Z)%type.
(* 196-201, 217-222, 237-242: a diagonal component; i is its place, j and k those of the other two *)
Definition take_diag (o : option (list R)) (i j k : Z) (s : tstate) : res tstate :=
  match o with
  | None => Ok s
  | Some l =>
      let '(t, kmap) := s in
      let* kmap := rset kmap i (zlen t) in
      let* kmap := scalar_if_needed kmap i j k in
      Ok (t ++ [l], kmap)
  end.
(* 202-209, 213-216, 223-226, 230-236: an off-diagonal component and its transpose *)
Definition take_cross (o : option (list R)) (i j : Z) (s : tstate) : res tstate :=
  match o with
  | None => Ok s
  | Some l =>
      let '(t, kmap) := s in
      let* kmap := rset kmap j (zlen t) in
      let* kmap := rset kmap i (zlen t) in
      Ok (t ++ [l], kmap)
  end.
(* 179-245 fillTensor, called with tensor = [zero] *)
Definition fill_tensor (d : deck) (zero : list R) : res (pkind * tstate) :=
  match classify d with
  | InvalidPerm => Throw
  | kind =>
      let s := ([zero], zrepeat 0 9) in
      let* s := take_diag (dk_perm d KX) 0 4 8 s in
      let* s := take_cross (dk_perm d KXY) 1 3 s in
      let* s := take_cross (dk_perm d KXZ) 2 6 s in
      let* s := take_cross (dk_perm d KYX) 3 1 s in
      let* s := take_diag (dk_perm d KY) 4 8 0 s in
      let* s := take_cross (dk_perm d KYZ) 5 7 s in
      let* s := take_cross (dk_perm d KZX) 6 2 s in
      let* s := take_cross (dk_perm d KZY) 7 5 s in
      let* s := take_diag (dk_perm d KZ) 8 0 4 s in
      Ok (kind, s)
  end.

(* 593-614, 617-638, 641-663, 666-688: assignPorosity, assignNTG (default 1.0), assignSWCR, assignSOWCR
   (default 0.0) *)
Definition assign_field (size : Z) (o : option (list R)) (default : R) (global_cell : list Z) : res (list R) :=
  let init := zrepeat default (zlen global_cell) in
  match o with
  | None => Ok init
  | Some l =>
      if negb (zlen l =? size) then Throw else
      foldM (fun v c => let* g := rget global_cell c in let* x := rget l g in rset v c x) (zrange 0 (zlen init)) init
  end.
(* 725-735: row i of the tensor of one cell, stored from place off on (a C-ordered 3x3 matrix) *)
Definition assign_row (t : list (list R)) (kmap : list Z) (glob off : Z) (threshold : R) (p : list R) (i : Z) : res (list R) :=
  let* p := foldM (fun p j =>
      let* m := rget kmap (i * 3 + j) in
      let* f := rget t m in
      let* v := rget f glob in
      rset p (off + i * 3 + j) v) (zrange 0 3) p in
  let* x := rget p (off + i * 3 + i) in
  rset p (off + i * 3 + i) (smax x threshold).
(* 718-739: one cell *)
Definition assign_cell (t : list (list R)) (kmap : list Z) (global_cell : list Z) (threshold : R)
    (pv : list R * list bool) (c : Z) : res (list R * list bool) :=
  let* glob := rget global_cell c in
  let* p := foldM (assign_row t kmap glob (9 * c) threshold) (zrange 0 3) (fst pv) in
  let* v := rset (snd pv) c true in
  Ok (p, v).
(* 691-747 assignPermeability: the kind, permeability_ and permfield_valid_ *)
Definition assign_permeability (d : deck) (global_cell : list Z) (threshold : R) (valid : list bool) : res (pkind * list R * list bool) :=
  let p := zrepeat 0%R (9 * zlen global_cell) in
  let* r := fill_tensor d (zrepeat 0%R (dk_size d)) in
  let '(kind, (t, kmap)) := r in
  if existsb (fun f => negb (zlen f =? dk_size d)) (tl t) then Throw else
  let* pv := if 1 <? zlen t then foldM (assign_cell t kmap global_cell threshold) (zrange 0 (zlen global_cell)) (p, valid)
             else Ok (p, valid) in
  Ok (kind, fst pv, snd pv).
(* 753-794 assignRockTable *)
Definition assign_rock_table (d : deck) (global_cell : list Z) : res (list Z) :=
  let nc := zlen global_cell in
  let init := zrepeat 0 nc in
  let take (l : list Z) :=
    if negb (zlen l =? dk_size d) then Throw else
    foldM (fun v c => let* g := rget global_cell c in let* x := rget l g in rset v c (x - 1)) (zrange 0 nc) init in
  match dk_satnum d with
  | Some l => take l
  | None => match dk_rocktype d with Some l => take l | None => Ok init end
  end.

(* the members filled from the deck (ReservoirPropertyCommon.hpp:233-248) *)
Record rprop := mkRprop { rp_poro : list R; rp_ntg : list R; rp_swcr : list R; rp_sowcr : list R;
  rp_kind : pkind; rp_perm : list R; rp_valid : list bool; rp_rock : list Z }.
(* 276-297 init from a deck, before rock tables are read *)
Definition init_deck (d : deck) (global_cell : list Z) (threshold : R) : res rprop :=
  let valid := zrepeat false (zlen global_cell) in
  let* poro := assign_field (dk_size d) (dk_poro d) 1 global_cell in
  let* ntg := assign_field (dk_size d) (dk_ntg d) 1 global_cell in
  let* swcr := assign_field (dk_size d) (dk_swcr d) 0 global_cell in
  let* sowcr := assign_field (dk_size d) (dk_sowcr d) 0 global_cell in
  let* k := assign_permeability d global_cell threshold valid in
  let '(kind, perm, valid) := k in
  let* rock := assign_rock_table d global_cell in
  Ok (mkRprop poro ntg swcr sowcr kind perm valid rock).
(* 417-426 permeabilityModifiable followed by K(dd, dd) = uniform_perm (328-331), one cell *)
Definition uniform_cell (perm : R) (pv : list R * list bool) (c : Z) : res (list R * list bool) :=
  let* v := rset (snd pv) c true in
  let* p := foldM (fun p dd => rset p (9 * c + dd * 3 + dd) perm) (zrange 0 3) (fst pv) in
  Ok (p, v).
(* 320-335 init of a uniform reservoir; the net-to-gross and critical saturation arrays stay empty.
   A negative number of cells would be a huge size_t: not modelled. *)
Definition init_uniform (num_cells : Z) (poro perm : R) (kind : pkind) : res rprop :=
  let* pv := foldM (uniform_cell perm) (zrange 0 num_cells) (zrepeat 0%R (9 * num_cells), zrepeat true num_cells) in
  Ok (mkRprop (zrepeat poro num_cells) [] [] [] kind (fst pv) (snd pv) (zrepeat 0 num_cells)).
(* 406-412 permeability: a C-ordered 3x3 view of permeability_; the assertion of 408 fails: UB *)
Definition permeability (r : rprop) (c : Z) : res mat :=
  let* v := rget (rp_valid r) c in
  if negb v then UB else
  let* _ := rget (rp_perm r) (9 * c) in
  Ok (mkMat 3 3 COrd (zslice (rp_perm r) (9 * c) (9 * c + 9))).
(* 533-577 writeSintefLegacyFormat: the porosities and the lines of the permeability file *)
Definition write_legacy (r : rprop) : res (list R * list (list R)) :=
  let num_cells := zlen (rp_poro r) in
  let* lines := match rp_kind r with
    | TensorPerm => Ok (map (fun x => [x]) (rp_perm r))
    | DiagonalPerm => mapM (fun c => mapM (fun dd => rget (rp_perm r) (c * 9 + 4 * dd)) (zrange 0 3)) (zrange 0 num_cells)
    | ScalarPerm | NonePerm => mapM (fun c => let* x := rget (rp_perm r) (c * 9) in Ok [x]) (zrange 0 num_cells)
    | InvalidPerm => Throw
    end in
  Ok (rp_poro r, lines).
