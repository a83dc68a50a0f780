(* Boundary grids of opm/elasticity: boundarygrid.cpp and boundarygrid.hh. Points of a face are pairs of reals. *)
From Verif Require Export RBase Matx_Model.
Open Scope Z_scope.

(* boundarygrid.hh 62-84 Vertex: index and coordinates. The flag `fixed` is never read and the pointer `q` is only
   set by find, which returns the quad here. *)
Record vertex := mkVertex { v_i : Z; v_x : R; v_y : R }.
(* boundarygrid.hh 86-117 Quad: four vertices and the bounding box *)
Record quad := mkQuad { q_v0 : vertex; q_v1 : vertex; q_v2 : vertex; q_v3 : vertex; q_lo : R * R; q_hi : R * R }.
(* boundarygrid.hh 235-242: the quads, the flags of fixed nodes and the number of nodes *)
Record bgrid := mkBgrid { bg_quads : list quad; bg_fix : list bool; bg_nodes : Z }.
(* the four vertices in order *)
(* boundarygrid.hh 106 v[4] *)
Definition q_verts (q : quad) : list vertex := [q_v0 q; q_v1 q; q_v2 q; q_v3 q].

(* boundarygrid.cpp 91-102: the bounding box of the four vertices *)
Definition bbox (q : quad) : (R * R) * (R * R) :=
  fold_left (fun b v =>
    let '((lx, ly), (hx, hy)) := b in
    ((if Rltb (v_x v) lx then v_x v else lx, if Rltb (v_y v) ly then v_y v else ly),
     (if Rltb hx (v_x v) then v_x v else hx, if Rltb hy (v_y v) then v_y v else hy)))
    [q_v1 q; q_v2 q; q_v3 q] ((v_x (q_v0 q), v_y (q_v0 q)), (v_x (q_v0 q), v_y (q_v0 q))).
(* boundarygrid.cpp 85-105 add: a quad whose bounding box has an area below 1e-7 is dropped again *)
Definition bg_add (grid : list quad) (q : quad) : list quad :=
  let '(lo, hi) := bbox q in
  let q := mkQuad (q_v0 q) (q_v1 q) (q_v2 q) (q_v3 q) lo hi in
  if Rltb ((fst hi - fst lo) * (snd hi - snd lo))%R (1 / 10000000)%R then grid else grid ++ [q].

(* boundarygrid.cpp 33-51: the quad of cell (i, j); dx, dy are the cell sizes. v[1].c[1] keeps the zero of the
   constructor Quad() (boundarygrid.hh 89-93): it is never assigned. *)
Definition uniform_quad (mn : R * R) (dx dy : R) (k1 : Z) (dc : bool) (i j : Z) : quad :=
  let k := j * (k1 + 1) + i in
  let x := (fst mn + IZR i * dx)%R in let y := (snd mn + IZR j * dy)%R in
  let far := mkVertex (k + k1 + 2) (x + dx)%R (y + dy)%R in
  let up := mkVertex (k + k1 + 1) x (y + dy)%R in
  mkQuad (mkVertex k x y) (mkVertex (k + 1) (x + dx)%R 0%R)
         (if dc then up else far) (if dc then far else up) (0, 0)%R (0, 0)%R.
(* boundarygrid.cpp 35, 40, 44, 49, 52-61: the writes to the flags of fixed nodes made for cell (i, j), in order *)
Definition uniform_flags (k1 k2 : Z) (dc : bool) (i j : Z) : list (Z * bool) :=
  let k := j * (k1 + 1) + i in
  [(k, false); (k + 1, false); (k + k1 + 2, false); (k + k1 + 1, false)]
  ++ if dc then [] else
       (if (i =? 0) && (j =? 0) then [(k, true)] else [])
       ++ (if (i =? k1 - 1) && (j =? 0) then [(k + 1, true)] else [])
       ++ (if (i =? 0) && (j =? k2 - 1) then [(k + k1 + 1, true)] else [])
       ++ (if (i =? k1 - 1) && (j =? k2 - 1) then [(k + k1 + 2, true)] else []).
(* boundarygrid.cpp 24-68 uniform. The cell sizes are unused when there are no cells. *)
Definition bg_uniform (mn mx : R * R) (k1 k2 : Z) (dc : bool) : res bgrid :=
  let dx := ((fst mx - fst mn) / IZR k1)%R in
  let dy := ((snd mx - snd mn) / IZR k2)%R in
  let* fix0 := vresize ((k1 + 1) * (k2 + 1)) false in
  let* r := foldM (fun st ij =>
    let '(grid, fx) := st in
    let '(i, j) := ij in
    let* fx := writes (uniform_flags k1 k2 dc i j) fx in
    Ok (bg_add grid (uniform_quad mn dx dy k1 dc i j), fx)) (pairs (zrange 0 k1) (zrange 0 k2)) ([], fix0) in
  let '(grid, fx) := r in
  Ok (mkBgrid grid fx ((k1 + 1) * (k2 + 1))).

(* boundarygrid.cpp 70-78 extract: the coordinates other than number dir, in order; with dir outside 0..2 the
   loop writes a third component of a two-component vector *)
Definition bg_extract (c : R * R * R) (dir : Z) : res (R * R) :=
  let '(x, y, z) := c in
  if dir =? 0 then Ok (y, z) else if dir =? 1 then Ok (x, z) else if dir =? 2 then Ok (x, y) else UB.

(* hypot(x, y) *)
(* boundarygrid.cpp 114 *)
Definition hypot (x y : R) : R := sqrt (x * x + y * y).
(* boundarygrid.cpp 111-115 EQUAL2 *)
Definition equal2 (x y : R * R) (tol : R) : bool := Rltb (hypot (fst x - fst y) (snd x - snd y)) tol.

(* boundarygrid.cpp 339-348 Quad::evalBasis *)
Definition eval_basis (xi eta : R) : list R := [(1 - xi) * (1 - eta); xi * (1 - eta); xi * eta; (1 - xi) * eta]%R.
(* boundarygrid.cpp 328-337 Quad::pos *)
Definition q_pos (q : quad) (xi eta : R) : R * R :=
  let n k := nth k (eval_basis xi eta) 0%R in
  ((n 0%nat * v_x (q_v0 q) + n 1%nat * v_x (q_v1 q) + n 2%nat * v_x (q_v2 q) + n 3%nat * v_x (q_v3 q))%R,
   (n 0%nat * v_y (q_v0 q) + n 1%nat * v_y (q_v1 q) + n 2%nat * v_y (q_v2 q) + n 3%nat * v_y (q_v3 q))%R).

(* the literal 1.f/3 of boundarygrid.cpp 283-292: the single precision number next to one third *)
Definition single_third : R := (11184811 / 33554432)%R.
(* pow(x, t) for a t that is not an integer; None is NaN *)
(* boundarygrid.cpp 283, 287, 292 *)
Definition fpow (x t : R) : option R := if Rltb 0 x then Some (Rpower x t) else if Req_EM_T x 0 then Some 0%R else None.
(* arithmetic on NaN stays NaN, boundarygrid.cpp 283-306 *)
Definition omap {A B} (f : A -> B) (x : option A) : option B := match x with Some a => Some (f a) | None => None end.

(* boundarygrid.cpp 272-306: the cubic part of cubicSolve, for an empty X. None entries are NaN. The result None
   is the return value false. A comparison with the NaN sqrt(W) of a negative W fails (line 286). *)
Definition cubic_part (third eps A B C D : R) : option (list (option R)) :=
  let epsmall := (eps ^ 6)%R in
  let P := ((C - B * B / (3 * A)) / (3 * A))%R in
  let Q := (((2 * B * B / (27 * A) - C / 3) * B / A + D) / (2 * A))%R in
  let W := (Q * Q + P * P * P)%R in
  let one x0 := [x0; omap (fun x => - (1 / 2) * x)%R x0; omap (fun x => - (1 / 2) * x)%R x0] in
  let X :=
    if Rleb W (- epsmall) && Rltb P 0 then
      let FI := acos (- Q / sqrt (- P * P * P)) in
      Some [Some (2 * sqrt (- P) * cos (FI / 3))%R; Some (- 2 * sqrt (- P) * cos ((FI + PI) / 3))%R;
            Some (- 2 * sqrt (- P) * cos ((FI - PI) / 3))%R]
    else if Rltb (Rabs W) epsmall && Rltb Q 0 then
      Some (one (omap (fun r => 2 * r)%R (fpow (- Q) third)))
    else if Rltb (- epsmall) W && Rleb 0 W && Rltb (Q + sqrt W) 0 && Rltb (Q - sqrt W) 0 then
      Some (one (match fpow (- Q + sqrt W) third, fpow (- Q - sqrt W) third with
                 | Some a, Some b => Some (a + b)%R | _, _ => None end))
    else if Rleb epsmall W && Rltb epsmall (Rabs Q) && Rltb 0 P then
      let FI := atan (sqrt (P * P * P) / Q) in
      Some (one (omap (fun r => let KI := atan r in - 2 * sqrt P / tan (KI + KI))%R (fpow (tan (1 / 2 * FI)) third)))
    else None in
  omap (map (omap (fun x => x - B / (3 * A))%R)) X.
(* boundarygrid.cpp 269-326 cubicSolve for an empty X *)
Definition cubic_solve (third eps A B C D : R) : option (list (option R)) :=
  if Rltb eps (Rabs A) then cubic_part third eps A B C D
  else if Rltb eps (Rabs B) then
    let epsmall := (eps ^ 4)%R in
    let P := (C * C - 4 * B * D)%R in
    if Rltb 0 P then
      let Q := sqrt P in Some [Some ((- C + Q) / (B + B))%R; Some ((- C - Q) / (B + B))%R]
    else if Rltb (- epsmall) P then Some [Some (- C / (B + B))%R; Some (- C / (B + B))%R]
    else None
  else if Rltb eps (Rabs C) then Some [Some (- D / C)%R]
  else None.
(* the numbers pushed onto Z by cubicSolve; when it returns false nothing has been pushed. NaN entries, which only
   the cubic part produces, are left out: the callers in bilinearSolve pass A = 0. *)
(* boundarygrid.cpp 272-330 *)
Definition solutions (r : option (list (option R))) : list R :=
  match r with Some l => flat_map (fun x => match x with Some a => [a] | None => [] end) l | None => [] end.

(* the four coefficients A[0..3] of boundarygrid.hh 252-264 *)
Record coefs := mkCoefs { c0 : R; c1 : R; c2 : R; c3 : R }.
(* boundarygrid.cpp 217-225 *)
Definition bil_tol (epsilon : R) (A B : coefs) : R :=
  (fold_left (fun tol x => if Rltb tol (Rabs x) then Rabs x else tol)
             [c0 A; c0 B; c1 A; c1 B; c2 A; c2 B; c3 A; c3 B] 0 * epsilon)%R.
(* boundarygrid.cpp 212-267 bilinearSolve for empty X and Y: the pairs (X[k], Y[k]). The return value is whether
   the list is non-empty. *)
Definition bilinear_solve (epsilon order : R) (A B : coefs) : list (R * R) :=
  let tol := bil_tol epsilon A B in
  let det := (c1 A * c2 B - c1 B * c2 A)%R in
  if Rltb (Rabs (c0 A)) tol && Rltb (Rabs (c0 B)) tol then
    if Rltb (Rabs det) (tol * tol) then []
    else [((c2 B * c3 A - c2 A * c3 B) / det, (- c1 B * c3 A + c1 A * c3 B) / det)%R]
  else
    let Z := solutions (cubic_solve single_third epsilon 0 (c0 A * c1 B - c0 B * c1 A)
                         (c0 B * c3 A - c0 A * c3 B - det) (c2 B * c3 A - c2 A * c3 B)) in
    let XY := flat_map (fun z => let Q0 := (c0 A * z + c2 A)%R in
                if Rltb tol (Rabs Q0) then [(z, ((c3 A - c1 A * z) / Q0)%R)] else []) Z in
    let Z := solutions (cubic_solve single_third epsilon 0 (c0 A * c2 B - c0 B * c2 A)
                         (c0 B * c3 A - c0 A * c3 B + det) (c1 B * c3 A - c1 A * c3 B)) in
    fold_left (fun XY z => let Q0 := (c0 A * z + c1 A)%R in
      if Rltb tol (Rabs Q0) then
        if existsb (fun xy => Rleb (Rabs (snd xy - z)) (epsilon * order)) XY then XY
        else XY ++ [(((c3 A - c2 A * z) / Q0)%R, z)]
      else XY) Z XY.

(* boundarygrid.cpp 157-161 and 163-167 *)
Definition quad_coefs (f : vertex -> R) (q : quad) (p : R) : coefs :=
  mkCoefs (f (q_v0 q) - f (q_v1 q) + f (q_v2 q) - f (q_v3 q)) (- f (q_v0 q) + f (q_v1 q))
          (- f (q_v0 q) + f (q_v3 q)) (p - f (q_v0 q)).
(* boundarygrid.cpp 184-207: the loop over the solutions found; the state is the counter, nInside and res *)
Definition q4_step (q : quad) (coord : R * R) (tol : R) (st : Z * Z * (R * R)) (s : R * R) : Z * Z * (R * R) :=
  let '(i, inside, res) := st in
  let dist p := let at_ := q_pos q (fst p) (snd p) in hypot (fst coord - fst at_) (snd coord - snd at_) in
  if Rltb (fst s) tol && Rltb (snd s) tol then
    if (1 <? inside + 1) && Rltb (dist res) (dist s) then (i + 1, inside + 1, res) else (i + 1, inside + 1, s)
  else if (inside =? 0) && (0 <? i) && Rltb (dist res) (dist s) then (i + 1, inside, res)
  else (i + 1, inside, s).
(* boundarygrid.cpp 149-210 Q4inv: the number of solutions and res; init is what res held before *)
Definition q4inv (q : quad) (coord : R * R) (eps_zero eps_out : R) (init : R * R) : Z * (R * R) :=
  let A := quad_coefs v_x q (fst coord) in
  let B := quad_coefs v_y q (snd coord) in
  let '(_, inside, res) := fold_left (q4_step q coord (1 + eps_out)) (bilinear_solve eps_zero 1 A B) (0, 0, init) in
  (inside, res).

(* boundarygrid.hh 215-232 BoundedPredicate *)
Definition bounded (coord : R * R) (q : quad) : bool :=
  let eps := (1 / 100000000)%R in
  Rleb (fst (q_lo q) - eps) (fst coord) && Rleb (fst coord) (fst (q_hi q) + eps) &&
  Rleb (snd (q_lo q) - eps) (snd coord) && Rleb (snd coord) (snd (q_hi q) + eps).
(* what find reports: a node of the grid, or local coordinates; both with the quad *)
(* boundarygrid.cpp 117-147 *)
Inductive located := AtNode (i : Z) (q : quad) | Within (xi eta : R) (q : quad).
(* boundarygrid.cpp 117-147 find; None is the failure of line 142, an assertion. Quads outside of whose bounding
   box the point is are passed over by find_if. *)
Fixpoint bg_find (grid : list quad) (coord : R * R) (init : R * R) : option located :=
  match grid with
  | [] => None
  | q :: t =>
    if bounded coord q then
      match find (fun v => equal2 coord (v_x v, v_y v) (1 / 100000000)) (q_verts q) with
      | Some v => Some (AtNode (v_i v) q)
      | None => let '(n, r) := q4inv q coord (1 / 100000000) (1 / 100000000) init in
        if 0 <? n then Some (Within (fst r) (snd r) q) else bg_find t coord r
      end
    else bg_find t coord init
  end.

(* ---- boundarygrid.cpp 350-388. srt d sorts by coordinate d (VertexLess, boundarygrid.hh 197-212) *)
Definition sorter := Z -> list vertex -> list vertex.
(* 355-357, 385-387: sort by x, then the first two by y *)
Definition left_sorted (srt : sorter) (l : list vertex) : res (list vertex) :=
  if zlen l <? 2 then UB else let s := srt 0 l in Ok (srt 1 (firstn 2 s) ++ skipn 2 s).
(* 365-367, 375-377: sort by x, then all but the first two by y *)
Definition right_sorted (srt : sorter) (l : list vertex) : res (list vertex) :=
  if zlen l <? 2 then UB else let s := srt 0 l in Ok (firstn 2 s ++ srt 1 (skipn 2 s)).
(* 350-358, 360-368, 370-378, 380-388 *)
Definition minx_miny srt l : res vertex := let* s := left_sorted srt l in rget s 0.
(* 360-368 *)
Definition maxx_miny srt l : res vertex := let* s := right_sorted srt l in rget s (zlen s - 2).
(* 370-378 *)
Definition maxx_maxy srt l : res vertex := let* s := right_sorted srt l in rget s (zlen s - 1).
(* 380-388 *)
Definition minx_maxy srt l : res vertex := let* s := left_sorted srt l in rget s 1.

(* ---- boundarygrid.hh 294-488 HexGeometry<2,...>: the four corners, numbered as in Dune *)
Record hexgeo := mkHex { h_c0 : R * R; h_c1 : R * R; h_c2 : R * R; h_c3 : R * R }.
(* 348-353 the constructor from a quad *)
Definition hex_of (q : quad) : hexgeo :=
  mkHex (v_x (q_v0 q), v_y (q_v0 q)) (v_x (q_v1 q), v_y (q_v1 q)) (v_x (q_v2 q), v_y (q_v2 q)) (v_x (q_v3 q), v_y (q_v3 q)).
(* 343, 352 the volume *)
Definition hex_volume (h : hexgeo) : R := ((fst (h_c1 h) - fst (h_c0 h)) * (snd (h_c2 h) - snd (h_c0 h)))%R.
(* the pattern of 398-401 and 443-446, with the corner *)
Definition hex_pat (h : hexgeo) : list (bool * bool * (R * R)) :=
  [(false, false, h_c0 h); (true, false, h_c1 h); (false, true, h_c2 h); (true, true, h_c3 h)].
(* uvw of 395-396: 1 - u or u *)
Definition uvw (b : bool) (u : R) : R := if b then u else (1 - u)%R.
(* 452-455: the factor for the derivative *)
Definition duvw (b : bool) : R := if b then 1%R else (-1)%R.
(* the loop of 402-411: corners times factors, added up *)
Definition hex_combine (h : hexgeo) (factor : bool -> bool -> R) : R * R :=
  fold_left (fun s pc => let '(a, b, c) := pc in (fst s + fst c * factor a b, snd s + snd c * factor a b)%R)
            (hex_pat h) (0, 0)%R.
(* 392-413 global *)
Definition hex_global (h : hexgeo) (x : R * R) : R * R :=
  hex_combine h (fun a b => 1 * uvw a (fst x) * uvw b (snd x))%R.
(* 436-462 jacobianTransposed: its two rows *)
Definition hex_jt (h : hexgeo) (x : R * R) : (R * R) * (R * R) :=
  (hex_combine h (fun a b => 1 * duvw a * uvw b (snd x))%R, hex_combine h (fun a b => 1 * uvw a (fst x) * duvw b)%R).
(* FieldMatrixHelper::xTRightInvA for a square matrix: dx with JT^T dx = z (dune-common), a division by zero when
   the matrix is singular *)
(* boundarygrid.hh 428 *)
Definition solve_jt (jt : (R * R) * (R * R)) (z : R * R) : res (R * R) :=
  let '((a, b), (c, d)) := jt in
  let det := (a * d - b * c)%R in
  let* dx := mdiv (d * fst z - c * snd z) det in
  let* dy := mdiv (a * snd z - b * fst z) det in
  Ok (dx, dy).
(* 417-432 local: Newton's method, at most fuel iterations; None when they are used up. The start is the centre
   of the reference square. *)
Fixpoint hex_newton (fuel : nat) (h : hexgeo) (y x : R * R) : res (option (R * R)) :=
  match fuel with
  | O => Ok None
  | S fuel =>
    let g := hex_global h x in
    let* dx := solve_jt (hex_jt h x) (fst g - fst y, snd g - snd y)%R in
    let x := (fst x - fst dx, snd x - snd dx)%R in
    let eps := (1 / 10000000000)%R in
    if Rltb (eps * eps) (fst dx * fst dx + snd dx * snd dx) then hex_newton fuel h y x else Ok (Some x)
  end.
(* boundarygrid.hh 417-434 local: the start is the centre *)
Definition hex_local (fuel : nat) (h : hexgeo) (y : R * R) : res (option (R * R)) := hex_newton fuel h y (1 / 2, 1 / 2)%R.
(* 476-480 integrationElement: sqrt of the determinant of J J^T *)
Definition hex_integration (h : hexgeo) (x : R * R) : R :=
  let '((a, b), (c, d)) := hex_jt h x in
  sqrt ((a * a + b * b) * (c * c + d * d) - (a * c + b * d) * (a * c + b * d)).
