(* What the theorems about boundary grids talk about. *)
From Coq Require Export Reals Lra Permutation Sorted.
From Verif Require Export RBase Bgrid_Model.
Open Scope Z_scope.

(* the corner of cell number i, j of the rectangle from mn to mx cut into k1 by k2 equal cells *)
Definition grid_x (mn mx : R * R) (k1 i : Z) : R := (fst mn + IZR i * ((fst mx - fst mn) / IZR k1))%R.
Definition grid_y (mn mx : R * R) (k2 j : Z) : R := (snd mn + IZR j * ((snd mx - snd mn) / IZR k2))%R.
(* the vertex with grid numbers i, j; nodes are numbered along x first *)
Definition node (mn mx : R * R) (k1 k2 i j : Z) : vertex :=
  mkVertex (j * (k1 + 1) + i) (grid_x mn mx k1 i) (grid_y mn mx k2 j).
(* the four corners of cell (i, j), in cyclic order or (dc) in Dune's order. The second has height 0, not the
   height of the node it stands for. *)
Definition cell_corners (mn mx : R * R) (k1 k2 : Z) (dc : bool) (i j : Z) : list vertex :=
  let second := mkVertex (j * (k1 + 1) + (i + 1)) (grid_x mn mx k1 (i + 1)) 0 in
  if dc then [node mn mx k1 k2 i j; second; node mn mx k1 k2 i (j + 1); node mn mx k1 k2 (i + 1) (j + 1)]
  else [node mn mx k1 k2 i j; second; node mn mx k1 k2 (i + 1) (j + 1); node mn mx k1 k2 i (j + 1)].

(* lo and hi are the least and the greatest value of f on the list *)
Definition extent {A} (f : A -> R) (l : list A) (lo hi : R) : Prop :=
  (exists a, In a l /\ f a = lo) /\ (exists a, In a l /\ f a = hi) /\ (forall a, In a l -> lo <= f a <= hi)%R.
(* the area of the axis-parallel box around some vertices is at least 1e-7 *)
Definition roomy (l : list vertex) : Prop :=
  forall xl xh yl yh, extent v_x l xl xh -> extent v_y l yl yh -> ((xh - xl) * (yh - yl) >= 1 / 10000000)%R.
(* the quad's bounding box is the box around its vertices *)
Definition boxed (q : quad) : Prop :=
  extent v_x (q_verts q) (fst (q_lo q)) (fst (q_hi q)) /\ extent v_y (q_verts q) (snd (q_lo q)) (snd (q_hi q)).

(* the cubic polynomial and its value *)
Definition poly (A B C D x : R) : R := (A * x ^ 3 + B * x ^ 2 + C * x + D)%R.
(* x and y solve the two bilinear equations *)
Definition solves (A B : coefs) (x y : R) : Prop :=
  (c0 A * (x * y) + c1 A * x + c2 A * y = c3 A /\ c0 B * (x * y) + c1 B * x + c2 B * y = c3 B)%R.
(* a quadratic polynomial as bilinearSolve meets it: the leading coefficient is zero or well above the tolerance,
   and the discriminant is not just below zero *)
Definition clear_cut (eps B C D : R) : Prop :=
  (B = 0 \/ eps < Rabs B)%R /\ (0 <= C * C - 4 * B * D \/ C * C - 4 * B * D <= - (eps ^ 4) \/ B = 0)%R.
(* the largest coefficient *)
Definition size_of (A B : coefs) : R :=
  fold_right Rmax 0%R (map Rabs [c0 A; c0 B; c1 A; c1 B; c2 A; c2 B; c3 A; c3 B]).
(* no quantity the solver compares with a tolerance is positive and below it: bilinear terms, leading
   coefficients and discriminants of the two quadratic polynomials *)
Definition clear_system (eps : R) (A B : coefs) : Prop :=
  let det := (c1 A * c2 B - c1 B * c2 A)%R in
  let tol := (eps * size_of A B)%R in
  ((Rabs (c0 A) < tol /\ Rabs (c0 B) < tol -> c0 A = 0 /\ c0 B = 0) /\
   clear_cut eps (c0 A * c1 B - c0 B * c1 A) (c0 B * c3 A - c0 A * c3 B - det) (c2 B * c3 A - c2 A * c3 B) /\
   clear_cut eps (c0 A * c2 B - c0 B * c2 A) (c0 B * c3 A - c0 A * c3 B + det) (c1 B * c3 A - c1 A * c3 B))%R.
(* the second coordinates the solver may divide by are zero or above the tolerance *)
Definition clear_pivots (eps : R) (A B : coefs) : Prop :=
  forall x y, solves A B x y ->
    (c0 A * x + c2 A = 0 \/ eps * size_of A B < Rabs (c0 A * x + c2 A))%R.

(* the equations that the local coordinates of the point p in the quad q solve *)
Definition x_eq (q : quad) (p : R * R) : coefs := quad_coefs v_x q (fst p).
Definition y_eq (q : quad) (p : R * R) : coefs := quad_coefs v_y q (snd p).
(* twice the area of the triangle with corners a, b, c, positive when they are passed counterclockwise *)
Definition area2 (a b c : vertex) : R := ((v_x b - v_x a) * (v_y c - v_y a) - (v_x c - v_x a) * (v_y b - v_y a))%R.
(* a convex quad passed counterclockwise whose corner triangles have an area above m / 2 *)
Definition convex (m : R) (q : quad) : Prop :=
  (m < area2 (q_v0 q) (q_v1 q) (q_v3 q) /\ m < area2 (q_v1 q) (q_v2 q) (q_v0 q) /\
   m < area2 (q_v2 q) (q_v3 q) (q_v1 q) /\ m < area2 (q_v3 q) (q_v0 q) (q_v2 q))%R.

(* srt sorts by the chosen coordinate; equal vertices may come in any order *)
Definition coord_of (d : Z) (v : vertex) : R := if d =? 0 then v_x v else v_y v.
Definition sorts (srt : sorter) : Prop :=
  forall d l, Permutation l (srt d l) /\ StronglySorted (fun a b => coord_of d a <= coord_of d b)%R (srt d l).

(* how far a quad is from a parallelogram *)
Definition twist (h : hexgeo) : R * R :=
  (fst (h_c0 h) - fst (h_c1 h) - fst (h_c2 h) + fst (h_c3 h), snd (h_c0 h) - snd (h_c1 h) - snd (h_c2 h) + snd (h_c3 h))%R.

(* a quad with given corners, and the tolerance find uses *)
Definition vtx (x y : R) : vertex := mkVertex 0 x y.
Definition quad_at (x0 y0 x1 y1 x2 y2 x3 y3 : R) : quad :=
  mkQuad (vtx x0 y0) (vtx x1 y1) (vtx x2 y2) (vtx x3 y3) (0, 0)%R (0, 0)%R.
Definition tiny : R := (1 / 100000000)%R.

(* with x = t - B/(3A) the cubic is A (t^3 + 3 p t + 2 q); it has three different real roots when q^2 + p^3 < 0, a
   double root when it is 0 and one real root otherwise *)
Definition dep_p (A B C : R) : R := ((C - B * B / (3 * A)) / (3 * A))%R.
Definition dep_q (A B C D : R) : R := (((2 * B * B / (27 * A) - C / 3) * B / A + D) / (2 * A))%R.
Definition dep_w (A B C D : R) : R := (dep_q A B C D * dep_q A B C D + dep_p A B C * dep_p A B C * dep_p A B C)%R.
