(* What the theorems about boundary conditions and mortar couplings talk about. *)
From Coq Require Export Reals Lra Permutation Sorted.
From Verif Require Export RBase Eups_Model Bgrid_Spec Lin_Spec Smat_Spec Asm_Spec.
Open Scope Z_scope.

(* ---- multiplier nodes: m elements in a row with n1 by n2 nodes each *)
(* different rows of nodes: the last row is the first one when there are more than two *)
Definition free_rows (n2 : Z) : Z := if 2 <? n2 then n2 - 1 else n2.
Definition row_of (n2 i2 : Z) : Z := if (i2 =? n2 - 1) && (2 <? n2) then 0 else i2.
(* different columns: neighbouring elements share one, and all but the first column of the last element are the
   first column of the first element *)
Definition free_cols (m n1 : Z) : Z := (m - 1) * (n1 - 1) + 1.
Definition col_of (m n1 e i1 : Z) : Z := if (e =? m - 1) && (0 <? i1) then 0 else e * (n1 - 1) + i1.
(* num numbers the pairs of a row and a column, except the first, by 0 .. rows * cols - 2 *)
Definition numbers_pairs (rows cols : Z) (num : Z -> Z -> Z) : Prop :=
  num 0 0 = -1 /\
  (forall r c r' c', 0 <= r < rows -> 0 <= c < cols -> 0 <= r' < rows -> 0 <= c' < cols -> num r c = num r' c' -> r = r' /\ c = c') /\
  (forall r c, 0 <= r < rows -> 0 <= c < cols -> -1 <= num r c < rows * cols - 1) /\
  (forall k, 0 <= k < rows * cols - 1 -> exists r c, 0 <= r < rows /\ 0 <= c < cols /\ num r c = k).

(* ---- faces *)
(* the two coordinates of a position other than number d, in order *)
Definition others (d : Z) (c : pos3) : R * R :=
  if d =? 0 then (pc c 1, pc c 2) else if d =? 1 then (pc c 0, pc c 2) else (pc c 0, pc c 1).
(* vertex number n of the grid as a vertex of a face with normal d *)
Definition on_plane (tol : R) (verts : list pos3) (d : Z) (coord : R) (v : vertex) : Prop :=
  exists c, zget verts (v_i v) = Some c /\ (Rabs (coord - pc c d) < tol)%R /\ (v_x v, v_y v) = others d c.
(* sum of the coordinate differences *)
Definition dist1 (a b : pos3) : R := (Rabs (pc a 0 - pc b 0) + Rabs (pc a 1 - pc b 1) + Rabs (pc a 2 - pc b 2))%R.
(* every coordinate of c is the least or the greatest one *)
Definition at_corner (mn mx : Z -> R) (c : pos3) : Prop := forall p, 0 <= p < 3 -> pc c p = mn p \/ pc c p = mx p.
(* directions between 0 and 7 and three values at every fixed node *)
Definition wf_fixed (F : fixmap) : Prop := increasing (map fst F) /\ forall n d v, fx_find F n = Some (d, v) -> 0 <= d < 8 /\ zlen v = 3.
(* the eight vertices of every cell exist *)
Definition wf_cells (verts : list pos3) (cells : list (list Z)) : Prop :=
  forall cell, In cell cells -> zlen cell = 8 /\ forall n, In n cell -> 0 <= n < zlen verts.
(* the corners of the face of a cell with normal d: vertex number f of a cell is on the high side in direction d
   when bit d of f is set *)
Definition face_corner (verts : list pos3) (d : Z) (side : bool) (cell : list Z) (v : vertex) : Prop :=
  exists f c, 0 <= f < 8 /\ Z.testbit f d = side /\ zget cell f = Some (v_i v) /\ zget verts (v_i v) = Some c /\ (v_x v, v_y v) = others d c.
(* all corners of the face are on the plane *)
Definition on_boundary (tol : R) (verts : list pos3) (d : Z) (coord : R) (side : bool) (cell : list Z) : Prop :=
  forall f, 0 <= f < 8 -> Z.testbit f d = side -> exists n c, zget cell f = Some n /\ zget verts n = Some c /\ (Rabs (coord - pc c d) < tol)%R.
(* the corners of a quad from the lower left one, counterclockwise or (dc) in Dune's order *)
Definition oriented (dc : bool) (q : quad) : Prop :=
  let '(b, c, d) := if dc then (q_v1 q, q_v3 q, q_v2 q) else (q_v1 q, q_v2 q, q_v3 q) in
  let a := q_v0 q in
  (v_y a <= v_y d /\ v_y b <= v_y c /\ forall u w, In u [a; d] -> In w [b; c] -> v_x u <= v_x w)%R.
(* the quad of a cell's face *)
Definition quad_of_face (verts : list pos3) (d : Z) (side dc : bool) (cell : list Z) (q : quad) : Prop :=
  oriented dc q /\
  Permutation (map (fun v => Some (v_i v)) (q_verts q)) (map (zget cell) (filter (fun f => Bool.eqb (Z.testbit f d) side) (zrange 0 8))) /\
  forall v, In v (q_verts q) -> face_corner verts d side cell v.
(* two quads belong to the same pillar *)
Definition near (q q' : quad) : Prop := (Rabs (v_x (q_v0 q) - v_x (q_v0 q')) < 1 / 10000000)%R.
Definition nearb (q q' : quad) : bool := Rltb (Rabs (v_x (q_v0 q) - v_x (q_v0 q'))) (1 / 10000000)%R.
(* l' are the elements of l with property P, in order *)
Inductive picks {A} (P : A -> Prop) : list A -> list A -> Prop :=
| picks_nil : picks P [] []
| picks_in a l l' : P a -> picks P l l' -> picks P (a :: l) (a :: l')
| picks_out a l l' : ~ P a -> picks P l l' -> picks P (a :: l) l'.
(* the pillars made of the quads qs: each has a first quad with the others near it, every quad is in one of them, and
   they are ordered by their first quads, which are not near each other *)
Definition first_left (a b : list quad) : Prop :=
  forall q q', hd_error a = Some q -> hd_error b = Some q' -> (v_x (q_v0 q) + 1 / 10000000 <= v_x (q_v0 q'))%R.
Definition pillars (qs : list quad) (cols : list (list quad)) : Prop :=
  Permutation (concat cols) qs /\ (forall col, In col cols -> exists q t, col = q :: t /\ forall q', In q' col -> near q q') /\
  StronglySorted first_left cols.
(* quads near the same quad are near each other *)
Definition separated (qs : list quad) : Prop :=
  forall a b c, In a qs -> In b qs -> In c qs -> near a b -> near b c -> near a c.

(* ---- periodic constraints *)
(* the nodes that a located point depends on, with their weights *)
Definition weights (loc : located) : list (Z * R) :=
  match loc with
  | AtNode i _ => [(i, 1%R)]
  | Within xi eta q => [(v_i (q_v0 q), (1 - xi) * (1 - eta)); (v_i (q_v1 q), xi * (1 - eta)); (v_i (q_v2 q), xi * eta); (v_i (q_v3 q), (1 - xi) * eta)]%R
  end.
(* direction d of node n is the combination of direction d of these nodes; weights up to 1e-8 are left out *)
Definition tie (d n : Z) (loc : located) : mpc :=
  mkMpc (mkMdof n (d + 1) 0)
        (map (fun w => mkMdof (fst w) (d + 1) (snd w)) (filter (fun w => if Rlt_dec (/ 10 ^ 8) (Rabs (snd w)) then true else false) (weights loc))).
(* where vertex n is found on the grid of the opposite face when it is on the plane with normal p *)
Definition found_on (tol : R) (verts : list pos3) (p : Z) (coord : R) (grid : list quad) (n : Z) : option located :=
  match zget verts n with
  | Some c => if Rltb (Rabs (coord - pc c p)) tol then bg_find grid (others p c) (0, 0)%R else None
  | None => None
  end.
Definition first_of {A} (a b : option A) : option A := match a with Some x => Some x | None => b end.

(* ---- mortar couplings *)
(* the dofs that stand for direction d of a node: direction d of the nodes of its masters, or its own; and their
   equations (-1: none) *)
Definition refs_of (M : mpcmap) (node d : Z) : list Z :=
  match mm_find M (node * 3 + d) with Some p => map (fun m => md_node m * 3 + d) (mp_master p) | None => [node * 3 + d] end.
Definition eqs_of (M : mpcmap) (meqn : list Z) (node d : Z) : list Z := map (eq_of meqn) (refs_of M node d).
(* one face of the grid: its pillars and the element matrices of their quads. They fit an interface with m elements
   of nl multipliers when there are at least m pillars and every dof is numbered below neq *)
Definition mface := (list (list quad) * list (list (list (list R))))%type.
Definition fits (M : mpcmap) (meqn : list Z) (neq m nl : Z) (f : mface) : Prop :=
  m <= zlen (fst f) /\ m <= zlen (snd f) /\
  forall p col le, 0 <= p < m -> zget (fst f) p = Some col -> zget (snd f) p = Some le ->
    zlen le = zlen col /\ (forall lE, In lE le -> zlen lE = 4 /\ forall r, In r lE -> zlen r = nl) /\
    (forall q v d x, In q col -> In v (q_verts q) -> 0 <= d < 3 -> In x (refs_of M (v_i v) d) -> exists e, zget meqn x = Some e /\ e < neq).
Definition list_at {A} (l : list (list A)) (p : Z) : list A := match zget l p with Some x => x | None => [] end.
Definition entry_at (T : list (list R)) (i j : Z) : R := nthR (list_at T i) j.
(* the coefficient with which multiplier number k in direction d enters equation e: the element matrices of all
   quads of the pillars, at the corners that equation e stands for and the multipliers numbered k *)
Definition coupling (M : mpcmap) (meqn : list Z) (lnodes : list (list Z)) (m : Z) (f : mface) (e d k : Z) : R :=
  Rsum (map (fun p => Rsum (map (fun qe : quad * list (list R) =>
    Rsum (map (fun iv : Z * vertex => INR (count_occ Z.eq_dec (eqs_of M meqn (v_i (snd iv)) d) e) *
      Rsum (map (fun j => if eq_of (list_at lnodes p) j =? k then entry_at (snd qe) (fst iv) j else 0) (zrange 0 (zlen (list_at lnodes p)))))
      (combine (zrange 0 4) (q_verts (fst qe)))))
    (combine (list_at (fst f) p) (list_at (snd f) p)))) (zrange 0 m))%R.
(* number of multiplier nodes of an interface with m elements of order 1 by p *)
Definition multipliers (m p : Z) : Z := free_rows (p + 1) * free_cols m 2 - 1.
(* a point as a coordinate function, and the value of an evaluation *)
Definition at_pt (p : R * R) (k : Z) : R := if k =? 0 then fst p else snd p.
Definition val (r : res R) : R := match r with Ok x => x | _ => 0%R end.
(* the point of the interface element lg that the point x of the face is at; it may be up to 1e-4 outside *)
Definition placed (fuel : nat) (lg hex : hexgeo) (r : (R * R) * R) (loc : R * R) : Prop :=
  hex_local fuel lg (hex_global hex (fst r)) = Ok (Some loc) /\ (0 <= fst loc <= 1 + 1 / 10000 /\ 0 <= snd loc <= 1 + 1 / 10000)%R.
