From Verif Require Export Impl_Model.
From Coq Require Import Permutation.
Open Scope Z_scope.

Definition nthZ (l : list Z) (i : Z) : Z := match zget l i with Some x => x | None => 0 end.
(* the faces of a cell, the two cells of a face (-1: none) *)
Definition faces (g : tgrid) (c : Z) : list Z := map (nthZ (t_cf g)) (zrange (nthZ (t_pos g) c) (nthZ (t_pos g) (c + 1))).
Definition first_cell (g : tgrid) (f : Z) : Z := nthZ (t_fc g) (2 * f).
Definition second_cell (g : tgrid) (f : Z) : Z := nthZ (t_fc g) (2 * f + 1).
Definition wf_grid (g : tgrid) : Prop :=
  0 <= t_nc g /\ 0 <= t_nf g /\ zlen (t_pos g) = t_nc g + 1 /\ nthZ (t_pos g) 0 = 0 /\
  (forall c, 0 <= c < t_nc g -> nthZ (t_pos g) c <= nthZ (t_pos g) (c + 1)) /\
  nthZ (t_pos g) (t_nc g) = zlen (t_cf g) /\
  (forall f, In f (t_cf g) -> 0 <= f < t_nf g) /\ zlen (t_fc g) = 2 * t_nf g /\
  (forall f, 0 <= f < t_nf g -> -1 <= first_cell g f < t_nc g /\ -1 <= second_cell g f < t_nc g) /\
  (forall c f, 0 <= c < t_nc g -> In f (faces g c) -> first_cell g f = c \/ second_cell g f = c).
(* a face with cells on both sides; the connections of a cell *)
Definition interior (g : tgrid) (f : Z) : bool := (0 <=? first_cell g f) && (0 <=? second_cell g f).
Definition conns (g : tgrid) (c : Z) : list Z := filter (interior g) (faces g c).
(* the other cell of a face *)
Definition across (g : tgrid) (c f : Z) : Z := if first_cell g f =? c then second_cell g f else first_cell g f.

(* value of a matrix entry *)
Definition entry (m : list (list (Z * R))) (i j : Z) : R :=
  match zget m i with
  | Some row => Rsum (map snd (filter (fun e => fst e =? j) row))
  | None => 0%R
  end.

(* water flux through a face from its first to its second cell, for given upwind sides
   (0: first cell, 1: second) of the two phases *)
Definition face_flux (g : tgrid) (u : ustore) (up : Z -> Z * Z) (f : Z) : R :=
  let a := first_cell g f in let b := second_cell g f in
  let m0 := u_m0 u (if fst (up f) =? 0 then a else b) in
  let m1 := u_m1 u (if snd (up f) =? 0 then a else b) in
  (m0 / (m0 + m1) * (u_dflux u f + m1 * (u_gflux u f + u_trans u f * (u_pc u b - u_pc u a))))%R.
(* the upwind sides the code chooses *)
Definition chosen (g : tgrid) (u : ustore) (f : Z) : Z * Z :=
  let a := first_cell g f in let b := second_cell g f in
  upwind u (u_dflux u f) (u_gflux u f + u_trans u f * (u_pc u b - u_pc u a))%R (a, b).
(* sum of the upwind mobilities of a face *)
Definition total_mobility (g : tgrid) (u : ustore) (up : Z -> Z * Z) (f : Z) : R :=
  (u_m0 u (if Z.eqb (fst (up f)) 0 then first_cell g f else second_cell g f) + u_m1 u (if Z.eqb (snd (up f)) 0 then first_cell g f else second_cell g f))%R.
Definition outward (g : tgrid) (c f : Z) : R := if first_cell g f =? c then 1%R else (-1)%R.
(* what a source takes out *)
Definition source_out (u : ustore) (q : tsource) : R :=
  if Rltb 0 (q_flux q) then (- q_flux q * q_sat q)%R
  else (- q_flux q * (u_m0 u (q_cell q) / (u_m0 u (q_cell q) + u_m1 u (q_cell q))))%R.
(* balance of a cell: change of content plus what leaves through faces and sources *)
Definition balance (g : tgrid) (u : ustore) (up : Z -> Z * Z) (dt : R) (src : list tsource) (c : Z) : R :=
  (u_pv u c * u_ds u c + dt * Rsum (map (fun f => outward g c f * face_flux g u up f) (conns g c))
   + dt * Rsum (map (source_out u) (filter (fun q => Z.eqb (q_cell q) c) src)))%R.

(* parameters computed from the saturations s of all cells *)
Definition store_of (l0 l1 pc d0 d1 dpc : Z -> R -> R) (pv trans gflux dflux sold s : Z -> R) : ustore :=
  mkUstore (fun c => l0 c (s c)) (fun c => l1 c (s c)) (fun c => d0 c (s c)) (fun c => d1 c (s c)) pv
    (fun c => s c - sold c)%R (fun c => pc c (s c)) (fun c => dpc c (s c)) trans gflux dflux.
Definition change (s : Z -> R) (j : Z) (t : R) : Z -> R := fun c => if c =? j then t else s c.

(* all (cell, connection) pairs, and the two sides of all interior faces *)
Definition half_conns (g : tgrid) : list (Z * Z) := flat_map (fun c => map (pair c) (conns g c)) (zrange 0 (t_nc g)).
Definition both_sides (g : tgrid) (fs : list Z) : list (Z * Z) := flat_map (fun f => [(first_cell g f, f); (second_cell g f, f)]) fs.
(* two faces glued by periodicity, with equal parameters *)
Definition matched (g : tgrid) (u : ustore) (p : (Z * Z) * (Z * Z)) : Prop :=
  let '((a, f), (b, f')) := p in
  first_cell g f = first_cell g f' /\ second_cell g f = second_cell g f' /\ first_cell g f <> second_cell g f /\
  (a = first_cell g f /\ b = second_cell g f \/ a = second_cell g f /\ b = first_cell g f) /\
  u_dflux u f = u_dflux u f' /\ u_gflux u f = u_gflux u f'.

(* half faces: positions in the cell_faces array.  The half face of face f that belongs to cell c *)
Definition half_of (g : tgrid) (c f i : Z) : Prop :=
  nthZ (t_pos g) c <= i < nthZ (t_pos g) (c + 1) /\ nthZ (t_cf g) i = f.
(* all half faces of a face *)
Definition halves_of (g : tgrid) (f : Z) : list Z := filter (fun i => nthZ (t_cf g) i =? f) (zrange 0 (zlen (t_cf g))).

(* the indices that belong to a segment of the parameter storage *)
Definition valid_index (nc nf totconn : Z) (s : seg) (i k : Z) : Prop :=
  match s with
  | SMob | SDmob => 0 <= i < nc /\ 0 <= k < 2
  | SDg => 0 <= i < totconn /\ k = 0
  | STrans => 0 <= i < nf /\ k = 0
  | _ => 0 <= i < nc /\ k = 0
  end.
