From Verif Require Export Hnum_Model.
Open Scope Z_scope.

(* the k-th cell in iteration order, its face r and the index of the cell behind that face *)
Definition cell_at (g : list hcell) (k : Z) : hcell := nth (Z.to_nat k) g (mkHCell (-1) []).
Definition idx (g : list hcell) (k : Z) : Z := hc_idx (cell_at g k).
Definition nfaces (g : list hcell) (k : Z) : Z := zlen (hc_faces (cell_at g k)).
Definition face_at (g : list hcell) (k r : Z) : hface := nth (Z.to_nat r) (hc_faces (cell_at g k)) (mkHFace None 0).
Definition nbr (g : list hcell) (k r : Z) : option Z := hf_nb (face_at g k r).
(* (k, r): face r of cell k *)
Definition half (g : list hcell) (k r : Z) : Prop := 0 <= k < zlen g /\ 0 <= r < nfaces g k.
(* cells k and k' see each other through their faces r and r' *)
Definition twins (g : list hcell) (k r k' r' : Z) : Prop := nbr g k r = Some (idx g k') /\ nbr g k' r' = Some (idx g k).
(* a conforming grid: the cells are indexed by 0 .. n-1 in any order, a neighbour is another cell of
   the grid that lists this cell in turn, and two cells share at most one face *)
Definition conforming (g : list hcell) : Prop :=
  NoDup (map hc_idx g) /\
  (forall k, 0 <= k < zlen g -> 0 <= idx g k < zlen g) /\
  (forall k r c, half g k r -> nbr g k r = Some c -> c <> idx g k /\ exists k' r', half g k' r' /\ idx g k' = c /\ nbr g k' r' = Some (idx g k)) /\
  (forall k r r' c, half g k r -> half g k r' -> nbr g k r = Some c -> nbr g k r' = Some c -> r = r').
(* cells are visited in index order *)
Definition in_order (g : list hcell) : Prop := forall k, 0 <= k < zlen g -> idx g k = k.
(* ... or at least the cell with index k has as many faces as the k-th visited cell *)
Definition counts_agree (g : list hcell) : Prop :=
  forall k k', 0 <= k < zlen g -> 0 <= k' < zlen g -> idx g k' = k -> nfaces g k' = nfaces g k.
Definition entry_of (t : list (list Z)) (k r : Z) : Z := nth (Z.to_nat r) (nth (Z.to_nat k) t []) (-1).
(* num numbers the faces of g with 0 .. total-1: one number per face, interior faces first *)
Definition numbers (g : list hcell) (num : Z -> Z -> Z) (internal total : Z) : Prop :=
  (forall k r, half g k r -> 0 <= num k r < total) /\
  (forall n, 0 <= n < total -> exists k r, half g k r /\ num k r = n) /\
  (forall k r k' r', half g k r -> half g k' r' -> (num k r = num k' r' <-> (k = k' /\ r = r') \/ twins g k r k' r')) /\
  (forall k r, half g k r -> (num k r < internal <-> nbr g k r <> None)).
(* m is the largest number of faces of a cell *)
Definition most_faces (g : list hcell) (m : Z) : Prop :=
  (forall k, 0 <= k < zlen g -> nfaces g k <= m) /\ (0 < zlen g -> exists k, 0 <= k < zlen g /\ nfaces g k = m).
