From Verif Require Export Rprop_Model Mim_Spec.
Open Scope Z_scope.

(* the two directions a permeability keyword is about *)
Definition dirs (k : pkw) : Z * Z :=
  match k with KX => (0, 0) | KXY => (0, 1) | KXZ => (0, 2) | KYX => (1, 0) | KY => (1, 1) | KYZ => (1, 2) | KZX => (2, 0) | KZY => (2, 1) | KZ => (2, 2) end.
Definition given (d : deck) (k : pkw) : Prop := dk_perm d k <> None.
Definition crossing (k : pkw) : Prop := fst (dirs k) <> snd (dirs k).
(* the diagonal keyword of a direction *)
Definition diag (i : Z) : pkw := if i =? 0 then KX else if i =? 1 then KY else KZ.
(* input that makes sense: off-diagonal data come with both diagonal fields *)
Definition complete (d : deck) : Prop := forall k, given d k -> crossing k -> given d (diag (fst (dirs k))) /\ given d (diag (snd (dirs k))).
(* every permeability field has one value per grid cell *)
Definition sized (d : deck) : Prop := forall k l, dk_perm d k = Some l -> zlen l = dk_size d.
(* cells of the simulation grid lie in the deck's grid *)
Definition cells_in (d : deck) (gc : list Z) : Prop := forall c g, zget gc c = Some g -> 0 <= g < dk_size d.
(* which keyword supplies component (i, j): the first of the list that is given *)
Definition suppliers (i j : Z) : list pkw :=
  if (i =? j) then (if i =? 0 then [KX; KY; KZ] else if i =? 1 then [KY; KX; KZ] else [KZ; KX; KY])
  else if (i + j =? 1) then [KYX; KXY] else if (i + j =? 2) then [KZX; KXZ] else [KZY; KYZ].
Fixpoint first_given (d : deck) (ks : list pkw) : option (list R) :=
  match ks with [] => None | k :: t => match dk_perm d k with Some l => Some l | None => first_given d t end end.
(* the deck's value of component (i, j) in cell g of the deck's grid *)
Definition input_perm (d : deck) (g i j : Z) : R :=
  match first_given d (suppliers i j) with Some l => nthR l g | None => 0%R end.
Definition at_cell {A} (gc : list Z) (l : list A) (c : Z) : option A := match zget gc c with Some g => zget l g | None => None end.
(* v holds for every cell the value of the field in the cell's place of the deck's grid *)
Definition taken_from {A} (gc : list Z) (l v : list A) : Prop := zlen v = zlen gc /\ forall c, 0 <= c < zlen gc -> zget v c = at_cell gc l c.
(* ... or the default for every cell when the keyword is absent *)
Definition field_ok (o : option (list R)) (default : R) (gc : list Z) (v : list R) : Prop :=
  match o with Some l => taken_from gc l v | None => v = zrepeat default (zlen gc) end.
Definition sized_o {A} (size : Z) (o : option (list A)) : Prop := forall l, o = Some l -> zlen l = size.
Definition any_given (d : deck) : Prop := exists k, given d k.
(* the tensor of a cell: the input, with the diagonal raised to the threshold *)
Definition cell_perm (d : deck) (threshold : R) (g i j : Z) : R :=
  if i =? j then Rmax (input_perm d g i j) threshold else input_perm d g i j.
(* the keyword with the region numbers: SATNUM, or else ROCKTYPE *)
Definition regions (d : deck) : option (list Z) := match dk_satnum d with Some l => Some l | None => dk_rocktype d end.
(* all arrays have one value per cell of the deck's grid *)
Definition all_sized (d : deck) : Prop :=
  sized d /\ sized_o (dk_size d) (dk_poro d) /\ sized_o (dk_size d) (dk_ntg d) /\ sized_o (dk_size d) (dk_swcr d) /\
  sized_o (dk_size d) (dk_sowcr d) /\ sized_o (dk_size d) (regions d).
(* what a line-by-line reader of the legacy permeability file finds for cell c with tensor K *)
Definition legacy_lines (kind : pkind) (lines : list (list R)) (c : Z) (K : Z -> Z -> R) : Prop :=
  match kind with
  | TensorPerm => forall i j, 0 <= i < 3 -> 0 <= j < 3 -> zget lines (9 * c + i * 3 + j) = Some [K i j]
  | DiagonalPerm => zget lines c = Some [K 0 0; K 1 1; K 2 2] /\ forall i j, 0 <= i < 3 -> 0 <= j < 3 -> i <> j -> K i j = 0%R
  | ScalarPerm => zget lines c = Some [K 0 0] /\ forall i j, 0 <= i < 3 -> 0 <= j < 3 -> K i j = (K 0%Z 0%Z * ident i j)%R
  | _ => False
  end.
