(* Vocabulary of the properties of the setup of the implicit transport solver *)
From Verif Require Export Ieul_Model.
From Verif Require Export Impl_Spec.
Open Scope Z_scope.

(* The facade and the C grid describe the same grid: cell c has index c, its faces are those of the C grid in the
   same order, [number] maps the numbers of the facade to those of the C grid, and the faces on the boundary are
   those with one cell *)
Definition same_grid (g : tgrid) (cells : icells) (number : Z -> Z) : Prop :=
  zlen cells = t_nc g /\
  forall c idx fs, zget cells c = Some (idx, fs) -> idx = c /\ zlen fs = nthZ (t_pos g) (c + 1) - nthZ (t_pos g) c /\
    forall k f, zget fs k = Some f -> if_cell f = c /\ 0 <= if_index f < t_nf g /\
      nthZ (t_cf g) (nthZ (t_pos g) c + k) = number (if_index f) /\
      if_bnd f = negb (interior g (number (if_index f))).
(* a face has at most one half face in a cell *)
Definition simple_grid (g : tgrid) : Prop := forall c, 0 <= c < t_nc g -> NoDup (faces g c).
(* the face of the i-th half face *)
Definition face_at (cells : icells) (i : Z) : option iface := option_map snd (zget (visits cells) i).
Definition cell_at (cells : icells) (i : Z) : Z := match zget (visits cells) i with Some v => fst v | None => -1 end.
(* half faces on a periodic boundary, and on an open one: neither periodic nor closed *)
Definition is_periodic (b : ibc) (cells : icells) (i : Z) : bool :=
  match face_at cells i with Some f => on_periodic b f | None => false end.
Definition is_open (b : ibc) (cells : icells) (i : Z) : bool :=
  match face_at cells i with Some f => if_bnd f && negb (ib_per b (if_bid f)) && negb (ib_closed b (if_bid f)) | None => false end.
Definition bid_at (cells : icells) (i : Z) : Z := match face_at cells i with Some f => if_bid f | None => -1 end.
(* the half faces with a property, in order *)
Definition the_halves (cells : icells) (p : Z -> bool) : list Z := filter p (zrange 0 (zlen (visits cells))).
(* periodic half faces have ids of their own, and come in pairs *)
Definition paired (b : ibc) (cells : icells) : Prop :=
  (forall i, is_periodic b cells i = true -> 0 <= bid_at cells i) /\
  (forall i j, is_periodic b cells i = true -> is_periodic b cells j = true -> bid_at cells i = bid_at cells j -> i = j) /\
  (forall i, is_periodic b cells i = true -> exists j, is_periodic b cells j = true /\ bid_at cells j = ib_partner b (bid_at cells i)) /\
  (forall i, is_periodic b cells i = true -> ib_partner b (ib_partner b (bid_at cells i)) = bid_at cells i /\ ib_partner b (bid_at cells i) <> bid_at cells i).
(* the half face on the other side of a periodic boundary *)
Definition partner_half (b : ibc) (cells : icells) (i j : Z) : Prop :=
  is_periodic b cells j = true /\ bid_at cells j = ib_partner b (bid_at cells i).

(* contract of makeQPeriodic: the faces of the periodic half faces get the partner's cell as their missing one *)
Definition glued (g : tgrid) (b : ibc) (cells : icells) (g' : tgrid) : Prop :=
  t_nc g' = t_nc g /\ t_nf g' = t_nf g /\ t_pos g' = t_pos g /\ t_cf g' = t_cf g /\ zlen (t_fc g') = zlen (t_fc g) /\
  (forall i j, is_periodic b cells i = true -> partner_half b cells i j ->
     let f := nthZ (t_cf g) i in
     (first_cell g f = cell_at cells i -> first_cell g' f = cell_at cells i /\ second_cell g' f = cell_at cells j) /\
     (first_cell g f <> cell_at cells i -> first_cell g' f = cell_at cells j /\ second_cell g' f = cell_at cells i)) /\
  (forall f, 0 <= f < t_nf g -> (forall i, is_periodic b cells i = true -> nthZ (t_cf g) i <> f) ->
     first_cell g' f = first_cell g f /\ second_cell g' f = second_cell g f).

(* fluxes out of half faces: what leaves through one half face of a face enters through the other *)
Definition opposite_fluxes (g : tgrid) (out : list R) : Prop :=
  forall i j, 0 <= i < zlen (t_cf g) -> 0 <= j < zlen (t_cf g) -> i <> j -> nthZ (t_cf g) i = nthZ (t_cf g) j -> (nthR out i + nthR out j = 0)%R.
(* slot of a half face in the table from faces to half faces: 0 for the first cell, 1 for the second *)
Definition own_slot (g : tgrid) (c f : Z) : Z := if first_cell g f =? c then 0 else 1.
(* fractional flow of the boundary saturation of a half face in its cell *)
Definition frac_at (mob : Z -> R -> R * R) (b : ibc) (cells : icells) (i : Z) : R :=
  let m := mob (cell_at cells i) (ib_sat b (bid_at cells i)) in (fst m / (fst m + snd m))%R.
(* the half faces of a cell *)
Definition cell_halves (g : tgrid) (c : Z) : list Z := zrange (nthZ (t_pos g) c) (nthZ (t_pos g) (c + 1)).
(* nothing flows through a closed boundary *)
Definition closed_fluxes (b : ibc) (cells : icells) (out : list R) : Prop :=
  forall i f, face_at cells i = Some f -> if_bnd f = true -> ib_per b (if_bid f) = false -> ib_closed b (if_bid f) = true -> nthR out i = 0%R.
