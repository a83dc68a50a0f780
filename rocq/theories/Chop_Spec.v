(* Specification vocabulary for corner-point chopping: how the ECLIPSE format
   addresses cells, pillars and cell corners. *)
From Verif Require Export RBase.
Open Scope Z_scope.

(* natural (i fastest) number of cell (i,j,k) in an nx*ny*nz grid *)
Definition cell_no (nx ny i j k : Z) : Z := i + nx * (j + ny * k).
(* number of the ZCORN entry for corner (ci,cj,ck), each 0 or 1, of cell (i,j,k) *)
Definition corner_no (nx ny i j k ci cj ck : Z) : Z :=
  (2 * i + ci) + 2 * nx * ((2 * j + cj) + 2 * ny * (2 * k + ck)).
(* number of component c (0..5) of pillar (i,j) in COORD *)
Definition pillar_no (nx i j c : Z) : Z := 6 * (i + (nx + 1) * j) + c.

Definition bit (b : Z) : Prop := b = 0 \/ b = 1.

(* a value clamped to an interval *)
Definition clamp (lo hi z : R) : R := Rmin hi (Rmax lo z).

Record wf_arrays (nx ny nz : Z) (coord zcorn : list R) : Prop := {
  wf_dims : 1 <= nx /\ 1 <= ny /\ 1 <= nz;
  wf_coord : zlen coord = 6 * (nx + 1) * (ny + 1);
  wf_zcorn : zlen zcorn = 8 * nx * ny * nz
}.

(* depth z occurs as a corner of layer k *)
Definition in_layer (nx ny : Z) (zcorn : list R) (k : Z) (z : R) : Prop :=
  exists i j ci cj ck, 0 <= i < nx /\ 0 <= j < ny /\ bit ci /\ bit cj /\ bit ck /\
    zget zcorn (corner_no nx ny i j k ci cj ck) = Some z.

(* highest point of the first surface / lowest point of the last surface *)
Definition is_bottom_max (nx ny : Z) (zcorn : list R) (m : R) : Prop :=
  (exists i j ci cj, 0 <= i < nx /\ 0 <= j < ny /\ bit ci /\ bit cj /\
      zget zcorn (corner_no nx ny i j 0 ci cj 0) = Some m) /\
  (forall i j ci cj z, 0 <= i < nx -> 0 <= j < ny -> bit ci -> bit cj ->
      zget zcorn (corner_no nx ny i j 0 ci cj 0) = Some z -> (z <= m)%R).
Definition is_top_min (nx ny nz : Z) (zcorn : list R) (m : R) : Prop :=
  (exists i j ci cj, 0 <= i < nx /\ 0 <= j < ny /\ bit ci /\ bit cj /\
      zget zcorn (corner_no nx ny i j (nz - 1) ci cj 1) = Some m) /\
  (forall i j ci cj z, 0 <= i < nx -> 0 <= j < ny -> bit ci -> bit cj ->
      zget zcorn (corner_no nx ny i j (nz - 1) ci cj 1) = Some z -> (m <= z)%R).

(* a non-empty index box inside an nx*ny grid *)
Definition box_within (nx ny imin imax jmin jmax : Z) : Prop :=
  0 <= imin < imax /\ imax <= nx /\ 0 <= jmin < jmax /\ jmax <= ny.
