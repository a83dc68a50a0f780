(* Properties C01-C06: corner-point chopping. *)
From Verif Require Import RBase Chop_Model Chop_Spec Chop_Proofs.
Open Scope Z_scope.

(* C01: the verification accepts exactly the boxes inside the grid and throws otherwise. *)
Theorem C01_verify_shoebox : forall nx ny azmin azmax imin ilen imax jmin jlen jmax zmin zl zmax,
  (verify_shoebox nx ny azmin azmax imin ilen imax jmin jlen jmax zmin zl zmax = Ok tt <->
   (0 <= imin /\ ilen <= nx /\ imax <= nx /\ 0 <= jmin /\ jlen <= ny /\ jmax <= ny /\
    (azmin <= zmin)%R /\ (zmax <= azmax)%R /\ (zl <= azmax - azmin)%R)) /\
  (verify_shoebox nx ny azmin azmax imin ilen imax jmin jlen jmax zmin zl zmax = Ok tt \/
   verify_shoebox nx ny azmin azmax imin ilen imax jmin jlen jmax zmin zl zmax = Throw).
Proof. exact verify_iff. Qed.
Print Assumptions C01_verify_shoebox.

(* C01 finding: an inverted box passes verification; chop then returns only
   unset depths and a cell map whose use is undefined behaviour. *)
Theorem C01_inverted_box_refuted :
  exists g imin imax jmin jmax zmin zmax azmin azmax out,
    wf_arrays (g_nx g) (g_ny g) (g_nz g) (g_coord g) (g_zcorn g) /\
    abszmin g = Ok azmin /\ abszmax g = Ok azmax /\
    verify_shoebox (g_nx g) (g_ny g) azmin azmax imin (imax - imin) imax jmin (jmax - jmin) jmax
      zmin (zmax - zmin) zmax = Ok tt /\
    chop g imin imax jmin jmax zmin zmax true = Ok out /\
    0 < zlen (c_zcorn out) /\ (forall z, In z (c_zcorn out) -> z = fill_value) /\
    (forall (A : Type) (field : list A), filter_keyword (Some field) (c_map out) = UB).
Proof. exact inverted_box_refuted. Qed.
Print Assumptions C01_inverted_box_refuted.

(* C02: output cell (i,j,k) carries the data of input cell (i+imin,j+jmin,k+kmin). *)
Theorem C02_cell_source : forall g imin imax jmin jmax zmin zmax reset out A (field : list A),
  wf_arrays (g_nx g) (g_ny g) (g_nz g) (g_coord g) (g_zcorn g) ->
  box_within (g_nx g) (g_ny g) imin imax jmin jmax ->
  chop g imin imax jmin jmax zmin zmax reset = Ok out ->
  zlen field = g_nx g * g_ny g * g_nz g ->
  c_nx out = imax - imin /\ c_ny out = jmax - jmin /\
  0 <= c_kmin out /\ 0 <= c_nz out /\ c_kmin out + c_nz out <= g_nz g /\
  exists f', filter_keyword (Some field) (c_map out) = Ok f' /\
    zlen f' = c_nx out * c_ny out * c_nz out /\
    forall i j k, 0 <= i < c_nx out -> 0 <= j < c_ny out -> 0 <= k < c_nz out ->
      exists v, zget f' (cell_no (c_nx out) (c_ny out) i j k) = Some v /\
        zget field (cell_no (g_nx g) (g_ny g) (i + imin) (j + jmin) (k + c_kmin out)) = Some v.
Proof. exact cell_source. Qed.
Print Assumptions C02_cell_source.

(* C03: never UB, throws exactly when the clipped depth interval is empty; array
   sizes match the new dimensions; every cell map entry is a valid input cell. *)
Theorem C03_chop_total : forall g imin imax jmin jmax zmin zmax reset bm tm,
  wf_arrays (g_nx g) (g_ny g) (g_nz g) (g_coord g) (g_zcorn g) ->
  box_within (g_nx g) (g_ny g) imin imax jmin jmax ->
  is_bottom_max (g_nx g) (g_ny g) (g_zcorn g) bm ->
  is_top_min (g_nx g) (g_ny g) (g_nz g) (g_zcorn g) tm ->
  ((Rmin zmax tm <= Rmax zmin bm)%R -> chop g imin imax jmin jmax zmin zmax reset = Throw) /\
  ((Rmax zmin bm < Rmin zmax tm)%R ->
    exists out, chop g imin imax jmin jmax zmin zmax reset = Ok out /\
      zlen (c_coord out) = 6 * (c_nx out + 1) * (c_ny out + 1) /\
      zlen (c_zcorn out) = 8 * c_nx out * c_ny out * c_nz out /\
      zlen (c_map out) = c_nx out * c_ny out * c_nz out /\
      (forall c, In c (c_map out) -> 0 <= c < g_nx g * g_ny g * g_nz g)).
Proof. exact chop_total. Qed.
Print Assumptions C03_chop_total.

(* C03/C04: every pillar component is written with the source value, shifted to
   the origin when requested (so no fill value survives in COORD). *)
Theorem C03_pillars : forall g imin imax jmin jmax zmin zmax reset out,
  wf_arrays (g_nx g) (g_ny g) (g_nz g) (g_coord g) (g_zcorn g) ->
  box_within (g_nx g) (g_ny g) imin imax jmin jmax ->
  chop g imin imax jmin jmax zmin zmax reset = Ok out ->
  zlen (c_coord out) = 6 * (c_nx out + 1) * (c_ny out + 1) /\
  exists xc yc, zget (g_coord g) (pillar_no (g_nx g) imin jmin 0) = Some xc /\
    zget (g_coord g) (pillar_no (g_nx g) imin jmin 1) = Some yc /\
    forall i j c, 0 <= i <= c_nx out -> 0 <= j <= c_ny out -> 0 <= c < 6 ->
      exists v w, zget (g_coord g) (pillar_no (g_nx g) (i + imin) (j + jmin) c) = Some v /\
        zget (c_coord out) (pillar_no (c_nx out) i j c) = Some w /\
        (reset = false -> w = v) /\
        (reset = true -> (c = 0 \/ c = 3 -> w = (v - xc)%R) /\ (c = 1 \/ c = 4 -> w = (v - yc)%R) /\
                         (c = 2 -> w = 0%R) /\ (c = 5 -> w = (zmax - zmin)%R)).
Proof. exact chop_pillars. Qed.
Print Assumptions C03_pillars.

(* C04: every output depth is the clamped (and possibly shifted) source depth,
   hence inside the clipped box. *)
Theorem C04_chop_zcorn : forall g imin imax jmin jmax zmin zmax reset out bm tm,
  wf_arrays (g_nx g) (g_ny g) (g_nz g) (g_coord g) (g_zcorn g) ->
  box_within (g_nx g) (g_ny g) imin imax jmin jmax ->
  is_bottom_max (g_nx g) (g_ny g) (g_zcorn g) bm ->
  is_top_min (g_nx g) (g_ny g) (g_nz g) (g_zcorn g) tm ->
  chop g imin imax jmin jmax zmin zmax reset = Ok out ->
  let lo := Rmax zmin bm in let hi := Rmin zmax tm in
  let shift := if reset then lo else 0%R in
  (lo < hi)%R /\ zlen (c_zcorn out) = 8 * c_nx out * c_ny out * c_nz out /\
  (forall i j k ci cj ck, 0 <= i < c_nx out -> 0 <= j < c_ny out -> 0 <= k < c_nz out ->
     bit ci -> bit cj -> bit ck ->
     exists z, zget (g_zcorn g) (corner_no (g_nx g) (g_ny g) (i + imin) (j + jmin) (k + c_kmin out) ci cj ck) = Some z /\
       zget (c_zcorn out) (corner_no (c_nx out) (c_ny out) i j k ci cj ck) = Some (clamp lo hi z - shift)%R) /\
  (forall z, In z (c_zcorn out) -> (lo - shift <= z <= hi - shift)%R).
Proof. exact chop_zcorn. Qed.
Print Assumptions C04_chop_zcorn.

(* C05: the retained layers are a contiguous range inside the grid that
   contains every layer meeting the open depth interval; its first and last
   layer meet it from the respective side. *)
Theorem C05_chop_layers : forall g imin imax jmin jmax zmin zmax reset out bm tm,
  wf_arrays (g_nx g) (g_ny g) (g_nz g) (g_coord g) (g_zcorn g) ->
  box_within (g_nx g) (g_ny g) imin imax jmin jmax ->
  is_bottom_max (g_nx g) (g_ny g) (g_zcorn g) bm ->
  is_top_min (g_nx g) (g_ny g) (g_nz g) (g_zcorn g) tm ->
  chop g imin imax jmin jmax zmin zmax reset = Ok out ->
  let lo := Rmax zmin bm in let hi := Rmin zmax tm in
  let retained k := c_kmin out <= k < c_kmin out + c_nz out in
  let layer := in_layer (g_nx g) (g_ny g) (g_zcorn g) in
  (forall k z1 z2, 0 <= k < g_nz g -> layer k z1 -> layer k z2 -> (z1 < hi)%R -> (lo < z2)%R -> retained k) /\
  (forall k, retained k -> 0 <= k < g_nz g) /\
  (0 < c_nz out -> (exists z, layer (c_kmin out) z /\ (lo < z)%R) /\
                   (exists z, layer (c_kmin out + c_nz out - 1) z /\ (z < hi)%R)).
Proof. exact chop_layers. Qed.
Print Assumptions C05_chop_layers.

(* C06 finding: the pillar end depth written by chop is not the depth of the
   clipped interval used for ZCORN. *)
Theorem C06_pillar_end_refuted :
  exists g imin imax jmin jmax zmin zmax azmin azmax bm tm out w,
    wf_arrays (g_nx g) (g_ny g) (g_nz g) (g_coord g) (g_zcorn g) /\
    box_within (g_nx g) (g_ny g) imin imax jmin jmax /\
    abszmin g = Ok azmin /\ abszmax g = Ok azmax /\
    verify_shoebox (g_nx g) (g_ny g) azmin azmax imin (imax - imin) imax jmin (jmax - jmin) jmax
      zmin (zmax - zmin) zmax = Ok tt /\
    is_bottom_max (g_nx g) (g_ny g) (g_zcorn g) bm /\
    is_top_min (g_nx g) (g_ny g) (g_nz g) (g_zcorn g) tm /\
    chop g imin imax jmin jmax zmin zmax true = Ok out /\
    zget (c_coord out) (pillar_no (c_nx out) 0 0 5) = Some w /\
    (w <> Rmin zmax tm - Rmax zmin bm)%R.
Proof. exact pillar_end_refuted. Qed.
Print Assumptions C06_pillar_end_refuted.

(* C06, positive part: without clipping the pillar ends agree with the depth interval. *)
Theorem C06_pillar_end_unclipped : forall g imin imax jmin jmax zmin zmax out bm tm i j,
  wf_arrays (g_nx g) (g_ny g) (g_nz g) (g_coord g) (g_zcorn g) ->
  box_within (g_nx g) (g_ny g) imin imax jmin jmax ->
  is_bottom_max (g_nx g) (g_ny g) (g_zcorn g) bm ->
  is_top_min (g_nx g) (g_ny g) (g_nz g) (g_zcorn g) tm ->
  (bm <= zmin)%R -> (zmax <= tm)%R ->
  chop g imin imax jmin jmax zmin zmax true = Ok out ->
  0 <= i <= c_nx out -> 0 <= j <= c_ny out ->
  zget (c_coord out) (pillar_no (c_nx out) i j 2) = Some 0%R /\
  zget (c_coord out) (pillar_no (c_nx out) i j 5) = Some (Rmin zmax tm - Rmax zmin bm)%R.
Proof. exact pillar_end_unclipped. Qed.
Print Assumptions C06_pillar_end_unclipped.

(* the hypotheses of C02-C06 are met by a slanted one-cell grid and a proper box *)
Example chop_hypotheses_met :
  wf_arrays 1 1 1 (g_coord g_slanted) (g_zcorn g_slanted) /\
  box_within 1 1 0 1 0 1 /\
  is_bottom_max 1 1 (g_zcorn g_slanted) 1%R /\ is_top_min 1 1 1 (g_zcorn g_slanted) 2%R /\
  exists out, chop g_slanted 0 1 0 1 1%R 2%R true = Ok out /\ c_nz out = 1.
Proof. exact slanted_meets. Qed.
