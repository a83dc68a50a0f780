From Verif Require Import Drv_Proofs Drv_Proofs2 Drv_Proofs3 Drv_Proofs4 Drv_Proofs5 Drv_Proofs6 Drv_Proofs7 Chop_Spec Chop_Proofs Drv_Spec.
Open Scope Z_scope.

(* C105: the tables of cpregularize *)
Theorem C105_table : forall dim ires imax, 0 <= dim -> 1 <= ires -> exists l, index_table dim ires imax = Ok l /\ zlen l = ires + 1 /\
  (forall c, 0 <= c < ires -> zget l c = Some (c * (dim / ires) + Z.min c (dim mod ires))) /\ zget l ires = Some imax.
Proof. exact Drv_Proofs.index_table_ok. Qed.
Theorem C105_partition : forall dim ires, 0 <= dim -> 1 <= ires -> exists l, index_table dim ires dim = Ok l /\ zlen l = ires + 1 /\ zget l 0 = Some 0 /\ zget l ires = Some dim /\
  (forall c a b, 0 <= c < ires -> zget l c = Some a -> zget l (c + 1) = Some b -> dim / ires <= b - a <= dim / ires + 1) /\
  (forall x, 0 <= x < dim -> exists c a b, 0 <= c < ires /\ zget l c = Some a /\ zget l (c + 1) = Some b /\ a <= x < b /\
     forall c' a' b', 0 <= c' < ires -> zget l c' = Some a' -> zget l (c' + 1) = Some b' -> a' <= x < b' -> c' = c).
Proof. exact Drv_Proofs.index_table_partition. Qed.
Theorem C105_cut : forall dim ires imax, 0 <= dim -> 1 <= ires -> imax < (ires - 1) * (dim / ires) + Z.min (ires - 1) (dim mod ires) ->
  exists l a b, index_table dim ires imax = Ok l /\ zget l (ires - 1) = Some a /\ zget l ires = Some b /\ b < a.
Proof. exact Drv_Proofs.index_table_cut. Qed.
Theorem C105_depths : forall zmin zmax zres, 1 <= zres -> zlen (depth_table zmin zmax zres) = zres + 1 /\
  (forall k, 0 <= k <= zres -> nthR (depth_table zmin zmax zres) k = (zmin + IZR k * ((zmax - zmin) / IZR zres))%R).
Proof. exact Drv_Proofs.depth_table_ok. Qed.
Theorem C105_never_finishes : forall nx ny azmin azmax imin imax jmin jmax zmin zmax ires jres zres piece r, 1 <= ires -> 1 <= jres -> 1 <= zres ->
  regularize nx ny azmin azmax imin imax jmin jmax zmin zmax ires jres zres piece <> Ok r.
Proof. exact Drv_Proofs.regularize_never. Qed.

(* C136: the windows of cpchop *)
Theorem C136_random : forall imin ilen imax jmin jlen jmax zmin zl zmax x y z, imin <= imax - ilen -> jmin <= jmax - jlen ->
  imin <= x <= imax - ilen -> jmin <= y <= jmax - jlen -> (zmin <= z <= z_upper zmin zl zmax)%R ->
  exists i1 i2 j1 j2 z1 z2, chop_window true imin ilen imax jmin jlen jmax zmin zl x y z = Ok (i1, i2, j1, j2, z1, z2) /\
    imin <= i1 /\ i2 = i1 + ilen /\ i2 <= imax /\ jmin <= j1 /\ j2 = j1 + jlen /\ j2 <= jmax /\ (zmin <= z1)%R /\ z2 = (z1 + zl)%R /\
    (zmin + 1 / 1000000 <= zmax - zl -> z2 <= zmax)%R /\ (zl <= zmax - zmin -> z2 <= zmax + 1 / 1000000)%R.
Proof. exact Drv_Proofs.window_random. Qed.
Theorem C136_fixed : forall imin ilen imax jmin jlen jmax zmin zl x y z, imin <= imax - ilen -> jmin <= jmax - jlen ->
  chop_window false imin ilen imax jmin jlen jmax zmin zl x y z = Ok (0, ilen, 0, jlen, zmin, (zmin + zl)%R).
Proof. exact Drv_Proofs.window_fixed. Qed.
Theorem C136_undefined : forall b imin ilen imax jmin jlen jmax zmin zl x y z, imax - imin < ilen \/ jmax - jmin < jlen -> chop_window b imin ilen imax jmin jlen jmax zmin zl x y z = UB.
Proof. exact Drv_Proofs.window_ub. Qed.

(* C137: the table of cpchop *)
Theorem C137_defined : forall o rocks ss, Forall (proper o rocks) ss -> exists t, subsamples o rocks ss = Ok t.
Proof. exact Drv_Proofs4.subsamples_defined. Qed.
Theorem C137_entries : forall o rocks ss t, subsamples o rocks ss = Ok t ->
  t_done t = zlen (filter (completes o) ss) /\ forall c, Forall2 (entry_of o rocks c) (filter (reaches o c) ss) (t_cols t c).
Proof. exact Drv_Proofs4.table_entries. Qed.
Theorem C137_printed : forall o rocks ss t, subsamples o rocks ss = Ok t -> (o_end o = true -> o_ntg o = true -> o_upscale o = true) ->
  (forall s, In s ss -> tidy o s) -> (forall s, In s ss -> completes o s = true -> printable o s) ->
  exists rows, print_rows o t = Ok rows /\ Forall2 (row_of o rocks (t_max t)) (filter (completes o) ss) rows.
Proof. exact Drv_Proofs5.table_printed. Qed.
Theorem C137_ntg_unfilled : forall o rocks ss t, subsamples o rocks ss = Ok t -> o_end o = true -> o_ntg o = true -> o_upscale o = false -> 0 < t_done t -> print_rows o t = UB.
Proof. exact Drv_Proofs7.ntg_unfilled. Qed.
Theorem C137_shifted_refuted : exists o rocks s1 s2 t row, proper o rocks s1 /\ proper o rocks s2 /\ subsamples o rocks [s1; s2] = Ok t /\ completes o s1 = false /\ completes o s2 = true /\
  t_done t = 1 /\ cell_at (t_cols t) Poro 0 = Ok (datum o rocks s1 Poro) /\ datum o rocks s1 Poro <> datum o rocks s2 Poro /\
  zget (t_cols t Rock) 0 = Some row /\ entry_of o rocks Rock s2 row.
Proof. exact Drv_Proofs7.rows_shift. Qed.
Theorem C137_chopped : forall o rocks ss s t, subsamples o rocks ss = Ok t -> In s ss -> s_chop s = true.
Proof. exact Drv_Proofs4.subsamples_chop. Qed.

(* C138: end points and limits of the capillary pressure *)
Theorem C138_end_points : forall rocks cells, (forall c, In c cells -> e_sat c <= zlen rocks) -> Rsum (map pore cells) <> 0%R ->
  end_points rocks cells = Ok (end_mean rocks fst cells, end_mean rocks snd cells).
Proof. exact Drv_Proofs2.end_points_ok. Qed.
Theorem C138_bounds : forall rocks cells a b, (forall r, In r rocks -> a <= fst r <= snd r /\ snd r <= b)%R -> (forall c, In c cells -> e_sat c <= zlen rocks /\ (0 <= e_vol c)%R /\ (0 <= e_phi c)%R) ->
  (0 < Rsum (map pore cells))%R -> (a <= end_mean rocks fst cells <= end_mean rocks snd cells /\ end_mean rocks snd cells <= b)%R.
Proof. exact Drv_Proofs7.end_mean_bounds. Qed.
Theorem C138_limits : forall o rocks ss t, subsamples o rocks ss = Ok t ->
  is_least (t_pcmin t) (pc_start :: flat_map (pressures e_pcmin) (filter (searched o) ss)) /\ is_greatest (t_pcmax t) (- pc_start :: flat_map (pressures e_pcmax) (filter (searched o) ss))%R.
Proof. exact Drv_Proofs7.subsamples_limits. Qed.
Theorem C138_pressures : forall o rocks ss s t t', subsamples o rocks ss = Ok t -> subsamples o rocks (ss ++ [s]) = Ok t' -> reaches o Pc s = true ->
  exists f, s_pc s = Some f /\ t_cols t' Pc = t_cols t Pc ++ [f (t_pcmin t') (t_pcmax t') (datum o rocks s Swir) (datum o rocks s Swor)].
Proof. exact Drv_Proofs6.pc_entry. Qed.

(* C139: shares of the rock types *)
Theorem C139_volumes : forall m cells, 0 <= m -> (forall c, In c cells -> 1 <= fst c) -> Rsum (map snd cells) <> 0%R -> exists m' row out, sat_volumes m cells = Ok (m', row) /\ normalised row = Ok out /\
  m' = fold_right Z.max m (map fst cells) /\ zlen out = m' /\ fractions cells out.
Proof. exact Drv_Proofs7.rock_shares. Qed.
Theorem C139_bounds : forall cells row, fractions cells row -> (forall c, In c cells -> 0 <= snd c)%R -> (0 < Rsum (map snd cells))%R -> forall t, 1 <= t -> (0 <= nthR row (t - 1) <= 1)%R.
Proof. exact Drv_Proofs7.fractions_bounds. Qed.

(* C140: the loop over depths *)
Theorem C140_rows : forall zl zmax zres piece upf, (0 < zres)%R -> exists n, 0 <= n /\ (forall k, 0 <= k -> (depth zres k <= zmax - zl)%R <-> k < n) /\
  ((forall k, 0 <= k < n -> piece (depth zres k) (Rmin (depth zres k + zl) zmax) = Ok tt) -> (forall k p, 0 <= k < n -> upf (depth zres k) <> Some (None, p)) ->
   forall fuel, (Z.to_nat n <= fuel)%nat -> exists d rows, depth_trend fuel zl zmax zres true piece upf = Some (Ok d) /\ trend_rows d = Ok rows /\
     Forall2 (trend_row upf) (filter (fun z => is_some (upf z)) (map (depth zres) (zrange 0 n))) rows).
Proof. exact Drv_Proofs7.trend_ok. Qed.
Theorem C140_endless : forall zl zmax zres piece upf upscale fuel, (zres <= 0)%R -> (zl <= zmax)%R -> (forall a b, piece a b = Ok tt) -> depth_trend fuel zl zmax zres upscale piece upf = None.
Proof. exact Drv_Proofs7.trend_endless. Qed.
Theorem C140_deep : forall g imin imax jmin jmax reset zl zmax zres upf upscale fuel bm tm, wf_arrays (g_nx g) (g_ny g) (g_nz g) (g_coord g) (g_zcorn g) -> box_within (g_nx g) (g_ny g) imin imax jmin jmax ->
  is_bottom_max (g_nx g) (g_ny g) (g_zcorn g) bm -> is_top_min (g_nx g) (g_ny g) (g_nz g) (g_zcorn g) tm -> (zl <= bm)%R -> (zl <= zmax)%R ->
  depth_trend (S fuel) zl zmax zres upscale (chopped_at g imin imax jmin jmax reset) upf = Some Throw.
Proof. exact Drv_Proofs7.trend_deep. Qed.

(* C141: the pairs of the variogram *)
Theorem C141_rows : forall vertical nx ny azmin azmax imin ilen imax jmin jlen jmax zmin zl zmax ws up rows, variogram vertical nx ny azmin azmax imin ilen imax jmin jlen jmax zmin zl zmax ws up = Ok rows ->
  0 < ilen /\ 0 < jlen /\ (0 < zl)%R /\ Forall2 (pair_row vertical ilen jlen zl up) ws rows.
Proof. exact Drv_Proofs7.variogram_rows. Qed.
Theorem C141_refused : forall vertical nx ny azmin azmax imin ilen imax jmin jlen jmax zmin zl zmax ws up, ilen <= 0 \/ jlen <= 0 \/ (zl <= 0)%R ->
  variogram vertical nx ny azmin azmax imin ilen imax jmin jlen jmax zmin zl zmax ws up = Throw.
Proof. exact Drv_Proofs7.variogram_refused. Qed.
Theorem C141_inside : forall vertical nx ny azmin azmax imin ilen imax jmin jlen jmax zmin zl zmax ws up up', (zl <= zmax - zmin)%R ->
  Forall (drawn imin ilen imax jmin jlen jmax zmin zl zmax) ws ->
  (forall i j z, imin <= i -> i + ilen <= imax -> jmin <= j -> j + jlen <= jmax -> (zmin <= z)%R -> (z + zl <= zmax)%R -> up i (i + ilen) j (j + jlen) z (z + zl)%R = up' i (i + ilen) j (j + jlen) z (z + zl)%R) ->
  variogram vertical nx ny azmin azmax imin ilen imax jmin jlen jmax zmin zl zmax ws up = variogram vertical nx ny azmin azmax imin ilen imax jmin jlen jmax zmin zl zmax ws up'.
Proof. exact Drv_Proofs7.variogram_inside. Qed.
Theorem C141_lost : forall vertical nx ny azmin azmax imin ilen imax jmin jlen jmax zmin zl zmax ws up w rows, In w ws ->
  up (w_i1 w) (w_i1 w + ilen) (w_j1 w) (w_j1 w + jlen) (w_z1 w) (w_z1 w + zl)%R = Throw ->
  variogram vertical nx ny azmin azmax imin ilen imax jmin jlen jmax zmin zl zmax ws up <> Ok rows.
Proof. exact Drv_Proofs7.variogram_lost. Qed.

Example C105_case : index_table 10 3 10 = Ok [0; 4; 7; 10] /\ index_table 10 3 5 = Ok [0; 4; 7; 5].
Proof. split; reflexivity. Qed.
Example C136_case : exists w, chop_window true 1 2 5 0 3 3 10 2 3 0 11 = Ok w /\ w = (3, 5, 0, 3, 11%R, (11 + 2)%R) /\ (10 <= 11 <= z_upper 10 2 14)%R.
Proof. exact window_case. Qed.
Example C137_case : exists t rows, subsamples all_ex [(1 / 10, 9 / 10)%R] [bad_ex; good_ex; bad_ex; good_ex] = Ok t /\ t_done t = 2 /\ print_rows all_ex t = Ok rows /\ zlen rows = 2.
Proof. exact table_case. Qed.
Example C138_case : (0 <= end_mean [(1 / 10, 9 / 10); (2 / 10, 8 / 10)]%R fst [mkEndcell 1 2 (1 / 4) 0 0; mkEndcell 2 6 (1 / 4) 0 0; mkEndcell 0 9 (1 / 4) 0 0])%R /\ (0 < Rsum (map pore [mkEndcell 1 2 (1 / 4) 0 0; mkEndcell 2 6 (1 / 4) 0 0; mkEndcell 0 9 (1 / 4) 0 0]))%R.
Proof. exact ends_case. Qed.
Example C138_case_pressures : reaches all_ex Pc good_ex = true /\ searched all_ex good_ex = true.
Proof. split; reflexivity. Qed.
Example C139_case : exists m row out, sat_volumes 1 [(3, 1%R); (1, 4%R); (3, 5%R)] = Ok (m, row) /\ normalised row = Ok out /\ m = 3.
Proof. exact shares_case. Qed.
Example C140_case : exists d rows, depth_trend 3 1 3 1 true (fun _ _ => Ok tt) (fun z => if Rltb z (1 / 2) then None else Some (Some z, perm_ex 1)) = Some (Ok d) /\ trend_rows d = Ok rows /\ zlen rows = 2.
Proof. exact trend_case. Qed.
Example C140_case_deep : depth_trend 1 1 2 1 true (chopped_at g_slanted 0 1 0 1 true) (fun _ => None) = Some Throw.
Proof.
  destruct slanted_meets as (W & B & M & T & _). apply (C140_deep g_slanted 0 1 0 1 true 1 2 1 (fun _ => None) true 0 1 2 W B M T); lra.
Qed.
Example C141_case : exists rows, variogram false 4 4 0 10 0 2 4 0 2 4 0 2 10 [mkDraws 0 0 1 2 1 0; mkDraws 1 1 3 1 2 0] (fun _ _ _ _ z _ => Ok (z, (1, 2, 3)%R)) = Ok rows /\ zlen rows = 2 /\
  Forall (drawn 0 2 4 0 2 4 0 2 10) [mkDraws 0 0 1 2 1 0; mkDraws 1 1 3 1 2 0].
Proof. exact variogram_case. Qed.
Print Assumptions C105_table. Print Assumptions C105_partition. Print Assumptions C105_cut. Print Assumptions C105_depths. Print Assumptions C105_never_finishes. Print Assumptions C136_random. Print Assumptions C136_fixed. Print Assumptions C136_undefined. Print Assumptions C137_defined. Print Assumptions C137_entries. Print Assumptions C137_printed. Print Assumptions C137_ntg_unfilled. Print Assumptions C137_shifted_refuted. Print Assumptions C137_chopped. Print Assumptions C138_end_points. Print Assumptions C138_bounds. Print Assumptions C138_limits. Print Assumptions C138_pressures. Print Assumptions C139_volumes. Print Assumptions C139_bounds. Print Assumptions C140_rows. Print Assumptions C140_endless. Print Assumptions C140_deep. Print Assumptions C141_rows. Print Assumptions C141_refused. Print Assumptions C141_inside. Print Assumptions C141_lost.
