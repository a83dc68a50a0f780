From Verif Require Import Cap_Proofs Cap_Proofs2 Cap_Proofs3 Cap_Proofs4 Cap_Proofs5 Cap_Proofs6 Cap_Proofs7 Cap_Proofs8 Cap_Proofs9 Mpi_Spec Relp_Spec Cap_Spec.
Open Scope Z_scope.

(* C148: command line and rock files *)
Theorem C148_accepted : forall o kvs file files, (forall kv, In kv kvs -> known o (fst kv)) -> ~ is_option file -> files <> [] ->
  exists o', command_line o (option_args kvs ++ file :: files) = Ok (o', (file, files)) /\ forall k, o' k = last_value o kvs k.
Proof. exact Cap_Proofs.cl_ok. Qed.
Theorem C148_unknown_option : forall o kvs k rest, (forall kv, In kv kvs -> known o (fst kv)) -> ~ known o k ->
  command_line o (option_args kvs ++ String "-" k :: rest) = Throw.
Proof. exact Cap_Proofs.cl_unknown. Qed.
Theorem C148_dangling_option : forall o kvs k, (forall kv, In kv kvs -> known o (fst kv)) -> known o k ->
  command_line o (option_args kvs ++ [String "-" k]) = UB.
Proof. exact Cap_Proofs.cl_dangling. Qed.
Theorem C148_missing_files : forall o kvs rest, (forall kv, In kv kvs -> known o (fst kv)) -> rest = [] \/ (exists file, ~ is_option file /\ rest = [file]) ->
  command_line o (option_args kvs ++ rest) = Throw.
Proof. exact Cap_Proofs.cl_missing. Qed.
Theorem C148_cases : forall o args, exists kvs rest, args = option_args kvs ++ rest /\ (forall kv, In kv kvs -> known o (fst kv)) /\
  (rest = [] \/ (exists file files, ~ is_option file /\ rest = file :: files) \/
   (exists k l, ~ known o k /\ rest = String "-" k :: l) \/ (exists k, known o k /\ rest = [String "-" k])).
Proof. exact Cap_Proofs.cl_complete. Qed.
Theorem C148_file_each : forall {A} (load : string -> res A) files curves, rock_curves load (zlen files) files = Ok curves <-> mapM load files = Ok curves.
Proof. exact @Cap_Proofs.rocks_each. Qed.
Theorem C148_one_file : forall {A} (load : string -> res A) file stones, stones <> 1 -> 0 <= stones ->
  (forall c, load file = Ok c -> rock_curves load stones [file] = Ok (zrepeat c stones)) /\
  (0 < stones -> load file = Throw -> rock_curves load stones [file] = Throw).
Proof. exact @Cap_Proofs.rocks_single. Qed.
Theorem C148_wrong_number : forall {A} (load : string -> res A) files stones, zlen files <> stones -> zlen files <> 1 -> rock_curves load stones files = Throw.
Proof. exact @Cap_Proofs.rocks_wrong. Qed.

(* C149: check of the grid input *)
Theorem C149_cap : forall minperm minporo sat poro perm, (minporo <= 1)%R -> zlen sat <= zlen poro -> zlen sat <= zlen perm -> cells_valid sat poro perm ->
  exists ps ks, check_cells (cap_cell minperm minporo) sat poro perm = Ok (ps, ks) /\ zlen ps = zlen sat /\ zlen ks = zlen sat /\
  forall i s po k, zget sat i = Some s -> zget poro i = Some po -> zget perm i = Some k ->
    (s = 0 -> zget ps i = Some 0%R /\ zget ks i = Some minperm) /\
    (0 < s -> zget ps i = Some (Rmax po minporo) /\ zget ks i = Some (Rmax k minperm)).
Proof. exact Cap_Proofs3.check_cap. Qed.
Theorem C149_cap_rejects : forall minperm minporo sat poro perm, (minporo <= 1)%R -> zlen sat <= zlen poro -> zlen sat <= zlen perm -> ~ cells_valid sat poro perm ->
  check_cells (cap_cell minperm minporo) sat poro perm = Throw.
Proof. exact Cap_Proofs3.check_cap_rejects. Qed.
Theorem C149_cond : forall minperm minporo sat poro perm, (minporo <= 1)%R -> (0 <= minperm)%R -> zlen sat <= zlen poro -> zlen sat <= zlen perm -> cells_valid sat poro perm ->
  exists ps ks, check_cells (cond_cell minperm minporo) sat poro perm = Ok (ps, ks) /\ zlen ps = zlen sat /\ zlen ks = zlen sat /\
  forall i s po k, zget sat i = Some s -> zget poro i = Some po -> zget perm i = Some k ->
    (s = 0 -> zget ps i = Some 0%R /\ zget ks i = Some minperm) /\
    (0 < s -> zget ps i = Some (Rmax po minporo) /\ (k = 0%R -> zget ks i = Some minperm) /\ (k <> 0%R -> zget ks i = Some k)).
Proof. exact Cap_Proofs3.check_cond. Qed.
Theorem C149_cond_rejects : forall minperm minporo sat poro perm, (minporo <= 1)%R -> (0 <= minperm)%R -> zlen sat <= zlen poro -> zlen sat <= zlen perm -> ~ cells_valid sat poro perm ->
  check_cells (cond_cell minperm minporo) sat poro perm = Throw.
Proof. exact Cap_Proofs3.check_cond_rejects. Qed.

(* C150: pressure limits and end points *)
Theorem C150_limits : forall x cells tol, proper x cells -> (exists cv, In cv (rocky x cells) /\ (0 < snd cv)%R) ->
    (forall cv, In cv (rocky x cells) -> let cu := curve_at x (fst cv) in
       (0 <= cv_minf cu <= cv_maxf cu)%R /\ (cv_maxf cu <= 1)%R /\ (- dbl_max <= pc_of_j x (fst cv) (cv_minx cu) <= dbl_max)%R /\
       (- dbl_max <= pc_of_j x (fst cv) (cv_maxx cu) <= dbl_max)%R /\ (cv_minx cu <= cv_maxx cu)%R) ->
    exists l, cap_limits x tol cells = Ok l /\
      is_min (li_pcmin l) (map (fun cv => pc_of_j x (fst cv) (cv_minx (curve_at x (fst cv)))) (rocky x cells)) /\
      is_max (li_pcmax l) (map (fun cv => pc_of_j x (fst cv) (cv_maxx (curve_at x (fst cv)))) (rocky x cells)) /\
      (li_pcmin l <= li_pcmax l)%R /\
      li_pore l = sum_cells (pore_of x) (rocky x cells) /\ (0 < li_pore l)%R /\
      (li_phi l * sum_cells snd (rocky x cells) = li_pore l)%R /\
      (li_swir l * li_pore l = sum_cells (fun cv => cv_minf (curve_at x (fst cv)) * pore_of x cv) (rocky x cells))%R /\
      (li_swor l * li_pore l = sum_cells (fun cv => cv_maxf (curve_at x (fst cv)) * pore_of x cv) (rocky x cells))%R /\
      (0 <= li_swir l <= li_swor l)%R /\ (li_swor l <= 1)%R /\
      zlen (li_rock l) = max_satnum (ci_sat x) + 1 /\
      (forall r, 0 <= r <= max_satnum (ci_sat x) -> zget (li_rock l) r = Some (sum_cells (pore_of x) (of_rock x r (rocky x cells)))) /\
      zlen (li_vol l) = zlen (ci_sat x) /\ zlen (li_pv l) = zlen (ci_sat x) /\
      (forall cv, In cv (rocky x cells) -> zget (li_vol l) (fst cv) = Some (snd cv) /\ zget (li_pv l) (fst cv) = Some (pore_of x cv)) /\
      (forall c, 0 <= c < zlen (ci_sat x) -> ~ In c (map fst (rocky x cells)) -> zget (li_vol l) c = Some 0%R /\ zget (li_pv l) c = Some 0%R).
Proof. exact Cap_Proofs4.limits_spec. Qed.
Theorem C150_no_rock : forall x cells tol, proper x cells -> rocky x cells = [] -> cap_limits x tol cells = Throw.
Proof. exact Cap_Proofs4.limits_none. Qed.

(* C151: tabulation of saturation against capillary pressure *)
Theorem C151_values : forall {A} (f : R -> res (R * A)) fuel swir swor pcmin pcmax parts t, (pcmin < pcmax)%R -> (swir < swor)%R -> (1 < parts)%R ->
  tabulate fuel f swir swor pcmin pcmax parts = Ok (Some t) ->
  ordered t /\ (forall e, In e t -> (pcmin <= fst e <= pcmax)%R /\ f (fst e) = Ok (snd e)) /\
  (exists v, In (pcmin, v) t) /\ (exists v, In (pcmax, v) t).
Proof. exact @Cap_Proofs3.tab_values. Qed.
Theorem C151_resolution : forall {A} (f : R -> res (R * A)) fuel swir swor pcmin pcmax parts t, (pcmin < pcmax)%R -> (swir < swor)%R -> (1 < parts)%R ->
  monotone f pcmin pcmax -> tabulate fuel f swir swor pcmin pcmax parts = Ok (Some t) ->
  forall a b, adjacent t a b -> (Rabs (fst (snd b) - fst (snd a)) <= (swor - swir) / parts)%R.
Proof. exact @Cap_Proofs3.tab_resolution. Qed.
Theorem C151_terminates : forall {A} (f : R -> res (R * A)) fuel swir swor pcmin pcmax parts d, (pcmin < pcmax)%R -> (swir < swor)%R -> (1 < parts)%R -> (0 < d)%R ->
  (forall p, (pcmin <= p <= pcmax)%R -> exists v, f p = Ok v) ->
  (forall p q s a s' b, (pcmin <= p <= pcmax)%R -> (pcmin <= q <= pcmax)%R -> (Rabs (q - p) < d)%R ->
     f p = Ok (s, a) -> f q = Ok (s', b) -> (Rabs (s' - s) <= (swor - swir) / parts)%R) ->
  (3 + 2 * (pcmax - pcmin) / d <= INR fuel)%R ->
  exists t, tabulate fuel f swir swor pcmin pcmax parts = Ok (Some t).
Proof. exact @Cap_Proofs3.tab_terminates. Qed.
Theorem C151_jump : forall {A} (f : R -> res (R * A)) fuel swir swor pcmin pcmax parts c u v (a b : A), (pcmin <= c < pcmax)%R -> (swir < swor)%R -> (1 < parts)%R ->
  ((swor - swir) / parts < Rabs (v - u))%R -> (forall p, f p = Ok (if Rle_dec p c then (u, a) else (v, b))) ->
  tabulate fuel f swir swor pcmin pcmax parts = Ok None.
Proof. exact @Cap_Proofs3.tab_jump. Qed.
Theorem C151_empty : forall {A} (f : R -> res (R * A)) fuel swir swor pcmin pcmax parts, (swor <= swir)%R -> (1 < parts)%R ->
  tabulate fuel f swir swor pcmin pcmax parts = Ok (Some []).
Proof. exact @Cap_Proofs3.tab_empty. Qed.
Theorem C151_single_pressure : forall {A} (f : R -> res (R * A)) fuel swir swor p parts v, (swir < swor)%R -> (1 < parts)%R -> f p = Ok v ->
  tabulate (S fuel) f swir swor p p parts = Ok (Some [(p, v)]).
Proof. exact @Cap_Proofs3.tab_single. Qed.
Theorem C151_relperm : forall h pv pore fuel swir swor pcmin pcmax t, (pcmin < pcmax)%R -> (swir < swor)%R ->
  tabulate fuel (helper_sat h pv pore) swir swor pcmin pcmax 500 = Ok (Some t) ->
  ordered t /\ forall p s u, In (p, (s, u)) t -> (pcmin <= p <= pcmax)%R /\ sweep_sat h pv pore p = Ok (Some s).
Proof. exact Cap_Proofs9.helper_table. Qed.

(* C152: saturations of the model and of the rock types *)
Theorem C152_values : forall x cells tol l p, proper x cells -> cap_limits x tol cells = Ok l ->
  exists s rs, cap_values x l p = Ok (s, rs) /\
  (s * sum_cells (pore_of x) (rocky x cells) = sum_cells (fun cv => water_sat x p (fst cv) * pore_of x cv) (big (rocky x cells)))%R /\ zlen rs = max_satnum (ci_sat x) /\
  forall r, 1 <= r <= max_satnum (ci_sat x) ->
    (sum_cells (pore_of x) (of_rock x r (rocky x cells)) = 0%R -> nthR rs (r - 1) = 0%R) /\
    (nthR rs (r - 1) * sum_cells (pore_of x) (of_rock x r (rocky x cells)) =
       sum_cells (fun cv => water_sat x p (fst cv) * pore_of x cv) (big (of_rock x r (rocky x cells))))%R.
Proof. exact Cap_Proofs5.cap_values_spec. Qed.
Theorem C152_balance : forall x cells tol l p s rs, proper x cells -> cap_limits x tol cells = Ok l -> cap_values x l p = Ok (s, rs) ->
  (s * li_pore l = sum_cells (fun r => nthR rs (r - 1) * nthR (li_rock l) r) (zrange 1 (max_satnum (ci_sat x) + 1)))%R.
Proof. exact Cap_Proofs5.cap_rock_balance. Qed.
Theorem C152_within : forall x cells tol l p s rs, proper x cells -> cap_limits x tol cells = Ok l -> cap_values x l p = Ok (s, rs) ->
  (forall cv, In cv (rocky x cells) -> (/ 10000000000 < snd cv)%R /\ within (curve_at x (fst cv))) ->
  (sum_cells (fun cv => cv_minf (curve_at x (fst cv)) * pore_of x cv) (rocky x cells) <= s * li_pore l <= sum_cells (fun cv => cv_maxf (curve_at x (fst cv)) * pore_of x cv) (rocky x cells))%R /\
  forall r, 1 <= r <= max_satnum (ci_sat x) -> (exists cv, In cv (rocky x cells) /\ sat_of x (fst cv) = r) ->
    (cv_minf (rock_curve x r) <= nthR rs (r - 1) <= cv_maxf (rock_curve x r))%R.
Proof. exact Cap_Proofs5.cap_within. Qed.
Theorem C152_monotone : forall x cells tol l lo hi, proper x cells -> cap_limits x tol cells = Ok l ->
  (forall cv, In cv (rocky x cells) -> forall j j', (j <= j')%R -> (cv_eval (curve_at x (fst cv)) j' <= cv_eval (curve_at x (fst cv)) j)%R) ->
  (forall p, exists v, cap_values x l p = Ok v) /\ monotone (cap_values x l) lo hi.
Proof. exact Cap_Proofs5.cap_monotone. Qed.
Theorem C152_cond : forall x cells tol l p, proper x cells -> cap_limits x tol cells = Ok l ->
  exists s, cond_values x l (map fst cells) p = Ok (s, tt) /\
    (s * sum_cells (pore_of x) (rocky x cells) = sum_cells (fun cv => water_sat x p (fst cv) * pore_of x cv) (rocky x cells))%R.
Proof. exact Cap_Proofs9.cond_sat. Qed.
Theorem C152_same : forall x cells tol l p, proper x cells -> cap_limits x tol cells = Ok l ->
  (forall cv, In cv (rocky x cells) -> (/ 10000000000 < snd cv)%R) ->
  exists s rs, cond_values x l (map fst cells) p = Ok (s, tt) /\ cap_values x l p = Ok (s, rs).
Proof. exact Cap_Proofs9.cond_sat_balance. Qed.

(* C153: the table of upscale_cap *)
Theorem C153_grid : forall n sats, 2 <= n -> sats <> [] -> (forall s, In s sats -> - dbl_max <= s <= dbl_max)%R -> exists g, sat_grid n sats = Ok g /\ zlen g = n /\
  is_min (nthR g 0) sats /\ is_max (nthR g (n - 1)) sats /\
  (forall i, 0 <= i < n -> (nthR g 0 <= nthR g i <= nthR g (n - 1))%R) /\
  (forall i, 0 <= i < n - 1 -> (nthR g (i + 1) - nthR g i = (nthR g (n - 1) - nthR g 0) / IZR (n - 1))%R).
Proof. exact Cap_Proofs6.grid_spec. Qed.
Theorem C153_raw : forall fuel interp points x l t, points <= 0 -> tabulate fuel (cap_values x l) (li_swir l) (li_swor l) (li_pcmin l) (li_pcmax l) 200 = Ok (Some t) ->
  (forall e, In e t -> zlen (snd (snd e)) = max_satnum (ci_sat x)) ->
  cap_report fuel interp points x l = Ok (Some (map (fun e => fst e :: fst (snd e) :: snd (snd e)) t)).
Proof. exact Cap_Proofs6.report_raw. Qed.
Theorem C153_interpolated : forall fuel interp points x l t, 2 <= points -> interpolates interp ->
  tabulate fuel (cap_values x l) (li_swir l) (li_swor l) (li_pcmin l) (li_pcmax l) 200 = Ok (Some t) -> t <> [] ->
  (forall e, In e t -> (li_pcmin l <= fst e <= li_pcmax l)%R /\ (- dbl_max <= fst (snd e) <= dbl_max)%R) ->
  exists rows, cap_report fuel interp points x l = Ok (Some rows) /\ zlen rows = points /\
  (forall i row, zget rows i = Some row -> zlen row = 2 + max_satnum (ci_sat x) /\ (li_pcmin l <= nthR row 0 <= li_pcmax l)%R) /\
  (forall i row, zget rows i = Some row -> exists g0 g1, is_min g0 (map (fun e => fst (snd e)) t) /\ is_max g1 (map (fun e => fst (snd e)) t) /\
     (nthR row 1 = g0 + IZR i / IZR (points - 1) * (g1 - g0))%R) /\
  (NoDup (map (fun e => fst (snd e)) t) -> (forall e, In e t -> zlen (snd (snd e)) = max_satnum (ci_sat x)) ->
   forall i row e, zget rows i = Some row -> In e t -> nthR row 1 = fst (snd e) -> row = fst e :: fst (snd e) :: snd (snd e)).
Proof. exact Cap_Proofs6.report_interpolated. Qed.
Theorem C153_one_point : forall fuel interp x l t, tabulate fuel (cap_values x l) (li_swir l) (li_swor l) (li_pcmin l) (li_pcmax l) 200 = Ok (Some t) ->
  cap_report fuel interp 1 x l = UB.
Proof. exact Cap_Proofs6.report_one_point. Qed.
Theorem C153_empty : forall fuel interp points x l, (li_swor l <= li_swir l)%R ->
  (points <= 0 -> cap_report fuel interp points x l = Ok (Some [])) /\ (0 < points -> cap_report fuel interp points x l = UB).
Proof. exact Cap_Proofs6.report_empty. Qed.

(* C154: cell resistivities *)
Theorem C154_mud : forall a s po sw, s = ar_m1 a \/ s = ar_m2 a -> cell_resistivity a s po sw = Ok (ar_mud a).
Proof. exact Cap_Proofs7.mud. Qed.
Theorem C154_archie : forall a s po sw, s <> ar_m1 a -> s <> ar_m2 a -> 0 <= s < zlen (ar_cem a) -> s < zlen (ar_sexp a) -> (0 < po)%R -> (0 < sw)%R ->
  cell_resistivity a s po sw = Ok (archie_law (ar_a a) (ar_rw a) po (nthR (ar_cem a) s) sw (nthR (ar_sexp a) s) (ar_cut a)).
Proof. exact Cap_Proofs7.resistivity_ok. Qed.
Theorem C154_dry : forall a s po, s <> ar_m1 a -> s <> ar_m2 a -> 0 <= s < zlen (ar_cem a) -> s < zlen (ar_sexp a) -> (0 < po)%R -> (0 < ar_a a * ar_rw a)%R -> (0 < nthR (ar_sexp a) s)%R ->
  cell_resistivity a s po 0 = Ok (ar_cut a).
Proof. exact Cap_Proofs7.resistivity_dry. Qed.
Theorem C154_bounds : forall a rw po m sw n cut, (0 < a * rw)%R -> (0 < cut)%R -> (0 < archie_law a rw po m sw n cut <= cut)%R.
Proof. exact Cap_Proofs7.archie_bounds. Qed.
Theorem C154_wetter : forall a rw po m sw sw' n cut, (0 <= a * rw)%R -> (0 <= n)%R -> (0 < sw <= sw')%R -> (archie_law a rw po m sw' n cut <= archie_law a rw po m sw n cut)%R.
Proof. exact Cap_Proofs7.archie_wetter. Qed.
Theorem C154_cells : forall x cells tol l a p, proper x cells -> cap_limits x tol cells = Ok l -> archie_fit x a ->
  (forall cv, In cv (rocky x cells) -> forall j, (0 <= cv_eval (curve_at x (fst cv)) j)%R) ->
  cond_cells x l a (map fst cells) p =
    Ok (sum_cells (fun cv => water_sat x p (fst cv) * pore_of x cv)%R (rocky x cells), map (fun cv => (1 / cell_ohm x a p (fst cv))%R) cells).
Proof. exact Cap_Proofs7.cond_cells_ok. Qed.
Theorem C154_cutoff : forall x a p c, archie_fit x a -> (ar_mud a <= ar_cut a)%R -> (0 < cell_ohm x a p c <= ar_cut a)%R.
Proof. exact Cap_Proofs7.cell_ohm_bounds. Qed.
Theorem C154_parameters : forall cut mudr m1 m2 a rw cem sexp gcem gsat maxsat, (0 < rw)%R -> exists ar, archie_init cut mudr m1 m2 a rw cem sexp gcem gsat maxsat = Ok ar /\
  ar_cut ar = cut /\ ar_mud ar = mudr /\ ar_m1 ar = m1 /\ ar_m2 ar = m2 /\ ar_a ar = a /\ ar_rw ar = rw /\
  forall i, 1 <= i <= maxsat -> nthR (ar_cem ar) i = (if Rltb 0 (gcem i) then gcem i else cem) /\ nthR (ar_sexp ar) i = (if Rltb 0 (gsat i) then gsat i else sexp).
Proof. exact Cap_Proofs7.archie_init_ok. Qed.
Theorem C154_water : forall cut mudr m1 m2 a rw cem sexp gcem gsat maxsat, (rw <= 0)%R -> archie_init cut mudr m1 m2 a rw cem sexp gcem gsat maxsat = Throw.
Proof. exact Cap_Proofs7.archie_init_rejects. Qed.

(* C155: the table of upscale_cond on several processes *)
Theorem C155_elements : forall s n, element_count s = Ok n <-> (exists t, s = String "f" t /\ n = 3) \/ (exists t, (s = String "l" t \/ s = String "p" t) /\ n = 9).
Proof. exact Cap_Proofs9.elements. Qed.
Theorem C155_points : forall pc swir swor n, 2 <= n -> exists ps, pressure_points pc swir swor n = Ok ps /\ zlen ps = n /\
  forall i, 0 <= i < n -> nthR ps i = pc (swir + (swor - swir) * IZR i / IZR (n - 1))%R.
Proof. exact Cap_Proofs7.points_ok. Qed.
Theorem C155_one_point : forall pc swir swor, pressure_points pc swir swor 1 = UB.
Proof. exact Cap_Proofs7.points_one. Qed.
Theorem C155_ranks : forall x l a ecl up inv tec n rank ps g0, 0 <= tec <= 9 -> li_pore l <> 0%R -> (forall g, exists k, up g = Ok k) -> (forall k, exists r, inv k = Ok r /\ zlen r = 9) ->
  (forall p, In p ps -> exists wg, cond_cells x l a ecl p = Ok wg) -> exists ar, rank_arrays x l a ecl up inv tec n rank ps g0 = Ok ar.
Proof. exact Cap_Proofs8.rank_total. Qed.
Theorem C155_master : forall x l a ecl up inv tec n ps g0 (ars : Z -> arrays) k st, 0 <= tec -> 0 < n ->
  (forall r, 0 <= r < n -> rank_arrays x l a ecl up inv tec n r ps g0 = Ok (ars r)) ->
  mpi_run false tec ars k (mpi_init n (zlen ps) ars) st ->
  Z.of_nat k <= 2 * zlen ps /\ (~ all_done st -> exists st', guaranteed false tec ars st st') /\
  (all_done st -> forall i p, zget ps i = Some p -> exists s row, point_result x l a ecl up inv tec p = Ok (s, row) /\
     zget (ar_ws (mp_master st)) i = Some s /\ zget (ar_p0 (mp_master st)) i = Some row).
Proof. exact Cap_Proofs7.cond_mpi. Qed.
Theorem C155_rows : forall interp ipoints tec ps ar, ipoints <= 1 -> tec = 3 \/ tec = 9 -> zlen (ar_ws ar) = zlen ps -> zlen (ar_p0 ar) = zlen ps -> (forall r, In r (ar_p0 ar) -> zlen r = tec) ->
  exists rows, cond_report interp ipoints tec ps ar = Ok rows /\ zlen rows = zlen ps /\
  forall i p s row, zget ps i = Some p -> zget (ar_ws ar) i = Some s -> zget (ar_p0 ar) i = Some row -> zget rows i = Some (p :: s :: row).
Proof. exact Cap_Proofs7.cond_rows. Qed.

Example C148_case : exists o', command_line (fun k => if String.eqb k "minPerm" then Some "1e-12"%string else None)
    ["-minPerm"; "5"; "grid.data"; "rock.txt"]%string = Ok (o', ("grid.data", ["rock.txt"])%string) /\ o' "minPerm"%string = Some "5"%string.
Proof. eexists. split; reflexivity. Qed.
Example C150_case : exists l, cap_limits exx (/ 1000000) exc = Ok l /\ li_pcmin l = 0%R /\ li_pcmax l = 1%R.
Proof. exact ex_limits. Qed.
Example C151_case : exists fuel t, tabulate fuel (fun p => Ok ((1 - p)%R, tt)) 0 1 0 1 200 = Ok (Some t).
Proof. exact ex_tab. Qed.
Example C151_case_jump fuel : tabulate fuel (fun p => Ok (if Rle_dec p (/ 2) then (1%R, tt) else (/ 5, tt)%R)) (/ 5) 1 0 1 500 = Ok None.
Proof. exact (ex_jump fuel). Qed.
Example C152_case : proper exx exc /\ forall cv, In cv (rocky exx exc) -> within (curve_at exx (fst cv)) /\ (forall j, (0 <= cv_eval (curve_at exx (fst cv)) j)%R) /\
  forall j j', (j <= j')%R -> (cv_eval (curve_at exx (fst cv)) j' <= cv_eval (curve_at exx (fst cv)) j)%R.
Proof. split; [exact ex_proper|exact ex_curves]. Qed.
Example C154_case : archie_fit exx ex_archie.
Proof. exact ex_fit. Qed.
Example C155_case : exists l (ars : Z -> arrays), cap_limits exx (/ 1000000) exc = Ok l /\
  forall r, 0 <= r < 2 -> rank_arrays exx l ex_archie (map fst exc) (fun _ => Ok (zrepeat 1%R 9)) (fun k => Ok (zrepeat (nthR k 0) 9)) 3 2 r [0; / 2; 1]%R [1; 1; 1]%R = Ok (ars r).
Proof. exact ex_ranks. Qed.
Print Assumptions C148_accepted. Print Assumptions C148_unknown_option. Print Assumptions C148_dangling_option. Print Assumptions C148_missing_files. Print Assumptions C148_cases. Print Assumptions C148_file_each. Print Assumptions C148_one_file. Print Assumptions C148_wrong_number. Print Assumptions C149_cap. Print Assumptions C149_cap_rejects. Print Assumptions C149_cond. Print Assumptions C149_cond_rejects. Print Assumptions C150_limits. Print Assumptions C150_no_rock. Print Assumptions C151_values. Print Assumptions C151_resolution. Print Assumptions C151_terminates. Print Assumptions C151_jump. Print Assumptions C151_empty. Print Assumptions C151_single_pressure. Print Assumptions C151_relperm. Print Assumptions C152_values. Print Assumptions C152_balance. Print Assumptions C152_within. Print Assumptions C152_monotone. Print Assumptions C152_cond. Print Assumptions C152_same. Print Assumptions C153_grid. Print Assumptions C153_raw. Print Assumptions C153_interpolated. Print Assumptions C153_one_point. Print Assumptions C153_empty. Print Assumptions C154_mud. Print Assumptions C154_archie. Print Assumptions C154_dry. Print Assumptions C154_bounds. Print Assumptions C154_wetter. Print Assumptions C154_cells. Print Assumptions C154_cutoff. Print Assumptions C154_parameters. Print Assumptions C154_water. Print Assumptions C155_elements. Print Assumptions C155_points. Print Assumptions C155_one_point. Print Assumptions C155_ranks. Print Assumptions C155_master. Print Assumptions C155_rows.
