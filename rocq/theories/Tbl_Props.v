From Verif Require Import Tbl_Proofs Tbl_Proofs2 Tbl_Proofs3 Tbl_Spec Cap_Proofs8 Visc_Proofs9.
Open Scope string_scope.
Open Scope list_scope.
Open Scope Z_scope.

(* C222: the names above the columns of the tables of upscale_cond and upscale_relpermvisc *)
Theorem C222_cond : forall interp ipoints bc tec x l a ecl up inv ps ar, element_count bc = Ok tec -> ipoints <= 1 -> zlen (ar_ws ar) = zlen ps -> zlen (ar_p0 ar) = zlen ps ->
  (forall i p, zget ps i = Some p -> exists s row, point_result x l a ecl up inv tec p = Ok (s, row) /\ zget (ar_ws ar) i = Some s /\ zget (ar_p0 ar) i = Some row) ->
  (forall k r, inv k = Ok r -> zlen r = 9) ->
  exists rows, cond_report interp ipoints tec ps ar = Ok rows /\ zlen rows = zlen ps /\
  forall i p, zget ps i = Some p -> exists s r row, point_tensor x l a ecl up inv p s r /\ zget rows i = Some row /\ Forall2 (announced "Pc (Pa)" "R" p s (tensor_of r)) (cond_header bc) row.
Proof. exact Tbl_Proofs.cond_table. Qed.
Theorem C222_cond_single : forall interp ipoints bc tec x l a ecl up inv ps g0 ar, element_count bc = Ok tec -> ipoints <= 1 -> rank_arrays x l a ecl up inv tec 1 0 ps g0 = Ok ar ->
  (forall k r, inv k = Ok r -> zlen r = 9) ->
  exists rows, cond_report interp ipoints tec ps ar = Ok rows /\ zlen rows = zlen ps /\
  forall i p, zget ps i = Some p -> exists s r row, point_tensor x l a ecl up inv p s r /\ zget rows i = Some row /\ Forall2 (announced "Pc (Pa)" "R" p s (tensor_of r)) (cond_header bc) row.
Proof. exact Tbl_Proofs.cond_single. Qed.
Theorem C222_visc : forall interp sat_of_ratio ipoints bc tec kinv ps a ph, element_count bc = Ok tec -> zlen kinv = 9 -> arrays_ok true tec (zlen ps) a -> ps <> [] -> ipoints <= 1 ->
  exists rows, visc_report interp sat_of_ratio ipoints tec kinv ps a ph = Ok (cut_rows (ar_ws a) rows) /\ zlen rows = zlen ps /\
  forall i q s stored f, zget ps i = Some q -> zget (ar_ws a) i = Some s -> zget (if ph =? 0 then ar_p0 a else ar_p1 a) i = Some stored -> row_tensor tec stored f ->
    exists row, zget rows i = Some row /\ Forall2 (announced "v_w/v_o" (phase_symbol ph) q s (mmul 3 f (tensor_of kinv))) (visc_header bc ph) row.
Proof. exact Tbl_Proofs.visc_table. Qed.
Theorem C222_visc_single : forall interp sat_of_ratio ipoints bc tec kinv x cells tol l inv up ps ph, element_count bc = Ok tec -> zlen kinv = 9 -> ps <> [] -> ipoints <= 1 -> ph = 0 \/ ph = 1 ->
  vproper x (map fst cells) -> (exists cv, In cv (vrocky x cells) /\ (0 < vpore x cv)%R) ->
    (forall cv, In cv (vrocky x cells) -> (0 <= vpore x cv)%R /\ (0 <= cv_minx (water_curve x (fst cv)) <= cv_maxx (water_curve x (fst cv)))%R /\ (cv_maxx (water_curve x (fst cv)) <= 1)%R) ->
  visc_limits x tol cells = Ok l -> curves_shaped (vi_aniso x) inv -> zlen inv = zlen (vi_rocks x) ->
  (forall ts, exists k, up ts = Ok k /\ zlen k = 9) ->
  exists a rows, visc_rank (visc_point x inv l (map fst cells) up tec) tec 1 0 ps = Ok a /\
    visc_report interp sat_of_ratio ipoints tec kinv ps a ph = Ok (cut_rows (ar_ws a) rows) /\ zlen rows = zlen ps /\
    forall i q, zget ps i = Some q -> exists s ts k row,
      (s * sum_cells (vpore x) (vrocky x cells) = sum_cells (fun cv => cell_sat x inv q (fst cv) * vpore x cv) (vrocky x cells))%R /\
      visc_perms x ph (stone_sats (vi_aniso x) inv q) (map fst cells) = Ok ts /\ up ts = Ok k /\ zget rows i = Some row /\
      Forall2 (announced "v_w/v_o" (phase_symbol ph) q s (mmul 3 (kept tec k) (tensor_of kinv))) (visc_header bc ph) row.
Proof. exact Tbl_Proofs3.visc_single. Qed.
Theorem C222_cond_names : forall bc tec, element_count bc = Ok tec -> zlen (cond_header bc) = 2 + tec /\ NoDup (cond_header bc) /\
  forall a b, 0 <= a < 3 -> 0 <= b < 3 -> (In ("R" ++ axis_letter a ++ axis_letter b)%string (cond_header bc) <-> tec = 9 \/ a = b).
Proof. exact Tbl_Proofs.cond_names. Qed.
Theorem C222_visc_names : forall bc tec ph, element_count bc = Ok tec -> zlen (visc_header bc ph) = 2 + tec /\ NoDup (visc_header bc ph) /\
  forall a b, 0 <= a < 3 -> 0 <= b < 3 -> (In (phase_symbol ph ++ axis_letter a ++ axis_letter b)%string (visc_header bc ph) <-> tec = 9 \/ a = b).
Proof. exact Tbl_Proofs.visc_names. Qed.

(* C223: the flow ratios printed by upscale_relpermvisc *)
Theorem C223_plain : forall interp sat_of_ratio ipoints tec kinv ps a ph rows, tec = 3 \/ tec = 9 -> zlen kinv = 9 -> arrays_ok true tec (zlen ps) a -> ps <> [] -> ipoints <= 1 ->
  ar_ws a = map sat_of_ratio ps -> visc_report interp sat_of_ratio ipoints tec kinv ps a ph = Ok rows ->
  forall row, In row rows -> exists q els, In q ps /\ row = q :: sat_of_ratio q :: els.
Proof. exact Tbl_Proofs2.plain_pairs. Qed.
Theorem C223_interpolated : forall interp sat_of_ratio ipoints tec kinv ps a ph rows, tec = 3 \/ tec = 9 -> zlen kinv = 9 -> arrays_ok true tec (zlen ps) a -> ps <> [] -> 2 <= ipoints ->
  (forall s, In s (ar_ws a) -> - dbl_max <= s <= dbl_max)%R -> visc_report interp sat_of_ratio ipoints tec kinv ps a ph = Ok rows ->
  forall row, In row rows -> exists s els, row = sat_of_ratio s :: s :: els.
Proof. exact Tbl_Proofs2.interp_pairs. Qed.
Theorem C223_bounded : forall interp sat_of_ratio ipoints tec kinv ps a ph rows lo hi, tec = 3 \/ tec = 9 -> zlen kinv = 9 -> arrays_ok true tec (zlen ps) a -> ps <> [] -> 2 <= ipoints ->
  (forall s, In s (ar_ws a) -> - dbl_max <= s <= dbl_max)%R -> visc_report interp sat_of_ratio ipoints tec kinv ps a ph = Ok rows ->
  (forall q, lo <= sat_of_ratio q <= hi)%R -> forall q rest, In (q :: rest) rows -> (lo <= q <= hi)%R.
Proof. exact Tbl_Proofs2.interp_bounded. Qed.
Theorem C223_ratio_refuted : forall interp, exists (sat_of_ratio : R -> R) ps a rows, (forall x y, x < y -> sat_of_ratio x < sat_of_ratio y)%R /\ ar_ws a = map sat_of_ratio ps /\ arrays_ok true 3 (zlen ps) a /\
  visc_report interp sat_of_ratio 2 3 ex_ident ps a 0 = Ok rows /\ exists q s els, In (q :: s :: els) rows /\ sat_of_ratio q <> s.
Proof. exact Tbl_Proofs2.ratio_wrong. Qed.

(* upscale_cond with linear conditions on one process; upscale_relpermvisc with fixed conditions and one ratio *)
Example C222_case_cond : exists l ar, cap_limits exx (/ 1000000) exc = Ok l /\ element_count "linear" = Ok 9 /\
  rank_arrays exx l ex_archie (map fst exc) (fun _ => Ok [1; 2; 3; 4; 5; 6; 7; 8; 9]%R) (fun k => Ok (map Rinv (firstn 9 (k ++ zrepeat 1%R 9)))) 9 1 0 [0; / 2; 1]%R [1; 1; 1]%R = Ok ar.
Proof. exact ex_cond. Qed.
Example C222_case_visc : element_count "fixed" = Ok 3 /\ zlen [1; 0; 0; 0; 2; 0; 0; 0; 4]%R = 9 /\ arrays_ok true 3 (zlen [5%R]) (mkArr [(/ 2)%R] [[1; 2; 3]%R] [[4; 5; 6]%R]) /\
  row_tensor 3 [4; 5; 6]%R (fun r c => if r =? c then IZR (4 + r) else 0%R) /\
  Forall2 (announced "v_w/v_o" "Kro" 5 (/ 2) (fun r c => if r =? c then IZR (4 + r) else 0%R)) (visc_header "fixed" 1) [5; / 2; 4; 5; 6]%R.
Proof. exact ex_visc. Qed.
Example C222_case_visc_single : exists l, element_count "linear" = Ok 9 /\ vproper exv (map fst exvc) /\ (exists cv, In cv (vrocky exv exvc) /\ (0 < vpore exv cv)%R) /\
    (forall cv, In cv (vrocky exv exvc) -> (0 <= vpore exv cv)%R /\ (0 <= cv_minx (water_curve exv (fst cv)) <= cv_maxx (water_curve exv (fst cv)))%R /\ (cv_maxx (water_curve exv (fst cv)) <= 1)%R) /\
  visc_limits exv (/ 1000000) exvc = Ok l /\ curves_shaped (vi_aniso exv) [[vratio_curve]] /\ zlen [[vratio_curve]] = zlen (vi_rocks exv).
Proof. exact ex_single. Qed.
Example C223_case : arrays_ok true 3 (zlen [0; 1]%R) ex_two /\ zlen ex_ident = 9 /\ ar_ws ex_two = map (fun q => (1 + q) / 4)%R [0; 1]%R /\ (forall s, In s (ar_ws ex_two) -> - dbl_max <= s <= dbl_max)%R.
Proof. exact ex_two_hyps. Qed.
Print Assumptions C222_cond. Print Assumptions C222_cond_single. Print Assumptions C222_visc. Print Assumptions C222_visc_single. Print Assumptions C222_cond_names. Print Assumptions C222_visc_names. Print Assumptions C223_plain. Print Assumptions C223_interpolated. Print Assumptions C223_bounded. Print Assumptions C223_ratio_refuted.
