From Verif Require Import Mim_Proofs2 Fluid_Proofs Fluid_Proofs2 Fluid_Proofs3 Fluid_Proofs4 Fluid_Proofs5 Fluid_Proofs6 Fluid_Proofs7 Fluid_Proofs8 Fluid_Spec Fluid_Model.
Open Scope Z_scope.

(* C77: capillary pressure of a tabulated rock *)
Theorem C77_formula : forall r K poro s, good_rock K poro -> cap_press r K poro s = Ok (leverett r (jr_J r) (mean_diag K) poro s) /\ cap_press_deriv r K poro s = Ok (leverett r (jr_dJ r) (mean_diag K) poro s).
Proof. exact cap_press_ok. Qed.
Theorem C77_derivative : forall r K poro s, good_rock K poro -> derivable_pt_lim (jr_J r) s (jr_dJ r s) ->
  derivable_pt_lim (fun x => value (cap_press r K poro x)) s (value (cap_press_deriv r K poro s)).
Proof. exact deriv_ok. Qed.
Theorem C77_decreasing : forall r K poro s s', good_rock K poro -> (0 < jr_sct r)%R -> (forall x y, (x < y)%R -> (jr_J r y < jr_J r x)%R) -> (s < s')%R ->
  (value (cap_press r K poro s') < value (cap_press r K poro s))%R.
Proof. exact cap_decreasing. Qed.
Theorem C77_range : forall r K poro p s, (jr_smin r <= jr_smax r)%R -> sat_from_cap_press r K poro p = Ok s -> (jr_smin r <= s <= jr_smax r)%R.
Proof. exact sat_range. Qed.
Theorem C77_inverse_formula : forall r K poro p, good_rock K poro -> (jr_use r = true -> jr_sct r <> 0%R) ->
  sat_from_cap_press r K poro p = Ok (Rmin (jr_smax r) (Rmax (jr_smin r) (jr_Jinv r (if jr_use r then p * sqrt (mean_diag K / poro) / jr_sct r else p)%R))).
Proof. exact sat_formula. Qed.
Theorem C77_roundtrip : forall r K poro s p, good_rock K poro -> (jr_use r = true -> jr_sct r <> 0%R) -> invertible r -> (jr_smin r <= s <= jr_smax r)%R ->
  cap_press r K poro s = Ok p -> sat_from_cap_press r K poro p = Ok s.
Proof. exact roundtrip. Qed.

(* C78: capillary pressure of a cell: by its rock, or the built-in law when there are no rocks *)
Theorem C78_dispatch : forall fl c r K poro, cell_data fl c r K poro ->
  (forall s, capillary_pressure fl c s = cap_press r K poro s) /\ (forall s, capillary_pressure_deriv fl c s = cap_press_deriv r K poro s) /\
  (forall p, saturation_from_cap fl c p = sat_from_cap_press r K poro p) /\ s_min fl c = Ok (jr_smin r) /\ s_max fl c = Ok (jr_smax r).
Proof. exact dispatch. Qed.
Theorem C78_roundtrip : forall fl c r K poro s p, cell_data fl c r K poro -> good_rock K poro -> (jr_use r = true -> jr_sct r <> 0%R) -> invertible r ->
  (jr_smin r <= s <= jr_smax r)%R -> capillary_pressure fl c s = Ok p -> saturation_from_cap fl c p = Ok s.
Proof. exact cell_roundtrip. Qed.
Theorem C78_no_rocks : forall fl c, fl_rocks fl = [] ->
  (forall s, capillary_pressure fl c s = Ok (100000 * (1 - s))%R) /\
  (forall s, derivable_pt_lim (fun x => value (capillary_pressure fl c x)) s (value (capillary_pressure_deriv fl c s))) /\
  s_min fl c = Ok 0%R /\ s_max fl c = Ok 1%R /\
  forall s p, capillary_pressure fl c s = Ok p -> (saturation_from_cap fl c p = Ok s <-> s = 0%R).
Proof. exact no_rock. Qed.
Theorem C78_pressures : forall fl sat, (forall c s, zget sat c = Some s -> exists r K poro, cell_data fl c r K poro /\ good_rock K poro) ->
  exists l, compute_cap_pressure fl sat = Ok l /\ zlen l = zlen sat /\
    forall c s r K poro, zget sat c = Some s -> cell_data fl c r K poro -> zget l c = Some (leverett r (jr_J r) (mean_diag K) poro s).
Proof. exact cap_pressures. Qed.

(* C80: mobilities, fractional flow, phase velocities *)
Theorem C80_fraction : forall fl c k1 k2 s, relperms fl c k1 k2 -> (0 < fl_mu1 fl)%R -> (0 < fl_mu2 fl)%R -> flows (k1 s) (k2 s) ->
  exists f, fractional_flow fl c s = Ok f /\ f = flow_fraction (k1 s) (k2 s) (fl_mu1 fl) (fl_mu2 fl) /\ (0 <= f <= 1)%R /\
    total_mobility fl c s = Ok (k1 s / fl_mu1 fl + k2 s / fl_mu2 fl)%R /\ (0 < k1 s / fl_mu1 fl + k2 s / fl_mu2 fl)%R /\
    phase_mobilities fl c s = Ok (k1 s / fl_mu1 fl, k2 s / fl_mu2 fl)%R.
Proof. exact flow_ok. Qed.
Theorem C80_monotone : forall fl c k1 k2 s s' f f', relperms fl c k1 k2 -> (0 < fl_mu1 fl)%R -> (0 < fl_mu2 fl)%R -> flows (k1 s) (k2 s) -> flows (k1 s') (k2 s') ->
  (k1 s <= k1 s')%R -> (k2 s' <= k2 s)%R -> fractional_flow fl c s = Ok f -> fractional_flow fl c s' = Ok f' -> (f <= f')%R.
Proof. exact flow_monotone. Qed.
Theorem C80_default : forall fl c, fl_rocks fl = [] -> (0 < fl_mu1 fl)%R -> (0 < fl_mu2 fl)%R ->
  fractional_flow fl c 0 = Ok 0%R /\ fractional_flow fl c 1 = Ok 1%R /\
  (forall s, exists f, fractional_flow fl c s = Ok f /\ (0 <= f <= 1)%R) /\
  forall s s' f f', (0 <= s < s')%R -> (s' <= 1)%R -> fractional_flow fl c s = Ok f -> fractional_flow fl c s' = Ok f' -> (f < f')%R.
Proof. exact default_flow. Qed.
Theorem C80_derivatives : forall fl c s, fl_mu1 fl <> 0%R -> fl_mu2 fl <> 0%R ->
  (forall k r, zget (rp_rock (fl_prop fl)) c = Some k -> zget (fl_rocks fl) k = Some r -> derivable_pt_lim (jr_krw r) s (jr_dkrw r s) /\ derivable_pt_lim (jr_kro r) s (jr_dkro r s)) ->
  (exists k1 k2, relperms fl c k1 k2) ->
  exists d0 d3, phase_mobilities_deriv fl c s = Ok [d0; 0; 0; d3]%R /\
    derivable_pt_lim (fun x => value (mob1 fl c x)) s d0 /\ derivable_pt_lim (fun so => value (mob2 fl c (1 - so)%R)) (1 - s) d3.
Proof. exact deriv_mob. Qed.
Theorem C80_anisotropic : forall fl c rock k1 k2 s, acell_rock fl c rock -> arelperms fl rock k1 k2 -> (0 < af_mu1 fl)%R -> (0 < af_mu2 fl)%R ->
  (forall d, 0 <= d < 3 -> flows (k1 d s) (k2 d s)) ->
  exists f, afractional_flow fl c s = Ok f /\ f = (Sum 3 (fun d => flow_fraction (k1 d s) (k2 d s) (af_mu1 fl) (af_mu2 fl)) / 3)%R /\ (0 <= f <= 1)%R.
Proof. exact aflow_ok. Qed.
Theorem C80_velocities : forall ff sat vel, zlen sat = zlen vel -> (forall i s, zget sat i = Some s -> exists f, ff i s = Ok f) ->
  exists w o, phase_velocities ff sat vel = Ok (w, o) /\ zlen w = zlen vel /\ zlen o = zlen vel /\
  forall i s v, zget sat i = Some s -> zget vel i = Some v -> exists f wi oi, ff i s = Ok f /\ zget w i = Some wi /\ zget o i = Some oi /\ zlen wi = zlen v /\ zlen oi = zlen v /\
    forall k, 0 <= k < zlen v -> nthR wi k = (f * nthR v k)%R /\ nthR oi k = ((1 - f) * nthR v k)%R.
Proof. exact velocities_ok. Qed.

(* C81: CFL factors *)
Theorem C81_default : forall fl, fl_rocks fl = [] -> (0 < fl_mu1 fl)%R -> (0 < fl_mu2 fl)%R ->
  exists a b, compute_cfl fl = Ok (a, b, 0%R) /\
    cfl_factors (frac_of (fun s => s * s)%R (fun s => (1 - s) * (1 - s))%R (fl_mu1 fl) (fl_mu2 fl)) (grav_of (fun s => s * s)%R (fun s => (1 - s) * (1 - s))%R (fl_mu1 fl) (fl_mu2 fl)) (fun _ => 0%R) a b 0 /\
    (0 < a <= 1)%R /\ (0 < b)%R.
Proof. exact default_cfl. Qed.
Theorem C81_rocks : forall fl, fl_rocks fl <> [] -> (0 < fl_mu1 fl)%R -> (0 < fl_mu2 fl)%R -> cells_good fl ->
  (forall r rk, zget (fl_rocks fl) r = Some rk -> usable (jr_krw rk) (jr_kro rk) /\ exists c, 0 <= c < zlen (rp_poro (fl_prop fl)) /\ in_rock fl r c) ->
  exists a b c kmin pmax fa fb fc, compute_cfl fl = Ok (a, b, c) /\
    (forall r rk, zget (fl_rocks fl) r = Some rk ->
       least 1e100 (zlen (rp_poro (fl_prop fl))) (in_rock fl r) (cell_mean fl) (kmin r) /\
       greatest 0 (zlen (rp_poro (fl_prop fl))) (in_rock fl r) (nthR (rp_poro (fl_prop fl))) (pmax r) /\
       cfl_factors (frac_of (jr_krw rk) (jr_kro rk) (fl_mu1 fl) (fl_mu2 fl)) (grav_of (jr_krw rk) (jr_kro rk) (fl_mu1 fl) (fl_mu2 fl)) (leverett rk (jr_dJ rk) (kmin r) (pmax r)) (fa r) (fb r) (fc r)) /\
    least 1e100 (zlen (fl_rocks fl)) (fun _ => True) fa a /\ least 1e100 (zlen (fl_rocks fl)) (fun _ => True) fb b /\ greatest 0 (zlen (fl_rocks fl)) (fun _ => True) fc c /\
    (0 < a <= 1)%R /\ (0 < b)%R /\ (0 <= c)%R.
Proof. exact rocks_cfl. Qed.
Theorem C81_anisotropic_default : forall fl, af_rocks fl = [] -> (0 < af_mu1 fl)%R -> (0 < af_mu2 fl)%R ->
  exists a b, acompute_cfl fl = Ok (a, b, (-1e100)%R) /\ (0 < a <= 1)%R /\ (0 < b)%R /\
   acfl_factors (fun _ => frac_of (fun s => s * s)%R (fun s => (1 - s) * (1 - s))%R (af_mu1 fl) (af_mu2 fl)) (fun _ => grav_of (fun s => s * s)%R (fun s => (1 - s) * (1 - s))%R (af_mu1 fl) (af_mu2 fl)) a b.
Proof. exact adefault_cfl. Qed.
Theorem C81_anisotropic_rocks : forall fl, af_rocks fl <> [] -> (0 < af_mu1 fl)%R -> (0 < af_mu2 fl)%R ->
  (forall r rk d, zget (af_rocks fl) r = Some rk -> 0 <= d < 3 -> usable (ar_kr rk 0 d) (ar_kr rk 1 d)) ->
  exists a b fa fb, acompute_cfl fl = Ok (a, b, 1e100%R) /\ (0 < a <= 1)%R /\ (0 < b)%R /\
    (forall r rk, zget (af_rocks fl) r = Some rk -> acfl_factors (fun d => frac_of (ar_kr rk 0 d) (ar_kr rk 1 d) (af_mu1 fl) (af_mu2 fl)) (fun d => grav_of (ar_kr rk 0 d) (ar_kr rk 1 d) (af_mu1 fl) (af_mu2 fl)) (fa r) (fb r)) /\
    least 1e100 (zlen (af_rocks fl)) (fun _ => True) fa a /\ least 1e100 (zlen (af_rocks fl)) (fun _ => True) fb b.
Proof. exact arocks_cfl. Qed.

(* C82: cell velocities *)
Theorem C82_estimate : forall dim cells, NoDup (map (fun c => fst (fst c)) cells) -> (forall i g out, In (i, g, out) cells -> 0 <= i < zlen cells /\ wf_cell dim g /\ zlen out = zlen (mc_faces g)) ->
  exists vs, estimate_velocity dim cells = Ok vs /\ zlen vs = zlen cells /\
    forall i g out, In (i, g, out) cells -> exists v, zget vs i = Some v /\ is_vec dim v (mean_velocity g out).
Proof. exact estimate_ok. Qed.
Theorem C82_partition : forall dim cells partition mine, 0 < dim -> NoDup (map (fun c => fst (fst c)) cells) -> zlen partition = zlen cells ->
  (forall i g out, In (i, g, out) cells -> 0 <= i < zlen cells /\ (zget partition i = Some mine -> wf_cell dim g /\ zlen out = zlen (mc_faces g))) ->
  exists vs, estimate_velocity_part dim cells partition mine = Ok vs /\ zlen vs = zlen cells /\
    forall i g out, In (i, g, out) cells -> exists v, zget vs i = Some v /\ is_vec dim v (fun k => if Z.eq_dec (nth (Z.to_nat i) partition 0) mine then mean_velocity g out k else 0%R).
Proof. exact estimate_part_ok. Qed.
Theorem C82_uniform : forall dim c v out, wf_cell dim c -> closed_cell dim c -> uniform_outflux dim c v out ->
  forall k, 0 <= k < dim -> mean_velocity c out k = v k.
Proof. exact uniform_velocity. Qed.
Theorem C82_simple : forall dim cens vol faces, simple_grid dim cens vol faces -> exists vs, estimate_velocity_simple dim cens vol faces = Ok vs /\ zlen vs = zlen cens /\
  forall c x, zget cens c = Some x -> exists v, zget vs c = Some v /\ is_vec dim v (simple_velocity vol faces c x).
Proof. exact simple_ok. Qed.
Theorem C82_simple_uniform : forall dim vol faces c x (N : Z -> Z -> R) (v : Z -> R), 0 < dim -> nthR vol c <> 0%R ->
  (forall i, 0 <= i < zlen faces -> sf_flux (nth_sface faces i) = dot dim (N i) v) ->
  (forall a b, 0 <= a < dim -> 0 <= b < dim -> Sum (zlen faces) (fun i => orient (nth_sface faces i) c * N i a * (nthR (sf_cen (nth_sface faces i)) b - nthR x b))%R = (nthR vol c * ident a b)%R) ->
  forall k, 0 <= k < dim -> simple_velocity vol faces c x k = v k.
Proof. exact simple_uniform. Qed.

(* C117: rock files *)
Theorem C117_header : forall cs rest, Forall comment_line cs -> not_comment rest -> skip_header (concat cs ++ rest) = Ok rest.
Proof. exact header_ok. Qed.
Theorem C117_header_unterminated : forall cs c body, Forall comment_line cs -> comment_char c -> ~ In newline body -> skip_header (concat cs ++ c :: body) = Throw.
Proof. exact header_bad. Qed.
Theorem C117_header_cases : forall file, exists cs rest, file = concat cs ++ rest /\ Forall comment_line cs /\
  (not_comment rest \/ exists c body, rest = c :: body /\ comment_char c /\ ~ In newline body).
Proof. exact header_cases. Qed.
Theorem C117_documented_header_refuted : exists file rest, skip_header file = Ok rest /\ ~ exists cs, Forall documented_comment cs /\ file = concat cs ++ rest.
Proof. exact header_documented_refuted. Qed.
Theorem C117_rows : forall rows tail, (length tail < 4)%nat -> (forall o, In o tail -> o <> None) -> jrock_rows (flat_map row_tokens rows ++ tail) = Ok rows.
Proof. exact jrock_rows_ok. Qed.
Theorem C117_rows_malformed : forall toks, In None toks -> jrock_rows toks = Throw.
Proof. exact (fun toks => jrock_rows_bad (length toks) toks (le_n _)). Qed.
Theorem C117_table : forall rows, rows <> [] -> exists t, read_table rows = Ok t /\
  zlen (jt_s t) = zlen rows /\ zlen (jt_krw t) = zlen rows /\ zlen (jt_kro t) = zlen rows /\ zlen (jt_J t) = zlen rows /\
  (forall i a b c d, zget rows i = Some (a, b, c, d) -> zget (jt_s t) i = Some a /\ zget (jt_krw t) i = Some (if i =? 0 then 0%R else b) /\
     zget (jt_kro t) i = Some (if i =? zlen rows - 1 then 0%R else c) /\ zget (jt_J t) i = Some d) /\
  zget (jt_s t) 0 = Some (jt_smin t) /\ zget (jt_s t) (zlen rows - 1) = Some (jt_smax t).
Proof. exact read_table_ok. Qed.
Theorem C117_table_empty : read_table [] = UB.
Proof. exact read_table_empty. Qed.
Theorem C117_anisotropic_table : forall phase rows, rows <> [] -> five_columns rows -> exists cols, read_aniso phase rows = Ok cols /\ zlen cols = 5 /\
  forall k i, 0 <= k < 5 -> 0 <= i < zlen rows ->
    field cols k i = if (2 <=? k) && (i =? (if phase =? 0 then 0 else zlen rows - 1)) then Some 0%R else field rows i k.
Proof. exact Fluid_Proofs2.aniso_ok. Qed.
Theorem C117_specs : forall n lines, (n <= length (filter nonempty lines))%nat -> rock_specs n lines = Some (firstn n (filter nonempty lines)).
Proof. exact specs_ok. Qed.
Theorem C117_specs_short : forall n lines, (length (filter nonempty lines) < n)%nat -> rock_specs n lines = None.
Proof. exact specs_stuck. Qed.

(* a rock with J(s) = 1 - s and quadratic relative permeabilities, in a grid of one cell *)
Example C77_case : good_rock ex_K (/ 2) /\ invertible ex_jrock /\ jr_sct ex_jrock <> 0%R /\ cell_data ex_fluid 0 ex_jrock ex_K (/ 2).
Proof. exact (conj ex_K_good (conj (proj1 (proj2 ex_fluid_good)) (conj (proj1 (proj2 (proj2 ex_fluid_good))) ex_cell))). Qed.
Example C81_case : cells_good ex_fluid /\ usable (fun s => s * s)%R (fun s => (1 - s) * (1 - s))%R /\
  forall r rk, zget (fl_rocks ex_fluid) r = Some rk -> usable (jr_krw rk) (jr_kro rk) /\ exists c, 0 <= c < zlen (rp_poro (fl_prop ex_fluid)) /\ in_rock ex_fluid r c.
Proof. exact (conj (proj1 ex_fluid_good) (conj quadratic_usable (proj2 (proj2 (proj2 ex_fluid_good))))). Qed.
(* a single cell of a one dimensional grid *)
Example C82_case : simple_grid 1 [[/ 2]%R] [1%R] ex_faces /\
  (forall i, 0 <= i < zlen ex_faces -> sf_flux (nth_sface ex_faces i) = dot 1 (fun _ => 1%R) (fun _ => 3%R)) /\
  Sum (zlen ex_faces) (fun i => orient (nth_sface ex_faces i) 0 * 1 * (nthR (sf_cen (nth_sface ex_faces i)) 0 - nthR [/ 2]%R 0))%R = (nthR [1%R] 0 * ident 0 0)%R.
Proof. exact ex_simple. Qed.
Example C82_cube : wf_cell 3 Mim_Proofs2.cube /\ closed_cell 3 Mim_Proofs2.cube.
Proof. exact (conj Mim_Proofs2.cube_wf Mim_Proofs2.cube_closed). Qed.
Example C80_case : relperms ex_fluid 0 (jr_krw ex_jrock) (jr_kro ex_jrock) /\ flows (jr_krw ex_jrock (/ 4)) (jr_kro ex_jrock (/ 4)) /\ (0 < fl_mu1 ex_fluid)%R /\ (0 < fl_mu2 ex_fluid)%R.
Proof. exact ex_flows. Qed.
Example C117_case : Forall comment_line [ex_comment; ex_comment] /\ not_comment ["1"; newline]%char /\ five_columns [[1; 2; 3; 4; 5]; [2; 3; 4; 5; 6]]%R.
Proof. exact ex_header. Qed.
Print Assumptions C77_formula. Print Assumptions C77_derivative. Print Assumptions C77_decreasing. Print Assumptions C77_range. Print Assumptions C77_inverse_formula. Print Assumptions C77_roundtrip. Print Assumptions C78_dispatch. Print Assumptions C78_roundtrip. Print Assumptions C78_no_rocks. Print Assumptions C78_pressures. Print Assumptions C80_fraction. Print Assumptions C80_monotone. Print Assumptions C80_default. Print Assumptions C80_derivatives. Print Assumptions C80_anisotropic. Print Assumptions C80_velocities. Print Assumptions C81_default. Print Assumptions C81_rocks. Print Assumptions C81_anisotropic_default. Print Assumptions C81_anisotropic_rocks. Print Assumptions C82_estimate. Print Assumptions C82_partition. Print Assumptions C82_uniform. Print Assumptions C82_simple. Print Assumptions C82_simple_uniform. Print Assumptions C117_header. Print Assumptions C117_header_unterminated. Print Assumptions C117_header_cases. Print Assumptions C117_documented_header_refuted. Print Assumptions C117_rows. Print Assumptions C117_rows_malformed. Print Assumptions C117_table. Print Assumptions C117_table_empty. Print Assumptions C117_anisotropic_table. Print Assumptions C117_specs. Print Assumptions C117_specs_short.
