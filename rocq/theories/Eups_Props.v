From Verif Require Import Eups_Proofs Eups_Proofs2 Eups_Proofs3 Eups_Proofs4 Eups_Proofs5 Eups_Proofs6 Eups_Proofs7 Shape_Spec Eups_Spec.
Open Scope Z_scope.

(* C100: numbering of the multiplier nodes *)
Theorem C100_nodes : forall m n1 n2, 2 <= m -> 2 <= n1 -> 1 <= n2 -> exists nodes num, renumber m n1 n2 = Ok (nodes, free_rows n2 * free_cols m n1 - 1) /\
  numbers_pairs (free_rows n2) (free_cols m n1) num /\ zlen nodes = m /\
  forall e, 0 <= e < m -> exists l, zget nodes e = Some l /\ zlen l = n1 * n2 /\
    forall i1 i2, 0 <= i1 < n1 -> 0 <= i2 < n2 -> zget l (i2 * n1 + i1) = Some (num (row_of n2 i2) (col_of m n1 e i1)).
Proof. exact Eups_Proofs5.renumber_nodes. Qed.
Theorem C100_single : forall n1 n2, 1 <= n1 -> 2 <= n2 -> renumber 1 n1 n2 = UB.
Proof. exact Eups_Proofs.renumber_single. Qed.

(* C102: bounding box *)
Theorem C102_box : forall verts p, let mn := fst (find_boundaries verts) in let mx := snd (find_boundaries verts) in
  (exists v, In v verts /\ pc v p <= 100000)%R -> (exists v, In v verts /\ -100000 <= pc v p)%R ->
  extent (fun c => pc c p) verts (mn p) (mx p).
Proof. exact Eups_Proofs2.boundaries. Qed.
Theorem C102_far : forall verts p, let mn := fst (find_boundaries verts) in let mx := snd (find_boundaries verts) in
  ((forall v, In v verts -> 100000 < pc v p) -> mn p = 100000)%R /\ ((forall v, In v verts -> pc v p < -100000) -> mx p = -100000)%R.
Proof. exact Eups_Proofs2.boundaries_far. Qed.

(* C128: fixed corners and periodic constraints *)
Theorem C128_plane : forall tol d c v, 0 <= d < 3 -> (is_on_plane tol (2 ^ d) c v = true <-> (Rabs (v - pc c d) < tol)%R).
Proof. exact Eups_Proofs2.plane_iff. Qed.
Theorem C128_line : forall tol d c x y, 0 <= d < 3 ->
  (is_on_line tol (2 ^ d) c x y = true <-> (Rabs (x - pc c ((d + 1) mod 3)) <= tol /\ Rabs (y - pc c ((d + 2) mod 3)) <= tol)%R).
Proof. exact Eups_Proofs2.line_iff. Qed.
Theorem C128_point : forall tol c p, is_on_point tol c p = true <-> (dist1 p c < tol)%R.
Proof. exact Eups_Proofs2.point_iff. Qed.
Theorem C128_corners : forall tol verts F mn mx, wf_fixed F -> exists F', fix_corners tol verts F mn mx = Ok F' /\ wf_fixed F' /\
  (forall n p c, zget verts n = Some p -> at_corner mn mx c -> (dist1 c p < tol)%R -> fx_find F' n = Some (7, [0; 0; 0]%R)) /\
  (forall n, (forall p c, zget verts n = Some p -> at_corner mn mx c -> ~ (dist1 c p < tol)%R) -> fx_find F' n = fx_find F n).
Proof. exact Eups_Proofs2.fix_corners_ok. Qed.
Theorem C128_fix_line : forall tol verts F e x y vals, 0 <= e < 3 -> zlen vals = 3 -> wf_fixed F -> exists F', fix_line tol verts F (2 ^ e) x y vals = Ok F' /\ wf_fixed F' /\
  (forall n p, zget verts n = Some p -> (Rabs (x - pc p ((e + 1) mod 3)) <= tol /\ Rabs (y - pc p ((e + 2) mod 3)) <= tol)%R -> fx_find F' n = Some (7, vals)) /\
  (forall n, (forall p, zget verts n = Some p -> ~ (Rabs (x - pc p ((e + 1) mod 3)) <= tol /\ Rabs (y - pc p ((e + 2) mod 3)) <= tol)%R) -> fx_find F' n = fx_find F n).
Proof. exact Eups_Proofs2.fix_line_ok. Qed.
Theorem C128_periodic : forall nd tol verts cells srt mn mx F M, wf_cells verts cells -> sorts srt -> wf_fixed F -> wf_mpcs 3 M ->
  exists grids F', fix_corners tol verts F mn mx = Ok F' /\
    (forall d, 0 <= d < 3 -> exists cols, extract_master_face tol verts cells srt (2 ^ d) (mn d) false false = Ok (grids d, cols)) /\
    ((nd = true \/ forall d n c, 0 <= d < 3 -> zget verts n = Some c -> (Rabs (mx d - pc c d) < tol)%R -> bg_find (grids d) (others d c) (0, 0)%R <> None) ->
     exists M', periodic_bcs nd tol verts cells srt mn mx F M = Ok (F', M') /\ wf_mpcs 3 M' /\
       forall n d, 0 <= d < 3 -> get_mpc 3 M' n d = first_of (get_mpc 3 M n d)
         (if fx_flag F' n d then None else
          match first_of (found_on tol verts 0 (mx 0) (grids 0) n) (first_of (found_on tol verts 1 (mx 1) (grids 1) n) (found_on tol verts 2 (mx 2) (grids 2) n)) with
          | Some loc => Some (tie d n loc) | None => None end)) /\
    (nd = false -> (exists d n c, 0 <= d < 3 /\ zget verts n = Some c /\ (Rabs (mx d - pc c d) < tol)%R /\ bg_find (grids d) (others d c) (0, 0)%R = None) ->
     periodic_bcs nd tol verts cells srt mn mx F M = Throw).
Proof. exact Eups_Proofs4.periodic_ok. Qed.
Theorem C128_strong : forall nd tol verts cells srt mn mx F M, wf_cells verts cells -> sorts srt -> wf_fixed F -> wf_mpcs 3 M ->
  exists grid cols F', fix_corners tol verts F mn mx = Ok F' /\ extract_master_face tol verts cells srt (2 ^ 2) (mn 2) false false = Ok (grid, cols) /\
    ((nd = true \/ forall n c, zget verts n = Some c -> (Rabs (mx 2%Z - pc c 2) < tol)%R -> bg_find grid (others 2 c) (0, 0)%R <> None) ->
     exists M', mortar_strong nd tol verts cells srt mn mx F M = Ok (F', M') /\ wf_mpcs 3 M' /\
       forall n d, 0 <= d < 3 -> get_mpc 3 M' n d = first_of (get_mpc 3 M n d)
         (if fx_flag F' n d then None else match found_on tol verts 2 (mx 2) grid n with Some loc => Some (tie d n loc) | None => None end)) /\
    (nd = false -> (exists n c, zget verts n = Some c /\ (Rabs (mx 2%Z - pc c 2) < tol)%R /\ bg_find grid (others 2 c) (0, 0)%R = None) ->
     mortar_strong nd tol verts cells srt mn mx F M = Throw).
Proof. exact Eups_Proofs4.mortar_strong_ok. Qed.
Theorem C128_weights : forall loc, Rsum (map snd (weights loc)) = 1%R.
Proof. exact Eups_Proofs4.weights_sum. Qed.
Theorem C128_position : forall grid coord init xi eta q, bg_find grid coord init = Some (Within xi eta q) ->
  clear_system (1 / 100000000) (x_eq q coord) (y_eq q coord) ->
  forall a b c : R, (Rsum (map (fun wv => snd (fst wv) * (a + b * v_x (snd wv) + c * v_y (snd wv))) (combine (weights (Within xi eta q)) (q_verts q))) = a + b * fst coord + c * snd coord)%R.
Proof. exact Eups_Proofs4.weights_position. Qed.

(* C129: boundary faces and pillars *)
Theorem C129_slaves : forall tol verts d coord, 0 <= d < 3 -> exists l, extract_face tol verts (2 ^ d) coord = Ok l /\ increasing (map v_i l) /\
  forall v, In v l <-> on_plane tol verts d coord v.
Proof. exact Eups_Proofs2.face_ok. Qed.
Theorem C129_masters : forall tol verts cells srt d coord side dc, 0 <= d < 3 -> wf_cells verts cells -> sorts srt ->
  exists grid cols mine qs kept, extract_master_face tol verts cells srt (2 ^ d) coord side dc = Ok (grid, cols) /\
    picks (on_boundary tol verts d coord side) cells mine /\ Forall2 (quad_of_face verts d side dc) mine qs /\
    picks (fun q => roomy (q_verts q)) qs kept /\ Forall2 (fun q q' => q_verts q' = q_verts q /\ boxed q') kept grid /\
    pillars qs cols /\ (separated qs -> forall col, In col cols -> exists q, In q qs /\ col = filter (nearb q) qs).
Proof. exact Eups_Proofs3.master_face. Qed.

(* C130: the mortar coupling matrix *)
Theorem C130_entries : forall M meqn neq f0 f1 f2 f3 nx ny p1 p2, 0 <= neq -> 2 <= nx -> 2 <= ny -> 1 <= p1 -> 1 <= p2 ->
  fits M meqn neq nx (2 * (p2 + 1)) f0 -> fits M meqn neq nx (2 * (p2 + 1)) f1 -> fits M meqn neq ny (2 * (p1 + 1)) f2 -> fits M meqn neq ny (2 * (p1 + 1)) f3 ->
  let tx := multipliers nx p2 in let ty := multipliers ny p1 in
  exists B lx ly, renumber nx 2 (p2 + 1) = Ok (lx, tx) /\ renumber ny 2 (p1 + 1) = Ok (ly, ty) /\
    mortar_matrix4 M meqn neq f0 f1 f2 f3 nx ny p1 p2 = Ok B /\ wf_smat B /\ dims B neq (3 * tx + 3 * ty) /\
    (forall e d k, 0 <= e < neq -> 0 <= d < 3 -> 0 <= k < tx -> coef B e (3 * k + d) = (coupling M meqn lx nx f0 e d k - coupling M meqn lx nx f1 e d k)%R) /\
    (forall e d k, 0 <= e < neq -> 0 <= d < 3 -> 0 <= k < ty -> coef B e (3 * tx + 3 * k + d) = (coupling M meqn ly ny f2 e d k - coupling M meqn ly ny f3 e d k)%R).
Proof. exact Eups_Proofs6.mortar4. Qed.
Theorem C130_few_pillars : forall M meqn neq cols m n1 n2 colofs patt r, zlen cols < m -> add_bblock M meqn neq cols m n1 n2 colofs patt <> Ok r.
Proof. exact Eups_Proofs7.few_pillars. Qed.
Theorem C130_unit_masters : forall M meqn n d e, 0 <= e ->
  (forall p, mm_find M (n * 3 + d) = Some p -> forall mm, In mm (mp_master p) -> md_dof mm = d + 1 /\ md_coeff mm = 1%R) ->
  INR (count_occ Z.eq_dec (eqs_of M meqn n d) e) = trans 3 M meqn (n * 3 + d) e.
Proof. exact Eups_Proofs6.count_trans. Qed.
Theorem C130_weights_ignored : let M := [(15, mkMpc (mkMdof 5 1 0) [mkMdof 0 1 (1 / 2); mkMdof 1 1 (1 / 2)])] in let meqn := [0; 1; 2; 3; 4; 5] in
  INR (count_occ Z.eq_dec (eqs_of M meqn 5 0) 3) = 1%R /\ trans 3 M meqn 15 3 = (1 / 2)%R.
Proof. exact Eups_Proofs6.count_not_trans. Qed.

(* C131: element matrices of the mortar couplings *)
Theorem C131_entries : forall fuel rule lf lg hex locs, Forall2 (placed fuel lg hex) rule locs ->
  (forall loc f, In loc locs -> In f lf -> exists v, tp_eval f (at_pt loc) = Ok v) ->
  exists lE, local_matrix fuel rule lf lg hex = Ok (Some lE) /\ zlen lE = 4 /\ (forall row, In row lE -> zlen row = zlen lf) /\
    forall i j f, 0 <= i < 4 -> zget lf j = Some f -> entry_at lE i j = Rsum (map (fun rl =>
      val (p1_eval 2 i (at_pt (fst (fst rl)))) * val (tp_eval f (at_pt (snd rl))) * hex_integration hex (fst (fst rl)) * snd (fst rl))%R (combine rule locs)).
Proof. exact Eups_Proofs7.local_matrix_ok. Qed.
Theorem C131_total : forall fuel rule lf lg hex locs lE, Forall2 (placed fuel lg hex) rule locs ->
  (forall loc f, In loc locs -> In f lf -> exists v, tp_eval f (at_pt loc) = Ok v) -> local_matrix fuel rule lf lg hex = Ok (Some lE) ->
  forall j f, zget lf j = Some f -> Rsum (map (fun i => entry_at lE i j) (zrange 0 4)) =
    Rsum (map (fun rl => val (tp_eval f (at_pt (snd rl))) * hex_integration hex (fst (fst rl)) * snd (fst rl))%R (combine rule locs)).
Proof. exact Eups_Proofs7.local_matrix_total. Qed.
Theorem C131_inside : forall fuel rule lf lg hex lE, local_matrix fuel rule lf lg hex = Ok (Some lE) -> exists locs, Forall2 (placed fuel lg hex) rule locs.
Proof. exact Eups_Proofs7.local_matrix_placed. Qed.

Example C100_case : renumber 3 2 3 = Ok ([[-1; 0; 1; 2; -1; 0]; [0; 3; 2; 4; 0; 3]; [3; -1; 4; 1; 3; -1]], 5).
Proof. exact nodes_case. Qed.
Example C102_case : forall p, 0 <= p < 3 -> exists v w, In v ex_verts /\ (pc v p <= 100000)%R /\ In w ex_verts /\ (-100000 <= pc w p)%R.
Proof. exact box_case. Qed.
Example C128_case : wf_cells ex_verts ex_cells /\ wf_fixed [] /\ wf_mpcs 3 [] /\ on_boundary (1 / 100) ex_verts 0 2 true [1; 2; 4; 5; 7; 8; 10; 11] /\
  ~ on_boundary (1 / 100) ex_verts 0 2 true [0; 1; 3; 4; 6; 7; 9; 10].
Proof. exact cells_case. Qed.
Example C129_case : sorts Bgrid_Proofs7.isort.
Proof. exact Bgrid_Proofs7.isort_sorts. Qed.
Example C130_case : fits [] (zrange 0 18) 18 2 4 ex_face.
Proof. exact fits_case. Qed.
Example C131_case : placed 2 unit_hex half_hex ((1 / 2, 1 / 2), 1)%R (1 / 2, 1 / 4)%R /\
  exists v, tp_eval [([0; 1]%R, 0); ([0; 1]%R, 1)] (at_pt (1 / 2, 1 / 4)%R) = Ok v.
Proof. exact placed_case. Qed.
Print Assumptions C100_nodes. Print Assumptions C100_single. Print Assumptions C102_box. Print Assumptions C102_far. Print Assumptions C128_plane. Print Assumptions C128_line. Print Assumptions C128_point. Print Assumptions C128_corners. Print Assumptions C128_fix_line. Print Assumptions C128_periodic. Print Assumptions C128_strong. Print Assumptions C128_weights. Print Assumptions C128_position. Print Assumptions C129_slaves. Print Assumptions C129_masters. Print Assumptions C130_entries. Print Assumptions C130_few_pillars. Print Assumptions C130_unit_masters. Print Assumptions C130_weights_ignored. Print Assumptions C131_entries. Print Assumptions C131_total. Print Assumptions C131_inside.
