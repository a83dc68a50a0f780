From Verif Require Import Bgrid_Proofs Bgrid_Proofs2 Bgrid_Proofs4 Bgrid_Proofs6 Bgrid_Proofs7 Bgrid_Proofs8 Bgrid_Spec.
Open Scope Z_scope.
Open Scope R_scope.

(* C98: the uniform boundary grid, point location and the inverse bilinear map *)
Theorem C98_uniform : forall mn mx k1 k2 dc, (0 < k1)%Z -> (0 < k2)%Z ->
  exists g keep, bg_uniform mn mx k1 k2 dc = Ok g /\ bg_nodes g = ((k1 + 1) * (k2 + 1))%Z /\
    map q_verts (bg_quads g) =
      map (fun c => cell_corners mn mx k1 k2 dc (fst c) (snd c)) (filter keep (pairs (zrange 0 k1) (zrange 0 k2))) /\
    (forall i j, keep (i, j) = true <-> roomy (cell_corners mn mx k1 k2 dc i j)) /\
    Forall boxed (bg_quads g) /\
    zlen (bg_fix g) = ((k1 + 1) * (k2 + 1))%Z /\
    forall i j, (0 <= i <= k1)%Z -> (0 <= j <= k2)%Z ->
      zget (bg_fix g) (j * (k1 + 1) + i)%Z = Some (negb dc && (((i =? 0) || (i =? k1)) && ((j =? 0) || (j =? k2))))%Z%bool.
Proof. exact Bgrid_Proofs8.uniform. Qed.
Theorem C98_second_corner : forall mn mx k1 k2 dc i j v, nth_error (cell_corners mn mx k1 k2 dc i j) 1 = Some v ->
  v_i v = v_i (node mn mx k1 k2 (i + 1) j) /\ v_x v = v_x (node mn mx k1 k2 (i + 1) j) /\
  (v_y v = v_y (node mn mx k1 k2 (i + 1) j) <-> grid_y mn mx k2 j = 0).
Proof. exact Bgrid_Proofs8.second_corner. Qed.
Theorem C98_layer : forall mn mx k1 dc, (0 < k1)%Z -> fst mn < fst mx -> snd mn = 0 -> 0 < snd mx ->
  (fst mx - fst mn) / IZR k1 * snd mx >= 1 / 10000000 ->
  exists g, bg_uniform mn mx k1 1 dc = Ok g /\ zlen (bg_quads g) = k1 /\
    (forall i, (0 <= i < k1)%Z -> exists q, zget (bg_quads g) i = Some q /\
       q_verts q = (let n a b := node mn mx k1 1 (i + a) b in
                    if dc then [n 0 0; n 1 0; n 0 1; n 1 1] else [n 0 0; n 1 0; n 1 1; n 0 1])%Z /\
       q_lo q = (grid_x mn mx k1 i, 0) /\ q_hi q = (grid_x mn mx k1 (i + 1), snd mx)) /\
    (forall x y, fst mn <= x <= fst mx -> 0 <= y <= snd mx ->
       exists q, In q (bg_quads g) /\ fst (q_lo q) <= x <= fst (q_hi q) /\ snd (q_lo q) <= y <= snd (q_hi q)).
Proof. exact Bgrid_Proofs6.uniform_layer. Qed.
Theorem C98_extract : forall x y z, bg_extract (x, y, z) 0 = Ok (y, z) /\ bg_extract (x, y, z) 1 = Ok (x, z) /\ bg_extract (x, y, z) 2 = Ok (x, y).
Proof. exact Bgrid_Proofs8.extracts. Qed.
Theorem C98_pos : forall q, q_pos q 0 0 = (v_x (q_v0 q), v_y (q_v0 q)) /\ q_pos q 1 0 = (v_x (q_v1 q), v_y (q_v1 q)) /\
  q_pos q 1 1 = (v_x (q_v2 q), v_y (q_v2 q)) /\ q_pos q 0 1 = (v_x (q_v3 q), v_y (q_v3 q)).
Proof. exact Bgrid_Proofs8.pos_corners. Qed.
Theorem C98_pos_affine : forall q a b eta t, q_pos q ((1 - t) * a + t * b) eta =
  ((1 - t) * fst (q_pos q a eta) + t * fst (q_pos q b eta), (1 - t) * snd (q_pos q a eta) + t * snd (q_pos q b eta)) /\
  q_pos q eta ((1 - t) * a + t * b) =
  ((1 - t) * fst (q_pos q eta a) + t * fst (q_pos q eta b), (1 - t) * snd (q_pos q eta a) + t * snd (q_pos q eta b)).
Proof. exact Bgrid_Proofs8.pos_affine. Qed.
Theorem C98_inverse : forall q coord ez eo init n xi eta, 0 <= ez -> clear_system ez (x_eq q coord) (y_eq q coord) ->
  q4inv q coord ez eo init = (n, (xi, eta)) -> (0 < n)%Z ->
  q_pos q xi eta = coord /\ exists x y, x < 1 + eo /\ y < 1 + eo /\ q_pos q x y = coord.
Proof. exact Bgrid_Proofs4.q4inv_sound. Qed.
Theorem C98_inverse_convex : forall q xi eta ez eo init, let p := q_pos q xi eta in let A := x_eq q p in let B := y_eq q p in let tol := ez * size_of A B in
  0 < ez -> 0 < eo -> 0 <= xi <= 1 -> 0 <= eta <= 1 ->
  convex (Rmax ez (tol * tol)) q -> v_x (q_v0 q) + tol < v_x (q_v1 q) -> v_x (q_v3 q) + tol < v_x (q_v2 q) ->
  clear_system ez A B -> clear_pivots ez A B ->
  exists n, q4inv q p ez eo init = (n, (xi, eta)) /\ (0 < n)%Z.
Proof. exact Bgrid_Proofs4.q4inv_convex. Qed.
Theorem C98_outside : forall init, q4inv (quad_at 0 0 2 0 3 1 1 1) (1 / 5, 4 / 5) tiny tiny init = (1%Z, (- 3 / 10, 4 / 5)).
Proof. exact Bgrid_Proofs7.outside_accepted. Qed.
Theorem C98_overwritten : forall init, q4inv (quad_at 0 0 0 1 (4 / 5) (4 / 5) 1 0) (9 / 20, 9 / 20) tiny tiny init = (1%Z, (9 / 2, 9 / 2)) /\
  q_pos (quad_at 0 0 0 1 (4 / 5) (4 / 5) 1 0) (1 / 2) (1 / 2) = (9 / 20, 9 / 20).
Proof. exact Bgrid_Proofs7.overwritten. Qed.
Theorem C98_find : forall grid coord, forall init loc, bg_find grid coord init = Some loc ->
  match loc with
  | AtNode i q => In q grid /\ bounded coord q = true /\
      exists v, In v (q_verts q) /\ v_i v = i /\ hypot (fst coord - v_x v) (snd coord - v_y v) < 1 / 100000000
  | Within xi eta q => In q grid /\ bounded coord q = true /\
      (forall v, In v (q_verts q) -> ~ hypot (fst coord - v_x v) (snd coord - v_y v) < 1 / 100000000) /\
      (clear_system (1 / 100000000) (x_eq q coord) (y_eq q coord) -> q_pos q xi eta = coord)
  end.
Proof. exact Bgrid_Proofs6.find_sound. Qed.
Theorem C98_find_convex : forall grid q xi eta init, let p := q_pos q xi eta in let A := x_eq q p in let B := y_eq q p in let tol := 1 / 100000000 * size_of A B in
  In q grid -> boxed q -> 0 <= xi <= 1 -> 0 <= eta <= 1 ->
  convex (Rmax (1 / 100000000) (tol * tol)) q -> v_x (q_v0 q) + tol < v_x (q_v1 q) -> v_x (q_v3 q) + tol < v_x (q_v2 q) ->
  clear_system (1 / 100000000) A B -> clear_pivots (1 / 100000000) A B ->
  exists loc, bg_find grid p init = Some loc.
Proof. exact Bgrid_Proofs6.find_complete. Qed.

(* C99: root finders *)
Theorem C99_quadratic : forall third eps A B C D, 0 <= eps -> Rabs A <= eps -> eps < Rabs B -> 0 <= C * C - 4 * B * D ->
  0 < eps \/ 0 < C * C - 4 * B * D ->
  exists x0 x1, cubic_solve third eps A B C D = Some [Some x0; Some x1] /\
    forall x, B * x ^ 2 + C * x + D = B * ((x - x0) * (x - x1)).
Proof. exact Bgrid_Proofs.quadratic_two. Qed.
Theorem C99_quadratic_near : forall third eps A B C D, 0 <= eps -> Rabs A <= eps -> eps < Rabs B -> - eps ^ 4 < C * C - 4 * B * D < 0 ->
  exists x0, cubic_solve third eps A B C D = Some [Some x0; Some x0] /\
    B * x0 ^ 2 + C * x0 + D = - (C * C - 4 * B * D) / (4 * B) /\ (forall x, B * x ^ 2 + C * x + D <> 0).
Proof. exact Bgrid_Proofs.quadratic_near. Qed.
Theorem C99_quadratic_none : forall third eps A B C D, 0 <= eps -> Rabs A <= eps -> eps < Rabs B -> C * C - 4 * B * D <= - eps ^ 4 -> C * C - 4 * B * D <= 0 ->
  cubic_solve third eps A B C D = None.
Proof. exact Bgrid_Proofs.quadratic_none. Qed.
Theorem C99_linear : forall third eps A B C D, 0 <= eps -> Rabs A <= eps -> Rabs B <= eps -> eps < Rabs C ->
  exists x0, cubic_solve third eps A B C D = Some [Some x0] /\ forall x, C * x + D = C * (x - x0).
Proof. exact Bgrid_Proofs.linear_one. Qed.
Theorem C99_constant : forall third eps A B C D, Rabs A <= eps -> Rabs B <= eps -> Rabs C <= eps -> cubic_solve third eps A B C D = None.
Proof. exact Bgrid_Proofs.constant_none. Qed.
Theorem C99_depressed : forall A B C D t, A <> 0 ->
  poly A B C D (t - B / (3 * A)) = A * (t ^ 3 + 3 * dep_p A B C * t + 2 * dep_q A B C D).
Proof. exact Bgrid_Proofs8.depressed. Qed.
Theorem C99_cubic_three : forall third eps A B C D, 0 <= eps -> eps < Rabs A -> dep_w A B C D <= - eps ^ 6 -> dep_w A B C D < 0 ->
  exists x0 x1 x2, cubic_solve third eps A B C D = Some [Some x0; Some x1; Some x2] /\
    forall x, poly A B C D x = A * ((x - x0) * (x - x1) * (x - x2)).
Proof. exact Bgrid_Proofs8.three. Qed.
Theorem C99_cubic_double : forall eps A B C D, 0 < eps -> eps < Rabs A -> dep_w A B C D = 0 -> dep_q A B C D < 0 ->
  exists x0 x1, cubic_solve (1 / 3) eps A B C D = Some [Some x0; Some x1; Some x1] /\
    forall x, poly A B C D x = A * ((x - x0) * (x - x1) * (x - x1)).
Proof. exact Bgrid_Proofs8.double. Qed.
Theorem C99_cubic_one : forall eps A B C D, 0 < eps -> eps < Rabs A -> eps ^ 6 <= dep_w A B C D ->
  dep_q A B C D < 0 /\ dep_p A B C < 0 \/ eps ^ 6 < dep_q A B C D /\ 0 < dep_p A B C ->
  exists x0 x1, cubic_solve (1 / 3) eps A B C D = Some [Some x0; Some x1; Some x1] /\
    poly A B C D x0 = 0 /\ (forall x, poly A B C D x = 0 -> x = x0) /\ poly A B C D x1 <> 0.
Proof. exact Bgrid_Proofs8.one. Qed.
Theorem C99_cubic_nan : forall third eps A B C D, 0 < eps -> eps < Rabs A -> eps ^ 6 <= dep_w A B C D -> dep_q A B C D < - eps ^ 6 ->
  0 < dep_p A B C -> cubic_solve third eps A B C D = Some [None; None; None].
Proof. exact Bgrid_Proofs8.nan. Qed.
Theorem C99_cubic_missed : forall third eps A B C D, 0 < eps -> eps < Rabs A -> 0 <= dep_w A B C D -> 0 <= dep_q A B C D -> dep_p A B C <= 0 ->
  cubic_solve third eps A B C D = None /\ exists x, poly A B C D x = 0.
Proof. exact Bgrid_Proofs8.missed. Qed.
Theorem C99_single_precision : exists x0 x1, cubic_solve single_third (1 / 100000000) 1 0 (-6) (-9) = Some [Some x0; Some x1; Some x1] /\
    poly 1 0 (-6) (-9) 3 = 0 /\ (forall x, poly 1 0 (-6) (-9) x = 0 -> x = 3) /\ 3 < x0 /\ x1 < 0.
Proof. exact Bgrid_Proofs2.single_not_root. Qed.
Theorem C99_bilinear : forall eps order A B x y, 0 <= eps -> clear_system eps A B -> In (x, y) (bilinear_solve eps order A B) -> solves A B x y.
Proof. exact Bgrid_Proofs8.bil_exact. Qed.
Theorem C99_bilinear_residual : forall eps order A B x y, 0 < eps -> In (x, y) (bilinear_solve eps order A B) ->
  (Rabs (c0 A) < eps * size_of A B /\ Rabs (c0 B) < eps * size_of A B /\
   c1 A * x + c2 A * y = c3 A /\ c1 B * x + c2 B * y = c3 B) \/
  (c0 A * (x * y) + c1 A * x + c2 A * y = c3 A /\
   eps * size_of A B * Rabs (c0 B * (x * y) + c1 B * x + c2 B * y - c3 B) <= eps ^ 3 / 4 + eps * Rmax (x * x) (y * y)).
Proof. exact Bgrid_Proofs8.bil_residual. Qed.

(* C126: corner pickers *)
Theorem C126_pickers : forall srt l, sorts srt -> zlen l = 4%Z ->
  exists a b c d, minx_miny srt l = Ok a /\ maxx_miny srt l = Ok b /\ maxx_maxy srt l = Ok c /\ minx_maxy srt l = Ok d /\
    Permutation [a; b; c; d] l /\ v_y a <= v_y d /\ v_y b <= v_y c /\
    (forall u w, In u [a; d] -> In w [b; c] -> v_x u <= v_x w).
Proof. exact Bgrid_Proofs6.pickers. Qed.

(* C127: the geometry of a boundary quad *)
Theorem C127_corners : forall h, hex_global h (0, 0) = h_c0 h /\ hex_global h (1, 0) = h_c1 h /\ hex_global h (0, 1) = h_c2 h /\ hex_global h (1, 1) = h_c3 h.
Proof. exact Bgrid_Proofs8.hex_corners. Qed.
Theorem C127_global : forall h x, hex_global h x =
  ((1 - fst x) * (1 - snd x) * fst (h_c0 h) + fst x * (1 - snd x) * fst (h_c1 h)
   + (1 - fst x) * snd x * fst (h_c2 h) + fst x * snd x * fst (h_c3 h),
   (1 - fst x) * (1 - snd x) * snd (h_c0 h) + fst x * (1 - snd x) * snd (h_c1 h)
   + (1 - fst x) * snd x * snd (h_c2 h) + fst x * snd x * snd (h_c3 h)).
Proof. exact Bgrid_Proofs6.hex_global_eq. Qed.
Theorem C127_derivative : forall h x d, let g := hex_global h x in let j := hex_jt h x in let g' := hex_global h (fst x + fst d, snd x + snd d) in
  fst g' = fst g + fst d * fst (fst j) + snd d * fst (snd j) + fst d * snd d * fst (twist h) /\
  snd g' = snd g + fst d * snd (fst j) + snd d * snd (snd j) + fst d * snd d * snd (twist h).
Proof. exact Bgrid_Proofs6.hex_taylor. Qed.
Theorem C127_local : forall fuel h y r, hex_local fuel h y = Ok (Some r) ->
  Rabs (fst (hex_global h r) - fst y) <= Rabs (fst (twist h)) * (1 / 10000000000) ^ 2 / 2 /\
  Rabs (snd (hex_global h r) - snd y) <= Rabs (snd (twist h)) * (1 / 10000000000) ^ 2 / 2.
Proof. exact Bgrid_Proofs6.local_error. Qed.
Theorem C127_local_affine : forall fuel h y, twist h = (0, 0) ->
  (fst (h_c1 h) - fst (h_c0 h)) * (snd (h_c2 h) - snd (h_c0 h)) - (snd (h_c1 h) - snd (h_c0 h)) * (fst (h_c2 h) - fst (h_c0 h)) <> 0 ->
  exists r, hex_local (S (S fuel)) h y = Ok (Some r) /\ hex_global h r = y.
Proof. exact Bgrid_Proofs6.local_affine. Qed.
Theorem C127_integration : forall h x, hex_integration h x =
  Rabs (fst (fst (hex_jt h x)) * snd (snd (hex_jt h x)) - snd (fst (hex_jt h x)) * fst (snd (hex_jt h x))).
Proof. exact Bgrid_Proofs6.hex_integration_eq. Qed.
Theorem C127_volume : forall h x, snd (h_c0 h) = snd (h_c1 h) -> snd (h_c2 h) = snd (h_c3 h) ->
  fst (h_c0 h) = fst (h_c2 h) -> fst (h_c1 h) = fst (h_c3 h) ->
  fst (h_c0 h) <= fst (h_c1 h) -> snd (h_c0 h) <= snd (h_c2 h) -> hex_integration h x = hex_volume h.
Proof. exact Bgrid_Proofs6.rectangle_volume. Qed.

Example C98_layer_case : fst (1, 0) < fst (3, 2) /\ snd (1, 0) = 0 /\ 0 < snd (3, 2) /\ (fst (3, 2) - fst (1, 0)) / 4 * snd (3, 2) >= 1 / 10000000.
Proof. exact layer_case. Qed.
Example C98_convex_case :
  let q := quad_at 0 0 1 0 (4 / 5) (4 / 5) 0 1 in let p := q_pos q (1 / 2) (1 / 2) in
  let A := x_eq q p in let B := y_eq q p in let tol := tiny * size_of A B in
  convex (Rmax tiny (tol * tol)) q /\ v_x (q_v0 q) + tol < v_x (q_v1 q) /\ v_x (q_v3 q) + tol < v_x (q_v2 q) /\
  clear_system tiny A B /\ clear_pivots tiny A B.
Proof. exact convex_example. Qed.
Example C99_three_case : dep_w 1 (-6) 11 (-6) <= - tiny ^ 6.
Proof. exact three_case. Qed.
Example C99_one_case : tiny ^ 6 <= dep_w 1 0 (-6) (-9) /\ dep_q 1 0 (-6) (-9) < 0 /\ dep_p 1 0 (-6) < 0.
Proof. exact one_case. Qed.
Example C99_nan_case : tiny ^ 6 <= dep_w 1 0 3 (-4) /\ dep_q 1 0 3 (-4) < - tiny ^ 6 /\ 0 < dep_p 1 0 3.
Proof. exact nan_case. Qed.
Example C99_missed_case : 0 <= dep_w 1 0 (-3) 18 /\ 0 <= dep_q 1 0 (-3) 18 /\ dep_p 1 0 (-3) <= 0 /\ poly 1 0 (-3) 18 (-3) = 0.
Proof. exact missed_case. Qed.
Example C126_case : sorts isort.
Proof. exact isort_sorts. Qed.
Example C127_case : let h := mkHex (0, 0) (2, 1) (1, 3) (3, 4) in twist h = (0, 0) /\
  (fst (h_c1 h) - fst (h_c0 h)) * (snd (h_c2 h) - snd (h_c0 h)) - (snd (h_c1 h) - snd (h_c0 h)) * (fst (h_c2 h) - fst (h_c0 h)) <> 0.
Proof. exact affine_case. Qed.
Print Assumptions C98_uniform. Print Assumptions C98_second_corner. Print Assumptions C98_layer. Print Assumptions C98_extract. Print Assumptions C98_pos. Print Assumptions C98_pos_affine. Print Assumptions C98_inverse. Print Assumptions C98_inverse_convex. Print Assumptions C98_outside. Print Assumptions C98_overwritten. Print Assumptions C98_find. Print Assumptions C98_find_convex. Print Assumptions C99_quadratic. Print Assumptions C99_quadratic_near. Print Assumptions C99_quadratic_none. Print Assumptions C99_linear. Print Assumptions C99_constant. Print Assumptions C99_depressed. Print Assumptions C99_cubic_three. Print Assumptions C99_cubic_double. Print Assumptions C99_cubic_one. Print Assumptions C99_cubic_nan. Print Assumptions C99_cubic_missed. Print Assumptions C99_single_precision. Print Assumptions C99_bilinear. Print Assumptions C99_bilinear_residual. Print Assumptions C126_pickers. Print Assumptions C127_corners. Print Assumptions C127_global. Print Assumptions C127_derivative. Print Assumptions C127_local. Print Assumptions C127_local_affine. Print Assumptions C127_integration. Print Assumptions C127_volume.
