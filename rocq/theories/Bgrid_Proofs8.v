(* The statements collected in Bgrid_Props. *)
From Verif Require Import BaseFacts RBaseFacts Bgrid_Spec Bgrid_Proofs Bgrid_Proofs2 Bgrid_Proofs3 Bgrid_Proofs4 Bgrid_Proofs5 Bgrid_Proofs6 Bgrid_Proofs7.
Open Scope R_scope.

(* ---- the cubic *)
Lemma depressed A B C D t : A <> 0 ->
  poly A B C D (t - B / (3 * A)) = A * (t ^ 3 + 3 * dep_p A B C * t + 2 * dep_q A B C D).
Proof. intros H. unfold poly, dep_p, dep_q. field. exact H. Qed.
Lemma three third eps A B C D : 0 <= eps -> eps < Rabs A -> dep_w A B C D <= - eps ^ 6 -> dep_w A B C D < 0 ->
  exists x0 x1 x2, cubic_solve third eps A B C D = Some [Some x0; Some x1; Some x2] /\
    forall x, poly A B C D x = A * ((x - x0) * (x - x1) * (x - x2)).
Proof.
  intros He HA HW HW0. apply cubic_three; auto. fold (dep_p A B C).
  unfold dep_w in HW0. destruct (Rlt_le_dec (dep_p A B C) 0) as [H|H]; [exact H|exfalso].
  pose proof (Rle_0_sqr (dep_q A B C D)) as H1. unfold Rsqr in H1.
  pose proof (Rmult_le_pos _ _ (Rmult_le_pos _ _ H H) H). lra.
Qed.
Lemma double eps A B C D : 0 < eps -> eps < Rabs A -> dep_w A B C D = 0 -> dep_q A B C D < 0 ->
  exists x0 x1, cubic_solve (1 / 3) eps A B C D = Some [Some x0; Some x1; Some x1] /\
    forall x, poly A B C D x = A * ((x - x0) * (x - x1) * (x - x1)).
Proof. intros; apply cubic_double; auto. Qed.
Lemma one eps A B C D : 0 < eps -> eps < Rabs A -> eps ^ 6 <= dep_w A B C D ->
  dep_q A B C D < 0 /\ dep_p A B C < 0 \/ eps ^ 6 < dep_q A B C D /\ 0 < dep_p A B C ->
  exists x0 x1, cubic_solve (1 / 3) eps A B C D = Some [Some x0; Some x1; Some x1] /\
    poly A B C D x0 = 0 /\ (forall x, poly A B C D x = 0 -> x = x0) /\ poly A B C D x1 <> 0.
Proof.
  intros He HA HW [[HQ HP]|[HQ HP]].
  - destruct (cubic_one eps A B C D He HA HW HQ HP) as (x0 & x1 & H1 & H2 & H3 & H4). exists x0, x1. repeat split; auto.
  - destruct (cubic_one_pos eps A B C D He HA HW HQ HP) as (x0 & x1 & H1 & H2 & H3 & H4). exists x0, x1. repeat split; auto.
Qed.
Lemma nan third eps A B C D : 0 < eps -> eps < Rabs A -> eps ^ 6 <= dep_w A B C D -> dep_q A B C D < - eps ^ 6 ->
  0 < dep_p A B C -> cubic_solve third eps A B C D = Some [None; None; None].
Proof. intros; apply cubic_nan; auto. Qed.
Lemma missed third eps A B C D : 0 < eps -> eps < Rabs A -> 0 <= dep_w A B C D -> 0 <= dep_q A B C D -> dep_p A B C <= 0 ->
  cubic_solve third eps A B C D = None /\ exists x, poly A B C D x = 0.
Proof. intros; apply cubic_missed; auto. Qed.

(* ---- the bilinear system *)
Lemma bil_exact eps order A B x y : 0 <= eps -> clear_system eps A B -> In (x, y) (bilinear_solve eps order A B) -> solves A B x y.
Proof. apply bilinear_exact. Qed.
Lemma bil_residual eps order A B x y : 0 < eps -> In (x, y) (bilinear_solve eps order A B) ->
  (Rabs (c0 A) < eps * size_of A B /\ Rabs (c0 B) < eps * size_of A B /\
   c1 A * x + c2 A * y = c3 A /\ c1 B * x + c2 B * y = c3 B) \/
  (c0 A * (x * y) + c1 A * x + c2 A * y = c3 A /\
   eps * size_of A B * Rabs (c0 B * (x * y) + c1 B * x + c2 B * y - c3 B) <= eps ^ 3 / 4 + eps * Rmax (x * x) (y * y)).
Proof. apply bilinear_residual. Qed.

(* ---- uniform grids *)
Lemma uniform mn mx k1 k2 dc : (0 < k1)%Z -> (0 < k2)%Z ->
  exists g keep, bg_uniform mn mx k1 k2 dc = Ok g /\ bg_nodes g = ((k1 + 1) * (k2 + 1))%Z /\
    map q_verts (bg_quads g) =
      map (fun c => cell_corners mn mx k1 k2 dc (fst c) (snd c)) (filter keep (pairs (zrange 0 k1) (zrange 0 k2))) /\
    (forall i j, keep (i, j) = true <-> roomy (cell_corners mn mx k1 k2 dc i j)) /\
    Forall boxed (bg_quads g) /\
    zlen (bg_fix g) = ((k1 + 1) * (k2 + 1))%Z /\
    forall i j, (0 <= i <= k1)%Z -> (0 <= j <= k2)%Z ->
      zget (bg_fix g) (j * (k1 + 1) + i)%Z = Some (negb dc && (((i =? 0) || (i =? k1)) && ((j =? 0) || (j =? k2))))%Z%bool.
Proof. apply uniform_main. Qed.
(* the second corner of every cell is at height 0 although its node is at the height of row j *)
Lemma second_corner mn mx k1 k2 dc i j v : nth_error (cell_corners mn mx k1 k2 dc i j) 1 = Some v ->
  v_i v = v_i (node mn mx k1 k2 (i + 1) j) /\ v_x v = v_x (node mn mx k1 k2 (i + 1) j) /\
  (v_y v = v_y (node mn mx k1 k2 (i + 1) j) <-> grid_y mn mx k2 j = 0).
Proof. unfold cell_corners. destruct dc; cbn; intros [= <-]; cbn; (split; [reflexivity|split; [reflexivity|split; congruence]]). Qed.
Lemma extracts x y z : bg_extract (x, y, z) 0 = Ok (y, z) /\ bg_extract (x, y, z) 1 = Ok (x, z) /\ bg_extract (x, y, z) 2 = Ok (x, y).
Proof. repeat split. Qed.
Lemma pos_corners q :
  q_pos q 0 0 = (v_x (q_v0 q), v_y (q_v0 q)) /\ q_pos q 1 0 = (v_x (q_v1 q), v_y (q_v1 q)) /\
  q_pos q 1 1 = (v_x (q_v2 q), v_y (q_v2 q)) /\ q_pos q 0 1 = (v_x (q_v3 q), v_y (q_v3 q)).
Proof. unfold q_pos, eval_basis; cbn. repeat split; f_equal; ring. Qed.
(* along every side the map is the straight segment between the two corners, and it is bilinear *)
Lemma pos_affine q a b eta t :
  q_pos q ((1 - t) * a + t * b) eta =
  ((1 - t) * fst (q_pos q a eta) + t * fst (q_pos q b eta), (1 - t) * snd (q_pos q a eta) + t * snd (q_pos q b eta)) /\
  q_pos q eta ((1 - t) * a + t * b) =
  ((1 - t) * fst (q_pos q eta a) + t * fst (q_pos q eta b), (1 - t) * snd (q_pos q eta a) + t * snd (q_pos q eta b)).
Proof. unfold q_pos, eval_basis; cbn. split; f_equal; ring. Qed.
Lemma hex_corners h : hex_global h (0, 0) = h_c0 h /\ hex_global h (1, 0) = h_c1 h /\ hex_global h (0, 1) = h_c2 h /\ hex_global h (1, 1) = h_c3 h.
Proof. rewrite !hex_global_eq. cbn. destruct h as [[? ?] [? ?] [? ?] [? ?]]; cbn. repeat split; f_equal; ring. Qed.

(* ---- examples *)
Lemma three_case : dep_w 1 (-6) 11 (-6) <= - tiny ^ 6.
Proof. unfold dep_w, dep_q, dep_p, tiny. lra. Qed.
Lemma one_case : tiny ^ 6 <= dep_w 1 0 (-6) (-9) /\ dep_q 1 0 (-6) (-9) < 0 /\ dep_p 1 0 (-6) < 0.
Proof. unfold dep_w, dep_q, dep_p, tiny. lra. Qed.
Lemma nan_case : tiny ^ 6 <= dep_w 1 0 3 (-4) /\ dep_q 1 0 3 (-4) < - tiny ^ 6 /\ 0 < dep_p 1 0 3.
Proof. unfold dep_w, dep_q, dep_p, tiny. lra. Qed.
Lemma missed_case : 0 <= dep_w 1 0 (-3) 18 /\ 0 <= dep_q 1 0 (-3) 18 /\ dep_p 1 0 (-3) <= 0 /\ poly 1 0 (-3) 18 (-3) = 0.
Proof. unfold dep_w, dep_q, dep_p, poly. lra. Qed.
Lemma layer_case : fst (1, 0) < fst (3, 2) /\ snd (1, 0) = 0 /\ 0 < snd (3, 2) /\ (fst (3, 2) - fst (1, 0)) / 4 * snd (3, 2) >= 1 / 10000000.
Proof. cbn. repeat split; lra. Qed.
Lemma affine_case : let h := mkHex (0, 0) (2, 1) (1, 3) (3, 4) in twist h = (0, 0) /\
  (fst (h_c1 h) - fst (h_c0 h)) * (snd (h_c2 h) - snd (h_c0 h)) - (snd (h_c1 h) - snd (h_c0 h)) * (fst (h_c2 h) - fst (h_c0 h)) <> 0.
Proof. cbn. unfold twist; cbn. split; [f_equal; ring|lra]. Qed.
