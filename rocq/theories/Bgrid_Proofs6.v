(* Proofs about point location, the corner pickers and the geometry of a quad. *)
From Verif Require Import BaseFacts RBaseFacts Bgrid_Spec Bgrid_Proofs Bgrid_Proofs3 Bgrid_Proofs4 Bgrid_Proofs5.
Open Scope R_scope.

(* ---- a uniform grid of one layer that starts at height zero *)
Lemma node_extent mn mx k1 i : 0 < fst mx - fst mn -> (0 < k1)%Z -> 0 < snd mx -> snd mn = 0 -> forall dc,
  extent v_x (cell_corners mn mx k1 1 dc i 0) (grid_x mn mx k1 i) (grid_x mn mx k1 (i + 1)) /\
  extent v_y (cell_corners mn mx k1 1 dc i 0) 0 (snd mx).
Proof.
  intros Hx Hk Hy H0 dc.
  assert (Hd : 0 < (fst mx - fst mn) / IZR k1) by (apply Rdiv_lt_0_compat; [lra | apply (IZR_lt 0); lia]).
  assert (Hg : grid_x mn mx k1 i < grid_x mn mx k1 (i + 1)) by (unfold grid_x; rewrite plus_IZR; lra).
  assert (Y0 : grid_y mn mx 1 0 = 0) by (unfold grid_y; rewrite H0; lra).
  assert (Y1 : grid_y mn mx 1 (0 + 1) = snd mx) by (unfold grid_y; rewrite H0; cbn; field).
  unfold cell_corners, node. cbv zeta. rewrite Y0, Y1. destruct dc.
  - split; (split; [|split]); try (eexists; split; [left; reflexivity | reflexivity]);
      try (eexists; split; [right; left; reflexivity | reflexivity]);
      try (eexists; split; [right; right; left; reflexivity | reflexivity]);
      intros a; cbn; intros [<-|[<-|[<-|[<-|[]]]]]; cbn; lra.
  - split; (split; [|split]); try (eexists; split; [left; reflexivity | reflexivity]);
      try (eexists; split; [right; left; reflexivity | reflexivity]);
      try (eexists; split; [right; right; left; reflexivity | reflexivity]);
      intros a; cbn; intros [<-|[<-|[<-|[<-|[]]]]]; cbn; lra.
Qed.

Lemma filter_all {A} (f : A -> bool) l : (forall x, In x l -> f x = true) -> filter f l = l.
Proof.
  induction l as [|a l IH]; intro H; [reflexivity|]. cbn. rewrite (H a) by now left. rewrite IH; [reflexivity|].
  intros. apply H. now right.
Qed.

Lemma cell_of_point (x a d : R) (k : Z) : (0 < k)%Z -> 0 < d -> a <= x <= a + IZR k * d ->
  exists i, (0 <= i < k)%Z /\ a + IZR i * d <= x <= a + IZR (i + 1) * d.
Proof.
  intros Hk Hd Hx. set (t := (x - a) / d). assert (Ht : x = a + t * d) by (unfold t; field; lra).
  assert (T0 : 0 <= t) by (unfold t; apply Rmult_le_pos; [lra | apply Rlt_le, Rinv_0_lt_compat; lra]).
  assert (T1 : t <= IZR k) by (apply (Rmult_le_reg_r d); lra).
  destruct (archimed t) as [U1 U2].
  assert (U0 : (0 < up t)%Z) by (apply lt_IZR; lra).
  destruct (Z_le_gt_dec (up t) k) as [Hle|Hgt].
  - exists (up t - 1)%Z. split; [lia|]. replace (up t - 1 + 1)%Z with (up t) by ring. rewrite minus_IZR. rewrite Ht.
    split; apply Rplus_le_compat_l, Rmult_le_compat_r; lra.
  - assert (IZR k <= IZR (up t - 1)) by (apply IZR_le; lia). rewrite minus_IZR in H.
    assert (Et : t = IZR k) by lra. exists (k - 1)%Z. split; [lia|]. rewrite Ht, Et.
    replace (k - 1 + 1)%Z with k by ring. rewrite minus_IZR. split; apply Rplus_le_compat_l, Rmult_le_compat_r; lra.
Qed.

Lemma uniform_layer mn mx k1 dc : (0 < k1)%Z -> fst mn < fst mx -> snd mn = 0 -> 0 < snd mx ->
  (fst mx - fst mn) / IZR k1 * snd mx >= 1 / 10000000 ->
  exists g, bg_uniform mn mx k1 1 dc = Ok g /\ zlen (bg_quads g) = k1 /\
    (forall i, (0 <= i < k1)%Z -> exists q, zget (bg_quads g) i = Some q /\
       q_verts q = (let n a b := node mn mx k1 1 (i + a) b in
                    if dc then [n 0 0; n 1 0; n 0 1; n 1 1] else [n 0 0; n 1 0; n 1 1; n 0 1])%Z /\
       q_lo q = (grid_x mn mx k1 i, 0) /\ q_hi q = (grid_x mn mx k1 (i + 1), snd mx)) /\
    (forall x y, fst mn <= x <= fst mx -> 0 <= y <= snd mx ->
       exists q, In q (bg_quads g) /\ fst (q_lo q) <= x <= fst (q_hi q) /\ snd (q_lo q) <= y <= snd (q_hi q)).
Proof.
  intros Hk Hx H0 Hy Ha. destruct (uniform_main mn mx k1 1 dc Hk ltac:(lia)) as (g & keep & E & _ & Hq & Hkeep & Hbox & _).
  assert (Hp : pairs (zrange 0 k1) (zrange 0 1) = map (fun i => (i, 0%Z)) (zrange 0 k1)).
  { unfold pairs. replace (zrange 0 1) with [0%Z] by reflexivity. clear Hq. induction (zrange 0 k1) as [|a l IH]; [reflexivity|]. exact (f_equal (cons (a, 0%Z)) IH). }
  rewrite filter_all in Hq.
  2: { intros [i j] Hin. rewrite Hp in Hin. apply in_map_iff in Hin. destruct Hin as (i' & [= <- <-] & _).
       apply Hkeep. intros xl xh yl yh Ex Ey.
       destruct (node_extent mn mx k1 i' ltac:(lra) Hk Hy H0 dc) as [Fx Fy].
       destruct (extent_unique _ _ _ _ _ _ Ex Fx) as [-> ->]. destruct (extent_unique _ _ _ _ _ _ Ey Fy) as [-> ->].
       unfold grid_x. rewrite plus_IZR. lra. }
  rewrite Hp, map_map in Hq. cbn [fst snd] in Hq.
  assert (Hl : zlen (bg_quads g) = k1).
  { rewrite <- (zlen_map q_verts), Hq, zlen_map, zlen_zrange; lia. }
  assert (Hcell : forall i, (0 <= i < k1)%Z -> exists q, zget (bg_quads g) i = Some q /\
       q_verts q = (let n a b := node mn mx k1 1 (i + a) b in
                    if dc then [n 0 0; n 1 0; n 0 1; n 1 1] else [n 0 0; n 1 0; n 1 1; n 0 1])%Z /\
       q_lo q = (grid_x mn mx k1 i, 0) /\ q_hi q = (grid_x mn mx k1 (i + 1), snd mx)).
  { intros i Hi. destruct (zget_in_range (bg_quads g) i ltac:(lia)) as [q Eq]. exists q. split; [exact Eq|].
    assert (Ev : q_verts q = cell_corners mn mx k1 1 dc i 0).
    { pose proof (f_equal (fun l => zget l i) Hq) as G. cbv beta in G. rewrite !zget_map, Eq in G.
      rewrite zget_zrange in G by lia. cbn in G. injection G as G. exact G. }
    split.
    - rewrite Ev. unfold cell_corners, node. cbv zeta. replace (grid_y mn mx 1 0) with 0 by (unfold grid_y; lra).
      rewrite !Z.add_0_r. cbn [Z.add]. reflexivity.
    - rewrite Forall_forall in Hbox. destruct (Hbox q (zget_In _ _ _ Eq)) as [Bx By]. rewrite Ev in Bx, By.
      destruct (node_extent mn mx k1 i ltac:(lra) Hk Hy H0 dc) as [Fx Fy].
      destruct (extent_unique _ _ _ _ _ _ Bx Fx) as [Lx Hx']. destruct (extent_unique _ _ _ _ _ _ By Fy) as [Ly Hy'].
      destruct (q_lo q), (q_hi q). cbn in *. subst. split; reflexivity. }
  exists g. split; [exact E|]. split; [exact Hl|]. split; [exact Hcell|].
  intros x y Hxx Hyy.
  assert (Hk' : 0 < IZR k1) by (apply (IZR_lt 0); lia).
  destruct (cell_of_point x (fst mn) ((fst mx - fst mn) / IZR k1) k1 Hk) as (i & Hi & Hix).
  - apply Rdiv_lt_0_compat; lra.
  - replace (IZR k1 * ((fst mx - fst mn) / IZR k1)) with (fst mx - fst mn) by (field; lra). lra.
  - destruct (Hcell i Hi) as (q & Eq & _ & El & Eh). exists q. split; [eapply zget_In; exact Eq|]. rewrite El, Eh.
    cbn [fst snd]. unfold grid_x. split; lra.
Qed.

(* ---- find *)
Lemma find_sound grid coord : forall init loc, bg_find grid coord init = Some loc ->
  match loc with
  | AtNode i q => In q grid /\ bounded coord q = true /\
      exists v, In v (q_verts q) /\ v_i v = i /\ hypot (fst coord - v_x v) (snd coord - v_y v) < 1 / 100000000
  | Within xi eta q => In q grid /\ bounded coord q = true /\
      (forall v, In v (q_verts q) -> ~ hypot (fst coord - v_x v) (snd coord - v_y v) < 1 / 100000000) /\
      (clear_system (1 / 100000000) (x_eq q coord) (y_eq q coord) -> q_pos q xi eta = coord)
  end.
Proof.
  induction grid as [|q t IH]; intros init loc H; [discriminate|]. cbn [bg_find] in H.
  assert (Hcont : forall init, bg_find t coord init = Some loc ->
    match loc with
    | AtNode i q0 => In q0 (q :: t) /\ bounded coord q0 = true /\
        exists v, In v (q_verts q0) /\ v_i v = i /\ hypot (fst coord - v_x v) (snd coord - v_y v) < 1 / 100000000
    | Within xi eta q0 => In q0 (q :: t) /\ bounded coord q0 = true /\
        (forall v, In v (q_verts q0) -> ~ hypot (fst coord - v_x v) (snd coord - v_y v) < 1 / 100000000) /\
        (clear_system (1 / 100000000) (x_eq q0 coord) (y_eq q0 coord) -> q_pos q0 xi eta = coord)
    end).
  { intros i0 H0. specialize (IH i0 loc H0). destruct loc; cbn [In]; tauto. }
  destruct (bounded coord q) eqn:Eb; [|exact (Hcont _ H)].
  destruct (find _ (q_verts q)) as [v|] eqn:Ef.
  - injection H as <-. apply find_some in Ef. destruct Ef as [Hin Hv]. unfold equal2 in Hv. cbn in Hv. rb.
    split; [now left|]. split; [assumption|]. exists v. auto.
  - destruct (q4inv _ _ _ _ _) as [n r] eqn:Eq. destruct (Z.ltb_spec 0 n) as [Hn|Hn]; [|exact (Hcont _ H)].
    injection H as <-. split; [now left|]. split; [assumption|]. split.
    + intros v Hv Hh. pose proof (find_none _ _ Ef v Hv) as G. unfold equal2 in G. cbn in G. rb. lra.
    + intro Hc. destruct r as [xi eta]. cbn. eapply q4inv_sound; try eassumption. lra.
Qed.

Lemma pos_in_box q xi eta : boxed q -> 0 <= xi <= 1 -> 0 <= eta <= 1 -> bounded (q_pos q xi eta) q = true.
Proof.
  intros [Bx By] Hx Hy.
  assert (W : forall f lo hi, extent f (q_verts q) lo hi ->
    lo <= (1 - xi) * (1 - eta) * f (q_v0 q) + xi * (1 - eta) * f (q_v1 q) + xi * eta * f (q_v2 q) + (1 - xi) * eta * f (q_v3 q) <= hi).
  { intros f lo hi (_ & _ & H). unfold q_verts in H.
    pose proof (H (q_v0 q) ltac:(cbn; tauto)). pose proof (H (q_v1 q) ltac:(cbn; tauto)).
    pose proof (H (q_v2 q) ltac:(cbn; tauto)). pose proof (H (q_v3 q) ltac:(cbn; tauto)).
    set (a := f (q_v0 q)) in *. set (b := f (q_v1 q)) in *. set (c := f (q_v2 q)) in *. set (d := f (q_v3 q)) in *.
    set (w1 := (1 - xi) * (1 - eta)). set (w2 := xi * (1 - eta)). set (w3 := xi * eta). set (w4 := (1 - xi) * eta).
    assert (W1 : 0 <= w1) by (apply Rmult_le_pos; lra). assert (W2 : 0 <= w2) by (apply Rmult_le_pos; lra).
    assert (W3 : 0 <= w3) by (apply Rmult_le_pos; lra). assert (W4 : 0 <= w4) by (apply Rmult_le_pos; lra).
    assert (W : w1 + w2 + w3 + w4 = 1) by (unfold w1, w2, w3, w4; ring). clearbody w1 w2 w3 w4.
    assert (0 <= w1 * (a - lo)) by (apply Rmult_le_pos; lra). assert (0 <= w2 * (b - lo)) by (apply Rmult_le_pos; lra).
    assert (0 <= w3 * (c - lo)) by (apply Rmult_le_pos; lra). assert (0 <= w4 * (d - lo)) by (apply Rmult_le_pos; lra).
    assert (0 <= w1 * (hi - a)) by (apply Rmult_le_pos; lra). assert (0 <= w2 * (hi - b)) by (apply Rmult_le_pos; lra).
    assert (0 <= w3 * (hi - c)) by (apply Rmult_le_pos; lra). assert (0 <= w4 * (hi - d)) by (apply Rmult_le_pos; lra).
    assert (El : lo = (w1 + w2 + w3 + w4) * lo) by (rewrite W; ring). assert (Eh : hi = (w1 + w2 + w3 + w4) * hi) by (rewrite W; ring).
    split; lra. }
  apply W in Bx, By. unfold bounded, q_pos, eval_basis. cbn [nth fst snd]. cbv zeta.
  rewrite !Rleb_t by lra. reflexivity.
Qed.

Lemma find_skip grid coord : forall init, (exists q, In q grid /\ bounded coord q = true /\
    forall init, exists n r, q4inv q coord (1 / 100000000) (1 / 100000000) init = (n, r) /\ (0 < n)%Z) ->
  exists loc, bg_find grid coord init = Some loc.
Proof.
  induction grid as [|q t IH]; intros init (q' & Hin & Hb & Hq); [destruct Hin|]. cbn [bg_find].
  destruct Hin as [<-|Hin].
  - rewrite Hb. destruct (find _ _) as [v|]; [eauto|]. destruct (Hq init) as (n & r & -> & Hn).
    destruct (Z.ltb_spec 0 n); [eauto | lia].
  - assert (G : forall init, exists loc, bg_find t coord init = Some loc) by (intro; apply IH; exists q'; auto).
    destruct (bounded coord q); [|apply G]. destruct (find _ _); [eauto|]. destruct (q4inv _ _ _ _ _) as [n r].
    destruct (0 <? n)%Z; [eauto | apply G].
Qed.

Lemma find_complete grid q xi eta init :
  let p := q_pos q xi eta in let A := x_eq q p in let B := y_eq q p in let tol := 1 / 100000000 * size_of A B in
  In q grid -> boxed q -> 0 <= xi <= 1 -> 0 <= eta <= 1 ->
  convex (Rmax (1 / 100000000) (tol * tol)) q -> v_x (q_v0 q) + tol < v_x (q_v1 q) -> v_x (q_v3 q) + tol < v_x (q_v2 q) ->
  clear_system (1 / 100000000) A B -> clear_pivots (1 / 100000000) A B ->
  exists loc, bg_find grid p init = Some loc.
Proof.
  intros p A B tol Hin Hbox Hxi Heta Hc Hl Hr Hs Hp. apply find_skip. exists q. split; [assumption|].
  split; [now apply pos_in_box|]. intro i0.
  destruct (q4inv_convex q xi eta (1 / 100000000) (1 / 100000000) i0) as (n & E & Hn); try assumption; try lra.
  exists n, (xi, eta). auto.
Qed.

(* ---- the corner pickers *)
Lemma pickers srt l : sorts srt -> zlen l = 4%Z ->
  exists a b c d, minx_miny srt l = Ok a /\ maxx_miny srt l = Ok b /\ maxx_maxy srt l = Ok c /\ minx_maxy srt l = Ok d /\
    Permutation [a; b; c; d] l /\ v_y a <= v_y d /\ v_y b <= v_y c /\
    (forall u w, In u [a; d] -> In w [b; c] -> v_x u <= v_x w).
Proof.
  intros Hs Hl. unfold minx_miny, maxx_miny, maxx_maxy, minx_maxy, left_sorted, right_sorted.
  destruct (Z.ltb_spec (zlen l) 2); [lia|]. cbn [bind].
  destruct (Hs 0%Z l) as [P0 S0]. set (s := srt 0%Z l) in *.
  assert (Ls : length s = 4%nat) by (rewrite <- (Permutation_length P0); unfold zlen in Hl; lia).
  destruct s as [|s0 [|s1 [|s2 [|s3 [|]]]]]; try discriminate. cbn [firstn skipn].
  destruct (Hs 1%Z [s0; s1]) as [P1 S1]. destruct (Hs 1%Z [s2; s3]) as [P2 S2].
  pose proof (Permutation_length P1) as L1. pose proof (Permutation_length P2) as L2. cbn in L1, L2.
  destruct (srt 1%Z [s0; s1]) as [|a [|d [|]]]; try discriminate. destruct (srt 1%Z [s2; s3]) as [|b [|c [|]]]; try discriminate.
  exists a, b, c, d. cbn. split; [reflexivity|]. split; [reflexivity|]. split; [reflexivity|]. split; [reflexivity|].
  assert (Hx : forall u w, In u [s0; s1] -> In w [s2; s3] -> v_x u <= v_x w).
  { intros u w Hu Hw. apply StronglySorted_inv in S0. destruct S0 as [S0 F0]. apply StronglySorted_inv in S0. destruct S0 as [_ F1].
    rewrite Forall_forall in F0, F1.
    destruct Hu as [<-|[<-|[]]].
    - apply (F0 w). cbn in *. tauto.
    - apply (F1 w). cbn in *. tauto. }
  split; [|split; [|split]].
  - apply perm_trans with [s0; s1; s2; s3]; [|now apply Permutation_sym].
    apply perm_trans with ([a; d] ++ [b; c]); [|change [s0; s1; s2; s3] with ([s0; s1] ++ [s2; s3]); apply Permutation_app; now apply Permutation_sym].
    cbn. apply perm_skip. apply perm_trans with [b; d; c]; [apply perm_skip, perm_swap|]. apply perm_swap.
  - apply StronglySorted_inv in S1. destruct S1 as [_ F]. inversion F; subst. assumption.
  - apply StronglySorted_inv in S2. destruct S2 as [_ F]. inversion F; subst. assumption.
  - intros u w Hu Hw. apply Hx.
    + eapply Permutation_in; [apply Permutation_sym; exact P1 | assumption].
    + eapply Permutation_in; [apply Permutation_sym; exact P2 | assumption].
Qed.

(* ---- the geometry of a quad *)
Lemma hex_global_eq h x : hex_global h x =
  ((1 - fst x) * (1 - snd x) * fst (h_c0 h) + fst x * (1 - snd x) * fst (h_c1 h)
   + (1 - fst x) * snd x * fst (h_c2 h) + fst x * snd x * fst (h_c3 h),
   (1 - fst x) * (1 - snd x) * snd (h_c0 h) + fst x * (1 - snd x) * snd (h_c1 h)
   + (1 - fst x) * snd x * snd (h_c2 h) + fst x * snd x * snd (h_c3 h)).
Proof. unfold hex_global, hex_combine, hex_pat, uvw. cbn [fold_left fst snd]. f_equal; ring. Qed.

Lemma hex_taylor h x d :
  let g := hex_global h x in let j := hex_jt h x in let g' := hex_global h (fst x + fst d, snd x + snd d) in
  fst g' = fst g + fst d * fst (fst j) + snd d * fst (snd j) + fst d * snd d * fst (twist h) /\
  snd g' = snd g + fst d * snd (fst j) + snd d * snd (snd j) + fst d * snd d * snd (twist h).
Proof.
  cbv zeta. rewrite !hex_global_eq. unfold hex_jt, hex_combine, hex_pat, uvw, duvw, twist. cbn [fold_left fst snd].
  split; ring.
Qed.

Lemma solve_jt_ok jt z d : solve_jt jt z = Ok d ->
  fst (fst jt) * fst d + fst (snd jt) * snd d = fst z /\ snd (fst jt) * fst d + snd (snd jt) * snd d = snd z.
Proof.
  destruct jt as [[a b] [c e]]. unfold solve_jt, mdiv, fdiv. destruct (Req_EM_T _ 0); [discriminate|]. cbn [bind].
  intros [= <-]. cbn. split; field; assumption.
Qed.

Lemma newton_sound fuel h y : forall x r, hex_newton fuel h y x = Ok (Some r) ->
  exists d, fst d * fst d + snd d * snd d <= (1 / 10000000000) ^ 2 /\
    fst (hex_global h r) - fst y = fst d * snd d * fst (twist h) /\
    snd (hex_global h r) - snd y = fst d * snd d * snd (twist h).
Proof.
  induction fuel as [|fuel IH]; intros x r H; [discriminate|]. cbn [hex_newton] in H.
  destruct (solve_jt _ _) as [d| |] eqn:E; try discriminate. cbn [bind] in H.
  destruct (Rltb _ _) eqn:Ed; [eapply IH; exact H|]. injection H as <-. rb. exists (- fst d, - snd d). cbn [fst snd].
  apply solve_jt_ok in E. cbn [fst snd] in E. destruct E as [E1 E2].
  destruct (hex_taylor h x (- fst d, - snd d)) as [T1 T2]. cbn [fst snd] in T1, T2.
  replace (fst x - fst d) with (fst x + - fst d) by ring. replace (snd x - snd d) with (snd x + - snd d) by ring.
  rewrite T1, T2. split; [|split; lra]. lra.
Qed.

(* the bound on the error *)
Lemma local_error fuel h y r : hex_local fuel h y = Ok (Some r) ->
  Rabs (fst (hex_global h r) - fst y) <= Rabs (fst (twist h)) * (1 / 10000000000) ^ 2 / 2 /\
  Rabs (snd (hex_global h r) - snd y) <= Rabs (snd (twist h)) * (1 / 10000000000) ^ 2 / 2.
Proof.
  intro H. apply newton_sound in H. destruct H as (d & Hd & E1 & E2). rewrite E1, E2. rewrite !Rabs_mult.
  assert (Hp : Rabs (fst d) * Rabs (snd d) <= (1 / 10000000000) ^ 2 / 2).
  { assert (0 <= (Rabs (fst d) - Rabs (snd d)) * (Rabs (fst d) - Rabs (snd d))) by apply Rle_0_sqr.
    assert (Q1 : Rabs (fst d) * Rabs (fst d) = fst d * fst d) by (rewrite <- Rabs_mult; apply Rabs_right, Rle_ge, Rle_0_sqr).
    assert (Q2 : Rabs (snd d) * Rabs (snd d) = snd d * snd d) by (rewrite <- Rabs_mult; apply Rabs_right, Rle_ge, Rle_0_sqr).
    lra. }
  set (e := (1 / 10000000000) ^ 2) in *.
  split; [replace (Rabs (fst (twist h)) * e / 2) with (e / 2 * Rabs (fst (twist h))) by field
         | replace (Rabs (snd (twist h)) * e / 2) with (e / 2 * Rabs (snd (twist h))) by field];
    apply Rmult_le_compat_r; try apply Rabs_pos; assumption.
Qed.

(* a parallelogram: two iterations are enough, and the result is exact *)
Lemma local_affine fuel h y : twist h = (0, 0) ->
  (fst (h_c1 h) - fst (h_c0 h)) * (snd (h_c2 h) - snd (h_c0 h)) - (snd (h_c1 h) - snd (h_c0 h)) * (fst (h_c2 h) - fst (h_c0 h)) <> 0 ->
  exists r, hex_local (S (S fuel)) h y = Ok (Some r) /\ hex_global h r = y.
Proof.
  intros Ht Hd. unfold hex_local.
  assert (T1 : fst (twist h) = 0) by now rewrite Ht. assert (T2 : snd (twist h) = 0) by now rewrite Ht.
  assert (Hj : forall x, hex_jt h x = ((fst (h_c1 h) - fst (h_c0 h), snd (h_c1 h) - snd (h_c0 h)),
                                    (fst (h_c2 h) - fst (h_c0 h), snd (h_c2 h) - snd (h_c0 h)))).
  { intro x. unfold twist in T1, T2. cbn in T1, T2.
    assert (C1 : fst (h_c3 h) = fst (h_c1 h) + fst (h_c2 h) - fst (h_c0 h)) by lra.
    assert (C2 : snd (h_c3 h) = snd (h_c1 h) + snd (h_c2 h) - snd (h_c0 h)) by lra.
    unfold hex_jt, hex_combine, hex_pat, uvw, duvw. cbn [fold_left fst snd]. rewrite C1, C2. f_equal; f_equal; ring. }
  set (a := fst (h_c1 h) - fst (h_c0 h)) in *. set (b := snd (h_c1 h) - snd (h_c0 h)) in *.
  set (c := fst (h_c2 h) - fst (h_c0 h)) in *. set (e := snd (h_c2 h) - snd (h_c0 h)) in *.
  assert (Hsolve : forall z, exists d, solve_jt ((a, b), (c, e)) z = Ok d).
  { intro z. unfold solve_jt, mdiv, fdiv. destruct (Req_EM_T (a * e - b * c) 0) as [E|E]; [lra|]. cbn [bind]. eauto. }
  assert (Hstep : forall x d, solve_jt ((a, b), (c, e)) (fst (hex_global h x) - fst y, snd (hex_global h x) - snd y) = Ok d ->
     hex_global h (fst x - fst d, snd x - snd d) = y).
  { intros x d E. apply solve_jt_ok in E. cbn [fst snd] in E. destruct E as [E1 E2].
    destruct (hex_taylor h x (- fst d, - snd d)) as [A1 A2]. cbn [fst snd] in A1, A2. rewrite Hj in A1, A2. cbn [fst snd] in A1, A2.
    replace (fst x - fst d) with (fst x + - fst d) by ring. replace (snd x - snd d) with (snd x + - snd d) by ring.
    rewrite (surjective_pairing (hex_global _ _)), (surjective_pairing y). rewrite A1, A2, T1, T2. f_equal; lra. }
  cbn [hex_newton]. rewrite Hj. 
  destruct (Hsolve (fst (hex_global h (1 / 2, 1 / 2)) - fst y, snd (hex_global h (1 / 2, 1 / 2)) - snd y)) as [d Ed].
  rewrite Ed. cbn [bind]. pose proof (Hstep _ _ Ed) as G. set (x1 := (_ - fst d, _ - snd d)) in *.
  destruct (Rltb _ _).
  - rewrite Hj, G. rewrite !Rminus_eq_0.
    assert (E0 : solve_jt ((a, b), (c, e)) (0, 0) = Ok (0, 0)).
    { unfold solve_jt, mdiv, fdiv. destruct (Req_EM_T (a * e - b * c) 0) as [E|E]; [lra|]. cbn [bind fst snd]. f_equal. f_equal; field; lra. }
    rewrite E0. cbn [bind fst snd]. rewrite Rltb_f by lra. eexists. split; [reflexivity|].
    rewrite !Rminus_0_r, <- surjective_pairing. exact G.
  - eexists. split; [reflexivity | exact G].
Qed.

Lemma hex_integration_eq h x : hex_integration h x =
  Rabs (fst (fst (hex_jt h x)) * snd (snd (hex_jt h x)) - snd (fst (hex_jt h x)) * fst (snd (hex_jt h x))).
Proof.
  unfold hex_integration. destruct (hex_jt h x) as [[a b] [c d]]. cbn [fst snd]. rewrite <- sqrt_Rsqr_abs. f_equal. unfold Rsqr. ring.
Qed.

(* a rectangle *)
Lemma rectangle_volume h x : snd (h_c0 h) = snd (h_c1 h) -> snd (h_c2 h) = snd (h_c3 h) ->
  fst (h_c0 h) = fst (h_c2 h) -> fst (h_c1 h) = fst (h_c3 h) ->
  fst (h_c0 h) <= fst (h_c1 h) -> snd (h_c0 h) <= snd (h_c2 h) -> hex_integration h x = hex_volume h.
Proof.
  intros H1 H2 H3 H4 H5 H6. rewrite hex_integration_eq. unfold hex_jt, hex_combine, hex_pat, uvw, duvw, hex_volume.
  cbn [fold_left fst snd]. rewrite <- H1, <- H2, <- H3, <- H4.
  match goal with |- Rabs ?e = _ => replace e with ((fst (h_c1 h) - fst (h_c0 h)) * (snd (h_c2 h) - snd (h_c0 h))) by ring end.
  apply Rabs_right, Rle_ge, Rmult_le_pos; lra.
Qed.
