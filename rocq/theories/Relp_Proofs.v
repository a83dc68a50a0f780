From Verif Require Import BaseFacts RBaseFacts Relp_Model Relp_Spec.
Open Scope Z_scope.

(* ---------- ZCORN addressing *)
Lemma corners_eq nx ny i j k : cell_corners nx ny i j k =
  [zcorn_pos nx ny i j k 0 0 0; zcorn_pos nx ny i j k 1 0 0; zcorn_pos nx ny i j k 0 1 0; zcorn_pos nx ny i j k 1 1 0;
   zcorn_pos nx ny i j k 0 0 1; zcorn_pos nx ny i j k 1 0 1; zcorn_pos nx ny i j k 0 1 1; zcorn_pos nx ny i j k 1 1 1].
Proof.
  unfold cell_corners, zcorn_offset, zcorn_start, sub2ind, zcorn_pos.
  change (triples (zrange 0 2) (zrange 0 2) (zrange 0 2)) with
    [(0,(0,0));(0,(0,1));(0,(1,0));(0,(1,1));(1,(0,0));(1,(0,1));(1,(1,0));(1,(1,1))].
  cbn [map fst snd]. repeat (apply (f_equal2 (@cons Z)); [ring|]). reflexivity.
Qed.

Lemma corner_get nx ny i j k c p : zget (cell_corners nx ny i j k) c = Some p ->
  0 <= c < 8 /\ p = zcorn_pos nx ny i j k (c mod 2) (c / 2 mod 2) (c / 4).
Proof.
  intros E. pose proof (zget_Some_range _ _ _ E) as R. rewrite corners_eq in *. unfold zlen in R. cbn [length] in R.
  split; [lia|].
  assert (c = 0 \/ c = 1 \/ c = 2 \/ c = 3 \/ c = 4 \/ c = 5 \/ c = 6 \/ c = 7) as Hc by lia.
  destruct Hc as [->|[->|[->|[->|[->|[->|[->| ->]]]]]]];
    match type of E with zget ?l ?n = _ => let v := eval cbn in (nth_error l (Z.to_nat n)) in change (v = Some p) in E end;
    inversion E; reflexivity.
Qed.
Lemma corner_ex nx ny i j k c : 0 <= c < 8 ->
  zget (cell_corners nx ny i j k) c = Some (zcorn_pos nx ny i j k (c mod 2) (c / 2 mod 2) (c / 4)).
Proof.
  intros Hc. destruct (zget_in_range (cell_corners nx ny i j k) c) as [p E].
  - rewrite corners_eq. unfold zlen. cbn [length]. lia.
  - rewrite E. apply corner_get in E. destruct E as [_ ->]. reflexivity.
Qed.

Lemma pos_range nx ny nz i j k ci cj ck : 0 <= i < nx -> 0 <= j < ny -> 0 <= k < nz ->
  0 <= ci < 2 -> 0 <= cj < 2 -> 0 <= ck < 2 -> 0 <= zcorn_pos nx ny i j k ci cj ck < 8 * nx * ny * nz.
Proof.
  intros. unfold zcorn_pos.
  assert (0 <= (2 * j + cj) + 2 * ny * (2 * k + ck) < 2 * ny * (2 * nz)) by (apply mr_range; lia).
  assert (0 <= (2 * i + ci) + 2 * nx * ((2 * j + cj) + 2 * ny * (2 * k + ck)) < 2 * nx * (2 * ny * (2 * nz)))
    by (apply mr_range; lia).
  lia.
Qed.
Lemma pos_inj nx ny i j k ci cj ck i' j' k' ci' cj' ck' :
  0 <= i < nx -> 0 <= j < ny -> 0 <= i' < nx -> 0 <= j' < ny ->
  0 <= ci < 2 -> 0 <= cj < 2 -> 0 <= ck < 2 -> 0 <= ci' < 2 -> 0 <= cj' < 2 -> 0 <= ck' < 2 ->
  zcorn_pos nx ny i j k ci cj ck = zcorn_pos nx ny i' j' k' ci' cj' ck' ->
  (i, j, k) = (i', j', k') /\ (ci, cj, ck) = (ci', cj', ck').
Proof.
  unfold zcorn_pos. intros. destruct (mr_inj (2*i+ci) (2*i'+ci') (2*nx) _ _ ltac:(lia) ltac:(lia) H9) as [A B].
  destruct (mr_inj (2*j+cj) (2*j'+cj') (2*ny) _ _ ltac:(lia) ltac:(lia) B) as [C D].
  assert (i = i' /\ ci = ci') as [-> ->] by lia. assert (j = j' /\ cj = cj') as [-> ->] by lia.
  assert (k = k' /\ ck = ck') as [-> ->] by lia. auto.
Qed.

Lemma zcorn_addressing nx ny nz : 0 < nx -> 0 < ny -> 0 < nz ->
  (forall i j k, 0 <= i < nx -> 0 <= j < ny -> 0 <= k < nz ->
     zlen (cell_corners nx ny i j k) = 8 /\
     forall ci cj ck, 0 <= ci < 2 -> 0 <= cj < 2 -> 0 <= ck < 2 ->
       zget (cell_corners nx ny i j k) (ci + 2 * cj + 4 * ck) = Some (zcorn_pos nx ny i j k ci cj ck) /\
       0 <= zcorn_pos nx ny i j k ci cj ck < 8 * nx * ny * nz) /\
  (forall p, 0 <= p < 8 * nx * ny * nz ->
     exists! x, let '(i, j, k, c) := x in
       (0 <= i < nx /\ 0 <= j < ny /\ 0 <= k < nz) /\ zget (cell_corners nx ny i j k) c = Some p).
Proof.
  intros Hx Hy Hz. split.
  - intros i j k Hi Hj Hk. split; [rewrite corners_eq; reflexivity|]. intros ci cj ck H1 H2 H3. split.
    + rewrite corner_ex by lia. f_equal. f_equal; lia.
    + apply pos_range; assumption.
  - intros p Hp.
    destruct (mr_decomp p (2*nx) (4*ny*nz) ltac:(lia) ltac:(lia)) as [a [r [Ha [Hr ->]]]].
    destruct (mr_decomp r (2*ny) (2*nz) ltac:(lia) ltac:(lia)) as [b [c [Hb [Hc ->]]]].
    exists (a/2, b/2, c/2, a mod 2 + 2 * (b mod 2) + 4 * (c mod 2)). split.
    + split; [repeat split; lia|]. rewrite corner_ex by lia. f_equal. unfold zcorn_pos.
      replace ((a mod 2 + 2 * (b mod 2) + 4 * (c mod 2)) mod 2) with (a mod 2) by lia.
      replace ((a mod 2 + 2 * (b mod 2) + 4 * (c mod 2)) / 2 mod 2) with (b mod 2) by lia.
      replace ((a mod 2 + 2 * (b mod 2) + 4 * (c mod 2)) / 4) with (c mod 2) by lia.
      replace (2 * (a/2) + a mod 2) with a by lia. replace (2 * (b/2) + b mod 2) with b by lia.
      replace (2 * (c/2) + c mod 2) with c by lia. reflexivity.
    + intros [[[i j] k] n] [[Hi [Hj Hk]] E]. apply corner_get in E. destruct E as [Hn E].
      assert (zcorn_pos nx ny (a/2) (b/2) (c/2) (a mod 2) (b mod 2) (c mod 2) = zcorn_pos nx ny i j k (n mod 2) (n / 2 mod 2) (n / 4)) as E'.
      { rewrite <- E. unfold zcorn_pos.
        replace (2 * (a/2) + a mod 2) with a by lia. replace (2 * (b/2) + b mod 2) with b by lia.
        replace (2 * (c/2) + c mod 2) with c by lia. reflexivity. }
      apply pos_inj in E'; try lia. destruct E' as [E1 E2]. inversion E1. inversion E2. subst.
      repeat f_equal. lia.
Qed.

(* ---------- Voigt access *)
Lemma voigt_inv v p : zget voigt_tab v = Some p -> 0 <= v < 9 /\ 0 <= p < 9 /\
  zget [0; 5; 4; 8; 1; 3; 7; 6; 2] p = Some v.
Proof.
  intros E. pose proof (zget_Some_range _ _ _ E) as R. unfold zlen in R. cbn [length voigt_tab] in R. split; [lia|].
  assert (v = 0 \/ v = 1 \/ v = 2 \/ v = 3 \/ v = 4 \/ v = 5 \/ v = 6 \/ v = 7 \/ v = 8) as Hc by lia.
  destruct Hc as [->|[->|[->|[->|[->|[->|[->|[->| ->]]]]]]]]; inversion E; subst; split; try lia; reflexivity.
Qed.
Lemma voigt_ex v : 0 <= v < 9 -> exists p, zget voigt_tab v = Some p /\ 0 <= p < 9.
Proof.
  intros Hv. destruct (zget_in_range voigt_tab v) as [p E]; [unfold zlen; cbn [length voigt_tab]; lia|].
  exists p. split; [exact E|]. apply voigt_inv in E. tauto.
Qed.

Lemma voigt_prop {A} (K : list A) v : zlen K = 9 ->
  (~ (0 <= v < 9) -> get_voigt K v = Throw /\ forall x, set_voigt K v x = Throw) /\
  (0 <= v < 9 -> forall x, exists K', set_voigt K v x = Ok K' /\ zlen K' = 9 /\ get_voigt K' v = Ok x /\
     (forall w, 0 <= w < 9 -> w <> v -> get_voigt K' w = get_voigt K w) /\
     (exists p, 0 <= p < 9 /\ forall q, 0 <= q < 9 -> q <> p -> zget K' q = zget K q)) /\
  (forall q, 0 <= q < 9 -> exists w, 0 <= w < 9 /\ get_voigt K w = rget K q).
Proof.
  intros HK. split; [|split].
  - intros Hv. unfold get_voigt, set_voigt. destruct ((v <? 0) || (8 <? v)) eqn:B; [auto|lia].
  - intros Hv x. destruct (voigt_ex v Hv) as [p [E Hp]].
    destruct (rset_exists K p x) as [K' [E' [L [G O]]]]; [lia|].
    exists K'. unfold set_voigt, get_voigt. destruct ((v <? 0) || (8 <? v)) eqn:B; [lia|].
    assert (rget voigt_tab v = Ok p) as Ev by (apply rget_Ok; exact E). rewrite Ev. cbn [bind].
    split; [exact E'|]. split; [lia|]. split; [apply rget_Ok; exact G|]. split.
    + intros w Hw Hne. destruct (voigt_ex w Hw) as [q [Eq Hq]].
      destruct ((w <? 0) || (8 <? w)) eqn:B2; [lia|].
      assert (rget voigt_tab w = Ok q) as Ew by (apply rget_Ok; exact Eq). rewrite Ew. cbn [bind].
      assert (q <> p).
      { intros ->. apply voigt_inv in E. apply voigt_inv in Eq. destruct E as [_ [_ E]], Eq as [_ [_ Eq]]. congruence. }
      unfold rget. rewrite O by lia. reflexivity.
    + exists p. split; [exact Hp|]. intros q Hq Hn. apply O; lia.
  - intros q Hq. destruct (zget_in_range [0; 5; 4; 8; 1; 3; 7; 6; 2] q) as [w Ew]; [unfold zlen; cbn [length]; lia|].
    assert (zget voigt_tab w = Some q /\ 0 <= w < 9) as [E Hw].
    { assert (q = 0 \/ q = 1 \/ q = 2 \/ q = 3 \/ q = 4 \/ q = 5 \/ q = 6 \/ q = 7 \/ q = 8) as Hc by lia.
      destruct Hc as [->|[->|[->|[->|[->|[->|[->|[->| ->]]]]]]]]; inversion Ew; subst; split; try lia; reflexivity. }
    exists w. split; [exact Hw|]. unfold get_voigt. destruct ((w <? 0) || (8 <? w)) eqn:B; [lia|].
    assert (rget voigt_tab w = Ok q) as Ew' by (apply rget_Ok; exact E). rewrite Ew'. reflexivity.
Qed.

(* the Voigt order 11 22 33 23 13 12 32 31 21 of the row-major array *)
Lemma voigt_order {A} (a b c d e f g h i : A) v x :
  zget [a; e; i; f; c; b; h; g; d] v = Some x -> get_voigt [a; b; c; d; e; f; g; h; i] v = Ok x.
Proof.
  intros E. pose proof (zget_Some_range _ _ _ E) as R. unfold zlen in R. cbn [length] in R.
  assert (v = 0 \/ v = 1 \/ v = 2 \/ v = 3 \/ v = 4 \/ v = 5 \/ v = 6 \/ v = 7 \/ v = 8) as Hc by lia.
  destruct Hc as [->|[->|[->|[->|[->|[->|[->|[->| ->]]]]]]]]; inversion E; reflexivity.
Qed.

(* ---------- distribution of points *)
Lemma zrange_snoc a b : a <= b -> zrange a (b + 1) = zrange a b ++ [b].
Proof.
  intros H. rewrite (zrange_app a b (b+1)) by lia. f_equal. rewrite zrange_cons by lia.
  rewrite zrange_empty by lia. reflexivity.
Qed.

Lemma count_formula n points r : 0 < n -> 0 <= points -> 0 <= r < n -> point_count n points r = (points + r) / n.
Proof.
  intros Hn Hp Hr. revert points Hp. apply natlike_ind.
  - unfold point_count. rewrite zrange_empty by lia. cbn. symmetry. apply Z.div_small. lia.
  - intros m Hm IH. unfold point_count in *. rewrite <- Z.add_1_r, zrange_snoc by lia.
    rewrite filter_app, zlen_app, IH. cbn [filter].
    assert (mpi_node n m = n - 1 - m mod n) as E by (unfold mpi_node; rewrite Z.rem_mod_nonneg by lia; lia).
    rewrite E. clear E IH.
    pose proof (Z.div_mod m n ltac:(lia)) as D. pose proof (Z.mod_pos_bound m n ltac:(lia)) as B.
    set (q := m / n) in *. set (s := m mod n) in *. clearbody q s.
    destruct (n - 1 - s =? r) eqn:Q.
    + change (zlen [m]) with 1.
      replace (m + r) with ((n - 1) + q * n) by nia.
      replace (m + 1 + r) with (0 + (q + 1) * n) by nia. rewrite !Z.div_add by lia.
      rewrite !Z.div_small by lia. lia.
    + change (zlen (@nil Z)) with 0. rewrite Z.add_0_r.
      replace (m + r) with ((s + r) + q * n) by nia. replace (m + 1 + r) with ((s + r + 1) + q * n) by nia.
      rewrite !Z.div_add by lia. f_equal.
      destruct (Z_lt_ge_dec (s + r) n).
      * rewrite !Z.div_small by lia. reflexivity.
      * replace (s + r) with ((s + r - n) + 1 * n) by ring.
        replace (s + r - n + 1 * n + 1) with ((s + r - n + 1) + 1 * n) by ring. rewrite !Z.div_add by lia.
        rewrite !Z.div_small by lia. reflexivity.
Qed.

Lemma distribution_prop n points : 0 < n -> 0 <= points ->
  (forall idx, 0 <= idx < points -> 0 <= mpi_node n idx < n) /\
  (forall r r', 0 <= r < n -> 0 <= r' < n -> point_count n points r <= point_count n points r' + 1) /\
  (forall r, 0 <= r < n -> point_count n points 0 <= point_count n points r).
Proof.
  intros Hn Hp. split; [|split].
  - intros idx H. unfold mpi_node. rewrite Z.rem_mod_nonneg by lia.
    pose proof (Z.mod_pos_bound idx n ltac:(lia)). lia.
  - intros r r' Hr Hr'. rewrite !count_formula by lia.
    replace ((points + r') / n + 1) with ((points + r' + 1 * n) / n) by (rewrite Z.div_add; lia).
    apply Z.div_le_mono; lia.
  - intros r Hr. rewrite !count_formula by lia. apply Z.div_le_mono; lia.
Qed.
