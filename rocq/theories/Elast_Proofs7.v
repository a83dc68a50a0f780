(* Proofs about wave speeds. *)
From Coq Require Import Lra Psatz.
From Verif Require Import RBaseFacts BaseFacts Lin_Facts Steady_Proofs Euler_Proofs2 Mim_Proofs Matx_Proofs Smat_Proofs Shape_Proofs2 Elast_Proofs Elast_Proofs3 Elast_Spec.
Open Scope Z_scope.

Lemma direction_unit phi theta : Sum 3 (fun i => direction phi theta i * direction phi theta i)%R = 1%R.
Proof.
  rewrite Sum_3. unfold direction. cbn [Z.eqb Pos.eqb]. pose proof (sin2_cos2 phi) as H1. pose proof (sin2_cos2 theta) as H2. unfold Rsqr in *.
  replace (1 * cos theta * cos phi * (1 * cos theta * cos phi) + 1 * sin theta * cos phi * (1 * sin theta * cos phi) + 1 * sin phi * (1 * sin phi))%R with ((sin theta * sin theta + cos theta * cos theta) * (cos phi * cos phi) + sin phi * sin phi)%R by ring. rewrite H2. lra.
Qed.
Lemma christoffel_ok C phi theta : exists E, christoffel C phi theta = Ok E /\ same 3 E (christoffel_of C (direction phi theta)).
Proof.
  unfold christoffel, dmatrix. rewrite dsum_Sum, direction_unit, sqrt_1. destruct (Req_EM_T 1 0) as [H|_]; [lra|]. cbn [bind]. eexists. split; [reflexivity|]. set (n := direction phi theta). clearbody n. intros i k Hi Hk.
  rewrite dsum_Sum. rewrite (Sum_ext 6 _ (fun k0 => Sum 6 (fun l => fput (fput (fput (fput (fput (fput (fput (fput (fput fzero 0 0 (n 0%Z)) 0 4 (n 2%Z)) 0 5 (n 1%Z)) 1 1 (n 1%Z)) 1 3 (n 2%Z)) 1 5 (n 0%Z)) 2 2 (n 2%Z)) 2 3 (n 1%Z)) 2 4 (n 0%Z) i l / 1 * C l k0) * (fput (fput (fput (fput (fput (fput (fput (fput (fput fzero 0 0 (n 0%Z)) 0 4 (n 2%Z)) 0 5 (n 1%Z)) 1 1 (n 1%Z)) 1 3 (n 2%Z)) 1 5 (n 0%Z)) 2 2 (n 2%Z)) 2 3 (n 1%Z)) 2 4 (n 0%Z) k k0 / 1))%R) by (intros; rewrite dsum_Sum; reflexivity).
  unfold christoffel_of. rewrite ?Sum_6, ?Sum_3, ?Sum_6, ?Sum_3.
  assert (i = 0 \/ i = 1 \/ i = 2) as Ci by lia. assert (k = 0 \/ k = 1 \/ k = 2) as Ck by lia.
  destruct Ci as [->|[->| ->]], Ck as [->|[->| ->]]; unfold fput, fzero, voigt; cbn; field.
Qed.
Lemma christoffel_sym C n : symmetric 6 C -> symmetric 3 (christoffel_of C n).
Proof.
  intros HS i k Hi Hk. unfold christoffel_of. rewrite Sum_swap. apply Sum_ext. intros l Hl. apply Sum_ext. intros j Hj. rewrite HS; [ring| |]; unfold voigt; destruct (Z.eqb_spec i j), (Z.eqb_spec k l); lia.
Qed.
(* x^T Christoffel x = e^T C e with the strain e of x n^T *)
Definition outer (n x : Z -> R) : Z -> R := fun a => (if a <? 3 then x a * n a else if a =? 3 then x 1%Z * n 2%Z + x 2%Z * n 1%Z else if a =? 4 then x 0%Z * n 2%Z + x 2%Z * n 0%Z else x 0%Z * n 1%Z + x 1%Z * n 0%Z)%R.
Lemma christoffel_quad C n x : quad 3 (christoffel_of C n) x = quad 6 C (outer n x).
Proof.
  unfold quad, dot, mvec. rewrite !Sum_3, !Sum_6. unfold christoffel_of. rewrite !Sum_3. unfold voigt, outer. cbn. ring.
Qed.
Lemma christoffel_psd C n : psd 6 C -> psd 3 (christoffel_of C n).
Proof. intros HP x. rewrite christoffel_quad. apply HP. Qed.
Lemma det3_same A B : same 3 A B -> det3 A = det3 B.
Proof. intros H. unfold det3. rewrite !H by lia. reflexivity. Qed.
Lemma det3_pd A : symmetric 3 A -> (forall x, (exists i, 0 <= i < 3 /\ x i <> 0%R) -> (0 < quad 3 A x)%R) -> (0 < det3 A)%R.
Proof.
  intros HS HP.
  assert (forall a b c, ~ (a = 0 /\ b = 0 /\ c = 0)%R -> (0 < a * (A 0%Z 0%Z * a + A 0%Z 1%Z * b + A 0%Z 2%Z * c) + b * (A 0%Z 1%Z * a + A 1%Z 1%Z * b + A 1%Z 2%Z * c) + c * (A 0%Z 2%Z * a + A 1%Z 2%Z * b + A 2%Z 2%Z * c))%R) as Q.
  { intros a b c N. specialize (HP (fun i => if i =? 0 then a else if i =? 1 then b else c)). unfold quad, dot, mvec in HP. rewrite !Sum_3 in HP. cbn [Z.eqb] in HP. rewrite (HS 1 0), (HS 2 0), (HS 2 1) in HP by lia. apply HP.
    destruct (Req_dec a 0) as [Ha|Ha]; [|exists 0; split; [lia|exact Ha]]. destruct (Req_dec b 0) as [Hb|Hb]; [|exists 1; split; [lia|exact Hb]]. exists 2. split; [lia|]. cbn. intros Hc. apply N. auto. }
  unfold det3. rewrite (HS 1 0), (HS 2 0), (HS 2 1) by lia. generalize dependent (A 0%Z 0%Z). intros a0. generalize (A 0%Z 1%Z) as b0, (A 0%Z 2%Z) as c0, (A 1%Z 1%Z) as a1, (A 1%Z 2%Z) as b1, (A 2%Z 2%Z) as a2. clear. intros b0 c0 a1 b1 a2 Q.
  assert (0 < a0)%R as P0 by (pose proof (Q 1 0 0 ltac:(lra))%R; lra).
  assert (0 < a0 * a1 - b0 * b0)%R as P1.
  { pose proof (Q (- b0) a0 0 ltac:(lra))%R as H. apply (Rmult_lt_reg_l a0); [exact P0|]. lra. }
  pose proof (Q (b0 * b1 - c0 * a1) (c0 * b0 - a0 * b1) (a0 * a1 - b0 * b0) ltac:(lra))%R as H.
  apply (Rmult_lt_reg_l (a0 * a1 - b0 * b0)); [exact P1|]. lra.
Qed.
Lemma shift_sym A t : symmetric 3 A -> symmetric 3 (fun i k => A i k - t * ident i k)%R.
Proof. intros HS i k Hi Hk. rewrite (HS i k) by assumption. unfold ident. rewrite (Z.eqb_sym i k). reflexivity. Qed.
Lemma shift_quad A t x : quad 3 (fun i k => A i k - t * ident i k)%R x = (quad 3 A x - t * (x 0%Z * x 0%Z + x 1%Z * x 1%Z + x 2%Z * x 2%Z))%R.
Proof. unfold quad, dot, mvec. rewrite !Sum_3. unfold ident. cbn. ring. Qed.
Lemma root_nonneg A t : symmetric 3 A -> psd 3 A -> det3 (fun i k => A i k - t * ident i k)%R = 0%R -> (0 <= t)%R.
Proof.
  intros HS HP H0. destruct (Rle_lt_dec 0 t) as [|Hn]; [assumption|exfalso]. assert (0 < det3 (fun i k => A i k - t * ident i k))%R; [|lra]. apply det3_pd; [apply shift_sym; exact HS|].
  intros x (i & Hi & Nx). rewrite shift_quad. pose proof (HP x) as Q. assert (0 < x 0%Z * x 0%Z + x 1%Z * x 1%Z + x 2%Z * x 2%Z)%R as Px; [|nra].
  pose proof (Rle_0_sqr (x 0%Z)). pose proof (Rle_0_sqr (x 1%Z)). pose proof (Rle_0_sqr (x 2%Z)). pose proof (Rsqr_pos_lt (x i) Nx). unfold Rsqr in *. assert (i = 0 \/ i = 1 \/ i = 2) as [->|[->| ->]] by lia; lra.
Qed.
(* sorting three numbers *)
Lemma sort3 a b c : exists x y z, sort_greater [a; b; c] = [x; y; z] /\ (z <= y <= x)%R /\ Permutation [a; b; c] [x; y; z].
Proof.
  unfold sort_greater. cbn [fold_right insert_greater].
  assert (forall p q : R, {(q < p)%R} + {(p <= q)%R}) as D by (intros p q; destruct (Rlt_le_dec q p); auto).
  assert (forall p q : R, (q < p)%R -> Rltb q p = true) as T by (intros; apply Rltb_true; assumption).
  assert (forall p q : R, (p <= q)%R -> Rltb q p = false) as F by (intros; apply Rltb_false; assumption).
  destruct (D b c) as [B|B]; [rewrite (T _ _ B)|rewrite (F _ _ B)]; cbn [insert_greater].
  - destruct (D a b) as [A|A]; [rewrite (T _ _ A)|rewrite (F _ _ A)]; cbn [insert_greater]; [exists a, b, c; repeat split; auto; lra|].
    destruct (D a c) as [G|G]; [rewrite (T _ _ G)|rewrite (F _ _ G)]; cbn [insert_greater]; [exists b, a, c|exists b, c, a]; (split; [reflexivity|split; [lra|]]); [apply perm_swap|apply (Permutation_cons_append [b; c] a)].
  - destruct (D a c) as [A|A]; [rewrite (T _ _ A)|rewrite (F _ _ A)]; cbn [insert_greater].
    + exists a, c, b. split; [reflexivity|]. split; [lra|]. apply perm_skip, perm_swap.
    + destruct (D a b) as [G|G]; [rewrite (T _ _ G)|rewrite (F _ _ G)]; cbn [insert_greater]; [exists c, a, b|exists c, b, a]; (split; [reflexivity|split; [lra|]]).
      * symmetry. apply (Permutation_cons_append [a; b] c).
      * apply (perm_trans (perm_skip a (perm_swap c b []))). apply (perm_trans (perm_swap c a [b])). apply perm_skip, perm_swap.
Qed.
Lemma perm_prod (l m : list R) t : Permutation l m -> fold_right (fun a p => (a - t) * p)%R 1%R l = fold_right (fun a p => (a - t) * p)%R 1%R m.
Proof. induction 1; cbn; try congruence. ring. Qed.
Lemma speeds_ok eig C phi theta rho : eigen_ok eig -> symmetric 6 C -> psd 6 C -> (0 < rho)%R ->
  exists v, wave_speeds eig C phi theta rho = Ok v /\ speeds_of C (direction phi theta) rho v.
Proof.
  intros HE HS HP Hr. destruct (christoffel_ok C phi theta) as (E & EE & SE). set (n := direction phi theta) in *. pose proof (christoffel_sym C n HS) as S3. pose proof (christoffel_psd C n HP) as P3.
  assert (symmetric 3 E) as SyE by (intros i k Hi Hk; rewrite !SE by assumption; apply S3; assumption).
  destruct (HE E SyE) as (a & b & c & Eg & Hdet). destruct (sort3 a b c) as (x & y & z & Es & Ho & Pe).
  assert (forall t, det3 (fun i k => christoffel_of C n i k - t * ident i k)%R = ((x - t) * (y - t) * (z - t))%R) as HD.
  { intros t. rewrite <- (det3_same (fun i k => E i k - t * ident i k)%R) by (intros i k Hi Hk; rewrite SE by assumption; reflexivity). rewrite Hdet. pose proof (perm_prod _ _ t Pe) as H. cbn [fold_right] in H. lra. }
  assert (0 <= x /\ 0 <= y /\ 0 <= z)%R as (Nx & Ny & Nz) by (repeat split; apply (root_nonneg _ _ S3 P3); rewrite HD; ring).
  unfold wave_speeds. rewrite EE. cbn [bind]. rewrite Eg, Es.
  assert (forall e, (0 <= e)%R -> (let* q := mdiv e rho in if Rltb q 0 then UB else Ok (sqrt q)) = Ok (sqrt (e / rho)))%R as St.
  { intros e He. rewrite mdiv_ok by lra. cbn [bind]. assert (0 <= e / rho)%R by (apply Rmult_le_pos; [exact He|left; apply Rinv_0_lt_compat; exact Hr]). rewrite (proj2 (Rltb_false _ _)) by lra. reflexivity. }
  cbn [mapM]. rewrite !St by assumption. cbn [bind]. eexists. split; [reflexivity|]. exists (sqrt (x / rho)), (sqrt (y / rho)), (sqrt (z / rho)). split; [reflexivity|].
  assert (forall e, (0 <= e)%R -> (0 <= e / rho)%R) as Nq by (intros; apply Rmult_le_pos; [assumption|left; apply Rinv_0_lt_compat; exact Hr]).
  assert (forall e, (0 <= e)%R -> (rho * (sqrt (e / rho) * sqrt (e / rho)))%R = e) as Sq by (intros e He; rewrite sqrt_sqrt by (apply Nq; exact He); field; lra).
  split.
  - repeat split; [apply sqrt_pos| |]; apply sqrt_le_1; try (apply Nq; assumption); apply Rmult_le_compat_r; (left; apply Rinv_0_lt_compat; exact Hr) || lra.
  - intros t. rewrite !Sq by assumption. apply HD.
Qed.
Lemma speeds_unique C n rho v w : (0 < rho)%R -> speeds_of C n rho v -> speeds_of C n rho w -> v = w.
Proof.
  intros Hr (a & b & c & -> & Ho & HD) (x & y & z & -> & Ho' & HD').
  assert (forall p q, (0 <= p)%R -> (0 <= q)%R -> (rho * (p * p) = rho * (q * q))%R -> p = q) as Inj.
  { intros p q Hp Hq H. apply Rmult_eq_reg_l in H; [|lra]. apply Rsqr_inj; assumption. }
  assert (forall p q, (0 <= p <= q)%R -> (rho * (p * p) <= rho * (q * q))%R) as Mon by (intros; apply Rmult_le_compat_l; [lra|]; apply Rmult_le_compat; lra).
  pose proof (Mon c b ltac:(lra)). pose proof (Mon b a ltac:(lra)). pose proof (Mon z y ltac:(lra)). pose proof (Mon y x ltac:(lra)).
  assert (forall t, (rho * (a * a) - t) * (rho * (b * b) - t) * (rho * (c * c) - t) = (rho * (x * x) - t) * (rho * (y * y) - t) * (rho * (z * z) - t))%R as HP by (intros t; rewrite <- HD, <- HD'; reflexivity).
  cut (rho * (a * a) = rho * (x * x) /\ rho * (b * b) = rho * (y * y) /\ rho * (c * c) = rho * (z * z))%R; [intros (E1 & E2 & E3); apply Inj in E1, E2, E3; try lra; subst; reflexivity|clear Inj Mon HD HD' Ho Ho'].
  generalize dependent (rho * (a * a))%R. intros A. generalize dependent (rho * (b * b))%R. intros B. generalize dependent (rho * (c * c))%R. intros G. generalize dependent (rho * (x * x))%R. intros X. generalize dependent (rho * (y * y))%R. intros Y. generalize dependent (rho * (z * z))%R. intros Zz.
  clear. intros. assert (A + B + G = X + Y + Zz /\ A * B + B * G + A * G = X * Y + Y * Zz + X * Zz /\ A * B * G = X * Y * Zz)%R as (S1 & S2 & S3).
  { pose proof (HP 0%R) as K1. pose proof (HP 1%R) as K2. pose proof (HP (-1)%R) as K3. repeat split; lra. }
  pose proof (HP A) as RA. replace ((A - A) * (B - A) * (G - A))%R with 0%R in RA by ring. symmetry in RA. pose proof (HP G) as RG. replace ((A - G) * (B - G) * (G - G))%R with 0%R in RG by ring. symmetry in RG.
  pose proof (HP X) as RX. replace ((X - X) * (Y - X) * (Zz - X))%R with 0%R in RX by ring. pose proof (HP Zz) as RZ. replace ((X - Zz) * (Y - Zz) * (Zz - Zz))%R with 0%R in RZ by ring.
  assert (forall p q r, (p * q * r = 0)%R -> (p = 0 \/ q = 0 \/ r = 0)%R) as I3 by (intros p q r H'; apply Rmult_integral in H'; destruct H' as [H'|H']; [apply Rmult_integral in H'; tauto|tauto]).
  apply I3 in RA, RG, RX, RZ. assert (A = X) by lra. assert (G = Zz) by lra. lra.
Qed.
(* isotropic matrices *)
Lemma lame_speeds C lambda mu n rho : same 6 C (lame 3 lambda mu) -> (0 <= mu)%R -> (0 <= lambda + mu)%R -> (0 < rho)%R -> Sum 3 (fun i => n i * n i)%R = 1%R ->
  speeds_of C n rho [sqrt ((lambda + 2 * mu) / rho); sqrt (mu / rho); sqrt (mu / rho)]%R.
Proof.
  intros HS Hm Hl Hr Hn. assert (forall e, (0 <= e)%R -> (0 <= e / rho)%R) as Nq by (intros; apply Rmult_le_pos; [assumption|left; apply Rinv_0_lt_compat; exact Hr]).
  assert (forall e, (0 <= e)%R -> (rho * (sqrt (e / rho) * sqrt (e / rho)))%R = e) as Sq by (intros e He; rewrite sqrt_sqrt by (apply Nq; exact He); field; lra).
  eexists _, _, _. split; [reflexivity|]. split.
  - repeat split; [apply sqrt_pos|lra|]. apply sqrt_le_1; try (apply Nq; lra). apply Rmult_le_compat_r; [left; apply Rinv_0_lt_compat; exact Hr|lra].
  - intros t. rewrite !Sq by lra. rewrite (det3_same _ (fun i k => ((lambda + mu) * (n i * n k) + mu * ident i k) - t * ident i k)%R).
    + rewrite Sum_3 in Hn. unfold det3, ident. cbn [Z.eqb Pos.eqb].
      replace ((lambda + 2 * mu - t) * (mu - t) * (mu - t))%R with (((lambda + mu) * (n 0%Z * n 0%Z + n 1%Z * n 1%Z + n 2%Z * n 2%Z) + mu - t) * (mu - t) * (mu - t))%R by (rewrite Hn; ring). ring.
    + intros i k Hi Hk. f_equal. unfold christoffel_of. rewrite !Sum_3. rewrite Sum_3 in Hn.
      rewrite !HS by (unfold voigt; destruct (Z.eqb_spec i 0), (Z.eqb_spec i 1), (Z.eqb_spec i 2), (Z.eqb_spec k 0), (Z.eqb_spec k 1), (Z.eqb_spec k 2); lia).
      transitivity ((lambda + mu) * (n i * n k) + mu * (n 0%Z * n 0%Z + n 1%Z * n 1%Z + n 2%Z * n 2%Z) * ident i k)%R; [|rewrite Hn; ring].
      assert (i = 0 \/ i = 1 \/ i = 2) as Ci by lia. assert (k = 0 \/ k = 1 \/ k = 2) as Ck by lia.
      destruct Ci as [->|[->| ->]], Ck as [->|[->| ->]]; unfold voigt, lame, ident; cbn; ring.
Qed.
Lemma lame_psd lambda mu : (0 <= mu)%R -> (0 <= 3 * lambda + 2 * mu)%R -> psd 6 (lame 3 lambda mu).
Proof.
  intros Hm Hl x. rewrite quad_lame. pose proof (sq_nn (x 0%Z - x 1%Z)) as H0. pose proof (sq_nn (x 1%Z - x 2%Z)) as H1. pose proof (sq_nn (x 0%Z - x 2%Z)) as H2. pose proof (sq_nn (x 0%Z + x 1%Z + x 2%Z)) as H3. pose proof (sq_nn (x 3%Z)) as H4. pose proof (sq_nn (x 4%Z)) as H5. pose proof (sq_nn (x 5%Z)) as H6.
  pose proof (Rmult_le_pos _ _ Hl H3) as Q1. pose proof (Rmult_le_pos mu ((x 0%Z - x 1%Z) * (x 0%Z - x 1%Z) + (x 1%Z - x 2%Z) * (x 1%Z - x 2%Z) + (x 0%Z - x 2%Z) * (x 0%Z - x 2%Z)) Hm ltac:(lra))%R as Q2.
  pose proof (Rmult_le_pos mu (x 3%Z * x 3%Z + x 4%Z * x 4%Z + x 5%Z * x 5%Z) Hm ltac:(lra))%R as Q3. lra.
Qed.
Lemma lame_sym6 lambda mu : symmetric 6 (lame 3 lambda mu).
Proof. intros i j _ _. unfold lame. rewrite (andb_comm (i <? 3)), (Z.eqb_sym i j). destruct (Z.eqb_spec j i); [subst; reflexivity|reflexivity]. Qed.
Lemma iso_speeds eig C lambda mu phi theta rho : eigen_ok eig -> same 6 C (lame 3 lambda mu) -> (0 <= mu)%R -> (0 <= 3 * lambda + 2 * mu)%R -> (0 < rho)%R ->
  wave_speeds eig C phi theta rho = Ok [sqrt ((lambda + 2 * mu) / rho); sqrt (mu / rho); sqrt (mu / rho)]%R.
Proof.
  intros HE HS Hm Hl Hr. assert (symmetric 6 C) as Sy by (intros i j Hi Hj; rewrite !HS by assumption; apply lame_sym6; assumption). assert (psd 6 C) as Ps by (intros x; rewrite (quad_same _ _ _ x HS); apply lame_psd; assumption).
  destruct (speeds_ok eig C phi theta rho HE Sy Ps Hr) as (v & -> & Hv). f_equal. apply (speeds_unique _ _ _ _ _ Hr Hv). apply lame_speeds; try assumption; [lra|]. apply direction_unit.
Qed.
(* the driver *)
Lemma swap_entries C i j : voigt_swap C i j = C (exch i) (exch j).
Proof. reflexivity. Qed.
Lemma report_ok eig C dip azimuth rho : eigen_ok eig -> symmetric 6 C -> psd 6 C -> (-1 < rho)%R ->
  exists v M, report eig C dip azimuth rho = Ok (Some v, M) /\ (forall i j, M i j = C (exch i) (exch j)) /\ speeds_of (fun i j => M (exch i) (exch j)) (direction dip azimuth) 1 v.
Proof.
  intros HE HS HP Hr. destruct (speeds_ok eig C dip azimuth 1 HE HS HP ltac:(lra)) as (v & E & Hv). unfold report. rewrite (proj2 (Rltb_true _ _)) by exact Hr. rewrite E. cbn [bind]. eexists _, _. split; [reflexivity|]. split; [reflexivity|].
  destruct Hv as (a & b & c & -> & Ho & HD). exists a, b, c. split; [reflexivity|]. split; [exact Ho|]. intros t. rewrite <- HD. apply det3_same. intros i k Hi Hk. f_equal. unfold christoffel_of. apply Sum_ext. intros j Hj. apply Sum_ext. intros l Hl. f_equal. f_equal. cbv beta. rewrite ?swap_entries. assert (forall x, 0 <= x < 6 -> exch (exch x) = x) as Ex by (intros x Hx; all6 x Hx; reflexivity).
  rewrite !Ex; [reflexivity| |]; unfold voigt; [destruct (Z.eqb_spec k l)|destruct (Z.eqb_spec i j)]; lia.
Qed.
Lemma report_none eig C dip azimuth rho : (rho <= -1)%R -> report eig C dip azimuth rho = Ok (None, voigt_swap C).
Proof. intros H. unfold report. rewrite (proj2 (Rltb_false _ _)) by exact H. reflexivity. Qed.
Lemma odd_sym : symmetric 6 odd_rock.
Proof. intros i j Hi Hj. unfold odd_rock. destruct (Z.eqb_spec i j), (Z.eqb_spec j i); try lia; subst; reflexivity. Qed.
Lemma odd_psd : psd 6 odd_rock.
Proof.
  intros x. unfold quad, dot, mvec. rewrite !Sum_6. unfold odd_rock. cbn [Z.eqb Pos.eqb Z.ltb Z.compare Pos.compare Pos.compare_cont].
  pose proof (sq_nn (x 0%Z)). pose proof (sq_nn (x 1%Z)). pose proof (sq_nn (x 2%Z)). pose proof (sq_nn (x 3%Z)). pose proof (sq_nn (x 4%Z)). pose proof (sq_nn (x 5%Z)). lra.
Qed.
(* the order matters *)
Lemma report_order : symmetric 6 odd_rock /\ psd 6 odd_rock /\ forall eig, eigen_ok eig -> exists v M, report eig odd_rock 0 0 1 = Ok (Some v, M) /\ ~ speeds_of M (direction 0 0) 1 v.
Proof.
  split; [exact odd_sym|]. split; [exact odd_psd|]. intros eig HE. destruct (report_ok eig odd_rock 0 0 1 HE odd_sym odd_psd ltac:(lra)) as (v & M & E & HM & Hv). exists v, M. split; [exact E|]. intros Hv'.
  destruct Hv as (a & b & c & -> & Ho & HD). destruct Hv' as (a' & b' & c' & [= <- <- <-] & _ & HD'). pose proof (HD 4%R) as H1. pose proof (HD' 4%R) as H2. rewrite <- H1 in H2. clear - H2 HM.
  unfold det3, christoffel_of in H2. rewrite !Sum_3 in H2. rewrite !HM in H2. unfold direction in H2. cbn [Z.eqb Pos.eqb] in H2. rewrite cos_0, sin_0 in H2. unfold voigt, exch, odd_rock, ident in H2. cbn [Z.eqb Pos.eqb Z.sub Z.add Z.opp Z.pos_sub Pos.add Pos.succ Z.succ_double Z.pred_double Z.double Pos.pred_double Z.ltb Z.compare Pos.compare Pos.compare_cont] in H2. lra.
Qed.
