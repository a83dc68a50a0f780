From Verif Require Import Lin_Facts BaseFacts RBaseFacts Matx_Proofs Matx_Proofs3 Mim_Proofs Fluid_Proofs Fluid_Proofs2 Fluid_Proofs3 Rprop_Proofs3 Rprop_Proofs2 Euler_Proofs2 Steady_Proofs Fluid_Spec Fluid_Model.
From Coq Require Import Lra Lia.
Open Scope Z_scope.

Lemma big_pos : (0 < 1e100)%R. Proof. lra. Qed.
(* ---- maxima *)
Lemma maximum_one {A} (P : A -> Prop) f a : P a -> (forall x, P x -> x = a) -> maximum P f (f a).
Proof. intros H U. split; [exists a; auto |]. intros x Px. rewrite (U x Px). lra. Qed.
Lemma maximum_add {A} (P Q : A -> Prop) f m a : maximum P f m -> (forall x, Q x <-> P x \/ x = a) -> maximum Q f (smax m (f a)).
Proof.
  intros [(x & Px & Ex) M] H. rewrite smax_Rmax. split.
  - unfold Rmax. destruct (Rle_dec m (f a)); [exists a; split; [apply H; auto | reflexivity] | exists x; split; [apply H; auto | exact Ex]].
  - intros y Qy. apply H in Qy as [Py | ->]; [eapply Rle_trans; [apply M; exact Py | apply Rmax_l] | apply Rmax_r].
Qed.
Lemma smax_low x : (0 <= x)%R -> smax (-1e100) x = x.
Proof. intros H. rewrite smax_Rmax. pose proof big_pos. apply Rmax_right. lra. Qed.
Lemma slope_nonneg f i : (0 <= slope f i)%R.
Proof. unfold slope. pose proof (Rabs_pos (f (IZR i / 256) - f (IZR (i - 1) / 256))%R). lra. Qed.
Lemma slope_eq f i : mdiv (Rabs (f (IZR i / 256) - f (IZR (i - 1) / 256))%R) (1 / 256) = Ok (slope f i).
Proof. rewrite mdiv_Ok by lra. f_equal. unfold slope. field. Qed.
Lemma sample_eq i : sample_sat i = (IZR i / 256)%R.
Proof. unfold sample_sat. field. Qed.
Lemma sample_range i : 0 <= i <= 256 -> (0 <= IZR i / 256 <= 1)%R.
Proof. intros [A B]. apply IZR_le in A, B. lra. Qed.
Lemma sample_0 : (IZR 0 / 256)%R = 0%R. Proof. lra. Qed.
Lemma sample_1 : (IZR 256 / 256)%R = 1%R. Proof. lra. Qed.
Lemma climb f m n : maximum (fun i => 1 <= i <= 256) (slope f) m -> 0 <= n <= 256 -> (f (IZR n / 256) - f 0 <= IZR n * (m / 256))%R.
Proof.
  intros [_ M] H. assert (G : forall k, (k <= 256)%nat -> (f (IZR (Z.of_nat k) / 256) - f 0 <= IZR (Z.of_nat k) * (m / 256))%R).
  { induction k as [| k IH]; intros Hk.
    - cbn [Z.of_nat]. rewrite sample_0. lra.
    - specialize (IH ltac:(lia)). specialize (M (Z.of_nat (S k)) ltac:(lia)). unfold slope in M. replace (Z.of_nat (S k) - 1) with (Z.of_nat k) in M by lia.
      pose proof (Rle_abs (f (IZR (Z.of_nat (S k)) / 256) - f (IZR (Z.of_nat k) / 256))%R).
      replace (IZR (Z.of_nat (S k))) with (IZR (Z.of_nat k) + 1)%R in * by (rewrite Nat2Z.inj_succ, succ_IZR; reflexivity). lra. }
  specialize (G (Z.to_nat n) ltac:(lia)). rewrite Z2Nat.id in G by lia. exact G.
Qed.
Lemma slope_max_ge1 f m : maximum (fun i => 1 <= i <= 256) (slope f) m -> f 0%R = 0%R -> f 1%R = 1%R -> (1 <= m)%R.
Proof. intros M E0 E1. pose proof (climb f m 256 M ltac:(lia)) as H. rewrite sample_1, E0, E1 in H. lra. Qed.
Lemma slope_max_pos f m i : maximum (fun i => 1 <= i <= 256) (slope f) m -> 0 <= i <= 256 -> (f 0 < f (IZR i / 256))%R -> (0 < m)%R.
Proof.
  intros M Hi L. pose proof (climb f m i M Hi) as H. destruct (Rle_dec m 0); [| lra]. exfalso.
  assert (0 <= IZR i)%R by (apply IZR_le; lia). nra.
Qed.

(* ---- one rock *)
Lemma single_ok fl rock k p (f g d : R -> R) : (forall i, 0 <= i <= 256 -> cfl_frac_flows fl rock (IZR i / 256) = Ok (f (IZR i / 256)%R, g (IZR i / 256)%R)) ->
  (forall i, 0 <= i <= 256 -> abs_dpc fl rock k p (IZR i / 256) = Ok (Rabs (d (IZR i / 256)%R))) -> (rock = -1 -> forall s, d s = 0%R) ->
  exists m1 m2 mg md, maximum (fun i => 1 <= i <= 256) (slope f) m1 /\ maximum (fun i => 1 <= i <= 256) (slope g) m2 /\
    maximum (fun i => 0 <= i <= 256) (fun i => g (IZR i / 256)%R) mg /\ maximum (fun i => 0 <= i <= 256) (fun i => Rabs (d (IZR i / 256)%R)) md /\
    single_rock_cfl fl rock k p = let* a := mdiv 1 m1 in let* b := mdiv 1 m2 in Ok (a, b, (mg * md)%R).
Proof.
  intros HF HD H1. unfold single_rock_cfl.
  pose proof (HF 0 ltac:(lia)) as F0. pose proof (HD 0 ltac:(lia)) as D0. rewrite sample_0 in F0, D0. rewrite F0. cbn [bind]. rewrite D0. cbn [bind fst snd].
  destruct (zloop (cfl_step fl rock k p) (fun n st => cs_ff st = f (IZR (n - 1) / 256)%R /\ cs_fg st = g (IZR (n - 1) / 256)%R /\
      (n = 1 -> cs_d1 st = (-1e100)%R /\ cs_dg st = (-1e100)%R) /\
      (1 < n -> maximum (fun i => 1 <= i < n) (slope f) (cs_d1 st) /\ maximum (fun i => 1 <= i < n) (slope g) (cs_dg st)) /\
      maximum (fun i => 0 <= i < n) (fun i => g (IZR i / 256)%R) (cs_maxg st) /\ maximum (fun i => 0 <= i < n) (fun i => Rabs (d (IZR i / 256)%R)) (cs_dpc st))
    1 257 (mkCS (f 0%R) (g 0%R) (-1e100) (-1e100) (g 0%R) (Rabs (d 0%R))) ltac:(lia)) as (st & E & _ & _ & _ & M & Mg & Md).
  - cbn [cs_ff cs_fg cs_d1 cs_dg cs_maxg cs_dpc]. change (1 - 1) with 0. rewrite sample_0. split; [reflexivity |]. split; [reflexivity |]. split; [auto |]. split; [lia |].
    split.
    + pose proof (maximum_one (fun i => 0 <= i < 1) (fun i => g (IZR i / 256)%R) 0 ltac:(cbn beta; lia) ltac:(cbn beta; intros; lia)) as M. cbn beta in M. rewrite sample_0 in M. exact M.
    + pose proof (maximum_one (fun i => 0 <= i < 1) (fun i => Rabs (d (IZR i / 256)%R)) 0 ltac:(cbn beta; lia) ltac:(cbn beta; intros; lia)) as M. cbn beta in M. rewrite sample_0 in M. exact M.
  - intros n st Hn (A & B & I1 & I2 & Mg & Md). unfold cfl_step. cbv zeta. rewrite sample_eq, HF by lia. cbn [bind]. rewrite A, B.
    rewrite !slope_eq. cbn [bind]. rewrite HD by lia. cbn [bind]. eexists. split; [reflexivity |]. cbn [cs_ff cs_fg cs_d1 cs_dg cs_maxg cs_dpc].
    replace (n + 1 - 1) with n by lia. split; [reflexivity |]. split; [reflexivity |]. split; [lia |]. split.
    + intros _. destruct (Z.eq_dec n 1) as [-> | N].
      * destruct (I1 eq_refl) as [-> ->]. rewrite !smax_low by apply slope_nonneg. split; apply maximum_one; cbn beta; intros; lia.
      * destruct (I2 ltac:(lia)) as [M1 M2]. split; eapply maximum_add; try eassumption; cbn beta; intros x; lia.
    + split.
      * pose proof (maximum_add _ (fun i => 0 <= i < n + 1) _ _ n Mg ltac:(cbn beta; intros; lia)) as M. exact M.
      * pose proof (maximum_add _ (fun i => 0 <= i < n + 1) _ _ n Md ltac:(cbn beta; intros; lia)) as M. cbn beta in M.
        destruct (Z.eqb_spec rock (-1)) as [-> |]; [| exact M]. specialize (H1 eq_refl). rewrite H1, Rabs_R0 in M.
        destruct Md as [(x & _ & Ex) _]. rewrite H1, Rabs_R0 in Ex. rewrite <- Ex, smax_Rmax, Rmax_left in M by lra. exact M.
  - rewrite E. cbn [bind]. destruct (M ltac:(lia)) as [M1 M2].
    exists (cs_d1 st), (cs_dg st), (cs_maxg st), (cs_dpc st).
    assert (R : forall (P Q : Z -> Prop) (h : Z -> R) m, (forall i, P i <-> Q i) -> maximum P h m -> maximum Q h m).
    { intros P Q h m H [(x & Px & Ex) Mx]. split; [exists x; split; [apply H; exact Px | exact Ex] | intros y Qy; apply Mx, H; exact Qy]. }
    repeat (split; [eapply R; [| eassumption]; intros; cbn beta; lia |]). reflexivity.
Qed.
Lemma grav_zero k1 k2 mu1 mu2 : (k1 = 0 \/ k2 = 0)%R -> gravity_fraction k1 k2 mu1 mu2 = 0%R.
Proof. intros [-> | ->]; unfold gravity_fraction, Rdiv; ring. Qed.
Lemma grav_pos k1 k2 mu1 mu2 : (0 < mu1)%R -> (0 < mu2)%R -> (0 < k1)%R -> (0 < k2)%R -> (0 < gravity_fraction k1 k2 mu1 mu2)%R.
Proof.
  intros. assert (0 < k1 / mu1)%R by (apply Rdiv_lt_0_compat; assumption). assert (0 < k2 / mu2)%R by (apply Rdiv_lt_0_compat; assumption).
  apply Rdiv_lt_0_compat; [apply Rmult_lt_0_compat; assumption | lra].
Qed.
Lemma grav_nonneg k1 k2 mu1 mu2 : (0 < mu1)%R -> (0 < mu2)%R -> flows k1 k2 -> (0 <= gravity_fraction k1 k2 mu1 mu2)%R.
Proof.
  intros P1 P2 F. destruct (mob_pos k1 k2 mu1 mu2 P1 P2 F) as (A & B & C). unfold gravity_fraction, Rdiv at 1.
  apply Rmult_le_pos; [nra | left; apply Rinv_0_lt_compat; exact C].
Qed.
Lemma frac_ends k1 k2 mu1 mu2 : (0 < mu1)%R -> (0 < mu2)%R -> usable k1 k2 -> frac_of k1 k2 mu1 mu2 0 = 0%R /\ frac_of k1 k2 mu1 mu2 1 = 1%R.
Proof.
  intros P1 P2 (E0 & E1 & F & _). unfold frac_of, flow_fraction. split.
  - rewrite E0. unfold Rdiv. ring.
  - destruct (mob_pos _ _ mu1 mu2 P1 P2 (F 1%R ltac:(lra))) as (_ & _ & C). rewrite E1 in *.
    replace (0 / mu2)%R with 0%R in * by (unfold Rdiv; ring). rewrite Rplus_0_r in *. field. split; [lra |]. intros Z. rewrite Z in C. unfold Rdiv in C. lra.
Qed.
(* the factors of one rock with usable curves *)
Lemma single_usable fl rock k p k1 k2 d : (0 < fl_mu1 fl)%R -> (0 < fl_mu2 fl)%R -> usable k1 k2 ->
  (forall s, (0 <= s <= 1)%R -> cfl_frac_flows fl rock s = Ok (frac_of k1 k2 (fl_mu1 fl) (fl_mu2 fl) s, grav_of k1 k2 (fl_mu1 fl) (fl_mu2 fl) s)) ->
  (forall s, (0 <= s <= 1)%R -> abs_dpc fl rock k p s = Ok (Rabs (d s))) -> (rock = -1 -> forall s, d s = 0%R) ->
  exists a b c, single_rock_cfl fl rock k p = Ok (a, b, c) /\ cfl_factors (frac_of k1 k2 (fl_mu1 fl) (fl_mu2 fl)) (grav_of k1 k2 (fl_mu1 fl) (fl_mu2 fl)) d a b c /\
    (0 < a <= 1)%R /\ (0 < b)%R /\ (0 <= c)%R.
Proof.
  intros P1 P2 U HF HD H1.
  destruct (single_ok fl rock k p (frac_of k1 k2 (fl_mu1 fl) (fl_mu2 fl)) (grav_of k1 k2 (fl_mu1 fl) (fl_mu2 fl)) d) as (m1 & m2 & mg & md & M1 & M2 & Mg & Md & E).
  - intros i Hi. apply HF, sample_range, Hi.
  - intros i Hi. apply HD, sample_range, Hi.
  - exact H1.
  - destruct (frac_ends k1 k2 _ _ P1 P2 U) as [E0 E1]. pose proof (slope_max_ge1 _ _ M1 E0 E1) as G1.
    pose proof U as (Z0 & Z1 & F & i & Hi & K1 & K2).
    assert (G2 : (0 < m2)%R). { apply (slope_max_pos _ _ i M2 Hi). unfold grav_of. rewrite (grav_zero (k1 0%R)) by auto. apply grav_pos; assumption. }
    rewrite !mdiv_Ok in E by lra. cbn [bind] in E. exists (1 / m1)%R, (1 / m2)%R, (mg * md)%R. split; [exact E |]. split.
    + exists m1, m2, mg, md. repeat (split; [first [assumption | lra | reflexivity] |]). reflexivity.
    + split; [split; [apply Rdiv_lt_0_compat; lra |] |].
      * apply Rmult_le_reg_r with m1; [lra |]. unfold Rdiv. rewrite Rmult_assoc, Rinv_l by lra. lra.
      * split; [apply Rdiv_lt_0_compat; lra |]. destruct Mg as [_ Mg]. destruct Md as [_ Md]. specialize (Mg i Hi). specialize (Md i Hi). cbn beta in *.
        pose proof (Rabs_pos (d (IZR i / 256)%R)). pose proof (grav_pos _ _ _ _ P1 P2 K1 K2) as GP. unfold grav_of in Mg. apply Rmult_le_pos; lra.
Qed.
Lemma quadratic_usable : usable (fun s => s * s)%R (fun s => (1 - s) * (1 - s))%R.
Proof. split; [ring |]. split; [ring |]. split; [intros; apply quadratic_flows |]. exists 128. split; [lia |]. split; lra. Qed.
Lemma default_cfl fl : fl_rocks fl = [] -> (0 < fl_mu1 fl)%R -> (0 < fl_mu2 fl)%R ->
  exists a b, compute_cfl fl = Ok (a, b, 0%R) /\
    cfl_factors (frac_of (fun s => s * s)%R (fun s => (1 - s) * (1 - s))%R (fl_mu1 fl) (fl_mu2 fl)) (grav_of (fun s => s * s)%R (fun s => (1 - s) * (1 - s))%R (fl_mu1 fl) (fl_mu2 fl)) (fun _ => 0%R) a b 0 /\
    (0 < a <= 1)%R /\ (0 < b)%R.
Proof.
  intros H P1 P2. destruct (single_usable fl (-1) 0 0 _ _ (fun _ => 0%R) P1 P2 quadratic_usable) as (a & b & c & E & F & A & B & _).
  - intros s Hs. unfold cfl_frac_flows. cbn [Z.eqb Pos.eqb].
    destruct (flow_ok fl 0 (fun s => s * s)%R (fun s => (1 - s) * (1 - s))%R s ltac:(left; auto) P1 P2 (quadratic_flows s)) as (f & _ & _ & _ & _ & C & EP).
    rewrite EP. cbn [bind]. rewrite !mdiv_Ok by lra. reflexivity.
  - intros s Hs. unfold abs_dpc. cbn. rewrite Rabs_R0. reflexivity.
  - reflexivity.
  - assert (c = 0%R) as ->. { destruct F as (m1 & m2 & mg & md & _ & _ & _ & [(x & _ & Ex) _] & _ & _ & _ & _ & ->). cbn beta in Ex. rewrite Rabs_R0 in Ex. rewrite <- Ex. ring. }
    exists a, b. unfold compute_cfl, has_rocks. rewrite H. cbn [negb]. auto.
Qed.
