From Verif Require Import Lin_Facts BaseFacts RBaseFacts Matx_Proofs Matx_Proofs3 Mim_Proofs Mim_Proofs2 Fluid_Proofs Fluid_Proofs2 Fluid_Proofs3 Fluid_Proofs4 Fluid_Proofs5 Rprop_Proofs3 Rprop_Proofs2 Euler_Proofs2 Steady_Proofs Hnum_Proofs Fluid_Spec Fluid_Model.
From Coq Require Import Lra Lia.
Open Scope Z_scope.

Definition max0 {A} (P : A -> Prop) (f : A -> R) (m : R) : Prop := (m = (-1e100)%R /\ forall x, ~ P x) \/ maximum P f m.
Lemma max0_add {A} (P Q : A -> Prop) f m a : max0 P f m -> (forall x, Q x <-> P x \/ x = a) -> (0 <= f a)%R -> max0 Q f (smax m (f a)).
Proof.
  intros [[-> N] | M] H F; right.
  - rewrite smax_low by exact F. apply maximum_one; [apply H; auto |]. intros x Qx. apply H in Qx as [Px |]; [exfalso; eapply N; exact Px | assumption].
  - eapply maximum_add; eassumption.
Qed.
Lemma max0_ext {A} (P Q : A -> Prop) f m : (forall x, P x <-> Q x) -> max0 P f m -> max0 Q f m.
Proof.
  intros H [[-> N] | [(x & Px & Ex) M]]; [left; split; [reflexivity | intros x Qx; apply (N x), H; exact Qx] |].
  right. split; [exists x; split; [apply H; exact Px | exact Ex] | intros y Qy; apply M, H; exact Qy].
Qed.
Lemma smin_low x : (0 <= x)%R -> smin (-1e100) x = (-1e100)%R.
Proof. intros H. rewrite smin_Rmin. pose proof big_pos. apply Rmin_left. lra. Qed.
Lemma asingle_ok fl rock (f g : Z -> R -> R) :
  (forall dir i, 0 <= dir < 3 -> 0 <= i <= 256 -> acfl_frac_flows fl rock dir (IZR i / 256) = Ok (f dir (IZR i / 256)%R, g dir (IZR i / 256)%R)) ->
  (forall dir i, 0 <= dir < 3 -> 0 <= i <= 256 -> (0 <= g dir (IZR i / 256))%R) ->
  exists m1 m2, maximum sample2 (fun p => slope (f (fst p)) (snd p)) m1 /\ maximum sample2 (fun p => slope (g (fst p)) (snd p)) m2 /\
    asingle_rock_cfl fl rock = let* a := mdiv 1 m1 in let* b := mdiv 1 m2 in Ok (a, b, (-1e100)%R).
Proof.
  intros HF HG. unfold asingle_rock_cfl.
  set (F1 := fun p : Z * Z => slope (f (fst p)) (snd p)). set (F2 := fun p : Z * Z => slope (g (fst p)) (snd p)).
  set (Q := fun (dir n : Z) (p : Z * Z) => 1 <= snd p <= 256 /\ (0 <= fst p < dir \/ fst p = dir /\ snd p < n)).
  match goal with |- context [foldM ?step (zrange 0 3) ?s0] => destruct (zloop step (fun dir st => max0 (Q dir 1) F1 (as_d1 st) /\ max0 (Q dir 1) F2 (as_dg st) /\ as_min st = (-1e100)%R) 0 3 s0 ltac:(lia)) as (st & E & M1 & M2 & M3) end.
  - cbn [as_d1 as_dg as_min]. split; [| split; [| reflexivity]]; left; (split; [reflexivity | intros p [A B]; lia]).
  - intros dir st Hd (I1 & I2 & I3). pose proof (HF dir 0 Hd ltac:(lia)) as F0. pose proof (HG dir 0 Hd ltac:(lia)) as G0. rewrite sample_0 in F0, G0. rewrite F0. cbn [bind fst snd].
    rewrite I3, smin_low by exact G0.
    destruct (zloop (acfl_step fl rock dir) (fun n st => as_ff st = f dir (IZR (n - 1) / 256)%R /\ as_fg st = g dir (IZR (n - 1) / 256)%R /\
        max0 (Q dir n) F1 (as_d1 st) /\ max0 (Q dir n) F2 (as_dg st) /\ as_min st = (-1e100)%R) 1 257 (mkACS (f dir 0%R) (g dir 0%R) (as_d1 st) (as_dg st) (-1e100)) ltac:(lia))
      as (st' & E & _ & _ & J1 & J2 & J3).
    + cbn [as_ff as_fg as_d1 as_dg as_min]. change (1 - 1) with 0. rewrite sample_0. auto.
    + intros n s Hn (A & B & J1 & J2 & J3). unfold acfl_step. rewrite sample_eq, HF by lia. cbn [bind]. rewrite A, B, !slope_eq. cbn [bind]. eexists. split; [reflexivity |].
      cbn [as_ff as_fg as_d1 as_dg as_min]. replace (n + 1 - 1) with n by lia. split; [reflexivity |]. split; [reflexivity |].
      assert (QS : forall x, Q dir (n + 1) x <-> Q dir n x \/ x = (dir, n)).
      { intros [x y]. unfold Q. cbn [fst snd]. split.
        - intros [H1 [H2 | [-> H2]]]; [auto |]. destruct (Z.eq_dec y n) as [-> |]; [auto | left; split; [lia | right; lia]].
        - intros [[H1 [H2 | [-> H2]]] | X]; [auto | split; [lia | right; lia] | injection X as -> ->; split; [lia | right; lia]]. }
      split; [apply (max0_add _ _ F1 _ (dir, n) J1 QS), slope_nonneg |]. split; [apply (max0_add _ _ F2 _ (dir, n) J2 QS), slope_nonneg |].
      rewrite J3. apply smin_low. apply HG; lia.
    + rewrite E. exists st'. split; [reflexivity |].
      assert (QE : forall x, Q dir 257 x <-> Q (dir + 1) 1 x) by (intros [x y]; unfold Q; cbn [fst snd]; lia).
      split; [eapply max0_ext; [exact QE | exact J1] |]. split; [eapply max0_ext; [exact QE | exact J2] | exact J3].
  - assert (QE : forall x, Q 3 1 x <-> sample2 x) by (intros [x y]; unfold Q, sample2; cbn [fst snd]; lia).
    apply (max0_ext _ _ _ _ QE) in M1, M2.
    assert (NE : sample2 (0, 1)) by (unfold sample2; cbn; lia).
    destruct M1 as [[_ X] | M1]; [exfalso; exact (X _ NE) |]. destruct M2 as [[_ X] | M2]; [exfalso; exact (X _ NE) |].
    exists (as_d1 st), (as_dg st). split; [exact M1 |]. split; [exact M2 |]. unfold F1, F2. rewrite E. cbn [bind]. rewrite M3. reflexivity.
Qed.
Lemma acfl_flow fl rock k1 k2 dir s : arelperms fl rock k1 k2 -> (0 < af_mu1 fl)%R -> (0 < af_mu2 fl)%R -> 0 <= dir < 3 -> flows (k1 dir s) (k2 dir s) ->
  acfl_frac_flows fl rock dir s = Ok (frac_of (k1 dir) (k2 dir) (af_mu1 fl) (af_mu2 fl) s, grav_of (k1 dir) (k2 dir) (af_mu1 fl) (af_mu2 fl) s).
Proof.
  intros R P1 P2 Hd F. assert (N0 : amu fl 0 <> 0%R) by (cbn; lra). assert (N1 : amu fl 1 <> 0%R) by (cbn; lra). unfold acfl_frac_flows.
  destruct (amob_get fl rock k1 k2 0 dir s (mnew COrd 3 3) _ R ltac:(auto) N0 (holds_new COrd 3 3 ltac:(lia) ltac:(lia)) Hd) as (m1 & E1 & G1 & f1 & H1).
  destruct (amob_get fl rock k1 k2 1 dir s m1 _ R ltac:(auto) N1 H1 Hd) as (m2 & E2 & G2 & _).
  rewrite E1. cbn [bind]. rewrite G1. cbn [bind]. rewrite E2. cbn [bind]. rewrite G2. cbn [bind]. cbn [Z.eqb amu].
  destruct (mob_pos _ _ _ _ P1 P2 F) as (A & B & D). rewrite !mdiv_Ok by lra. reflexivity.
Qed.
Definition afrac (fl : afluid) (k1 k2 : Z -> R -> R) (d : Z) : R -> R := frac_of (k1 d) (k2 d) (af_mu1 fl) (af_mu2 fl).
Definition agrav (fl : afluid) (k1 k2 : Z -> R -> R) (d : Z) : R -> R := grav_of (k1 d) (k2 d) (af_mu1 fl) (af_mu2 fl).
Lemma asingle_usable fl rock k1 k2 : (0 < af_mu1 fl)%R -> (0 < af_mu2 fl)%R -> arelperms fl rock k1 k2 -> (forall d, 0 <= d < 3 -> usable (k1 d) (k2 d)) ->
  exists a b, asingle_rock_cfl fl rock = Ok (a, b, (-1e100)%R) /\ acfl_factors (afrac fl k1 k2) (agrav fl k1 k2) a b /\ (0 < a <= 1)%R /\ (0 < b)%R.
Proof.
  intros P1 P2 R U. destruct (asingle_ok fl rock (afrac fl k1 k2) (agrav fl k1 k2)) as (m1 & m2 & M1 & M2 & E).
  - intros dir i Hd Hi. apply acfl_flow; try assumption. apply (U dir Hd), sample_range, Hi.
  - intros dir i Hd Hi. apply grav_nonneg; try assumption. apply (U dir Hd), sample_range, Hi.
  - assert (G1 : (1 <= m1)%R).
    { destruct (frac_ends _ _ _ _ P1 P2 (U 0 ltac:(lia))) as [E0 E1]. destruct M1 as [_ M1].
      assert (H : (afrac fl k1 k2 0 (IZR 256 / 256) - afrac fl k1 k2 0 0 <= IZR 256 * (m1 / 256))%R); [| unfold afrac in H; rewrite sample_1, E0, E1 in H; lra].
      assert (C : forall k, (k <= 256)%nat -> (afrac fl k1 k2 0 (IZR (Z.of_nat k) / 256) - afrac fl k1 k2 0 0 <= IZR (Z.of_nat k) * (m1 / 256))%R).
      { induction k as [| k IH]; intros Hk.
        - cbn [Z.of_nat]. rewrite sample_0. lra.
        - specialize (IH ltac:(lia)). specialize (M1 (0, Z.of_nat (S k)) ltac:(unfold sample2; cbn [fst snd]; lia)). cbn [fst snd] in M1. unfold slope in M1. replace (Z.of_nat (S k) - 1) with (Z.of_nat k) in M1 by lia.
          pose proof (Rle_abs (afrac fl k1 k2 0 (IZR (Z.of_nat (S k)) / 256) - afrac fl k1 k2 0 (IZR (Z.of_nat k) / 256))%R).
          replace (IZR (Z.of_nat (S k))) with (IZR (Z.of_nat k) + 1)%R in * by (rewrite Nat2Z.inj_succ, succ_IZR; reflexivity). lra. }
      apply (C 256%nat). lia. }
    assert (G2 : (0 < m2)%R).
    { destruct (U 0 ltac:(lia)) as (Z0 & Z1 & F & i & Hi & K1 & K2). destruct (Rlt_dec 0 m2); [assumption |]. exfalso. destruct M2 as [_ M2].
      assert (C : forall k, (k <= 256)%nat -> (agrav fl k1 k2 0 (IZR (Z.of_nat k) / 256) <= 0)%R).
      { induction k as [| k IH]; intros Hk.
        - cbn [Z.of_nat]. rewrite sample_0. unfold agrav, grav_of. rewrite grav_zero by auto. lra.
        - specialize (IH ltac:(lia)). specialize (M2 (0, Z.of_nat (S k)) ltac:(unfold sample2; cbn [fst snd]; lia)). cbn [fst snd] in M2. unfold slope in M2. replace (Z.of_nat (S k) - 1) with (Z.of_nat k) in M2 by lia.
          pose proof (Rle_abs (agrav fl k1 k2 0 (IZR (Z.of_nat (S k)) / 256) - agrav fl k1 k2 0 (IZR (Z.of_nat k) / 256))%R). lra. }
      specialize (C (Z.to_nat i) ltac:(lia)). rewrite Z2Nat.id in C by lia. pose proof (grav_pos _ _ _ _ P1 P2 K1 K2). unfold agrav, grav_of in C. lra. }
    rewrite !mdiv_Ok in E by lra. exists (1 / m1)%R, (1 / m2)%R. split; [exact E |]. split.
    + exists m1, m2. repeat (split; [first [assumption | lra | reflexivity] |]). reflexivity.
    + split; [split; [apply Rdiv_lt_0_compat; lra |] | apply Rdiv_lt_0_compat; lra].
      apply Rmult_le_reg_r with m1; [lra |]. unfold Rdiv. rewrite Rmult_assoc, Rinv_l by lra. lra.
Qed.
Lemma adefault_cfl fl : af_rocks fl = [] -> (0 < af_mu1 fl)%R -> (0 < af_mu2 fl)%R ->
  exists a b, acompute_cfl fl = Ok (a, b, (-1e100)%R) /\ (0 < a <= 1)%R /\ (0 < b)%R /\
   acfl_factors (fun _ => frac_of (fun s => s * s)%R (fun s => (1 - s) * (1 - s))%R (af_mu1 fl) (af_mu2 fl)) (fun _ => grav_of (fun s => s * s)%R (fun s => (1 - s) * (1 - s))%R (af_mu1 fl) (af_mu2 fl)) a b.
Proof.
  intros H P1 P2. unfold acompute_cfl. rewrite H.
  destruct (asingle_usable fl (-1) (fun _ s => s * s)%R (fun _ s => (1 - s) * (1 - s))%R P1 P2) as (a & b & E & F & A & B).
  - left. auto.
  - intros d _. apply quadratic_usable.
  - exists a, b. auto.
Qed.
Lemma arocks_cfl fl : af_rocks fl <> [] -> (0 < af_mu1 fl)%R -> (0 < af_mu2 fl)%R ->
  (forall r rk d, zget (af_rocks fl) r = Some rk -> 0 <= d < 3 -> usable (ar_kr rk 0 d) (ar_kr rk 1 d)) ->
  exists a b fa fb, acompute_cfl fl = Ok (a, b, 1e100%R) /\ (0 < a <= 1)%R /\ (0 < b)%R /\
    (forall r rk, zget (af_rocks fl) r = Some rk -> acfl_factors (fun d => frac_of (ar_kr rk 0 d) (ar_kr rk 1 d) (af_mu1 fl) (af_mu2 fl)) (fun d => grav_of (ar_kr rk 0 d) (ar_kr rk 1 d) (af_mu1 fl) (af_mu2 fl)) (fa r) (fb r)) /\
    least 1e100 (zlen (af_rocks fl)) (fun _ => True) fa a /\ least 1e100 (zlen (af_rocks fl)) (fun _ => True) fb b.
Proof.
  intros N P1 P2 U. unfold acompute_cfl. set (n := zlen (af_rocks fl)).
  assert (Hn : 0 < n) by (unfold n; destruct (af_rocks fl); [contradiction | unfold zlen; cbn; lia]).
  assert (SO : forall r rk, zget (af_rocks fl) r = Some rk -> exists a b, asingle_rock_cfl fl r = Ok (a, b, (-1e100)%R) /\
     acfl_factors (fun d => frac_of (ar_kr rk 0 d) (ar_kr rk 1 d) (af_mu1 fl) (af_mu2 fl)) (fun d => grav_of (ar_kr rk 0 d) (ar_kr rk 1 d) (af_mu1 fl) (af_mu2 fl)) a b /\ (0 < a <= 1)%R /\ (0 < b)%R).
  { intros r rk Er. pose proof (zget_Some_range _ _ _ Er). apply (asingle_usable fl r (ar_kr rk 0) (ar_kr rk 1) P1 P2).
    - right. split; [lia |]. exists rk. auto.
    - intros d Hd. eapply U; eauto. }
  set (fa r := match asingle_rock_cfl fl r with Ok (a, _, _) => a | _ => 0%R end). set (fb r := match asingle_rock_cfl fl r with Ok (_, b, _) => b | _ => 0%R end).
  destruct (af_rocks fl) as [| r1 rs] eqn:ER; [contradiction |]. rewrite <- ER in *. fold n.
  assert (NE : n = zlen (af_rocks fl)) by (rewrite ER; reflexivity). clearbody n. subst n. set (n := zlen (af_rocks fl)) in *.
  match goal with |- context [foldM ?step (zrange 0 n) ?s0] => destruct (zloop step
    (fun r acc => let '(a, b, c) := acc in least 1e100 r (fun _ => True) fa a /\ least 1e100 r (fun _ => True) fb b /\ c = 1e100%R) 0 n s0) as ([[a b] c] & EF & LA & LB & ->) end.
  - lia.
  - split; [apply least_0 |]. split; [apply least_0 | reflexivity].
  - intros r [[a b] c] Hr (LA & LB & ->). destruct (zget_in_range (af_rocks fl) r Hr) as [rk Er]. destruct (SO r rk Er) as (a' & b' & ES & _).
    rewrite ES. cbn [bind]. eexists. split; [reflexivity |]. cbn beta iota.
    split; [apply least_take; auto; [lia | unfold fa; rewrite ES; reflexivity] |]. split; [apply least_take; auto; [lia | unfold fb; rewrite ES; reflexivity] |].
    rewrite smax_Rmax. pose proof big_pos. apply Rmax_left. lra.
  - exists a, b, fa, fb. split; [exact EF |].
    destruct (zget_in_range (af_rocks fl) 0 ltac:(lia)) as [r0 E0]. destruct (SO 0 r0 E0) as (a0 & b0 & ES0 & _ & A0 & B0).
    pose proof LA as (LA1 & LA2 & LA3). pose proof LB as (LB1 & LB2 & LB3).
    split; [split |].
    + destruct LA3 as [-> | (i & Hi & _ & ->)]; [apply big_pos |]. destruct (zget_in_range (af_rocks fl) i Hi) as [ri Ei]. destruct (SO i ri Ei) as (ai & bi & ESi & _ & Ai & _). unfold fa. rewrite ESi. lra.
    + specialize (LA2 0 ltac:(lia) I). unfold fa in LA2. rewrite ES0 in LA2. lra.
    + split.
      * destruct LB3 as [-> | (i & Hi & _ & ->)]; [apply big_pos |]. destruct (zget_in_range (af_rocks fl) i Hi) as [ri Ei]. destruct (SO i ri Ei) as (ai & bi & ESi & _ & _ & Bi). unfold fb. rewrite ESi. lra.
      * split; [| auto]. intros r rk Er. destruct (SO r rk Er) as (a' & b' & ES & F & _). unfold fa, fb. rewrite ES. exact F.
Qed.
