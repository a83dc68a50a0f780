From Verif Require Import Lin_Facts BaseFacts RBaseFacts Matx_Proofs Matx_Proofs3 Mim_Proofs Fluid_Proofs Fluid_Proofs2 Rprop_Proofs3 Rprop_Proofs2 Euler_Proofs2 Fluid_Spec Fluid_Model.
From Coq Require Import Lra Lia.
Open Scope Z_scope.

(* ---- the fraction *)
Lemma mob_pos k1 k2 mu1 mu2 : (0 < mu1)%R -> (0 < mu2)%R -> flows k1 k2 -> (0 <= k1 / mu1 /\ 0 <= k2 / mu2 /\ 0 < k1 / mu1 + k2 / mu2)%R.
Proof.
  intros P1 P2 (A & B & C). pose proof (Rinv_0_lt_compat mu1 P1). pose proof (Rinv_0_lt_compat mu2 P2). unfold Rdiv.
  split; [nra |]. split; [nra |]. destruct (Rlt_dec 0 k1); [assert (0 < k1 * / mu1)%R by nra; assert (0 <= k2 * / mu2)%R by nra; lra |].
  assert (0 < k2)%R by lra. assert (0 < k2 * / mu2)%R by nra. assert (0 <= k1 * / mu1)%R by nra. lra.
Qed.
Lemma frac_range a b : (0 <= a)%R -> (0 <= b)%R -> (0 < a + b)%R -> (0 <= a / (a + b) <= 1)%R.
Proof.
  intros A B C. pose proof (Rinv_0_lt_compat _ C). unfold Rdiv. split; [nra |].
  apply Rmult_le_reg_r with (a + b)%R; [exact C |]. rewrite Rmult_assoc, Rinv_l by lra. lra.
Qed.
Lemma fraction_range k1 k2 mu1 mu2 : (0 < mu1)%R -> (0 < mu2)%R -> flows k1 k2 -> (0 <= flow_fraction k1 k2 mu1 mu2 <= 1)%R.
Proof. intros P1 P2 F. destruct (mob_pos k1 k2 mu1 mu2 P1 P2 F) as (A & B & C). apply frac_range; assumption. Qed.
Lemma frac_le a b a' b' : (0 <= a)%R -> (0 <= b)%R -> (0 < a + b)%R -> (0 < a' + b')%R -> (a <= a')%R -> (b' <= b)%R -> (0 <= a')%R -> (0 <= b')%R -> (a / (a + b) <= a' / (a' + b'))%R.
Proof.
  intros. apply Rmult_le_reg_r with ((a + b) * (a' + b'))%R; [nra |].
  replace (a / (a + b) * ((a + b) * (a' + b')))%R with (a * (a' + b'))%R by (field; lra).
  replace (a' / (a' + b') * ((a + b) * (a' + b')))%R with (a' * (a + b))%R by (field; lra). nra.
Qed.
Lemma fraction_le k1 k2 k1' k2' mu1 mu2 : (0 < mu1)%R -> (0 < mu2)%R -> flows k1 k2 -> flows k1' k2' -> (k1 <= k1')%R -> (k2' <= k2)%R ->
  (flow_fraction k1 k2 mu1 mu2 <= flow_fraction k1' k2' mu1 mu2)%R.
Proof.
  intros P1 P2 F F' L1 L2. destruct (mob_pos k1 k2 mu1 mu2 P1 P2 F) as (A & B & C). destruct (mob_pos k1' k2' mu1 mu2 P1 P2 F') as (A' & B' & C').
  apply frac_le; try assumption; unfold Rdiv; apply Rmult_le_compat_r; try assumption; left; apply Rinv_0_lt_compat; assumption.
Qed.
Lemma fraction_lt k1 k2 k1' k2' mu1 mu2 : (0 < mu1)%R -> (0 < mu2)%R -> flows k1 k2 -> flows k1' k2' -> (k1 < k1')%R -> (k2' < k2)%R ->
  (flow_fraction k1 k2 mu1 mu2 < flow_fraction k1' k2' mu1 mu2)%R.
Proof.
  intros P1 P2 F F' L1 L2. destruct (mob_pos k1 k2 mu1 mu2 P1 P2 F) as (A & B & C). destruct (mob_pos k1' k2' mu1 mu2 P1 P2 F') as (A' & B' & C').
  assert (M1 : (k1 / mu1 < k1' / mu1)%R) by (apply Rmult_lt_compat_r; [apply Rinv_0_lt_compat |]; assumption).
  assert (M2 : (k2' / mu2 < k2 / mu2)%R) by (apply Rmult_lt_compat_r; [apply Rinv_0_lt_compat |]; assumption).
  unfold flow_fraction. set (a := (k1 / mu1)%R) in *. set (b := (k2 / mu2)%R) in *. set (a' := (k1' / mu1)%R) in *. set (b' := (k2' / mu2)%R) in *.
  apply Rmult_lt_reg_r with ((a + b) * (a' + b'))%R; [nra |].
  replace (a / (a + b) * ((a + b) * (a' + b')))%R with (a * (a' + b'))%R by (field; lra).
  replace (a' / (a' + b') * ((a + b) * (a' + b')))%R with (a' * (a + b))%R by (field; lra). nra.
Qed.
Lemma quadratic_flows s : flows (s * s) ((1 - s) * (1 - s)).
Proof. pose proof (Rle_0_sqr s). pose proof (Rle_0_sqr (1 - s)). pose proof (Rle_0_sqr (s - / 2)). unfold Rsqr in *. unfold flows. repeat split; lra. Qed.

(* ---- relative permeabilities of a cell *)
Lemma relperms_ok fl c k1 k2 s : relperms fl c k1 k2 -> kr1 fl c s = Ok (k1 s) /\ kr2 fl c s = Ok (k2 s).
Proof.
  intros [(E & A & B) | (k & r & E1 & E2 & -> & ->)]; unfold kr1, kr2.
  - unfold has_rocks. rewrite E, A, B. auto.
  - rewrite (has_rocks_in fl k r E2). unfold rock_of, rget. rewrite E1. cbn [bind]. rewrite E2. auto.
Qed.
Lemma mobilities fl c k1 k2 s : relperms fl c k1 k2 -> fl_mu1 fl <> 0%R -> fl_mu2 fl <> 0%R ->
  mob1 fl c s = Ok (k1 s / fl_mu1 fl)%R /\ mob2 fl c s = Ok (k2 s / fl_mu2 fl)%R.
Proof. intros H P1 P2. destruct (relperms_ok fl c k1 k2 s H) as [E1 E2]. unfold mob1, mob2. rewrite E1, E2. cbn [bind]. rewrite !mdiv_Ok by assumption. auto. Qed.
Lemma flow_ok fl c k1 k2 s : relperms fl c k1 k2 -> (0 < fl_mu1 fl)%R -> (0 < fl_mu2 fl)%R -> flows (k1 s) (k2 s) ->
  exists f, fractional_flow fl c s = Ok f /\ f = flow_fraction (k1 s) (k2 s) (fl_mu1 fl) (fl_mu2 fl) /\ (0 <= f <= 1)%R /\
    total_mobility fl c s = Ok (k1 s / fl_mu1 fl + k2 s / fl_mu2 fl)%R /\ (0 < k1 s / fl_mu1 fl + k2 s / fl_mu2 fl)%R /\
    phase_mobilities fl c s = Ok (k1 s / fl_mu1 fl, k2 s / fl_mu2 fl)%R.
Proof.
  intros H P1 P2 F. destruct (mobilities fl c k1 k2 s H ltac:(lra) ltac:(lra)) as [E1 E2].
  destruct (mob_pos (k1 s) (k2 s) _ _ P1 P2 F) as (A & B & C).
  exists (flow_fraction (k1 s) (k2 s) (fl_mu1 fl) (fl_mu2 fl)).
  unfold fractional_flow, total_mobility, phase_mobilities. rewrite E1, E2. cbn [bind]. rewrite mdiv_Ok by lra.
  split; [reflexivity |]. split; [reflexivity |]. split; [apply fraction_range; assumption |]. auto.
Qed.
Lemma flow_monotone fl c k1 k2 s s' f f' : relperms fl c k1 k2 -> (0 < fl_mu1 fl)%R -> (0 < fl_mu2 fl)%R -> flows (k1 s) (k2 s) -> flows (k1 s') (k2 s') ->
  (k1 s <= k1 s')%R -> (k2 s' <= k2 s)%R -> fractional_flow fl c s = Ok f -> fractional_flow fl c s' = Ok f' -> (f <= f')%R.
Proof.
  intros H P1 P2 F F' L1 L2 E E'. destruct (flow_ok fl c k1 k2 s H P1 P2 F) as (x & Ex & -> & _). destruct (flow_ok fl c k1 k2 s' H P1 P2 F') as (x' & Ex' & -> & _).
  rewrite Ex in E. rewrite Ex' in E'. injection E as <-. injection E' as <-. apply fraction_le; assumption.
Qed.
Lemma default_flow fl c : fl_rocks fl = [] -> (0 < fl_mu1 fl)%R -> (0 < fl_mu2 fl)%R ->
  fractional_flow fl c 0 = Ok 0%R /\ fractional_flow fl c 1 = Ok 1%R /\
  (forall s, exists f, fractional_flow fl c s = Ok f /\ (0 <= f <= 1)%R) /\
  forall s s' f f', (0 <= s < s')%R -> (s' <= 1)%R -> fractional_flow fl c s = Ok f -> fractional_flow fl c s' = Ok f' -> (f < f')%R.
Proof.
  intros H P1 P2.
  assert (R : relperms fl c (fun s => s * s)%R (fun s => (1 - s) * (1 - s))%R) by (left; auto).
  assert (V : forall s, fractional_flow fl c s = Ok (flow_fraction (s * s) ((1 - s) * (1 - s)) (fl_mu1 fl) (fl_mu2 fl))).
  { intros s. destruct (flow_ok fl c _ _ s R P1 P2 (quadratic_flows s)) as (f & E & -> & _). exact E. }
  split. { rewrite V. f_equal. unfold flow_fraction. field. repeat split; lra. }
  split. { rewrite V. f_equal. unfold flow_fraction. field. repeat split; lra. }
  split. { intros s. destruct (flow_ok fl c _ _ s R P1 P2 (quadratic_flows s)) as (f & E & _ & Hf & _). exists f. auto. }
  intros s s' f f' Hs Hs' E E'. rewrite V in E, E'. injection E as <-. injection E' as <-. apply fraction_lt; try apply quadratic_flows; nra.
Qed.

(* ---- derivatives of the mobilities *)
Lemma deriv_eq f g x l : (forall y, f y = g y) -> derivable_pt_lim f x l -> derivable_pt_lim g x l.
Proof. intros H D. eapply derivable_pt_lim_ext; eauto. Qed.
Lemma deriv_div f x l m : derivable_pt_lim f x l -> derivable_pt_lim (fun y => f y / m)%R x (l / m)%R.
Proof.
  intros D. apply (deriv_eq (fun y => / m * f y)%R); [intros; unfold Rdiv; ring |].
  replace (l / m)%R with (/ m * l)%R by (unfold Rdiv; ring). apply (derivable_pt_lim_scal f). exact D.
Qed.
Lemma deriv_reflect f x l : derivable_pt_lim f x l -> derivable_pt_lim (fun y => f (1 - y))%R (1 - x)%R (- l)%R.
Proof.
  intros D eps He. destruct (D eps He) as [d Hd]. exists d. intros h Hh Hb.
  specialize (Hd (- h)%R ltac:(lra)). rewrite Rabs_Ropp in Hd. specialize (Hd Hb).
  replace (1 - (1 - x + h))%R with (x + - h)%R by ring. replace (1 - (1 - x))%R with x by ring.
  replace ((f (x + - h) - f x) / h - - l)%R with (- ((f (x + - h) - f x) / - h - l))%R by (field; exact Hh). rewrite Rabs_Ropp. exact Hd.
Qed.
(* dmob: row-major derivatives of (mobility 1, mobility 2) by the saturations of the two phases *)
Lemma deriv_mob fl c s : fl_mu1 fl <> 0%R -> fl_mu2 fl <> 0%R ->
  (forall k r, zget (rp_rock (fl_prop fl)) c = Some k -> zget (fl_rocks fl) k = Some r -> derivable_pt_lim (jr_krw r) s (jr_dkrw r s) /\ derivable_pt_lim (jr_kro r) s (jr_dkro r s)) ->
  (exists k1 k2, relperms fl c k1 k2) ->
  exists d0 d3, phase_mobilities_deriv fl c s = Ok [d0; 0; 0; d3]%R /\
    derivable_pt_lim (fun x => value (mob1 fl c x)) s d0 /\ derivable_pt_lim (fun so => value (mob2 fl c (1 - so)%R)) (1 - s) d3.
Proof.
  intros P1 P2 D (k1 & k2 & R).
  assert (T : exists l1 l2, dkr1 fl c s = Ok l1 /\ dkr2 fl c s = Ok l2 /\ derivable_pt_lim k1 s l1 /\ derivable_pt_lim k2 s l2).
  { destruct R as [(E & A & B) | (k & r & E1 & E2 & -> & ->)]; unfold dkr1, dkr2.
    - unfold has_rocks. rewrite E. exists (2 * s)%R, (- 2 * (1 - s))%R. split; [reflexivity |]. split; [reflexivity |]. split.
      + apply (deriv_eq (fun x => x * x)%R); [intros; rewrite A; reflexivity |]. replace (2 * s)%R with (1 * s + s * 1)%R by ring.
        apply (derivable_pt_lim_mult id id); apply derivable_pt_lim_id.
      + apply (deriv_eq (fun x => (1 - x) * (1 - x))%R); [intros; rewrite B; reflexivity |].
        assert (DI : derivable_pt_lim (fun x => 1 - x)%R s (0 - 1)%R).
        { apply (derivable_pt_lim_minus (fun _ => 1%R) id); [apply derivable_pt_lim_const | apply derivable_pt_lim_id]. }
        replace (- 2 * (1 - s))%R with ((0 - 1) * (1 - s) + (1 - s) * (0 - 1))%R by ring. apply (derivable_pt_lim_mult (fun x => 1 - x)%R (fun x => 1 - x)%R); exact DI.
    - rewrite (has_rocks_in fl k r E2). unfold rock_of, rget. rewrite E1. cbn [bind]. rewrite E2. cbn [bind]. destruct (D k r E1 E2) as [D1 D2].
      exists (jr_dkrw r s), (jr_dkro r s). auto. }
  destruct T as (l1 & l2 & E1 & E2 & D1 & D2). exists (l1 / fl_mu1 fl)%R, (- l2 / fl_mu2 fl)%R.
  split. { unfold phase_mobilities_deriv. rewrite E1, E2. cbn [bind]. rewrite !mdiv_Ok by assumption. cbn [bind]. reflexivity. }
  split.
  - apply (deriv_eq (fun x => k1 x / fl_mu1 fl)%R). { intros y. rewrite (proj1 (mobilities fl c k1 k2 y R P1 P2)). reflexivity. } apply deriv_div. exact D1.
  - apply (deriv_eq (fun x => k2 (1 - x) / fl_mu2 fl)%R). { intros y. rewrite (proj2 (mobilities fl c k1 k2 (1 - y)%R R P1 P2)). reflexivity. }
    apply (deriv_div (fun x => k2 (1 - x)%R)). apply deriv_reflect. exact D2.
Qed.

(* ---- anisotropic relative permeabilities *)
Lemma holds_div m o rows cols f v : v <> 0%R -> holds m o rows cols f -> exists d, mapM (fun x => mdiv x v) (m_data m) = Ok d /\
  holds (mkMat (m_rows m) (m_cols m) (m_ord m) d) o rows cols (fun i j => f i j / v)%R.
Proof.
  intros P H. rewrite (mapM_all_Ok _ (fun x => x / v)%R) by (intros; apply mdiv_Ok; exact P). eexists. split; [reflexivity |].
  apply (scale_ok m o rows cols f (/ v)%R H).
Qed.
Definition diag3 (k : Z -> R) (i j : Z) : R := if i =? j then k i else 0%R.
Lemma set_diag m f k0 k1 k2 : holds m COrd 3 3 f -> (forall i j, f i j = 0%R) ->
  exists m1 m2 m3, mset m 0 0 k0 = Ok m1 /\ mset m1 1 1 k1 = Ok m2 /\ mset m2 2 2 k2 = Ok m3 /\ holds m3 COrd 3 3 (diag3 (fun i => if i =? 0 then k0 else if i =? 1 then k1 else k2)).
Proof.
  intros H Z0. destruct (holds_set m COrd 3 3 f 0 0 k0 H ltac:(lia) ltac:(lia)) as (m1 & E1 & H1).
  destruct (holds_set m1 COrd 3 3 _ 1 1 k1 H1 ltac:(lia) ltac:(lia)) as (m2 & E2 & H2).
  destruct (holds_set m2 COrd 3 3 _ 2 2 k2 H2 ltac:(lia) ltac:(lia)) as (m3 & E3 & H3).
  exists m1, m2, m3. split; [exact E1 |]. split; [exact E2 |]. split; [exact E3 |]. eapply holds_ext; [exact H3 |].
  intros i j Hi Hj. cbn beta. unfold diag3. assert (i = 0 \/ i = 1 \/ i = 2) as [-> | [-> | ->]] by lia; assert (j = 0 \/ j = 1 \/ j = 2) as [-> | [-> | ->]] by lia; cbn; auto.
Qed.
Definition amu (fl : afluid) (phase : Z) : R := if phase =? 0 then af_mu1 fl else af_mu2 fl.
Lemma amob_ok fl rock k1 k2 phase s m f : arelperms fl rock k1 k2 -> phase = 0 \/ phase = 1 -> amu fl phase <> 0%R -> holds m COrd 3 3 f ->
  exists m', amob_rock fl phase rock s m = Ok m' /\ holds m' COrd 3 3 (diag3 (fun d => (if phase =? 0 then k1 d s else k2 d s) / amu fl phase)%R).
Proof.
  intros R Hp P H. unfold amob_rock. fold (amu fl phase). destruct (zero_ok m _ _ _ _ H) as (z & Ez & Hz).
  destruct R as [(-> & A & B) | (N & r & E & -> & ->)].
  - cbn [negb Z.eqb Pos.eqb]. rewrite mdiv_Ok by exact P. cbn [bind]. rewrite Ez. cbn [bind].
    set (v := ((if phase =? 0 then s * s else (1 - s) * (1 - s)) / amu fl phase)%R).
    destruct (set_diag z _ v v v Hz) as (m1 & m2 & m3 & E1 & E2 & E3 & H3); [reflexivity |].
    replace (zrange 0 3) with [0; 1; 2] by reflexivity. cbn [foldM]. rewrite E1. cbn [bind]. rewrite E2. cbn [bind]. rewrite E3. cbn [bind].
    exists m3. split; [reflexivity |]. eapply holds_ext; [exact H3 |]. intros i j Hi Hj. unfold diag3. destruct (i =? j); [| reflexivity].
    unfold v. rewrite A, B. destruct (i =? 0); [reflexivity |]. destruct (i =? 1); reflexivity.
  - destruct (Z.eqb_spec rock (-1)); [contradiction |]. cbn [negb]. unfold rget. rewrite E. cbn [bind]. unfold akr. rewrite Ez. cbn [bind].
    destruct (set_diag z _ (ar_kr r phase 0 s) (ar_kr r phase 1 s) (ar_kr r phase 2 s) Hz) as (m1 & m2 & m3 & E1 & E2 & E3 & H3); [reflexivity |].
    rewrite E1. cbn [bind]. rewrite E2. cbn [bind]. rewrite E3. cbn [bind].
    destruct (holds_div m3 _ _ _ _ (amu fl phase) P H3) as (d & Ed & Hd). rewrite Ed. cbn [bind]. eexists. split; [reflexivity |].
    eapply holds_ext; [exact Hd |]. intros i j Hi Hj. cbn beta. unfold diag3. destruct (i =? j); [| unfold Rdiv; ring].
    assert (i = 0 \/ i = 1 \/ i = 2) as [-> | [-> | ->]] by lia; destruct Hp as [-> | ->]; reflexivity.
Qed.
Lemma amob_get fl rock k1 k2 phase dir s m f : arelperms fl rock k1 k2 -> phase = 0 \/ phase = 1 -> amu fl phase <> 0%R -> holds m COrd 3 3 f -> 0 <= dir < 3 ->
  exists m', amob_rock fl phase rock s m = Ok m' /\ mget m' dir dir = Ok ((if phase =? 0 then k1 dir s else k2 dir s) / amu fl phase)%R /\ exists f', holds m' COrd 3 3 f'.
Proof.
  intros R Hp P H Hd. destruct (amob_ok fl rock k1 k2 phase s m f R Hp P H) as (m' & E & Hm). exists m'. split; [exact E |]. split; [| eauto].
  rewrite (holds_get m' _ _ _ _ dir dir Hm Hd Hd). unfold diag3. rewrite Z.eqb_refl. reflexivity.
Qed.
Lemma aflow_ok fl c rock k1 k2 s : acell_rock fl c rock -> arelperms fl rock k1 k2 -> (0 < af_mu1 fl)%R -> (0 < af_mu2 fl)%R ->
  (forall d, 0 <= d < 3 -> flows (k1 d s) (k2 d s)) ->
  exists f, afractional_flow fl c s = Ok f /\ f = (Sum 3 (fun d => flow_fraction (k1 d s) (k2 d s) (af_mu1 fl) (af_mu2 fl)) / 3)%R /\ (0 <= f <= 1)%R.
Proof.
  intros C R P1 P2 F. unfold afractional_flow.
  assert (N0 : amu fl 0 <> 0%R) by (cbn; lra). assert (N1 : amu fl 1 <> 0%R) by (cbn; lra).
  assert (AM : forall phase m, amob fl phase c s m = amob_rock fl phase rock s m).
  { intros phase m. unfold amob, acell_rock in *. destruct (af_rocks fl); [subst; reflexivity |]. unfold rget. rewrite C. reflexivity. }
  destruct (zloop (fun acc dir => let* m := amob fl 0 c s (mnew COrd 3 3) in let* l1 := mget m dir dir in
      let* m := amob fl 1 c s m in let* l2 := mget m dir dir in let* q := mdiv l1 (l1 + l2) in Ok (acc + q)%R)
    (fun n acc => acc = Sum n (fun d => flow_fraction (k1 d s) (k2 d s) (af_mu1 fl) (af_mu2 fl))) 0 3 0%R ltac:(lia)) as (f & E & Ef).
  - symmetry. apply Sum_0.
  - intros dir acc Hd ->. destruct (amob_get fl rock k1 k2 0 dir s (mnew COrd 3 3) _ R ltac:(auto) N0 (holds_new COrd 3 3 ltac:(lia) ltac:(lia)) Hd) as (m1 & E1 & G1 & f1 & H1).
    destruct (amob_get fl rock k1 k2 1 dir s m1 _ R ltac:(auto) N1 H1 Hd) as (m2 & E2 & G2 & _).
    rewrite AM, E1. cbn [bind]. rewrite G1. cbn [bind]. rewrite AM, E2. cbn [bind]. rewrite G2. cbn [bind]. cbn [Z.eqb amu].
    destruct (mob_pos _ _ _ _ P1 P2 (F dir Hd)) as (A & B & D). rewrite mdiv_Ok by lra. cbn [bind]. eexists. split; [reflexivity |].
    rewrite Sum_S by lia. reflexivity.
  - exists (f / 3)%R. cbn [bind] in E |- *. rewrite E. cbn [bind]. split; [reflexivity |]. rewrite Ef. split; [reflexivity |].
    pose proof (fraction_range _ _ _ _ P1 P2 (F 0 ltac:(lia))). pose proof (fraction_range _ _ _ _ P1 P2 (F 1 ltac:(lia))). pose proof (fraction_range _ _ _ _ P1 P2 (F 2 ltac:(lia))).
    assert (S3 : forall g, Sum 3 g = (g 0%Z + g 1%Z + g 2%Z)%R) by (intros g; replace 3 with (0 + 1 + 1 + 1) by lia; rewrite !Sum_S by lia; rewrite Sum_0; cbn; ring).
    rewrite S3. lra.
Qed.

(* ---- phase velocities *)
Lemma velocities_ok ff sat vel : zlen sat = zlen vel -> (forall i s, zget sat i = Some s -> exists f, ff i s = Ok f) ->
  exists w o, phase_velocities ff sat vel = Ok (w, o) /\ zlen w = zlen vel /\ zlen o = zlen vel /\
  forall i s v, zget sat i = Some s -> zget vel i = Some v -> exists f wi oi, ff i s = Ok f /\ zget w i = Some wi /\ zget o i = Some oi /\ zlen wi = zlen v /\ zlen oi = zlen v /\
    forall k, 0 <= k < zlen v -> nthR wi k = (f * nthR v k)%R /\ nthR oi k = ((1 - f) * nthR v k)%R.
Proof.
  intros L H. unfold phase_velocities.
  destruct (zloop (fun wo i => let* s := rget sat i in let* f := ff i s in let* w := rget (fst wo) i in let* ws := rset (fst wo) i (fv_scale w f) in
      let* o := rget (snd wo) i in let* os := rset (snd wo) i (fv_scale o (1 - f)%R) in Ok (ws, os))
    (fun n wo => zlen (fst wo) = zlen vel /\ zlen (snd wo) = zlen vel /\
       (forall i, n <= i -> zget (fst wo) i = zget vel i /\ zget (snd wo) i = zget vel i) /\
       (forall i s v, i < n -> zget sat i = Some s -> zget vel i = Some v -> exists f, ff i s = Ok f /\ zget (fst wo) i = Some (fv_scale v f) /\ zget (snd wo) i = Some (fv_scale v (1 - f)%R)))
    0 (zlen sat) (vel, vel)) as ([w o] & E & L1 & L2 & _ & G).
  - unfold zlen; lia.
  - cbn [fst snd]. split; [reflexivity |]. split; [reflexivity |]. split; [auto |]. intros i s v Hi Es. apply zget_Some_range in Es. lia.
  - intros i [w o] Hi (L1 & L2 & G1 & G2). cbn [fst snd] in *.
    destruct (zget_in_range sat i Hi) as [s Es]. destruct (H i s Es) as [f Ef]. destruct (zget_in_range vel i ltac:(lia)) as [v Ev].
    destruct (G1 i ltac:(lia)) as [W O]. unfold rget. rewrite Es. cbn [bind]. rewrite Ef. cbn [bind]. rewrite W, Ev. cbn [bind].
    destruct (rset_at w i (fv_scale v f) ltac:(lia)) as (w' & Ew & Lw & Gw). rewrite Ew. cbn [bind]. rewrite O, Ev. cbn [bind].
    destruct (rset_at o i (fv_scale v (1 - f)%R) ltac:(lia)) as (o' & Eo & Lo & Go). rewrite Eo. cbn [bind]. eexists. split; [reflexivity |]. cbn [fst snd].
    split; [lia |]. split; [lia |]. split.
    + intros k Hk. rewrite Gw, Go. destruct (Z.eqb_spec k i); [lia |]. apply G1. lia.
    + intros k s' v' Hk E1 E2. rewrite Gw, Go. destruct (Z.eqb_spec k i) as [-> |].
      * rewrite Es in E1. injection E1 as <-. rewrite Ev in E2. injection E2 as <-. eauto.
      * apply G2; [lia | assumption | assumption].
  - exists w, o. split; [exact E |]. split; [exact L1 |]. split; [exact L2 |]. intros i s v Es Ev.
    destruct (G i s v ltac:(apply zget_Some_range in Es; lia) Es Ev) as (f & Ef & W & O). exists f, (fv_scale v f), (fv_scale v (1 - f)%R).
    cbn [fst snd] in W, O. split; [exact Ef |]. split; [exact W |]. split; [exact O |].
    split; [unfold zlen, fv_scale; rewrite map_length; reflexivity |]. split; [unfold zlen, fv_scale; rewrite map_length; reflexivity |].
    assert (SC : forall g k, 0 <= k < zlen v -> nthR (fv_scale v g) k = (g * nthR v k)%R).
    { intros g k Hk. unfold fv_scale, nthR. rewrite zget_map. destruct (zget_in_range v k Hk) as [x Ex]. rewrite Ex. cbn [option_map]. ring. }
    intros k Hk. split; apply SC; exact Hk.
Qed.
