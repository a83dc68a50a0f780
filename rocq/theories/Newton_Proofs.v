From Coq Require Import Lra.
From Verif Require Import BaseFacts RBaseFacts Steady_Proofs Euler_Model Euler_Spec Euler_Proofs Newton_Model.
Open Scope Z_scope.

(* ---- line search *)
Lemma line_search_ok P ctl x_old dx nres xa0 : forall fuel alpha lin_it xa,
  0 <= lin_it -> (Z.to_nat (c_max_ls ctl + 2 - lin_it) < fuel)%nat -> lin_it <= Z.max 0 (c_max_ls ctl + 1) ->
  (xa = xa0 \/ (n_acc P xa = true /\ (nres <= n_res P xa)%R)) ->
  exists x' xa' it, line_search P ctl fuel x_old dx nres alpha lin_it xa = Some (x', xa', it) /\
    lin_it < it <= Z.max 1 (c_max_ls ctl + 2) /\
    (it <= c_max_ls ctl + 1 ->
       (n_acc P x' = true /\ xa' = x' /\ (n_res P x' < nres)%R) \/ (n_acc P x' = false /\ (res_huge < nres)%R)) /\
    (n_acc P x' = true -> xa' = x') /\
    (n_acc P x' = false -> xa' = xa0 \/ (n_acc P xa' = true /\ (nres <= n_res P xa')%R)) /\
    (exists k, (1 <= k)%nat /\ x' = vaxpy x_old (alpha / 2 ^ k) dx).
Proof.
  induction fuel as [|f IH]; intros alpha lin_it xa H0 Hf Hl Hxa; [lia|]. cbn [line_search].
  set (x' := vaxpy x_old (alpha / 2) dx).
  assert (K1 : exists k, (1 <= k)%nat /\ x' = vaxpy x_old (alpha / 2 ^ k) dx).
  { exists 1%nat. split; [lia|]. unfold x'. f_equal. field. }
  destruct (Rltb (if n_acc P x' then n_res P x' else res_huge) nres || (c_max_ls ctl <? lin_it)) eqn:E.
  - exists x', (if n_acc P x' then x' else xa), (lin_it + 1). split; auto. split; [lia|]. split.
    + intros Hi. apply orb_true_iff in E. destruct E as [E|E]; [|apply Z.ltb_lt in E; lia]. apply Rltb_true in E.
      destruct (n_acc P x') eqn:A; [left|right]; auto.
    + split; [intros ->; auto|]. split; [|exact K1]. intros ->. auto.
  - apply orb_false_iff in E. destruct E as (E1 & E2). apply Rltb_false in E1. apply Z.ltb_ge in E2.
    destruct (IH (alpha / 2)%R (lin_it + 1) (if n_acc P x' then x' else xa)) as (x2 & xa2 & it & A & B & C & D & F & k & G & H); try lia.
    { destruct (n_acc P x') eqn:A; auto. }
    exists x2, xa2, it. split; auto. split; [lia|]. split; [auto|]. split; auto. split; auto.
    exists (S k). split; [lia|]. rewrite H. f_equal. cbn [pow]. field. apply pow_nonzero. lra.
Qed.

(* ---- C53 *)
Lemma body_total P ctl nrm0 st : exists st' d, newton_body P ctl nrm0 st = Some (st', d) /\
  s_it st' = s_it st + 1 /\ (exists t, s_tr st' = s_tr st ++ [t] /\ 0 <= t <= Z.max 1 (c_max_ls ctl + 2)) /\
  (s_it st + 1 = c_max_it ctl -> d = true).
Proof.
  unfold newton_body. destruct (Rltb (s_res st) (c_atol ctl)).
  - eexists _, _. split; [reflexivity|]. cbn [s_it s_tr]. split; auto. split; [exists 0; split; auto; lia|].
    intros ->. rewrite Z.eqb_refl, !orb_true_r. auto.
  - destruct (line_search_ok P ctl (s_x st) (n_dir P (s_it st) (s_xa st)) (s_res st) (s_xa st) (S (Z.to_nat (c_max_ls ctl + 2))) 2 0 (s_xa st))
      as (x' & xa' & it & E & B & _); try lia; auto. rewrite E.
    eexists _, _. split; [reflexivity|]. cbn [s_it s_tr]. split; auto. split; [exists it; split; auto; lia|].
    intros ->. rewrite Z.eqb_refl, !orb_true_r. auto.
Qed.
Lemma loop_total P ctl nrm0 : forall fuel st, s_it st + Z.of_nat fuel = c_max_it ctl -> (1 <= fuel)%nat ->
  zlen (s_tr st) = s_it st -> Forall (fun t => 0 <= t <= Z.max 1 (c_max_ls ctl + 2)) (s_tr st) ->
  exists st', newton_loop P ctl nrm0 fuel st = Some st' /\ s_it st < s_it st' <= c_max_it ctl /\
    zlen (s_tr st') = s_it st' /\ Forall (fun t => 0 <= t <= Z.max 1 (c_max_ls ctl + 2)) (s_tr st').
Proof.
  induction fuel as [|f IH]; intros st Hf H1 Ht Ha; [lia|]. cbn [newton_loop].
  destruct (body_total P ctl nrm0 st) as (st' & d & E & I & (t & T & Tb) & D). rewrite E.
  assert (L : zlen (s_tr st') = s_it st') by (rewrite T, zlen_app, I; unfold zlen at 2; cbn; lia).
  assert (F : Forall (fun t => 0 <= t <= Z.max 1 (c_max_ls ctl + 2)) (s_tr st')).
  { rewrite T. apply Forall_app. split; auto. }
  destruct d.
  - exists st'. split; auto. split; [lia|]. auto.
  - destruct f as [|f'].
    + exfalso. assert (false = true) by (apply D; lia). discriminate.
    + destruct (IH st') as (st2 & E2 & B2 & R2); auto; try lia. exists st2. split; auto. split; [lia|]. auto.
Qed.
Lemma newton_total P ctl x0 : 1 <= c_max_it ctl ->
  exists st flag, newton_solve P ctl x0 (Z.to_nat (c_max_it ctl)) = Some (st, flag) /\ 1 <= s_it st <= c_max_it ctl /\
    zlen (s_tr st) = s_it st /\ (forall t, In t (s_tr st) -> t <= Z.max 1 (c_max_ls ctl + 2)).
Proof.
  intros H. unfold newton_solve.
  destruct (loop_total P ctl (n_res P x0) (Z.to_nat (c_max_it ctl)) (mkNrst x0 x0 (n_res P x0) (-1) 0 [])) as (st & E & B & L & F); cbn [s_it s_tr]; auto; try lia.
  rewrite E. eexists _, _. split; [reflexivity|]. cbn [s_it] in B. split; [lia|]. split; auto. intros t Ht.
  rewrite Forall_forall in F. apply F in Ht. lia.
Qed.

Lemma newton_runs_on : exists P ctl x0, c_max_it ctl = 0 /\ forall fuel, newton_solve P ctl x0 fuel = None.
Proof.
  set (f := fun x : list R => match x with [t] => (/ (1 + Rabs t))%R | _ => 0%R end).
  set (P := mkNrprob (fun _ _ => [1%R]) (fun _ => true) f (fun _ => 1%R)). set (ctl := mkNrctl 0 0 0 0 5).
  assert (P0 : forall t, (0 < / (1 + Rabs t))%R) by (intros t; apply Rinv_0_lt_compat; pose proof (Rabs_pos t); lra).
  assert (H99 : (1 < res_huge)%R) by (unfold res_huge; apply IZR_lt; reflexivity).
  exists P, ctl, [0%R]. split; auto. intros fuel. unfold newton_solve.
  assert (G : forall fuel nrm0 t dx it tr, (0 <= t)%R -> 0 <= it ->
    newton_loop P ctl nrm0 fuel (mkNrst [t] [t] (/ (1 + Rabs t)) dx it tr) = None).
  { clear fuel. induction fuel as [|fu IH]; intros nrm0 t dx it tr Ht Hi; auto. cbn [newton_loop]. unfold newton_body.
    cbn [s_x s_xa s_res s_it s_tr n_dir P n_norm c_atol c_max_ls c_rtol c_dxtol c_max_it ctl].
    destruct (Rltb_spec (/ (1 + Rabs t)) 0); [pose proof (P0 t); lra|].
    change (S (Z.to_nat (5 + 2))) with 8%nat. cbn [line_search n_acc n_res P]. unfold vaxpy. cbn [combine map fst snd].
    replace (t + 2 / 2 * 1)%R with (t + 1)%R by field. cbn [f].
    destruct (Rltb_spec (/ (1 + Rabs (t + 1))) (/ (1 + Rabs t))) as [_|N].
    2:{ exfalso. apply N. rewrite !Rabs_pos_eq by lra. apply Rinv_lt_contravar; nra. }
    cbn [orb]. change (f [(t + 1)%R]) with (/ (1 + Rabs (t + 1)))%R. destruct (Rltb_spec (/ (1 + Rabs (t + 1))) 0); [pose proof (P0 (t + 1)%R); lra|].
    destruct (Rltb_spec (/ (1 + Rabs (t + 1))) (0 * nrm0)); [pose proof (P0 (t + 1)%R); lra|].
    destruct (Rltb_spec 1 0); [lra|]. cbn [orb]. change (5 <? 0 + 1) with false. cbn [orb].
    destruct (Z.eqb_spec (it + 1) 0); [lia|]. apply IH; [lra|lia]. }
  cbn [n_res P f]. rewrite G; auto; lra || lia.
Qed.

(* ---- C54 *)
(* what holds whenever an iteration starts *)
Definition nr_inv (P : nrprob) (ctl : nrctl) (x0 : list R) (st : nrst) : Prop :=
  s_res st = n_res P (s_xa st) /\ s_x st = s_xa st /\ (s_xa st = x0 \/ n_acc P (s_xa st) = true) /\
  (s_res st <= res_huge)%R /\ (c_rtol ctl * n_res P x0 <= s_res st)%R.

Lemma body_end P ctl x0 st st' d : nr_inv P ctl x0 st -> newton_body P ctl (n_res P x0) st = Some (st', d) ->
  s_res st' = n_res P (s_xa st') /\
  (s_it st' = s_it st + 1 /\ s_dx st' = n_norm P (n_dir P (s_it st) (s_xa st)) /\ (s_xa st = x0 \/ n_acc P (s_xa st) = true) /\
   (s_x st' = s_xa st \/ exists k, (1 <= k)%nat /\ s_x st' = vaxpy (s_xa st) (2 / 2 ^ k) (n_dir P (s_it st) (s_xa st)))) /\
  ((s_x st' = s_xa st' /\ (s_xa st' = x0 \/ n_acc P (s_xa st') = true)) \/
   (n_acc P (s_x st') = false /\ (s_res st <= s_res st')%R /\ (c_atol ctl <= s_res st')%R /\ (c_rtol ctl * n_res P x0 <= s_res st')%R)) /\
  (d = false -> nr_inv P ctl x0 st') /\
  (d = true -> (s_res st' < c_atol ctl \/ s_res st' < c_rtol ctl * n_res P x0 \/ s_dx st' < c_dxtol ctl)%R \/
       s_it st' = c_max_it ctl \/ exists t, In t (s_tr st') /\ c_max_ls ctl < t).
Proof.
  intros (I1 & I2 & I3 & I4 & I5). unfold newton_body.
  destruct (Rltb (s_res st) (c_atol ctl)) eqn:Ea.
  - intros Q. injection Q as <- <-. cbn [s_res s_xa s_dx s_x s_it s_tr]. split; auto. split; [auto|]. split; [left; auto|].
    rewrite <- I1, Ea. cbn [orb]. split; [discriminate|]. intros _. left; left. now apply Rltb_true.
  - apply Rltb_false in Ea.
    destruct (line_search_ok P ctl (s_x st) (n_dir P (s_it st) (s_xa st)) (s_res st) (s_xa st) (S (Z.to_nat (c_max_ls ctl + 2))) 2 0 (s_xa st))
      as (x' & xa' & it & E & B & C & D & F & G); try lia; auto. rewrite E.
    intros Q. injection Q as <- <-. cbn [s_res s_xa s_dx s_x s_it s_tr]. split; auto. split; [rewrite I2 in G; auto|].
    assert (W : (x' = xa' /\ n_acc P xa' = true) \/ (n_acc P x' = false /\ (s_res st <= n_res P xa')%R)).
    { destruct (n_acc P x') eqn:A.
      - left. rewrite (D eq_refl). auto.
      - right. split; auto. destruct (F eq_refl) as [->|(_ & L)]; lra. }
    split; [destruct W as [(W1 & W2)|(W1 & W2)]; [left; auto|right; split; auto; lra]|]. split.
    + intros Q. apply orb_false_iff in Q. destruct Q as (Q & Q5). apply orb_false_iff in Q. destruct Q as (Q & Q4).
      apply orb_false_iff in Q. destruct Q as (Q & Q3). apply orb_false_iff in Q. destruct Q as (Q1 & Q2).
      apply Rltb_false in Q1. apply Rltb_false in Q2. apply Z.ltb_ge in Q4.
      destruct (C ltac:(lia)) as [(C1 & C2 & C3)|(C1 & C2)]; [|lra]. rewrite C2 in *.
      split; auto. split; auto. split; auto. split; cbn [s_res]; lra.
    + intros Q. apply orb_true_iff in Q. destruct Q as [Q|Q5]; [|right; left; now apply Z.eqb_eq].
      apply orb_true_iff in Q. destruct Q as [Q|Q4].
      2:{ right; right. exists it. apply Z.ltb_lt in Q4. split; auto. apply in_or_app. right. left. auto. }
      left. apply orb_true_iff in Q. destruct Q as [Q|Q3]; [|right; right; now apply Rltb_true].
      apply orb_true_iff in Q. destruct Q as [Q1|Q2]; [left|right; left]; now apply Rltb_true.
Qed.

Lemma loop_end P ctl x0 : forall fuel st st', nr_inv P ctl x0 st -> newton_loop P ctl (n_res P x0) fuel st = Some st' ->
  s_res st' = n_res P (s_xa st') /\
  ((s_x st' = s_xa st' /\ (s_xa st' = x0 \/ n_acc P (s_xa st') = true)) \/
   (n_acc P (s_x st') = false /\ (c_atol ctl <= s_res st')%R /\ (c_rtol ctl * n_res P x0 <= s_res st')%R)) /\
  ((s_res st' < c_atol ctl \/ s_res st' < c_rtol ctl * n_res P x0 \/ s_dx st' < c_dxtol ctl)%R \/
       s_it st' = c_max_it ctl \/ exists t, In t (s_tr st') /\ c_max_ls ctl < t) /\
  (exists xp, s_dx st' = n_norm P (n_dir P (s_it st' - 1) xp) /\ (xp = x0 \/ n_acc P xp = true) /\
    (s_x st' = xp \/ exists k, (1 <= k)%nat /\ s_x st' = vaxpy xp (2 / 2 ^ k) (n_dir P (s_it st' - 1) xp))).
Proof.
  induction fuel as [|f IH]; intros st st' I; cbn [newton_loop]; [discriminate|].
  destruct (newton_body P ctl (n_res P x0) st) as [[s1 d]|] eqn:E; [|discriminate].
  destruct (body_end _ _ _ _ _ _ I E) as (A & B & C & D & F). destruct d.
  - intros Q; injection Q as <-. split; auto. split; [tauto|]. split; auto. destruct B as (-> & B). rewrite Z.add_simpl_r. eauto.
  - intros Q. apply (IH s1); auto.
Qed.

Lemma newton_end P ctl x0 fuel st flag : (n_res P x0 <= res_huge)%R -> (0 <= n_res P x0)%R -> (c_rtol ctl <= 1)%R ->
  newton_solve P ctl x0 fuel = Some (st, flag) ->
  (flag = 1 -> (n_res P (s_x st) < c_atol ctl)%R /\ (s_x st = x0 \/ n_acc P (s_x st) = true)) /\
  (flag = 2 -> (n_res P (s_x st) < c_rtol ctl * n_res P x0)%R /\ (s_x st = x0 \/ n_acc P (s_x st) = true)) /\
  (flag = 3 -> (s_dx st < c_dxtol ctl)%R) /\
  (flag = 1 \/ flag = 2 \/ flag = 3 \/
   flag = -1 /\ (s_it st = c_max_it ctl \/ exists t, In t (s_tr st) /\ c_max_ls ctl < t)) /\
  (exists xp, s_dx st = n_norm P (n_dir P (s_it st - 1) xp) /\ (xp = x0 \/ n_acc P xp = true) /\
    (s_x st = xp \/ exists k, (1 <= k)%nat /\ s_x st = vaxpy xp (2 / 2 ^ k) (n_dir P (s_it st - 1) xp))).
Proof.
  intros H1 H2 H3. unfold newton_solve. destruct (newton_loop _ _ _ _ _) as [s1|] eqn:E; [|discriminate].
  intros Q; injection Q as <- <-.
  edestruct (loop_end P ctl x0 fuel) as (A & B & C & D); [|exact E|].
  { unfold nr_inv. cbn [s_res s_x s_xa]. repeat split; auto. nra. }
  unfold newton_flag.
  destruct (Rltb_spec (s_res s1) (c_atol ctl)) as [L1|L1].
  { split; [|split; [discriminate|split; [discriminate|auto]]]. intros _. destruct B as [(-> & B2)|B]; [|lra]. rewrite <- A. auto. }
  destruct (Rltb_spec (s_res s1) (c_rtol ctl * n_res P x0)) as [L2|L2].
  { split; [discriminate|]. split; [|split; [discriminate|auto]]. intros _. destruct B as [(-> & B2)|B]; [|lra]. rewrite <- A. auto. }
  destruct (Rltb_spec (s_dx s1) (c_dxtol ctl)) as [L3|L3].
  { split; [discriminate|]. split; [discriminate|]. split; auto. }
  split; [discriminate|]. split; [discriminate|]. split; [discriminate|]. split; [|auto]. right; right; right. split; auto.
  destruct C as [C|C]; auto. lra.
Qed.

(* flag 3 after a line search whose last trial was refused *)
Lemma newton_flag3 : exists P ctl x0 st, 
  newton_solve P ctl x0 1 = Some (st, 3) /\ n_acc P (s_x st) = false /\ (0 < n_res P x0 <= res_huge)%R /\ c_max_it ctl = 1 /\
  (c_rtol ctl * n_res P x0 < n_res P (s_x st))%R.
Proof.
  set (P := mkNrprob (fun _ _ => [/ 2]%R) (fun x => match x with [t] => Rleb t 0 | _ => true end) (fun _ => 1%R) (fun _ => (/ 2)%R)).
  assert (H99 : (1 < res_huge)%R) by (unfold res_huge; apply IZR_lt; reflexivity).
  set (ctl := mkNrctl 1 (/ 1000) (/ 1000) 1 (-1)).
  exists P, ctl, [0%R]. unfold newton_solve. cbn [n_res P]. cbn [newton_loop]. unfold newton_body.
  cbn [s_x s_xa s_res s_it s_tr n_dir P n_norm n_res c_atol c_max_ls c_rtol c_dxtol c_max_it ctl].
  destruct (Rltb_spec 1 (/ 1000)); [lra|]. change (S (Z.to_nat (-1 + 2))) with 2%nat. cbn [line_search n_acc n_res P].
  unfold vaxpy. cbn [combine map fst snd]. destruct (Rleb_spec (0 + 2 / 2 * / 2) 0); [lra|]. change (-1 <? 0) with true. rewrite orb_true_r.
  change (-1 <? 0 + 1) with true. rewrite orb_true_r. cbn [orb]. eexists. split.
  - unfold newton_flag. cbn [s_res s_dx c_atol c_rtol c_dxtol ctl].
    destruct (Rltb_spec 1 (/ 1000)); [lra|]. destruct (Rltb_spec 1 (/ 1000 * 1)); [lra|]. destruct (Rltb_spec (/ 2) 1); [|lra]. reflexivity.
  - cbn [s_x]. destruct (Rleb_spec (0 + 2 / 2 * / 2) 0); [lra|]. repeat split; auto; lra.
Qed.

(* ---- C55 *)
Lemma expand2_firsts s : firsts (expand2 s) = s.
Proof. induction s; cbn; auto. f_equal. auto. Qed.

Lemma iretry_ok step time s0 N fuel : forall k o, (k + fuel = N)%nat ->
  implicit_retry step time s0 fuel (2 ^ Z.of_nat k) (tries_of 1 k) = Ok o ->
  exists k', (k <= k' <= N)%nat /\ eo_tries o = tries_of 1 (S k') /\
    (forall j, (k <= j < k')%nat -> exists i t, (i < Z.to_nat (2 ^ Z.of_nat j))%nat /\
        rejected step (time / IZR (2 ^ Z.of_nat j)) i s0 t) /\
    (eo_ok o = true -> accepted step (time / IZR (2 ^ Z.of_nat k')) (Z.to_nat (2 ^ Z.of_nat k')) s0 (eo_sat o)) /\
    (eo_ok o = false -> k' = N /\ exists i, (i < Z.to_nat (2 ^ Z.of_nat k'))%nat /\
        rejected step (time / IZR (2 ^ Z.of_nat k')) i s0 (eo_sat o)).
Proof.
  assert (TS : forall k, tries_of 1 k ++ [2 ^ Z.of_nat k] = tries_of 1 (S k)).
  { intros k. unfold tries_of. rewrite seq_S, map_app. cbn [map Nat.add]. now rewrite Z.mul_1_l. }
  induction fuel as [|fuel IH]; intros k o Hk; cbn [implicit_retry].
  - destruct (do_steps _ _ _ _) as [[b t]| |] eqn:E; try discriminate. cbn [bind fst snd].
    destruct (do_steps_ok _ _ _ _ _ E) as (A & B). cbn [fst snd] in A, B.
    destruct b; intros Q; injection Q as <-; exists k; cbn [eo_ok eo_tries eo_sat]; rewrite TS.
    + split; [lia|]. split; auto. split; [intros; lia|]. split; [auto|discriminate].
    + split; [lia|]. split; auto. split; [intros; lia|]. split; [discriminate|]. intros _. split; [lia|]. auto.
  - destruct (do_steps _ _ _ _) as [[b t]| |] eqn:E; try discriminate. cbn [bind fst snd].
    destruct (do_steps_ok _ _ _ _ _ E) as (A & B). cbn [fst snd] in A, B. destruct b.
    + intros Q; injection Q as <-; exists k; cbn [eo_ok eo_tries eo_sat]; rewrite TS.
      split; [lia|]. split; auto. split; [intros; lia|]. split; [auto|discriminate].
    + destruct (Z.ltb_spec int_max (2 ^ Z.of_nat k * 2)); [discriminate|]. rewrite TS. intros Q.
      replace (2 ^ Z.of_nat k * 2) with (2 ^ Z.of_nat (S k)) in Q by (rewrite Nat2Z.inj_succ, Z.pow_succ_r; lia).
      destruct (IH (S k) o ltac:(lia) Q) as (k' & K1 & K2 & K3 & K4 & K5).
      exists k'. split; [lia|]. split; auto. split; [|auto]. intros j Hj. destruct (Nat.eq_dec j k) as [->|].
      * destruct (B eq_refl) as (i & Hi & Rj). eauto.
      * apply K3. lia.
Qed.

Lemma implicit_ok mr step time s o : 0 <= mr -> implicit_solve mr step time s = Ok o ->
  exists k t, (Z.of_nat k <= mr + 1) /\ eo_sat o = firsts t /\
    eo_tries o = map (fun j => 2 ^ Z.of_nat j) (seq 0 (S k)) /\
    (forall j, (j < k)%nat -> exists i u, (i < Z.to_nat (2 ^ Z.of_nat j))%nat /\
        rejected step (time / IZR (2 ^ Z.of_nat j)) i (expand2 s) u) /\
    (eo_ok o = true -> accepted step (time / IZR (2 ^ Z.of_nat k)) (Z.to_nat (2 ^ Z.of_nat k)) (expand2 s) t) /\
    (eo_ok o = false -> Z.of_nat k = mr + 1 /\ exists i, (i < Z.to_nat (2 ^ Z.of_nat k))%nat /\
        rejected step (time / IZR (2 ^ Z.of_nat k)) i (expand2 s) t).
Proof.
  intros Hm. unfold implicit_solve.
  destruct (implicit_retry _ _ _ _ _ _) as [r| |] eqn:E; try discriminate. cbn [bind]. intros Q; injection Q as <-. cbn [eo_ok eo_sat eo_tries].
  destruct (iretry_ok step time (expand2 s) (Z.to_nat (mr + 1)) (Z.to_nat (mr + 1)) 0 r eq_refl E) as (k & K1 & K2 & K3 & K4 & K5).
  exists k, (eo_sat r). split; [lia|]. split; auto. split.
  { rewrite K2. unfold tries_of. apply map_ext. intros. ring. }
  split; [intros j Hj; apply K3; lia|]. split; auto. intros Q. destruct (K5 Q) as (-> & K6). split; [lia|auto].
Qed.
Lemma implicit_total mr step (I : list R -> Prop) time s : 0 <= mr <= 29 -> I (expand2 s) ->
  (forall s dt, I s -> exists b t, step s dt = Ok (b, t) /\ I t) -> exists o, implicit_solve mr step time s = Ok o.
Proof.
  intros Hm H0 H. unfold implicit_solve.
  assert (G : forall fuel nr tries, 0 <= nr -> nr * 2 ^ Z.of_nat fuel <= int_max ->
    exists o, implicit_retry step time (expand2 s) fuel nr tries = Ok o).
  { induction fuel as [|f IH]; intros nr tries Hn Hb; cbn [implicit_retry];
    destruct (do_steps_total step I (time / IZR nr) (Z.to_nat nr) (fun s => H s _) (expand2 s) H0) as (b & t & E & _); rewrite E; cbn [bind fst snd];
    destruct b; eauto.
    rewrite Nat2Z.inj_succ, Z.pow_succ_r in Hb by lia. pose proof (Z.pow_pos_nonneg 2 (Z.of_nat f) ltac:(lia) ltac:(lia)).
    destruct (Z.ltb_spec int_max (nr * 2)); [nia|]. apply IH; nia. }
  destruct (G (Z.to_nat (mr + 1)) 1 []) as (o & E); [lia| |].
  { rewrite Z.mul_1_l. rewrite Z2Nat.id by lia. apply Z.le_trans with (2 ^ 30); [apply Z.pow_le_mono_r; lia|]. unfold int_max. lia. }
  rewrite E. cbn [bind]. eauto.
Qed.
Lemma implicit_refuted : exists step time s o, implicit_solve 0 step time s = Ok o /\ eo_ok o = false /\ eo_sat o <> s.
Proof.
  (* a solver that adds the step size and always reports failure *)
  exists (fun s dt => Ok (false, map (Rplus dt) s)), 1%R, [0%R]. eexists. split; [reflexivity|]. cbn [eo_ok eo_sat]. split; auto.
  cbn [firsts snd map expand2 flat_map app]. intros Q. injection Q as Q. change (1 * 2) with 2 in Q. lra.
Qed.
