From Coq Require Import Lra.
From Verif Require Import BaseFacts RBaseFacts Steady_Proofs Euler_Model Euler_Spec.
Open Scope Z_scope.

Lemma Zceil_spec x : (IZR (Zceil x) - 1 < x <= IZR (Zceil x))%R.
Proof. unfold Zceil. rewrite opp_IZR. pose proof (base_Int_part (- x)). lra. Qed.
Lemma Zceil_le x n : (x <= IZR n)%R -> Zceil x <= n.
Proof.
  intros H. pose proof (Zceil_spec x) as S. assert (IZR (Zceil x) < IZR (n + 1))%R by (rewrite plus_IZR; lra).
  apply lt_IZR in H0. lia.
Qed.

(* ---- C44 *)
Lemma step_count_ok cfg cfl time : (0 < cfl)%R -> (0 <= time)%R -> 1 <= e_min cfg <= e_max cfg ->
  exists n, step_count cfg cfl time = Ok n /\ e_min cfg <= n <= e_max cfg /\
    (IZR n * (time / IZR n) = time)%R /\
    (time < cfl -> n = e_min cfg)%R /\
    (n < e_max cfg -> n < int_max -> (time / IZR n <= cfl)%R) /\
    (e_min cfg < n -> (cfl * (IZR n - 1) < time)%R).
Proof.
  intros Hc Ht Hm. unfold step_count.
  assert (P : forall n, 1 <= n -> (0 < IZR n)%R) by (intros; apply IZR_lt; lia).
  destruct (Rltb_spec time cfl) as [L|L].
  - exists (e_min cfg). split; auto. split; [lia|]. pose proof (P (e_min cfg) ltac:(lia)) as Q.
    assert (Q1 : (1 <= IZR (e_min cfg))%R) by (apply IZR_le; lia).
    split; [field; lra|]. split; auto. split; [|intros; lia]. intros _ _.
    apply (Rmult_le_reg_r (IZR (e_min cfg))); auto. unfold Rdiv. rewrite Rmult_assoc, Rinv_l by lra. nra.
  - rewrite fdiv_Some by lra. set (q := (time / cfl)%R).
    assert (Hq : (time = q * cfl)%R) by (unfold q; field; lra).
    assert (Hq1 : (1 <= q)%R) by (apply (Rmult_le_reg_r cfl); lra).
    pose proof (Zceil_spec q) as S. assert (C1 : 1 <= Zceil q).
    { assert (0 < IZR (Zceil q))%R by lra. apply lt_IZR in H. lia. }
    destruct (Z.ltb_spec (Zceil q) int_min); [unfold int_min in *; lia|]. cbn [bind].
    set (n := Z.min (Z.max (Z.min (Zceil q) int_max) (e_min cfg)) (e_max cfg)).
    assert (Hn : e_min cfg <= n <= e_max cfg) by (unfold n; lia).
    exists n. split; auto. split; auto. pose proof (P n ltac:(lia)) as Q.
    split; [field; lra|]. split; [intros; lra|]. split.
    + intros A B. assert (Zceil q <= n) by (unfold n in *; lia). apply IZR_le in H0.
      apply (Rmult_le_reg_r (IZR n)); auto. unfold Rdiv. rewrite Rmult_assoc, Rinv_l by lra. nra.
    + intros A. assert (n <= Zceil q) by (unfold n in *; lia). apply IZR_le in H0. nra.
Qed.
Lemma step_count_zero cfg time : (0 < time)%R ->
  step_count cfg 0 time = Ok (Z.min (Z.max int_max (e_min cfg)) (e_max cfg)).
Proof.
  intros H. unfold step_count. destruct (Rltb_spec time 0); [lra|]. rewrite fdiv_None.
  destruct (Rltb_spec 0 time); [reflexivity|lra].
Qed.

(* ---- C45 *)
Lemma do_steps_ok step dt n : forall s r, do_steps step n s dt = Ok r ->
  (fst r = true -> accepted step dt n s (snd r)) /\
  (fst r = false -> exists k, (k < n)%nat /\ rejected step dt k s (snd r)).
Proof.
  induction n as [|n IH]; intros s r; cbn [do_steps].
  - intros E; injection E as <-. cbn. split; [constructor|discriminate].
  - destruct (step s dt) as [[b t]| |] eqn:E; try discriminate. cbn [bind fst snd]. destruct b.
    + intros E2. destruct (IH _ _ E2) as (A & B). split.
      * intros Q. econstructor; eauto.
      * intros Q. destruct (B Q) as (k & Hk & u & U1 & U2). exists (S k). split; [lia|]. exists u. split; auto. econstructor; eauto.
    + intros E2. injection E2 as <-. cbn. split; [discriminate|]. intros _. exists 0%nat. split; [lia|].
      exists s. split; [constructor|auto].
Qed.

Definition tries_of (n0 : Z) (k : nat) : list Z := map (fun j => n0 * 2 ^ Z.of_nat j) (seq 0 k).

Lemma retry_ok step time s0 n0 fuel : forall k o, (k + fuel = 10)%nat ->
  retry step time s0 fuel (n0 * 2 ^ Z.of_nat k) (tries_of n0 k) = Ok o ->
  exists k', (k <= k' <= 10)%nat /\ eo_tries o = tries_of n0 (S k') /\
    (forall j, (k <= j < k')%nat -> exists i t, (i < Z.to_nat (n0 * 2 ^ Z.of_nat j))%nat /\
        rejected step (time / IZR (n0 * 2 ^ Z.of_nat j)) i s0 t) /\
    (eo_ok o = true -> accepted step (time / IZR (n0 * 2 ^ Z.of_nat k')) (Z.to_nat (n0 * 2 ^ Z.of_nat k')) s0 (eo_sat o)) /\
    (eo_ok o = false -> k' = 10%nat /\ exists i, (i < Z.to_nat (n0 * 2 ^ Z.of_nat k'))%nat /\
        rejected step (time / IZR (n0 * 2 ^ Z.of_nat k')) i s0 (eo_sat o)).
Proof.
  assert (TS : forall k, tries_of n0 k ++ [n0 * 2 ^ Z.of_nat k] = tries_of n0 (S k)).
  { intros k. unfold tries_of. rewrite seq_S, map_app. reflexivity. }
  induction fuel as [|fuel IH]; intros k o Hk; cbn [retry].
  - destruct (do_steps _ _ _ _) as [[b t]| |] eqn:E; try discriminate. cbn [bind fst snd].
    destruct (do_steps_ok _ _ _ _ _ E) as (A & B). cbn [fst snd] in A, B.
    destruct b; intros Q; injection Q as <-; exists k; cbn [eo_ok eo_tries eo_sat]; rewrite TS.
    + split; [lia|]. split; auto. split; [intros; lia|]. split; [auto|discriminate].
    + split; [lia|]. split; auto. split; [intros; lia|]. split; [discriminate|]. intros _. split; [lia|]. auto.
  - destruct (do_steps _ _ _ _) as [[b t]| |] eqn:E; try discriminate. cbn [bind fst snd].
    destruct (do_steps_ok _ _ _ _ _ E) as (A & B). cbn [fst snd] in A, B. destruct b.
    + intros Q; injection Q as <-; exists k; cbn [eo_ok eo_tries eo_sat]; rewrite TS.
      split; [lia|]. split; auto. split; [intros; lia|]. split; [auto|discriminate].
    + destruct (Z.ltb_spec int_max (n0 * 2 ^ Z.of_nat k * 2)); [discriminate|]. rewrite TS. intros Q.
      replace (n0 * 2 ^ Z.of_nat k * 2) with (n0 * 2 ^ Z.of_nat (S k)) in Q by (rewrite Nat2Z.inj_succ, Z.pow_succ_r; lia).
      destruct (IH (S k) o ltac:(lia) Q) as (k' & K1 & K2 & K3 & K4 & K5).
      exists k'. split; [lia|]. split; auto. split; [|auto]. intros j Hj. destruct (Nat.eq_dec j k) as [->|].
      * destruct (B eq_refl) as (i & Hi & Rj). eauto.
      * apply K3. lia.
Qed.

Lemma transport_ok cfg step cfl time s o : transport_solve cfg step cfl time s = Ok o ->
  exists n0 k, step_count cfg cfl time = Ok n0 /\ (k <= 10)%nat /\
    eo_tries o = map (fun j => n0 * 2 ^ Z.of_nat j) (seq 0 (S k)) /\
    (forall j, (j < k)%nat -> exists i t, (i < Z.to_nat (n0 * 2 ^ Z.of_nat j))%nat /\
        rejected step (time / IZR (n0 * 2 ^ Z.of_nat j)) i s t) /\
    (eo_ok o = true -> accepted step (time / IZR (n0 * 2 ^ Z.of_nat k)) (Z.to_nat (n0 * 2 ^ Z.of_nat k)) s (eo_sat o)) /\
    (eo_ok o = false -> k = 10%nat /\ exists i, (i < Z.to_nat (n0 * 2 ^ Z.of_nat k))%nat /\
        rejected step (time / IZR (n0 * 2 ^ Z.of_nat k)) i s (eo_sat o)).
Proof.
  unfold transport_solve. destruct (step_count cfg cfl time) as [n0| |] eqn:E; try discriminate. cbn [bind]. intros Q.
  destruct (retry_ok step time s n0 10 0 o eq_refl) as (k & K1 & K2 & K3 & K4 & K5).
  { change (2 ^ Z.of_nat 0) with 1. rewrite Z.mul_1_r. exact Q. }
  exists n0, k. split; auto. split; [lia|]. split; auto. split; [|auto]. intros j Hj. apply K3. lia.
Qed.

(* no undefined behaviour when the step is total and 1024 times the count fits *)
Lemma do_steps_total step (I : list R -> Prop) dt n : (forall s, I s -> exists b t, step s dt = Ok (b, t) /\ I t) ->
  forall s, I s -> exists b t, do_steps step n s dt = Ok (b, t) /\ I t.
Proof.
  intros H. induction n as [|n IH]; intros s Hs; cbn [do_steps]; [eauto|].
  destruct (H s Hs) as (b & t & E & Ht). rewrite E. cbn [bind fst snd]. destruct b; eauto.
Qed.
Lemma retry_total step (I : list R -> Prop) time s0 : I s0 -> (forall s dt, I s -> exists b t, step s dt = Ok (b, t) /\ I t) ->
  forall fuel nr tries, 0 <= nr -> nr * 2 ^ Z.of_nat fuel <= int_max ->
  exists o, retry step time s0 fuel nr tries = Ok o.
Proof.
  intros H0 H. induction fuel as [|f IH]; intros nr tries Hn Hb; cbn [retry];
   destruct (do_steps_total step I (time / IZR nr) (Z.to_nat nr) (fun s => H s _) s0 H0) as (b & t & E & _); rewrite E; cbn [bind fst snd];
   destruct b; eauto.
  rewrite Nat2Z.inj_succ, Z.pow_succ_r in Hb by lia. pose proof (Z.pow_pos_nonneg 2 (Z.of_nat f) ltac:(lia) ltac:(lia)).
  destruct (Z.ltb_spec int_max (nr * 2)); [nia|]. apply IH; nia.
Qed.
Lemma transport_total cfg step (I : list R -> Prop) cfl time s : I s -> (forall s dt, I s -> exists b t, step s dt = Ok (b, t) /\ I t) ->
  (0 < cfl)%R -> (0 <= time)%R -> 1 <= e_min cfg <= e_max cfg -> e_max cfg * 1024 <= int_max ->
  exists o, transport_solve cfg step cfl time s = Ok o.
Proof.
  intros H0 H Hc Ht Hm Hb. unfold transport_solve. destruct (step_count_ok cfg cfl time Hc Ht Hm) as (n & E & Hn & _).
  rewrite E. cbn [bind]. apply (retry_total step I); auto; [lia|]. change (2 ^ Z.of_nat 10) with 1024. lia.
Qed.

(* ---- C47 *)
Lemma check_cell_spec clamp x :
  (forall y, check_cell clamp x = Some y ->
     (clamp = true -> y = Rmin 1 (Rmax 0 x)) /\ (clamp = false -> y = x /\ (- / 1000 <= x <= 1 + / 1000)%R)) /\
  (check_cell clamp x = None -> clamp = false /\ ~ (- / 1000 <= x <= 1 + / 1000)%R).
Proof.
  unfold check_cell. destruct (Rltb_spec 1 x), (Rltb_spec x 0); cbn [orb]; destruct clamp;
  try (destruct (Rltb_spec (1 + / 1000) x), (Rltb_spec x (- / 1000)); cbn [orb]);
  split; intros; try discriminate; try (injection H as <-); try split; intros; try discriminate; try split; auto; try lra;
  rewrite ?smax_Rmax, ?smin_Rmin; unfold Rmin, Rmax; repeat destruct (Rle_dec _ _); try lra.
Qed.

Lemma check_all_spec clamp s : forall done,
  (fst (check_all clamp done s) = true -> exists t, snd (check_all clamp done s) = done ++ t /\ Forall2 (fun x y => check_cell clamp x = Some y) s t) /\
  (fst (check_all clamp done s) = false -> exists pre post x, s = pre ++ x :: post /\ check_cell clamp x = None /\
      exists t, snd (check_all clamp done s) = done ++ t ++ x :: post /\ Forall2 (fun x y => check_cell clamp x = Some y) pre t).
Proof.
  induction s as [|x s IH]; intros done; cbn [check_all].
  - cbn. split; [intros _; exists []; rewrite app_nil_r; auto|discriminate].
  - destruct (check_cell clamp x) as [y|] eqn:E.
    + destruct (IH (done ++ [y])) as (A & B). split.
      * intros Q. destruct (A Q) as (t & T1 & T2). exists (y :: t). rewrite <- app_assoc in T1. split; auto.
      * intros Q. destruct (B Q) as (pre & post & z & E1 & E2 & t & T1 & T2). exists (x :: pre), post, z. split; [cbn; congruence|].
        split; auto. exists (y :: t). rewrite <- app_assoc in T1. split; auto.
    + cbn. split; [discriminate|]. intros _. exists [], s, x. split; auto. split; auto. exists []. auto.
Qed.

Lemma euler_values pv r s dt : zlen r = zlen s -> zlen pv = zlen s -> (forall i, 0 <= i < zlen s -> nthR pv i <> 0%R) ->
  mapM (fun i =>
      let* x := rget s i in let* d := rget r i in let* v := rget pv i in
      match fdiv (dt * d)%R v with Some q => Ok (x + q)%R | None => UB end) (zrange 0 (zlen s))
  = Ok (map (euler_value pv r s dt) (zrange 0 (zlen s))).
Proof.
  intros Hr Hp Hn. apply mapM_all_Ok. intros i Hi. apply In_zrange in Hi.
  rewrite (proj2 (rget_Ok s i _) (zget_nthR s i ltac:(lia))), (proj2 (rget_Ok r i _) (zget_nthR r i ltac:(lia))),
    (proj2 (rget_Ok pv i _) (zget_nthR pv i ltac:(lia))). cbn [bind]. rewrite fdiv_Some by (apply Hn; lia). reflexivity.
Qed.

Lemma small_step_ok cfg pv resid s dt : zlen (resid s) = zlen s -> zlen pv = zlen s ->
  (forall i, 0 <= i < zlen s -> nthR pv i <> 0%R) ->
  let x := euler_value pv (resid s) s dt in
  exists b t, small_step cfg pv resid s dt = Ok (b, t) /\ zlen t = zlen s /\
    (b = true -> forall i, 0 <= i < zlen s ->
       (e_clamp cfg = true -> nthR t i = Rmin 1 (Rmax 0 (x i))) /\
       (e_clamp cfg = false -> nthR t i = x i) /\
       (e_clamp cfg = false -> e_check cfg = true -> (- / 1000 <= nthR t i <= 1 + / 1000)%R)) /\
    (b = false -> e_clamp cfg = false /\ e_check cfg = true /\
       (forall i, 0 <= i < zlen s -> nthR t i = x i) /\ exists i, 0 <= i < zlen s /\ ~ (- / 1000 <= x i <= 1 + / 1000)%R).
Proof.
  intros Hr Hp Hn. cbv zeta. unfold small_step. rewrite euler_values by assumption. cbn [bind].
  set (xs := map (euler_value pv (resid s) s dt) (zrange 0 (zlen s))). pose proof (zlen_nonneg s) as Hs.
  assert (Lx : zlen xs = zlen s) by (unfold xs; rewrite zlen_map, zlen_zrange; lia).
  assert (Gx : forall i, 0 <= i < zlen s -> zget xs i = Some (euler_value pv (resid s) s dt i)).
  { intros i Hi. unfold xs. rewrite zget_map, zget_zrange by lia. reflexivity. }
  destruct (e_check cfg || e_clamp cfg) eqn:Ec.
  - destruct (check_all (e_clamp cfg) [] xs) as [b t] eqn:E. exists b, t. split; auto.
    destruct (check_all_spec (e_clamp cfg) xs []) as (A & B). rewrite E in A, B. cbn [fst snd app] in A, B. destruct b.
    + destruct (A eq_refl) as (t' & -> & F). pose proof (Forall2_length' _ _ _ F) as FL.
      split; [unfold zlen in *; lia|]. split; [|discriminate]. intros _ i Hi.
      destruct (zget_in_range t' i) as (y & Gy); [unfold zlen in *; lia|].
      pose proof (Forall2_zget _ _ _ F) as FZ. 
      assert (Ck : check_cell (e_clamp cfg) (euler_value pv (resid s) s dt i) = Some y).
      { destruct (FZ i _ (Gx i Hi)) as (b & B1 & B2). congruence. }
      destruct (check_cell_spec (e_clamp cfg) (euler_value pv (resid s) s dt i)) as (S1 & _). specialize (S1 _ Ck).
      rewrite (nthR_get _ _ _ Gy). destruct S1 as (S1 & S2). split; auto. split.
      * intros Q. apply S2 in Q. tauto.
      * intros Q _. apply S2 in Q. destruct Q as (-> & Q). exact Q.
    + destruct (B eq_refl) as (pre & post & z & E1 & E2 & t' & -> & F).
      destruct (check_cell_spec (e_clamp cfg) z) as (_ & S2). specialize (S2 E2). destruct S2 as (Cl & Out).
      assert (t' = pre).
      { clear - F Cl. induction F; auto. f_equal; auto. destruct (check_cell_spec (e_clamp cfg) x) as (S1 & _).
        specialize (S1 _ H). apply S1; auto. }
      subst t'. rewrite <- E1. split; auto. split; [discriminate|]. intros _. split; auto. split; [destruct (e_check cfg); auto; rewrite Cl in Ec; discriminate|].
      split; [intros i Hi; apply nthR_get; auto|]. assert (I : In z xs) by (rewrite E1; apply in_or_app; right; left; auto).
      unfold xs in I. apply in_map_iff in I. destruct I as (i & Ei & I). apply In_zrange in I. exists i. split; auto. now rewrite Ei.
  - exists true, xs. split; auto. split; auto. split; [|discriminate]. intros _ i Hi. apply orb_false_iff in Ec. destruct Ec as (E1 & E2).
    split; [congruence|]. split; [intros _; apply nthR_get; auto|]. congruence.
Qed.

(* ---- C46 *)
Lemma failed_refuted : exists cfg pv resid cfl time s o,
  transport_solve cfg (small_step cfg pv resid) cfl time s = Ok o /\ eo_ok o = false /\ eo_sat o <> s.
Proof.
  set (cfg := mkEcfg 1 1 true false). set (resid := fun _ : list R => [1000000%R]).
  exists cfg, [1%R], resid, 2%R, 1%R, [0%R].
  assert (St : forall s dt, zlen s = 1 -> exists b t, small_step cfg [1%R] resid s dt = Ok (b, t) /\ zlen t = 1).
  { intros s dt Hs. destruct (small_step_ok cfg [1%R] resid s dt) as (b & t & E & L & _); auto.
    - intros i Hi. assert (i = 0) by lia. subst. cbn. lra.
    - exists b, t. split; auto. lia. }
  destruct (transport_total cfg (small_step cfg [1%R] resid) (fun s => zlen s = 1) 2 1 [0%R]) as (o & E); auto; try lra; cbn; try lia.
  { unfold int_max; lia. }
  exists o. split; auto.
  destruct (transport_ok _ _ _ _ _ _ E) as (n0 & k & C & K & _ & _ & A & B).
  assert (n0 = 1).
  { unfold step_count in C. destruct (Rltb_spec 1 2); [|lra]. cbn in C. congruence. } subst n0.
  assert (First : forall j, (j <= 10)%nat -> small_step cfg [1%R] resid [0%R] (1 / IZR (1 * 2 ^ Z.of_nat j)) =
     Ok (false, [(1 / IZR (1 * 2 ^ Z.of_nat j) * 1000000)%R])).
  { intros j Hj. unfold small_step, resid. change (zrange 0 (zlen [0%R])) with [0]. cbn [mapM rget zget].
    unfold rget. change (zget [0%R] 0) with (Some 0%R). change (zget [1000000%R] 0) with (Some 1000000%R). change (zget [1%R] 0) with (Some 1%R).
    cbn [bind]. rewrite fdiv_Some by lra. cbn [bind e_check e_clamp cfg orb check_all app].
    assert (P : (1 <= IZR (1 * 2 ^ Z.of_nat j) <= 1024)%R).
    { rewrite Z.mul_1_l. split; apply IZR_le.
      - apply (Z.pow_le_mono_r 2 0); lia.
      - change 1024 with (2 ^ 10). apply Z.pow_le_mono_r; lia. }
    set (N := IZR (1 * 2 ^ Z.of_nat j)) in *. clearbody N.
    replace (0 + 1 / N * 1000000 / 1)%R with (1 / N * 1000000)%R by (field; lra).
    assert (V : (2 < 1 / N * 1000000)%R).
    { apply (Rmult_lt_reg_r N); [lra|]. replace (1 / N * 1000000 * N)%R with 1000000%R by (field; lra). lra. }
    set (y := (1 / N * 1000000)%R) in *. clearbody y. unfold check_cell.
    destruct (Rltb_spec 1 y); [|lra]. cbn [orb]. destruct (Rltb_spec (1 + / 1000) y); [|lra]. reflexivity. }
  assert (NotAcc : eo_ok o = false).
  { destruct (eo_ok o) eqn:Q; auto. exfalso. specialize (A eq_refl).
    assert (Z.to_nat (1 * 2 ^ Z.of_nat k) = S (pred (Z.to_nat (1 * 2 ^ Z.of_nat k)))) as Sk.
    { pose proof (Z.pow_pos_nonneg 2 (Z.of_nat k) ltac:(lia) ltac:(lia)). lia. }
    rewrite Sk in A. inversion A; subst. rewrite First in H0 by lia. discriminate. }
  split; auto. destruct (B NotAcc) as (-> & i & Hi & u & U1 & U2).
  assert (i = 0%nat).
  { destruct i; auto. inversion U1; subst. rewrite First in H0 by lia. discriminate. }
  subst i. inversion U1; subst. rewrite First in U2 by lia. injection U2 as <-.
  intros Q. injection Q as Q. change (1 * 2 ^ Z.of_nat 10) with 1024 in Q. lra.
Qed.
