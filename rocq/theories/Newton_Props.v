(* Properties C53-C55: Newton iteration and retries of the implicit transport solver. *)
From Coq Require Import Lra.
From Verif Require Import BaseFacts RBaseFacts Steady_Proofs Euler_Model Euler_Spec Newton_Model Newton_Proofs.
Open Scope Z_scope.

(* C53: s_it is the number of iterations, s_tr the numbers of line search trials; for every
   behaviour of the model and the linear solver *)
Theorem C53_stops : forall P ctl x0, 1 <= c_max_it ctl ->
  exists st flag, newton_solve P ctl x0 (Z.to_nat (c_max_it ctl)) = Some (st, flag) /\ 1 <= s_it st <= c_max_it ctl /\
    zlen (s_tr st) = s_it st /\ (forall t, In t (s_tr st) -> t <= Z.max 1 (c_max_ls ctl + 2)).
Proof. exact newton_total. Qed.
Print Assumptions C53_stops.
(* with a limit of zero iterations the loop can run for ever *)
Theorem C53_zero_limit_refuted : exists P ctl x0, c_max_it ctl = 0 /\ forall fuel, newton_solve P ctl x0 fuel = None.
Proof. exact newton_runs_on. Qed.
Print Assumptions C53_zero_limit_refuted.

(* C54: flags 1 and 2 describe the state returned; flag 3 only the size of the last increment *)
Theorem C54_flags : forall P ctl x0 fuel st flag, (n_res P x0 <= res_huge)%R -> (0 <= n_res P x0)%R -> (c_rtol ctl <= 1)%R ->
  newton_solve P ctl x0 fuel = Some (st, flag) ->
  (flag = 1 -> (n_res P (s_x st) < c_atol ctl)%R /\ (s_x st = x0 \/ n_acc P (s_x st) = true)) /\
  (flag = 2 -> (n_res P (s_x st) < c_rtol ctl * n_res P x0)%R /\ (s_x st = x0 \/ n_acc P (s_x st) = true)) /\
  (flag = 3 -> (s_dx st < c_dxtol ctl)%R) /\
  (flag = 1 \/ flag = 2 \/ flag = 3 \/
   flag = -1 /\ (s_it st = c_max_it ctl \/ exists t, In t (s_tr st) /\ c_max_ls ctl < t)) /\
  (exists xp, s_dx st = n_norm P (n_dir P (s_it st - 1) xp) /\ (xp = x0 \/ n_acc P xp = true) /\
    (s_x st = xp \/ exists k, (1 <= k)%nat /\ s_x st = vaxpy xp (2 / 2 ^ k) (n_dir P (s_it st - 1) xp))).
Proof. exact newton_end. Qed.
Print Assumptions C54_flags.
(* success (flag 3) is reported for a state the model refused *)
Theorem C54_accepted_refuted : exists P ctl x0 st,
  newton_solve P ctl x0 1 = Some (st, 3) /\ n_acc P (s_x st) = false /\ (0 < n_res P x0 <= res_huge)%R /\ c_max_it ctl = 1 /\
  (c_rtol ctl * n_res P x0 < n_res P (s_x st))%R.
Proof. exact newton_flag3. Qed.
Print Assumptions C54_accepted_refuted.
(* one exact Newton step for the residual |x-1| *)
Definition demo_prob := mkNrprob (fun _ x => map (fun t => 1 - t)%R x) (fun _ => true)
  (fun x => Rsum (map (fun t => Rabs (t - 1)) x)) (fun d => Rsum (map Rabs d)).
Example C53_C54_case : let ctl := mkNrctl 10 (/ 1000) (/ 2) (/ 1000) 5 in
  1 <= c_max_it ctl /\ (n_res demo_prob [0%R] <= res_huge)%R /\ (0 <= n_res demo_prob [0%R])%R /\ (c_rtol ctl <= 1)%R /\
  exists st, newton_solve demo_prob ctl [0%R] 10 = Some (st, 1) /\ s_x st = [(0 + 2 / 2 * (1 - 0))%R].
Proof.
  assert (H99 : (1 < res_huge)%R) by (unfold res_huge; apply IZR_lt; reflexivity).
  assert (E0 : n_res demo_prob [0%R] = 1%R) by (cbn [n_res demo_prob map]; rewrite Rsum_cons, Rsum_nil; rewrite Rabs_left by lra; lra).
  cbn zeta. rewrite E0. split; [cbn; lia|]. split; [lra|]. split; [lra|]. split; [cbn; lra|].
  unfold newton_solve. rewrite E0. cbn [newton_loop]. unfold newton_body.
  cbn [s_x s_xa s_res s_it s_tr n_dir n_norm c_atol c_max_ls c_rtol c_dxtol c_max_it demo_prob].
  destruct (Rltb_spec 1 (/ 1000)); [lra|]. change (S (Z.to_nat (5 + 2))) with 8%nat. cbn [line_search n_acc demo_prob vaxpy map combine fst snd].
  set (x1 := (0 + 2 / 2 * (1 - 0))%R).
  assert (E1 : n_res demo_prob [x1] = 0%R).
  { cbn [n_res demo_prob map]. rewrite Rsum_cons, Rsum_nil. replace (x1 - 1)%R with 0%R by (unfold x1; field). rewrite Rabs_R0. ring. }
  rewrite E1. destruct (Rltb_spec 0 1); [|lra]. cbn [orb]. rewrite E1. destruct (Rltb_spec 0 (/ 1000)); [|lra]. cbn [orb].
  eexists. split.
  - unfold newton_flag. cbn [s_res c_atol]. destruct (Rltb_spec 0 (/ 1000)); [|lra]. reflexivity.
  - reflexivity.
Qed.

(* C55: for every solver step; the state of the solver is the saturations of both phases *)
Theorem C55_retries : forall mr step time s o, 0 <= mr -> implicit_solve mr step time s = Ok o ->
  exists k t, (Z.of_nat k <= mr + 1) /\ eo_sat o = firsts t /\
    eo_tries o = map (fun j => 2 ^ Z.of_nat j) (seq 0 (S k)) /\
    (forall j, (j < k)%nat -> exists i u, (i < Z.to_nat (2 ^ Z.of_nat j))%nat /\
        rejected step (time / IZR (2 ^ Z.of_nat j)) i (flat_map (fun x => [x; (1 - x)%R]) s) u) /\
    (eo_ok o = true -> accepted step (time / IZR (2 ^ Z.of_nat k)) (Z.to_nat (2 ^ Z.of_nat k)) (flat_map (fun x => [x; (1 - x)%R]) s) t) /\
    (eo_ok o = false -> Z.of_nat k = mr + 1 /\ exists i, (i < Z.to_nat (2 ^ Z.of_nat k))%nat /\
        rejected step (time / IZR (2 ^ Z.of_nat k)) i (flat_map (fun x => [x; (1 - x)%R]) s) t).
Proof. exact implicit_ok. Qed.
Print Assumptions C55_retries.
Theorem C55_terminates : forall mr step (I : list R -> Prop) time s, 0 <= mr <= 29 -> I (flat_map (fun x => [x; (1 - x)%R]) s) ->
  (forall s dt, I s -> exists b t, step s dt = Ok (b, t) /\ I t) -> exists o, implicit_solve mr step time s = Ok o.
Proof. exact implicit_total. Qed.
Print Assumptions C55_terminates.
Theorem C55_water_saturation : forall s, firsts (flat_map (fun x => [x; (1 - x)%R]) s) = s.
Proof. exact expand2_firsts. Qed.
Print Assumptions C55_water_saturation.
(* a failed solve changes the caller's saturation *)
Theorem C55_unchanged_refuted : exists step time s o, implicit_solve 0 step time s = Ok o /\ eo_ok o = false /\ eo_sat o <> s.
Proof. exact implicit_refuted. Qed.
Print Assumptions C55_unchanged_refuted.
(* a solver that accepts steps of at most 1/3 *)
Example C55_case : let step := fun (s : list R) (dt : R) => Ok (Rleb dt (/ 3), map (Rplus dt) s) : res (bool * list R) in
  (forall s dt, True -> exists b t, step s dt = Ok (b, t) /\ True) /\
  exists o, implicit_solve 3 step 1 [0%R] = Ok o /\ eo_ok o = true /\ eo_tries o = [1; 2; 4].
Proof.
  cbn zeta. split; [intros; eauto|]. unfold implicit_solve. change (Z.to_nat (3 + 1)) with 4%nat.
  cbn [implicit_retry]. change (Z.to_nat 1) with 1%nat. cbn [do_steps bind fst snd].
  destruct (Rleb_spec (1 / 1) (/ 3)); [lra|]. cbn [bind fst snd]. change (int_max <? 1 * 2) with false. cbn iota.
  change (Z.to_nat (1 * 2)) with 2%nat. change (IZR (1 * 2)) with 2%R. cbn [do_steps bind fst snd]. destruct (Rleb_spec (1 / 2) (/ 3)); [lra|]. cbn [bind fst snd].
  change (int_max <? 1 * 2 * 2) with false. cbn iota. change (Z.to_nat (1 * 2 * 2)) with 4%nat. change (IZR (1 * 2 * 2)) with 4%R.
  cbn [do_steps bind fst snd]. destruct (Rleb_spec (1 / 4) (/ 3)); [|lra]. cbn [do_steps bind fst snd]. eexists. split; [reflexivity|]. split; reflexivity.
Qed.
