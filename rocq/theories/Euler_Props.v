(* Properties C44-C52: explicit upstream transport. *)
From Coq Require Import Lra.
From Verif Require Import BaseFacts RBaseFacts Steady_Proofs Euler_Model Euler_Spec Euler_Proofs Euler_Proofs2 Euler_Proofs3.
Open Scope Z_scope.

Theorem C44_step_count : forall cfg cfl time, (0 < cfl)%R -> (0 <= time)%R -> 1 <= e_min cfg <= e_max cfg ->
  exists n, step_count cfg cfl time = Ok n /\ e_min cfg <= n <= e_max cfg /\
    (IZR n * (time / IZR n) = time)%R /\
    (time < cfl -> n = e_min cfg)%R /\
    (n < e_max cfg -> n < int_max -> (time / IZR n <= cfl)%R) /\
    (e_min cfg < n -> (cfl * (IZR n - 1) < time)%R).
Proof. exact step_count_ok. Qed.
Print Assumptions C44_step_count.
Example C44_case : let cfg := mkEcfg 1 10000 true false in (0 < 3)%R /\ (0 <= 10)%R /\ 1 <= e_min cfg <= e_max cfg.
Proof. cbn. repeat split; lra || lia. Qed.
Theorem C44_zero_cfl : forall cfg time, (0 < time)%R -> e_min cfg <= e_max cfg <= int_max -> step_count cfg 0 time = Ok (e_max cfg).
Proof. intros. rewrite step_count_zero by auto. f_equal. lia. Qed.
Print Assumptions C44_zero_cfl.

(* C45: for every small step *)
Theorem C45_retries : forall cfg step cfl time s o, transport_solve cfg step cfl time s = Ok o ->
  exists n0 k, step_count cfg cfl time = Ok n0 /\ (k <= 10)%nat /\
    eo_tries o = map (fun j => n0 * 2 ^ Z.of_nat j) (seq 0 (S k)) /\
    (forall j, (j < k)%nat -> exists i t, (i < Z.to_nat (n0 * 2 ^ Z.of_nat j))%nat /\
        rejected step (time / IZR (n0 * 2 ^ Z.of_nat j)) i s t) /\
    (eo_ok o = true -> accepted step (time / IZR (n0 * 2 ^ Z.of_nat k)) (Z.to_nat (n0 * 2 ^ Z.of_nat k)) s (eo_sat o)) /\
    (eo_ok o = false -> k = 10%nat /\ exists i, (i < Z.to_nat (n0 * 2 ^ Z.of_nat k))%nat /\
        rejected step (time / IZR (n0 * 2 ^ Z.of_nat k)) i s (eo_sat o)).
Proof. exact transport_ok. Qed.
Print Assumptions C45_retries.
Theorem C45_terminates : forall cfg step (I : list R -> Prop) cfl time s, I s ->
  (forall s dt, I s -> exists b t, step s dt = Ok (b, t) /\ I t) ->
  (0 < cfl)%R -> (0 <= time)%R -> 1 <= e_min cfg <= e_max cfg -> e_max cfg * 1024 <= int_max ->
  exists o, transport_solve cfg step cfl time s = Ok o.
Proof. exact transport_total. Qed.
Print Assumptions C45_terminates.
(* a step that rejects everything larger than 1/3 *)
Example C45_case : let cfg := mkEcfg 1 10000 true false in
  let step := fun (s : list R) (dt : R) => Ok (Rleb dt (/ 3), map (Rplus dt) s) : res (bool * list R) in
  (forall s dt, True -> exists b t, step s dt = Ok (b, t) /\ True) /\ (0 < 2)%R /\ (0 <= 1)%R /\ 1 <= e_min cfg <= e_max cfg /\ e_max cfg * 1024 <= int_max.
Proof. cbn. repeat split; try lra; try lia. intros; eauto. unfold int_max. lia. Qed.

(* C46: with C45_retries (eo_ok = false): the state after a throw is the one of the rejected
   step of the last attempt; it is not the state at the call *)
Theorem C46_failed_state : forall cfg step cfl time s o, transport_solve cfg step cfl time s = Ok o -> eo_ok o = false ->
  exists n0 i, step_count cfg cfl time = Ok n0 /\ (i < Z.to_nat (n0 * 1024))%nat /\
    rejected step (time / IZR (n0 * 1024)) i s (eo_sat o).
Proof.
  intros cfg step cfl time s o H F. destruct (transport_ok _ _ _ _ _ _ H) as (n0 & k & C & _ & _ & _ & _ & B).
  destruct (B F) as (-> & i & Hi & Rj). exists n0, i. auto.
Qed.
Print Assumptions C46_failed_state.
Theorem C46_unchanged_refuted : exists cfg pv resid cfl time s o,
  transport_solve cfg (small_step cfg pv resid) cfl time s = Ok o /\ eo_ok o = false /\ eo_sat o <> s.
Proof. exact failed_refuted. Qed.
Print Assumptions C46_unchanged_refuted.

Theorem C47_small_step : forall cfg pv resid s dt, zlen (resid s) = zlen s -> zlen pv = zlen s ->
  (forall i, 0 <= i < zlen s -> nthR pv i <> 0%R) ->
  let x := euler_value pv (resid s) s dt in
  exists b t, small_step cfg pv resid s dt = Ok (b, t) /\ zlen t = zlen s /\
    (b = true -> forall i, 0 <= i < zlen s ->
       (e_clamp cfg = true -> nthR t i = Rmin 1 (Rmax 0 (x i))) /\
       (e_clamp cfg = false -> nthR t i = x i) /\
       (e_clamp cfg = false -> e_check cfg = true -> (- / 1000 <= nthR t i <= 1 + / 1000)%R)) /\
    (b = false -> e_clamp cfg = false /\ e_check cfg = true /\
       (forall i, 0 <= i < zlen s -> nthR t i = x i) /\ exists i, 0 <= i < zlen s /\ ~ (- / 1000 <= x i <= 1 + / 1000)%R).
Proof. exact small_step_ok. Qed.
Print Assumptions C47_small_step.
Example C47_case : let pv := [1; 2]%R in let resid := fun s : list R => map Ropp s in let s := [1; 0]%R in
  zlen (resid s) = zlen s /\ zlen pv = zlen s /\ (forall i, 0 <= i < zlen s -> nthR pv i <> 0%R).
Proof.
  cbv zeta. split; [reflexivity|]. split; [reflexivity|]. intros i Hi. change (zlen [1; 0]%R) with 2 in Hi. assert (E : i = 0 \/ i = 1) by lia. destruct E as [-> | ->]; [change (nthR [1; 2]%R 0) with 1%R | change (nthR [1; 2]%R 1) with 2%R]; lra.
Qed.

Theorem C48_residual : forall p sat r, compute_residual p sat = Ok r ->
  exists bm outs, build_bid_map p = Ok bm /\
    mapM (fun cf => face_update p bm sat (fst cf) (snd cf)) (all_faces (ep_cells p)) = Ok outs /\
    let ts := combine (all_faces (ep_cells p)) outs in
    zlen r = zlen sat /\
    (forall c, 0 <= c < zlen (ep_cells p) ->
       nthR r c = (net_source p c (nthR sat c) + Rsum (map (contribution c) ts))%R) /\
    (Rsum r = Rsum (map (fun c => net_source p c (nthR sat c)) (zrange 0 (zlen (ep_cells p)))) - Rsum (map wall_term ts))%R.
Proof. exact residual_net. Qed.
Print Assumptions C48_residual.
Theorem C48_once : forall p bm sat c0 c1 f0 f1 u0 u1, c0 <> c1 ->
  face_update p bm sat c0 f0 = Ok u0 -> face_update p bm sat c1 f1 = Ok u1 ->
  (ef_bdry f0 = false /\ ef_bdry f1 = false /\ ef_nb f0 = c1 /\ ef_nb f1 = c0) \/
  (exists k0 k1 b0 b1, ef_bdry f0 = true /\ ef_bdry f1 = true /\
     zget (ep_cond p) (ef_bid f0) = Some k0 /\ c_type k0 = Periodic /\ zget (ep_cond p) (ef_bid f1) = Some k1 /\ c_type k1 = Periodic /\
     zget (ep_partner p) (ef_bid f0) = Some b1 /\ zget (ep_partner p) (ef_bid f1) = Some b0 /\
     zget bm b1 = Some (Some (c1, f1)) /\ zget bm b0 = Some (Some (c0, f0))) ->
  (exists d, u0 = Some (c1, d) /\ u1 = None) \/ (exists d, u0 = None /\ u1 = Some (c0, d)).
Proof. exact pair_once. Qed.
Print Assumptions C48_once.
Theorem C48_wall : forall p bm sat c0 f u c, face_update p bm sat c0 f = Ok u -> ef_bdry f = true ->
  zget (ep_cond p) (ef_bid f) = Some c -> c_type c <> Periodic -> exists d, u = Some (c0, d).
Proof. intros p bm sat c0 f u c H. destruct (face_kinds _ _ _ _ _ _ H) as (_ & A & _). eauto. Qed.
Print Assumptions C48_wall.
(* two cells with flow 1 from the first to the second *)
Example C48_case : let n := (1, 0, 0)%R : vec in let m := (-1, 0, 0)%R : vec in
  let f := mkEface false 0 1 1 n n 1 in let g := mkEface false 0 0 1 m n (-1) in
  let p := mkEprob [mkEcell (0, 0, 0)%R (fun _ _ => 1%R) [f]; mkEcell (2, 0, 0)%R (fun _ _ => 1%R) [g]] [] [] 0 (0, 0, 0)%R
     (fun _ _ _ => 1%R) (fun _ _ => 0%R) (fun _ _ => 0%R) (fun _ => 0%R) true false false in
  exists r, compute_residual p [1; 0]%R = Ok r /\ nthR r 0 = (- / 2)%R /\ nthR r 1 = (/ 2)%R.
Proof.
  cbv zeta. set (p := mkEprob _ _ _ _ _ _ _ _ _ _ _ _).
  assert (Bm : build_bid_map p = Ok [None]) by reflexivity.
  assert (F0 : exists d, face_update p [None] [1; 0]%R 0 (mkEface false 0 1 1 (1, 0, 0)%R (1, 0, 0)%R 1) = Ok (Some (1, d)) /\ d = (/ 2)%R).
  { unfold face_update. change (rget [1; 0]%R 0) with (Ok 1%R). cbn [bind ef_bdry ef_nb]. change (1 <? 0) with false. cbn iota.
    change (rget [1; 0]%R 1) with (Ok 0%R). cbn [bind]. unfold face_term.
    change (rget (ep_cells p) 0) with (rget (ep_cells p) 0). unfold rget. cbn [ep_cells p].
    match goal with |- context [zget ?l 0] => change (zget l 0) with (Some (mkEcell (0, 0, 0)%R (fun _ _ => 1%R) [mkEface false 0 1 1 (1, 0, 0)%R (1, 0, 0)%R 1])) end.
    match goal with |- context [zget ?l 1] => change (zget l 1) with (Some (mkEcell (2, 0, 0)%R (fun _ _ => 1%R) [mkEface false 0 0 1 (-1, 0, 0)%R (1, 0, 0)%R (-1)])) end.
    cbv zeta. cbn [bind ep_mob ep_visc ep_useg ep_cap p andb negb].
    match goal with |- context [upstream ?a ?b ?c ?d] => generalize (upstream a b c d) end. intros u.
    replace (if fst u =? 0 then 1%R else 1%R) with 1%R by (destruct (fst u =? 0); auto).
    replace (if snd u =? 0 then 1%R else 1%R) with 1%R by (destruct (snd u =? 0); auto).
    rewrite fdiv_Some by lra. rewrite fdiv_Some by (unfold aver; lra). cbn [bind].
    eexists. split; [reflexivity|]. unfold vdot, vscale. cbn. field. }
  assert (F1 : face_update p [None] [1; 0]%R 1 (mkEface false 0 0 1 (-1, 0, 0)%R (1, 0, 0)%R (-1)) = Ok None) by reflexivity.
  destruct F0 as (d & F0 & Hd).
  assert (E : exists r, compute_residual p [1; 0]%R = Ok r).
  { unfold compute_residual. rewrite Bm. cbn [bind].
    change (combine _ (ep_cells p)) with [(0, mkEcell (0, 0, 0)%R (fun _ _ => 1%R) [mkEface false 0 1 1 (1, 0, 0)%R (1, 0, 0)%R 1]);
      (1, mkEcell (2, 0, 0)%R (fun _ _ => 1%R) [mkEface false 0 0 1 (-1, 0, 0)%R (1, 0, 0)%R (-1)])].
    cbn [foldM]. unfold update_cell. cbn [fst snd ec_faces foldM]. rewrite F0, F1. eexists. reflexivity. }
  destruct E as (r & E). exists r. split; auto. destruct (residual_ok _ _ _ E) as (bm & outs & B & O & _ & G & _).
  rewrite Bm in B. injection B as <-.
  change (all_faces (ep_cells p)) with [(0, mkEface false 0 1 1 (1, 0, 0)%R (1, 0, 0)%R 1); (1, mkEface false 0 0 1 (-1, 0, 0)%R (1, 0, 0)%R (-1))] in *.
  cbn [mapM fst snd] in O. rewrite F0, F1 in O. injection O as <-.
  split; rewrite G by (unfold zlen; cbn; lia); unfold source_term; cbn [ep_inj p combine map]; unfold contribution; cbn [fst snd Z.eqb Pos.eqb];
   destruct (Rltb_spec 0 0); try lra; rewrite !Rsum_cons, Rsum_nil; lra.
Qed.

(* C49: water flux flux + m_o G and oil flux flux - m_w G with the chosen mobilities *)
Theorem C49_upstream : forall flux G m, (forall ph s, 0 <= m ph s)%R ->
  let u := upstream true flux G m in
  let Fw := water_flux flux G (m 1 (snd u)) in
  let Fo := oil_flux flux G (m 0 (fst u)) in
  (fst u = 0 \/ fst u = 1) /\ (snd u = 0 \/ snd u = 1) /\
  ((0 <= flux)%R -> agrees (fst u) Fw /\ agrees (snd u) Fo) /\
  ((0 <= G)%R -> agrees (snd u) Fo) /\ ((G < 0)%R -> agrees (fst u) Fw) /\
  ((flux < 0)%R -> (0 <= G)%R -> fst u = 1 /\ (agrees (fst u) Fw <-> (Fw <= 0)%R)) /\
  ((flux < 0)%R -> (G < 0)%R -> snd u = 1 /\ (agrees (snd u) Fo <-> (Fo <= 0)%R)).
Proof. exact upstream_ok. Qed.
Print Assumptions C49_upstream.
Theorem C49_flux : forall p sat c0 s0 f c1 s1 nbf wall d C0 C1,
  zget (ep_cells p) c0 = Some C0 -> zget (ep_cells p) c1 = Some C1 -> c0 <> c1 ->
  ep_visc p = true -> ep_useg p = true -> ep_cap p = false -> vdot (ef_n f) (ef_n f) = 1%R ->
  face_term p sat c0 s0 f c1 s1 nbf wall = Ok d ->
  let K := fun i j => ((ec_perm C0 i j + ec_perm C1 i j) / 2)%R in
  let G := (ef_area f * (ep_drho p * vdot (ef_n f) (mvec K (ep_grav p))))%R in
  let m := fun ph side => if side =? 0 then ep_mob p ph c0 s0 else ep_mob p ph c1 s1 in
  let u := upstream true (ef_flux f) G m in
  let mw := m 0 (fst u) in let mo := m 1 (snd u) in
  (mw + mo <> 0)%R /\ (d = mw / (mw + mo) * water_flux (ef_flux f) G mo)%R /\
  (ef_flux f - d = mo / (mw + mo) * oil_flux (ef_flux f) G mw)%R.
Proof. exact face_term_ok. Qed.
Print Assumptions C49_flux.
Theorem C49_negative_refuted : exists flux G m, (forall ph s, 0 <= m ph s)%R /\
  let u := upstream true flux G m in
  ~ agrees (fst u) (water_flux flux G (m 1 (snd u))) /\
  upstream true (- flux) (- G) (fun ph s => m ph (1 - s)) <> (1 - fst u, 1 - snd u).
Proof. exact upstream_refuted. Qed.
Print Assumptions C49_negative_refuted.
Theorem C49_switched_off_refuted : exists flux G m, (forall ph s, 0 <= m ph s)%R /\ (0 < flux)%R /\ snd (upstream false flux G m) = 1.
Proof. exact upstream_off_refuted. Qed.
Print Assumptions C49_switched_off_refuted.

(* C50: every splitting visits 0, ..., n-1 once and in order *)
Theorem C50_blocks : forall n t, 0 <= n -> visit_all (cell_iters [] n) t = Ok (zrange 0 n).
Proof. exact blocks_ok. Qed.
Print Assumptions C50_blocks.
Theorem C50_reinit_serial : forall n m, 0 <= n -> 0 < m -> visit_all (cell_iters (cell_iters [] m) n) Leaf = Ok (zrange 0 n).
Proof.
  intros n m Hn Hm. apply blocks_serial; auto. destruct (iters_first m ltac:(lia)) as (l & ->).
  destruct (Z.eqb_spec m 0); [lia|]. cbn. eauto.
Qed.
Print Assumptions C50_reinit_serial.
Theorem C50_reinit_refuted : exists n t, visit_all (cell_iters (cell_iters [] n) n) t = UB.
Proof. exact blocks_refuted. Qed.
Print Assumptions C50_reinit_refuted.
Example C50_case : visit_all (cell_iters [] 120) (Node (Node Leaf Leaf) (Node Leaf (Node Leaf Leaf))) = Ok (zrange 0 120) /\
  zlen (leaves (Node (Node Leaf Leaf) (Node Leaf (Node Leaf Leaf))) (0, zlen (cell_iters [] 120) - 1)) = 3.
Proof. split; reflexivity. Qed.

Theorem C51_velocity : forall factor cells, (0 < factor)%R -> (forall c, In c cells -> (0 < fst c)%R) ->
  exists dt, cfl_velocity factor cells = Ok dt /\ (0 < dt <= cfl_huge)%R /\
    (forall c, In c cells -> (dt * throughput (snd c) <= factor * fst c)%R) /\
    (dt = cfl_huge \/ exists c, In c cells /\ (throughput (snd c) <> 0 /\ dt * throughput (snd c) = factor * fst c)%R).
Proof. exact cfl_velocity_ok. Qed.
Print Assumptions C51_velocity.
Theorem C51_velocity_throws : forall factor cells,
  cfl_velocity factor cells = Throw <-> exists c, In c cells /\ (throughput (snd c) <> 0 /\ factor * fst c = 0)%R.
Proof. exact cfl_velocity_throw. Qed.
Print Assumptions C51_velocity_throws.
Theorem C51_gravity : forall factor cells, (0 < factor)%R -> (forall c, In c cells -> (0 < fst c)%R) ->
  let dt := cfl_gravity factor cells in (0 < dt <= cfl_huge)%R /\
    (forall c, In c cells -> (dt * Rsum (map (fun x => Rmax x 0) (snd c)) <= factor * fst c)%R) /\
    (dt = cfl_huge \/ exists c, In c cells /\ (Rsum (map (fun x => Rmax x 0) (snd c)) <> 0 /\ dt * Rsum (map (fun x => Rmax x 0) (snd c)) = factor * fst c)%R).
Proof. exact cfl_gravity_ok. Qed.
Print Assumptions C51_gravity.
Theorem C51_gravity_flux : forall K n g drho area, gravity_flux K n g drho area = (area * (drho * vdot n (mvec K g)))%R.
Proof. exact gravity_flux_ok. Qed.
Print Assumptions C51_gravity_flux.
Theorem C51_capillary : forall factor l, (0 < factor)%R ->
  exists dt, cfl_capillary factor l = Ok dt /\ (dt <= cfl_huge)%R /\ (forall x, In x l -> (dt * factor <= x)%R) /\
    (dt = cfl_huge \/ exists x, In x l /\ (dt * factor = x)%R).
Proof. exact cfl_capillary_ok. Qed.
Print Assumptions C51_capillary.
Theorem C51_time : forall courant v g c, (0 <= courant)%R ->
  let t := cfl_time courant v g c in
  (forall x, v = Some x \/ g = Some x \/ c = Some x -> (t <= courant * x)%R) /\
  ((t = courant * cfl_start)%R \/ exists x, (v = Some x \/ g = Some x \/ c = Some x) /\ (t = courant * x)%R).
Proof. exact cfl_time_ok. Qed.
Print Assumptions C51_time.
Example C51_case : (0 < / 2)%R /\ (forall c, In c [(1, [1; -1]); (2, [1; 1; -2])]%R -> (0 < fst c)%R) /\
  throughput [1; 1; -2]%R = 2%R.
Proof.
  split; [lra|]. split; [intros c [<-|[<-|[]]]; cbn; lra|]. unfold throughput. cbn [map]. rewrite !Rsum_cons, Rsum_nil.
  unfold Rmax. repeat destruct (Rle_dec _ _); lra.
Qed.

Theorem C52_zero : forall pv inv orig cp dp, zlen orig = zlen pv -> zlen cp = zlen pv -> (0 < Rsum pv)%R ->
  (match_volume pv inv orig cp dp = Ok (Some 0%R) <->
   water_volume pv (fun i => inv i (nthR cp i + dp)%R) = water_volume pv (nthR orig)).
Proof. exact match_zero. Qed.
Print Assumptions C52_zero.
Theorem C52_value : forall pv inv orig cp dp, zlen orig = zlen pv -> zlen cp = zlen pv -> (0 < Rsum pv)%R ->
  match_volume pv inv orig cp dp =
  Ok (Some ((water_volume pv (fun i => inv i (nthR cp i + dp)%R) - water_volume pv (nthR orig)) / Rsum pv)%R).
Proof. exact match_ok. Qed.
Print Assumptions C52_value.
Theorem C52_monotone : forall pv inv orig cp d1 d2 x1 x2, zlen orig = zlen pv -> zlen cp = zlen pv -> (0 < Rsum pv)%R ->
  (forall i, 0 <= i < zlen pv -> (0 <= nthR pv i)%R) ->
  (forall c p q, (p <= q -> inv c q <= inv c p)%R) -> (d1 <= d2)%R ->
  match_volume pv inv orig cp d1 = Ok (Some x1) -> match_volume pv inv orig cp d2 = Ok (Some x2) -> (x2 <= x1)%R.
Proof. exact match_mono. Qed.
Print Assumptions C52_monotone.
Example C52_case : let pv := [1; 2]%R in zlen [0; 1]%R = zlen pv /\ (0 < Rsum pv)%R /\
  (forall i, 0 <= i < zlen pv -> (0 <= nthR pv i)%R) /\ (forall (c : Z) p q, (p <= q -> 1 - q <= 1 - p)%R).
Proof.
  cbv zeta. split; [reflexivity|]. split; [rewrite !Rsum_cons, Rsum_nil; lra|]. split; [|intros; lra].
  intros i Hi. change (zlen [1; 2]%R) with 2 in Hi. assert (E : i = 0 \/ i = 1) by lia. destruct E as [-> | ->]; [change (nthR [1; 2]%R 0) with 1%R | change (nthR [1; 2]%R 1) with 2%R]; lra.
Qed.
