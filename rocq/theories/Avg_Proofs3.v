(* Volume statistics and permeability averages. *)
From Verif Require Import BaseFacts RBaseFacts Shape_Proofs2 Steady_Proofs Euler_Proofs2 Mload_Proofs Mload_Proofs2 Avg_Proofs Avg_Proofs2 Avg_Spec.
Open Scope Z_scope.

Lemma total_filter (P : Z -> bool) f l : total (fun i => if P i then f i else 0%R) l = total f (filter P l).
Proof.
  unfold total. induction l as [|a t IH]; [reflexivity|]. cbn [map filter]. rewrite Rsum_cons, IH. destruct (P a); cbn [map]; [rewrite Rsum_cons|]; ring.
Qed.
Lemma sum_array arr cell f : zlen arr = zlen cell -> (forall i, nthR arr i = if active cell i then f i else 0%R) -> Rsum arr = total f (actives cell).
Proof.
  intros L H. rewrite <- (sum_range arr). unfold actives. rewrite <- total_filter, L. apply Rsum_map_ext. intros i _. apply H.
Qed.
Lemma sum_clean cell : clean cell -> Rsum cell = total (nthR cell) (actives cell).
Proof.
  intros C. rewrite <- (sum_range cell). unfold actives. rewrite <- total_filter. apply Rsum_map_ext. intros i Hi. apply In_zrange in Hi. unfold active.
  destruct (C (nthR cell i)) as [E|E]; [apply In_nthR; exists i; auto| |].
  - rewrite E. destruct (Rltb cutoff 0); reflexivity.
  - rewrite (proj2 (Rltb_true _ _) E). reflexivity.
Qed.
Lemma actives_In cell i : In i (actives cell) <-> 0 <= i < zlen cell /\ (cutoff < nthR cell i)%R.
Proof.
  unfold actives, active. rewrite filter_In, In_zrange, Rltb_true. tauto.
Qed.
Lemma actives_w cell i : In i (actives cell) -> (0 < nthR cell i)%R.
Proof.
  intros H. apply actives_In in H. pose proof cutoff_pos. lra.
Qed.
Lemma racc_id l : racc (fun x => x) l = Rsum l.
Proof.
  rewrite racc_sum, map_id. reflexivity.
Qed.
(* ---- statements *)
Lemma cell_volumes_ok nc leaf actnum poros ntgs : 0 <= nc -> covers nc actnum -> covers nc poros -> covers nc ntgs -> NoDup (map fst leaf) -> (forall c, In c leaf -> 0 <= fst c < nc) ->
  exists s, cell_volumes nc leaf actnum poros ntgs = Ok s /\ zlen (v_cell s) = nc /\
    (forall c, In c leaf -> nthR (v_cell s) (fst c) = weight actnum c) /\
    (forall i, ~ In i (map fst leaf) -> nthR (v_cell s) i = 0%R) /\
    v_count s = zlen (actives (v_cell s)).
Proof.
  intros H1 H2 H3 H4 H5 H6. destruct (cell_volumes_inv nc leaf actnum poros ntgs H1 H2 H3 H4 H5 H6) as (s & E & L1 & L2 & L3 & L4 & V & Z0 & _ & _ & _ & K). exists s. auto.
Qed.
Lemma porosity_ok nc leaf actnum p ntgs s : 0 <= nc -> covers nc actnum -> nc <= zlen p -> covers nc ntgs -> NoDup (map fst leaf) -> (forall c, In c leaf -> 0 <= fst c < nc) ->
  cell_volumes nc leaf actnum (Some p) ntgs = Ok s -> Rsum (v_cell s) <> 0%R -> ntgs = None ->
  let w := nthR (v_cell s) in let cells := actives (v_cell s) in
  let pv := total (fun i => w i * nthR p i)%R cells in
  volume_statistics s (Some p) ntgs = Ok (mkVstats (Rsum (v_cell s)) (zlen cells) (Some (pv, (pv / Rsum (v_cell s))%R)) None).
Proof.
  intros H1 H2 H3 H4 H5 H6 E NZ -> w cells pv. destruct (cell_volumes_inv nc leaf actnum (Some p) None H1 H2 H3 H4 H5 H6) as (s' & E' & L1 & L2 & L3 & L4 & V & Z0 & P & N & Q & K).
  rewrite E in E'. injection E' as <-. unfold volume_statistics. rewrite !racc_id.
  assert (EP : Rsum (v_pore s) = pv) by (apply (sum_array (v_pore s) (v_cell s)); [lia|exact P]). rewrite EP, mdiv_ok by exact NZ. cbn [bind]. rewrite K. reflexivity.
Qed.
Lemma net_ok nc leaf actnum p n s : 0 <= nc -> covers nc actnum -> nc <= zlen p -> nc <= zlen n -> NoDup (map fst leaf) -> (forall c, In c leaf -> 0 <= fst c < nc) ->
  cell_volumes nc leaf actnum (Some p) (Some n) = Ok s -> Rsum (v_cell s) <> 0%R ->
  let w := nthR (v_cell s) in let cells := actives (v_cell s) in
  let pv := total (fun i => w i * nthR p i)%R cells in
  let nv := total (fun i => w i * nthR n i)%R cells in
  let npv := total (fun i => w i * nthR p i * nthR n i)%R cells in
  nv <> 0%R ->
  volume_statistics s (Some p) (Some n) = Ok (mkVstats (Rsum (v_cell s)) (zlen cells) (Some (pv, (pv / Rsum (v_cell s))%R)) (Some (nv, nv / Rsum (v_cell s), npv, npv / nv)%R)).
Proof.
  intros H1 H2 H3 H4 H5 H6 E NZ w cells pv nv npv NN. destruct (cell_volumes_inv nc leaf actnum (Some p) (Some n) H1 H2 H3 H4 H5 H6) as (s' & E' & L1 & L2 & L3 & L4 & V & Z0 & P & N & Q & K).
  rewrite E in E'. injection E' as <-. unfold volume_statistics. rewrite !racc_id.
  assert (EP : Rsum (v_pore s) = pv) by (apply (sum_array (v_pore s) (v_cell s)); [lia|exact P]).
  assert (EN : Rsum (v_net s) = nv) by (apply (sum_array (v_net s) (v_cell s)); [lia|exact N]).
  assert (EQ : Rsum (v_netpore s) = npv) by (apply (sum_array (v_netpore s) (v_cell s)); [lia|exact Q]).
  rewrite EP, EN, EQ, !mdiv_ok by assumption. cbn [bind]. rewrite K. reflexivity.
Qed.
(* without cells too small to count, these are averages *)
Lemma clean_mean vols f lo hi : clean vols -> actives vols <> [] -> (forall i, In i (actives vols) -> lo <= f i <= hi)%R ->
  Rsum vols = total (nthR vols) (actives vols) /\ (0 < Rsum vols)%R /\
  (total (fun i => nthR vols i * f i) (actives vols) / Rsum vols = arithmetic (nthR vols) f (actives vols))%R /\ (lo <= arithmetic (nthR vols) f (actives vols) <= hi)%R.
Proof.
  intros C Ne B. pose proof (sum_clean vols C) as E. split; [exact E|]. split; [rewrite E; apply total_pos; [exact Ne|apply actives_w]|]. split; [unfold arithmetic; rewrite E; reflexivity|].
  apply arithmetic_bounds; [exact Ne|apply actives_w|exact B].
Qed.
Lemma net_porosity_mean vols p n lo hi : (forall i, In i (actives vols) -> 0 <= nthR n i)%R -> (0 < total (fun i => nthR vols i * nthR n i) (actives vols))%R ->
  (forall i, In i (actives vols) -> lo <= nthR p i <= hi)%R ->
  (lo <= total (fun i => nthR vols i * nthR p i * nthR n i) (actives vols) / total (fun i => nthR vols i * nthR n i) (actives vols) <= hi)%R.
Proof.
  intros N0 T B. set (D := total (fun i => (nthR vols i * nthR n i)%R) (actives vols)) in *. split.
  - apply (Rmult_le_reg_r D); [exact T|]. unfold Rdiv. rewrite Rmult_assoc, Rinv_l by lra. rewrite Rmult_1_r. unfold D. rewrite <- total_scale. apply total_le. intros i Hi.
    pose proof (actives_w vols i Hi). pose proof (N0 i Hi). destruct (B i Hi) as [B1 _].
    assert (0 <= nthR vols i * nthR n i * (nthR p i - lo))%R by (apply Rmult_le_pos; [apply Rmult_le_pos; lra|lra]). lra.
  - apply (Rmult_le_reg_r D); [exact T|]. unfold Rdiv. rewrite Rmult_assoc, Rinv_l by lra. rewrite Rmult_1_r. unfold D. rewrite <- total_scale. apply total_le. intros i Hi.
    pose proof (actives_w vols i Hi). pose proof (N0 i Hi). destruct (B i Hi) as [_ B1].
    assert (0 <= nthR vols i * nthR n i * (hi - nthR p i))%R by (apply Rmult_le_pos; [apply Rmult_le_pos; lra|lra]). lra.
Qed.
(* ---- permeability *)
Lemma perm_fold vols perms : forall l s, (forall i, In i l -> 0 <= i < zlen vols) -> (forall i, In i l -> active vols i = true -> i < zlen perms /\ (0 < nthR perms i)%R) ->
  let act := filter (active vols) l in let w := nthR vols in let k := nthR perms in
  exists cells, mapM (fun i => let* v := rget vols i in let* k := if Rltb cutoff v then rget perms i else Ok 0%R in Ok (v, k)) l = Ok cells /\
  foldM perm_cell cells s = Ok (mkPsums (ps_k s + total k act) (ps_inv s + total (fun i => 1 / k i) act) (ps_vk s + total (fun i => w i * k i) act)
    (ps_vinv s + total (fun i => w i / k i) act) (ps_log s + total (fun i => ln (k i)) act) (ps_vlog s + total (fun i => w i * ln (k i)) act))%R.
Proof.
  induction l as [|i t IH]; intros s R K.
  - exists []. split; [reflexivity|]. cbn. destruct s as [a b c d e f]. cbn. unfold total. cbn [map]. rewrite !Rsum_nil, !Rplus_0_r. reflexivity.
  - cbn [mapM filter]. rewrite (rget_nth vols i) by (apply R; left; reflexivity). cbn [bind]. fold (active vols i). specialize (K i (or_introl eq_refl)) as Ki.
    assert (R' : forall j, In j t -> 0 <= j < zlen vols) by (intros j Hj; apply R; right; exact Hj).
    assert (K' : forall j, In j t -> active vols j = true -> j < zlen perms /\ (0 < nthR perms j)%R) by (intros j Hj; apply K; right; exact Hj).
    pose proof (R i (or_introl eq_refl)) as Ri.
    destruct (active vols i) eqn:T.
    + destruct (Ki eq_refl) as [Kr Kp]. rewrite (rget_nth perms i) by lia. cbn [bind].
      destruct (IH (mkPsums (ps_k s + nthR perms i) (ps_inv s + 1 / nthR perms i) (ps_vk s + nthR perms i * nthR vols i) (ps_vinv s + nthR vols i / nthR perms i) (ps_log s + ln (nthR perms i)) (ps_vlog s + ln (nthR perms i) * nthR vols i))%R R' K') as (cells & E & F).
      rewrite E. cbn [bind]. eexists. split; [reflexivity|]. cbn [foldM perm_cell]. fold (active vols i). rewrite T, !mdiv_ok by lra. cbn [bind]. unfold mln. rewrite (proj2 (Rltb_true _ _) Kp). cbn [bind]. rewrite F. cbn [ps_k ps_inv ps_vk ps_vinv ps_log ps_vlog].
      unfold total. cbn [map]. rewrite !Rsum_cons. do 2 f_equal; ring.
    + cbn [bind]. destruct (IH s R' K') as (cells & E & F). rewrite E. cbn [bind]. eexists. split; [reflexivity|]. cbn [foldM perm_cell]. fold (active vols i). rewrite T. cbn [bind]. exact F.
Qed.
Lemma total_one l : total one l = IZR (zlen l).
Proof.
  unfold total. induction l as [|a t IH]; [reflexivity|]. cbn [map]. rewrite Rsum_cons, IH. unfold one, zlen. cbn [List.length]. rewrite Nat2Z.inj_succ, succ_IZR. ring.
Qed.
Lemma perm_general vols perms volume : actives vols <> [] -> volume <> 0%R ->
  (forall i, In i (actives vols) -> i < zlen perms /\ (0 < nthR perms i)%R) ->
  let w := nthR vols in let k := nthR perms in let cells := actives vols in
  perm_averages volume (zlen cells) vols perms = Ok (mkAverages
    (total (fun i => w i * k i) cells / volume) (volume / total (fun i => w i / k i) cells) (exp (total (fun i => w i * ln (k i)) cells / volume))
    (arithmetic one k cells) (harmonic one k cells) (geometric one k cells))%R.
Proof.
  intros Ne NV K w k cells. unfold perm_averages.
  destruct (perm_fold vols perms (zrange 0 (zlen vols)) (mkPsums 0 0 0 0 0 0)%R) as (cs & E & F).
  { intros i Hi. apply In_zrange in Hi. exact Hi. }
  { intros i Hi T. apply K. unfold actives. apply filter_In. auto. }
  rewrite E. cbn [bind]. rewrite F. cbn [bind ps_k ps_inv ps_vk ps_vinv ps_log ps_vlog]. fold (actives vols). fold cells w k.
  assert (Kp : forall i, In i cells -> (0 < k i)%R) by (intros i Hi; apply K, Hi).
  assert (T1 : (0 < total (fun i => w i / k i) cells)%R) by (apply total_pos; [exact Ne|]; intros i Hi; apply Rdiv_lt_0_compat; [apply actives_w, Hi|apply Kp, Hi]).
  assert (T2 : (0 < total (fun i => 1 / k i) cells)%R) by (apply total_pos; [exact Ne|]; intros i Hi; apply Rdiv_lt_0_compat; [lra|apply Kp, Hi]).
  assert (T3 : (0 < IZR (zlen cells))%R) by (rewrite <- total_one; apply total_pos; [exact Ne|]; intros; unfold one; lra).
  rewrite !Rplus_0_l, !mdiv_ok by lra. cbn [bind].
  unfold arithmetic, harmonic, geometric. rewrite total_one.
  rewrite (total_ext (fun i => one i * k i)%R k) by (intros; unfold one; ring). rewrite (total_ext (fun i => one i * ln (k i))%R (fun i => ln (k i))) by (intros; unfold one; ring). reflexivity.
Qed.
Lemma perm_ok vols perms lo hi : clean vols -> actives vols <> [] -> (0 < lo)%R ->
  (forall i, In i (actives vols) -> i < zlen perms /\ (lo <= nthR perms i <= hi)%R) ->
  let k := nthR perms in let cells := actives vols in
  exists a, perm_averages (Rsum vols) (zlen cells) vols perms = Ok a /\
    a_arith a = arithmetic (nthR vols) k cells /\ a_harm a = harmonic (nthR vols) k cells /\ a_geom a = geometric (nthR vols) k cells /\
    u_arith a = arithmetic (fun _ => 1%R) k cells /\ u_harm a = harmonic (fun _ => 1%R) k cells /\ u_geom a = geometric (fun _ => 1%R) k cells /\
    (lo <= a_harm a <= a_geom a)%R /\ (a_geom a <= a_arith a <= hi)%R /\ (lo <= u_harm a <= u_geom a)%R /\ (u_geom a <= u_arith a <= hi)%R.
Proof.
  intros C Ne Hlo K k cells. pose proof (sum_clean vols C) as E. fold cells in E.
  assert (PV : (0 < Rsum vols)%R) by (rewrite E; apply total_pos; [exact Ne|apply actives_w]).
  pose proof (perm_general vols perms (Rsum vols) Ne ltac:(lra)) as G. fold cells k in G. cbv zeta in G. rewrite G; [|intros i Hi; destruct (K i Hi); split; [assumption|fold (k i) in *; unfold k in *; lra]]. clear G. eexists. split; [reflexivity|]. cbn [a_arith a_harm a_geom u_arith u_harm u_geom].
  rewrite E. fold (arithmetic (nthR vols) k cells) (harmonic (nthR vols) k cells) (geometric (nthR vols) k cells). repeat (split; [reflexivity|]).
  assert (B : forall i, In i cells -> (lo <= k i <= hi)%R) by (intros i Hi; apply K, Hi).
  destruct (means_order (nthR vols) k cells lo hi Ne Hlo (actives_w vols) B) as [A1 A2]. destruct (means_order one k cells lo hi Ne Hlo ltac:(intros; unfold one; lra) B) as [A3 A4]. auto.
Qed.
