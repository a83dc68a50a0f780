From Verif Require Import BaseFacts RBaseFacts Steady_Proofs Euler_Proofs Euler_Proofs2 Euler_Proofs3 Shape_Proofs2 Drv_Proofs2 Icap_Spec.
From Coq Require Import Lra Lia.
Open Scope Z_scope.

Lemma cap_floor_pos : (0 < cap_floor)%R.
Proof. unfold cap_floor. lra. Qed.

Lemma cap_mobility_ok m1 m2 : (0 <= m1)%R -> (0 <= m2)%R -> (0 < m1 + m2)%R ->
  exists k, cap_mobility m1 m2 = Ok k /\ k = Rmax (in_series m1 m2) (/ 10000000000) /\
    (/ 10000000000 <= k)%R /\ (k <= Rmax (Rmin m1 m2) (/ 10000000000))%R /\ cap_mobility m2 m1 = Ok k.
Proof.
  intros H1 H2 H. unfold cap_mobility. rewrite !mdiv_ok by lra. cbn [bind].
  exists (Rmax (in_series m1 m2) (/ 10000000000)). rewrite !smax_Rmax. unfold in_series, cap_floor.
  assert (E : (m1 * (1 / (m1 + m2)) * m2 = m1 * m2 / (m1 + m2))%R) by (field; lra).
  assert (E' : (m2 * (1 / (m2 + m1)) * m1 = m1 * m2 / (m1 + m2))%R) by (field; lra).
  rewrite E, E'. split; [reflexivity|]. split; [reflexivity|]. split; [apply Rmax_r|]. split; [|reflexivity].
  apply Rle_max_compat_r. apply Rmin_glb; apply Rmult_le_reg_r with (m1 + m2)%R; try lra; unfold Rdiv; rewrite Rmult_assoc, Rinv_l, Rmult_1_r by lra; nra.
Qed.
Lemma cap_mobility_undefined m1 m2 : (m1 + m2 = 0)%R -> cap_mobility m1 m2 = UB.
Proof. intros H. unfold cap_mobility. rewrite H, mdiv_0. reflexivity. Qed.

Lemma fixed_ok mobs c m : zget mobs c = Some m ->
  fixed_mobility mobs 0 c = Ok m /\ (forall ph, ph <> 0 -> fixed_mobility mobs ph c = Ok 0%R) /\ fixed_mobilities mobs c = Ok [m; 0%R].
Proof.
  intros H. unfold fixed_mobility, fixed_mobilities. apply rget_Ok in H. rewrite H. split; [reflexivity|]. split; [|reflexivity].
  intros ph Hp. destruct (Z.eqb_spec ph 0); [lia|reflexivity].
Qed.

Lemma conditions_ok conds i c : zget conds i = Some c ->
  zlen (cap_conditions conds) = zlen conds /\
  exists c', zget (cap_conditions conds) i = Some c' /\ c_type c' = c_type c /\
    (c_type c = Periodic -> c_val c' = 0%R) /\ (c_type c <> Periodic -> c_val c' = c_val c).
Proof.
  intros H. unfold cap_conditions. rewrite zlen_map, zget_map, H. split; [reflexivity|]. cbn [option_map]. eexists. split; [reflexivity|].
  unfold is_periodic. destruct c as [ty v]. destruct ty; cbn; repeat split; auto; try congruence.
Qed.

(* ---- sources *)
Lemma Rsum_opp l : Rsum (map Ropp l) = (- Rsum l)%R.
Proof. induction l; cbn [map]; rewrite ?Rsum_nil, ?Rsum_cons; lra. Qed.

Lemma mapM_combine_in {A B} (f : A -> res B) l : forall o, mapM f l = Ok o -> forall a b, In (a, b) (combine l o) -> f a = Ok b.
Proof.
  induction l as [|x l IH]; intros o H; cbn [mapM] in H.
  - injection H as <-. intros a b [].
  - destruct (f x) as [y| |] eqn:E; try discriminate. cbn [bind] in H. destruct (mapM f l) as [ys| |] eqn:E2; try discriminate. cbn [bind] in H.
    injection H as <-. intros a b [I | I]; [injection I as <- <-; assumption|]. eapply IH; eauto.
Qed.

Lemma sources_ok c p sat src : cap_sources c p sat = Ok src ->
  exists bm outs, build_bid_map p = Ok bm /\
    mapM (fun cf => face_update (cap_problem c p) bm sat (fst cf) (snd cf)) (all_faces (ep_cells p)) = Ok outs /\
    let ts := combine (all_faces (ep_cells p)) outs in
    zlen src = zlen sat /\
    (forall k, 0 <= k < zlen (ep_cells p) -> zlen (ep_cells p) <= zlen sat ->
       nthR src k = (- (net_source p k (nthR sat k) + Rsum (map (contribution k) ts)))%R) /\
    Rsum src = (Rsum (map wall_term ts) - Rsum (map (fun k => net_source p k (nthR sat k)) (zrange 0 (zlen (ep_cells p)))))%R.
Proof.
  intros H. unfold cap_sources in H. destruct (compute_residual _ _) as [r| |] eqn:E; try discriminate. cbn [bind] in H. injection H as <-.
  destruct (residual_net _ _ _ E) as (bm & outs & A & B & L & V & S). exists bm, outs. split; [exact A|]. split; [exact B|].
  cbv zeta in *. split; [rewrite zlen_map; exact L|]. split.
  - intros k Hk Hl. specialize (V k Hk). rewrite (nthR_get (map Ropp r) k (- nthR r k)%R).
    + rewrite V. reflexivity.
    + rewrite zget_map, (zget_nthR r k) by lia. reflexivity.
  - rewrite Rsum_opp, S. cbn [cap_problem ep_cells]. match goal with |- (- (?a - ?b) = _)%R => replace (- (a - b))%R with (b - a)%R by ring end. reflexivity.
Qed.

Lemma closed_ok c p sat src : cap_sources c p sat = Ok src ->
  (forall k, 0 <= k < zlen (ep_cells p) -> ep_inj p k = 0%R) ->
  (forall bm cf, build_bid_map p = Ok bm -> In cf (all_faces (ep_cells p)) -> leads_elsewhere p bm cf) ->
  Rsum src = 0%R.
Proof.
  intros H Hi Hf. destruct (sources_ok _ _ _ _ H) as (bm & outs & A & B & _ & _ & S). rewrite S.
  assert (W : Rsum (map wall_term (combine (all_faces (ep_cells p)) outs)) = 0%R).
  { apply Rsum_map_zero. intros [cf u] I. unfold wall_term. cbn [fst snd]. destruct u as [[c1 d]|]; [|reflexivity].
    destruct (Z.eqb_spec (fst cf) c1) as [Eq|]; [|reflexivity]. exfalso. subst c1.
    assert (Icf : In cf (all_faces (ep_cells p))) by (eapply in_combine_l; exact I).
    pose proof (mapM_combine_in _ _ _ B _ _ I) as F. destruct (face_kinds _ _ _ _ _ _ F) as (K1 & K2 & K3).
    destruct (Hf _ _ A Icf) as (L1 & L2). destruct (ef_bdry (snd cf)) eqn:Eb.
    - destruct (L2 eq_refl) as (k & b & c1 & g & G1 & G2 & G3 & G4 & G5). destruct (K3 k b c1 g eq_refl G1 G2 G3 G4) as (Q1 & Q2).
      destruct (Z_lt_le_dec c1 (fst cf)) as [Hl|Hl]; [specialize (Q1 Hl); discriminate|]. destruct (Q2 Hl) as (d' & Q). injection Q as Q _. lia.
    - destruct (K1 eq_refl) as (Q1 & Q2). specialize (L1 eq_refl).
      destruct (Z_lt_le_dec (ef_nb (snd cf)) (fst cf)) as [Hl|Hl]; [specialize (Q1 Hl); discriminate|]. destruct (Q2 Hl) as (d' & Q). injection Q as Q _. lia. }
  rewrite W. rewrite Rsum_map_zero; [lra|]. intros k I. apply In_zrange in I. unfold net_source. rewrite Hi by lia. rewrite Ropp_0, Rmax_left by lra. ring.
Qed.
