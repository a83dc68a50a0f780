(* Means and their order. *)
From Verif Require Import BaseFacts RBaseFacts Shape_Proofs2 Steady_Proofs Euler_Proofs2 Mload_Proofs Avg_Spec.
Open Scope R_scope.

Lemma total_ext f g l : (forall i, In i l -> f i = g i) -> total f l = total g l.
Proof.
  intros H. unfold total. apply Rsum_map_ext. exact H.
Qed.
Lemma total_le f g l : (forall i, In i l -> f i <= g i) -> total f l <= total g l.
Proof.
  intros H. unfold total. apply Rsum_map_le. exact H.
Qed.
Lemma total_plus f g l : total (fun i => f i + g i) l = total f l + total g l.
Proof.
  unfold total. apply Rsum_map_plus.
Qed.
Lemma total_scale c f l : total (fun i => c * f i) l = c * total f l.
Proof.
  unfold total. apply Rsum_map_scale.
Qed.
Lemma total_pos w l : l <> [] -> (forall i, In i l -> 0 < w i) -> 0 < total w l.
Proof.
  intros Ne H. destruct l as [|a t]; [congruence|]. unfold total. cbn [map]. rewrite Rsum_cons. pose proof (H a (or_introl eq_refl)).
  assert (0 <= Rsum (map w t)) by (apply Rsum_map_nonneg; intros x Hx; apply Rlt_le, H; right; exact Hx). lra.
Qed.
Lemma arithmetic_bounds w f l lo hi : l <> [] -> (forall i, In i l -> 0 < w i) -> (forall i, In i l -> lo <= f i <= hi) -> lo <= arithmetic w f l <= hi.
Proof.
  intros Ne W B. pose proof (total_pos w l Ne W) as P. unfold arithmetic. split.
  - apply (Rmult_le_reg_r (total w l)); [exact P|]. unfold Rdiv. rewrite Rmult_assoc, Rinv_l by lra. rewrite Rmult_1_r, <- total_scale. apply total_le. intros i Hi.
    pose proof (W i Hi). destruct (B i Hi). rewrite Rmult_comm. apply Rmult_le_compat_l; lra.
  - apply (Rmult_le_reg_r (total w l)); [exact P|]. unfold Rdiv. rewrite Rmult_assoc, Rinv_l by lra. rewrite Rmult_1_r, <- total_scale. apply total_le. intros i Hi.
    pose proof (W i Hi). destruct (B i Hi). rewrite (Rmult_comm hi). apply Rmult_le_compat_l; lra.
Qed.
Lemma ln_le x : 0 < x -> ln x <= x - 1.
Proof.
  intros H. pose proof (exp_ineq1_le (ln x)) as E. rewrite exp_ln in E by exact H. lra.
Qed.
Lemma exp_le x y : x <= y -> exp x <= exp y.
Proof.
  intros [H|<-]; [left; apply exp_increasing; exact H|right; reflexivity].
Qed.
Lemma geometric_arithmetic w f l : l <> [] -> (forall i, In i l -> 0 < w i) -> (forall i, In i l -> 0 < f i) -> geometric w f l <= arithmetic w f l.
Proof.
  intros Ne W F. pose proof (total_pos w l Ne W) as P.
  assert (PA : 0 < arithmetic w f l). { apply Rdiv_lt_0_compat; [|exact P]. apply total_pos; [exact Ne|]. intros i Hi. apply Rmult_lt_0_compat; auto. }
  set (A := arithmetic w f l) in *. unfold geometric. apply Rle_trans with (exp (ln A)); [|rewrite exp_ln by exact PA; lra]. apply exp_le. apply (Rmult_le_reg_r (total w l)); [exact P|].
  unfold Rdiv. rewrite Rmult_assoc, Rinv_l by lra. rewrite Rmult_1_r, <- total_scale.
  assert (L : total (fun i => w i * ln (f i)) l <= total (fun i => ln A * w i + (/ A * (w i * f i) + - 1 * w i)) l).
  { apply total_le. intros i Hi. pose proof (W i Hi) as Wi. pose proof (F i Hi) as Fi.
    assert (Q : 0 < f i / A) by (apply Rdiv_lt_0_compat; assumption). pose proof (ln_le _ Q) as E. unfold Rdiv at 1 in E. rewrite ln_mult in E by (try apply Rinv_0_lt_compat; assumption). rewrite ln_Rinv in E by assumption.
    assert (M : w i * (ln (f i) - ln A) <= w i * (f i / A - 1)) by (apply Rmult_le_compat_l; lra). unfold Rdiv in M. lra. }
  rewrite !total_plus, !total_scale in L. rewrite total_scale.
  assert (Z0 : / A * total (fun i => w i * f i) l = total w l).
  { apply (Rmult_eq_reg_l A); [|lra]. rewrite <- Rmult_assoc, Rinv_r, Rmult_1_l by lra. unfold A, arithmetic. field. lra. }
  rewrite Z0 in L. lra.
Qed.
Lemma harmonic_geometric w f l : l <> [] -> (forall i, In i l -> 0 < w i) -> (forall i, In i l -> 0 < f i) -> harmonic w f l <= geometric w f l.
Proof.
  intros Ne W F. pose proof (total_pos w l Ne W) as P.
  assert (F' : forall i, In i l -> 0 < / f i) by (intros i Hi; apply Rinv_0_lt_compat, F, Hi).
  pose proof (geometric_arithmetic w (fun i => / f i) l Ne W F') as H.
  assert (PH : 0 < total (fun i => w i / f i) l) by (apply total_pos; [exact Ne|]; intros i Hi; apply Rdiv_lt_0_compat; auto).
  assert (E : geometric w (fun i => / f i) l = / geometric w f l).
  { unfold geometric. rewrite <- exp_Ropp. f_equal. rewrite <- Ropp_div. f_equal. replace (- total (fun i => w i * ln (f i)) l) with (-1 * total (fun i => w i * ln (f i)) l) by ring. rewrite <- total_scale.
    apply total_ext. intros i Hi. rewrite ln_Rinv by (apply F, Hi). ring. }
  assert (E2 : arithmetic w (fun i => / f i) l = / harmonic w f l).
  { unfold arithmetic, harmonic. rewrite (total_ext (fun i => w i * / f i) (fun i => w i / f i)) by (intros; reflexivity). field. split; lra. }
  rewrite E, E2 in H. assert (PG : 0 < geometric w f l) by apply exp_pos. assert (PHm : 0 < harmonic w f l) by (apply Rdiv_lt_0_compat; assumption).
  apply Rinv_le_contravar in H; [|apply Rinv_0_lt_compat; exact PG]. rewrite !Rinv_inv in H. exact H.
Qed.
Lemma harmonic_low w f l lo : l <> [] -> 0 < lo -> (forall i, In i l -> 0 < w i) -> (forall i, In i l -> lo <= f i) -> lo <= harmonic w f l.
Proof.
  intros Ne Hlo W F. pose proof (total_pos w l Ne W) as P.
  assert (PH : 0 < total (fun i => w i / f i) l). { apply total_pos; [exact Ne|]; intros i Hi; apply Rdiv_lt_0_compat; auto. specialize (F i Hi). lra. }
  unfold harmonic. apply (Rmult_le_reg_r (total (fun i => w i / f i) l)); [exact PH|]. unfold Rdiv at 2. rewrite Rmult_assoc, Rinv_l by lra. rewrite Rmult_1_r, <- total_scale. apply total_le.
  intros i Hi. pose proof (W i Hi). pose proof (F i Hi). apply (Rmult_le_reg_r (f i)); [lra|]. unfold Rdiv. rewrite (Rmult_assoc lo), Rmult_assoc, Rinv_l by lra. rewrite Rmult_1_r, (Rmult_comm lo). apply Rmult_le_compat_l; lra.
Qed.
Lemma means_order w f l lo hi : l <> [] -> 0 < lo -> (forall i, In i l -> 0 < w i) -> (forall i, In i l -> lo <= f i <= hi) ->
  lo <= harmonic w f l <= geometric w f l /\ geometric w f l <= arithmetic w f l <= hi.
Proof.
  intros Ne Hlo W B. assert (F : forall i, In i l -> 0 < f i) by (intros i Hi; destruct (B i Hi); lra). split; [split|split].
  - apply harmonic_low; auto. intros i Hi. apply B, Hi.
  - apply harmonic_geometric; auto.
  - apply geometric_arithmetic; auto.
  - apply (arithmetic_bounds w f l lo hi Ne W B).
Qed.
Lemma variance_nonneg w f l : l <> [] -> (forall i, In i l -> 0 < w i) -> 0 <= variance w f l.
Proof.
  intros Ne W. unfold variance. set (m := arithmetic w f l). pose proof (total_pos w l Ne W) as P. unfold arithmetic. apply Rmult_le_pos; [|apply Rlt_le, Rinv_0_lt_compat; exact P].
  apply Rsum_map_nonneg. intros i Hi. pose proof (W i Hi). apply Rmult_le_pos; [lra|]. pose proof (Rle_0_sqr (f i - m)) as Q. exact Q.
Qed.
Lemma variance_moments w f l : l <> [] -> (forall i, In i l -> 0 < w i) -> variance w f l = arithmetic w (fun i => f i * f i) l - arithmetic w f l * arithmetic w f l.
Proof.
  intros Ne W. pose proof (total_pos w l Ne W) as P. unfold variance. set (m := arithmetic w f l).
  assert (Em : total (fun i => w i * f i) l = m * total w l) by (unfold m, arithmetic; field; lra).
  unfold arithmetic at 1 2. rewrite (total_ext (fun i => w i * ((f i - m) * (f i - m))) (fun i => w i * (f i * f i) + (-2 * m * (w i * f i) + m * m * w i))) by (intros; ring).
  rewrite !total_plus, !total_scale, Em. field. lra.
Qed.
