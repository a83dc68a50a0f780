From Verif Require Import Fluid_Spec Lin_Facts Matx_Proofs Matx_Proofs3 Mim_Proofs BaseFacts RBaseFacts Rprop_Proofs3 Euler_Proofs2.
From Coq Require Import Lra Lia.
Open Scope Z_scope.

Lemma mean_trace K : shaped K COrd 3 3 -> mtrace K = Ok (3 * mean_diag K)%R.
Proof. intros H. rewrite (trace_ok K COrd 3 3 _ H). unfold mean_diag. change (Z.min 3 3) with 3. f_equal. field. Qed.
Lemma sqrt_k_phi_ok K poro : good_rock K poro -> sqrt_k_phi K poro = Ok (sqrt (mean_diag K / poro)) /\ (0 < sqrt (mean_diag K / poro))%R.
Proof.
  intros (S & Hk & Hp). unfold sqrt_k_phi. rewrite (mean_trace K S). cbn [bind]. destruct S as (_ & -> & _ & _).
  rewrite mdiv_Ok by nra. cbn [bind].
  replace (3 * mean_diag K / (3 * poro))%R with (mean_diag K / poro)%R by (field; lra).
  assert (0 < mean_diag K / poro)%R by (apply Rdiv_lt_0_compat; lra).
  rewrite (proj2 (Rltb_false _ _)) by lra. split; [reflexivity | apply sqrt_lt_R0; exact H].
Qed.
Lemma jscaled_ok r f K poro s : good_rock K poro -> jscaled r f K poro s = Ok (leverett r f (mean_diag K) poro s).
Proof.
  intros H. unfold jscaled, leverett. destruct (jr_use r); [| reflexivity].
  destruct (sqrt_k_phi_ok K poro H) as [-> P]. cbn [bind]. apply mdiv_Ok. lra.
Qed.
Lemma cap_press_ok r K poro s : good_rock K poro -> cap_press r K poro s = Ok (leverett r (jr_J r) (mean_diag K) poro s) /\ cap_press_deriv r K poro s = Ok (leverett r (jr_dJ r) (mean_diag K) poro s).
Proof. intros H. split; apply jscaled_ok; exact H. Qed.
Lemma deriv_ok r K poro s : good_rock K poro -> derivable_pt_lim (jr_J r) s (jr_dJ r s) ->
  derivable_pt_lim (fun x => value (cap_press r K poro x)) s (value (cap_press_deriv r K poro s)).
Proof.
  intros H D. rewrite (proj2 (cap_press_ok r K poro s H)). cbn [value].
  eapply derivable_pt_lim_ext. { intros x. rewrite (proj1 (cap_press_ok r K poro x H)). cbn [value]. reflexivity. }
  unfold leverett. destruct (jr_use r); [| exact D].
  eapply derivable_pt_lim_ext with (f := fun x => ((jr_sct r / sqrt (mean_diag K / poro)) * jr_J r x)%R).
  { intros x. unfold Rdiv. ring. }
  replace (jr_dJ r s * jr_sct r / sqrt (mean_diag K / poro))%R with ((jr_sct r / sqrt (mean_diag K / poro)) * jr_dJ r s)%R by (unfold Rdiv; ring).
  apply (derivable_pt_lim_scal (jr_J r)). exact D.
Qed.

Lemma clamp_ok a b x : (a <= b)%R -> (a <= smin b (smax a x) <= b)%R.
Proof. intros H. rewrite smin_Rmin, smax_Rmax. unfold Rmin, Rmax. destruct (Rle_dec a x); destruct (Rle_dec b _); lra. Qed.
Lemma clamp_id a b x : (a <= x <= b)%R -> smin b (smax a x) = x.
Proof. intros H. rewrite smin_Rmin, smax_Rmax. unfold Rmin, Rmax. destruct (Rle_dec a x); destruct (Rle_dec b _); lra. Qed.
Lemma sat_range r K poro p s : (jr_smin r <= jr_smax r)%R -> sat_from_cap_press r K poro p = Ok s -> (jr_smin r <= s <= jr_smax r)%R.
Proof.
  intros H E. unfold sat_from_cap_press in E. destruct (if jr_use r then _ else _) as [x | |]; cbn [bind] in E; try discriminate. injection E as <-. apply clamp_ok. exact H.
Qed.
Lemma sat_formula r K poro p : good_rock K poro -> (jr_use r = true -> jr_sct r <> 0%R) ->
  sat_from_cap_press r K poro p = Ok (Rmin (jr_smax r) (Rmax (jr_smin r) (jr_Jinv r (if jr_use r then p * sqrt (mean_diag K / poro) / jr_sct r else p)%R))).
Proof.
  intros H S. unfold sat_from_cap_press. rewrite <- smin_Rmin, <- smax_Rmax. destruct (jr_use r).
  - destruct (sqrt_k_phi_ok K poro H) as [-> _]. cbn [bind]. rewrite mdiv_Ok by (apply S; reflexivity). reflexivity.
  - reflexivity.
Qed.
Lemma roundtrip r K poro s p : good_rock K poro -> (jr_use r = true -> jr_sct r <> 0%R) -> invertible r -> (jr_smin r <= s <= jr_smax r)%R ->
  cap_press r K poro s = Ok p -> sat_from_cap_press r K poro p = Ok s.
Proof.
  intros H S I Hs E. rewrite (proj1 (cap_press_ok r K poro s H)) in E. injection E as <-.
  rewrite (sat_formula r K poro _ H S). f_equal. rewrite <- smin_Rmin, <- smax_Rmax. unfold leverett.
  destruct (jr_use r) eqn:U.
  - destruct (sqrt_k_phi_ok K poro H) as [_ P].
    replace (jr_J r s * jr_sct r / sqrt (mean_diag K / poro) * sqrt (mean_diag K / poro) / jr_sct r)%R with (jr_J r s).
    + rewrite I by exact Hs. apply clamp_id. exact Hs.
    + field. split; [lra | apply S; reflexivity].
  - rewrite I by exact Hs. apply clamp_id. exact Hs.
Qed.
Lemma cap_decreasing r K poro s s' : good_rock K poro -> (0 < jr_sct r)%R -> (forall x y, (x < y)%R -> (jr_J r y < jr_J r x)%R) -> (s < s')%R ->
  (value (cap_press r K poro s') < value (cap_press r K poro s))%R.
Proof.
  intros H S D L. rewrite (proj1 (cap_press_ok r K poro s H)), (proj1 (cap_press_ok r K poro s' H)). cbn [value]. unfold leverett.
  specialize (D s s' L). destruct (jr_use r); [| exact D].
  destruct (sqrt_k_phi_ok K poro H) as [_ P]. apply Rmult_lt_compat_r; [apply Rinv_0_lt_compat; exact P | nra].
Qed.

(* ---- the cell interface *)
Lemma has_rocks_in fl k r : zget (fl_rocks fl) k = Some r -> has_rocks fl = true.
Proof. unfold has_rocks. destruct (fl_rocks fl); [| reflexivity]. intros E. apply zget_Some_range in E. unfold zlen in E. cbn in E. lia. Qed.
Lemma rock_of_ok fl c r K poro : cell_data fl c r K poro -> rock_of fl c = Ok r /\ has_rocks fl = true.
Proof.
  intros ((k & E1 & E2) & _). unfold rock_of, rget. rewrite E1. cbn [bind]. rewrite E2. split; [reflexivity | eapply has_rocks_in; eauto].
Qed.
Lemma with_rock_ok fl c r K poro f : cell_data fl c r K poro -> with_rock fl c f = f r K poro.
Proof.
  intros H. unfold with_rock. rewrite (proj1 (rock_of_ok fl c r K poro H)). destruct H as (_ & -> & E). cbn [bind]. unfold rget. rewrite E. reflexivity.
Qed.
Lemma dispatch fl c r K poro : cell_data fl c r K poro ->
  (forall s, capillary_pressure fl c s = cap_press r K poro s) /\ (forall s, capillary_pressure_deriv fl c s = cap_press_deriv r K poro s) /\
  (forall p, saturation_from_cap fl c p = sat_from_cap_press r K poro p) /\ s_min fl c = Ok (jr_smin r) /\ s_max fl c = Ok (jr_smax r).
Proof.
  intros H. destruct (rock_of_ok fl c r K poro H) as [E1 E2].
  unfold capillary_pressure, capillary_pressure_deriv, saturation_from_cap, s_min, s_max. rewrite E2, E1. cbn [bind].
  split; [| split; [| split; [| split; reflexivity]]]; intros; rewrite (with_rock_ok fl c r K poro _ H); reflexivity.
Qed.
Lemma cell_roundtrip fl c r K poro s p : cell_data fl c r K poro -> good_rock K poro -> (jr_use r = true -> jr_sct r <> 0%R) -> invertible r ->
  (jr_smin r <= s <= jr_smax r)%R -> capillary_pressure fl c s = Ok p -> saturation_from_cap fl c p = Ok s.
Proof.
  intros H G S I Hs E. destruct (dispatch fl c r K poro H) as (D1 & _ & D3 & _). rewrite D1 in E. rewrite D3. eapply roundtrip; eauto.
Qed.
Lemma no_rock fl c : fl_rocks fl = [] ->
  (forall s, capillary_pressure fl c s = Ok (100000 * (1 - s))%R) /\
  (forall s, derivable_pt_lim (fun x => value (capillary_pressure fl c x)) s (value (capillary_pressure_deriv fl c s))) /\
  s_min fl c = Ok 0%R /\ s_max fl c = Ok 1%R /\
  forall s p, capillary_pressure fl c s = Ok p -> (saturation_from_cap fl c p = Ok s <-> s = 0%R).
Proof.
  intros H. assert (N : has_rocks fl = false) by (unfold has_rocks; rewrite H; reflexivity).
  unfold capillary_pressure, capillary_pressure_deriv, saturation_from_cap, s_min, s_max. rewrite N. cbn [value].
  split; [reflexivity |]. split. { 
    intros s eps He. exists (mkposreal 1 Rlt_0_1). intros h Hh _.
    match goal with |- (Rabs ?x < _)%R => replace x with 0%R by (field; exact Hh) end. rewrite Rabs_R0. exact He. }
  split; [reflexivity | split; [reflexivity |]]. intros s p _. split; [intros E; injection E; auto | intros ->; reflexivity].
Qed.
Lemma cap_pressures fl sat : (forall c s, zget sat c = Some s -> exists r K poro, cell_data fl c r K poro /\ good_rock K poro) ->
  exists l, compute_cap_pressure fl sat = Ok l /\ zlen l = zlen sat /\
    forall c s r K poro, zget sat c = Some s -> cell_data fl c r K poro -> zget l c = Some (leverett r (jr_J r) (mean_diag K) poro s).
Proof.
  intros H. unfold compute_cap_pressure.
  assert (F : forall c, 0 <= c < zlen sat -> exists s p, zget sat c = Some s /\ (let* s := rget sat c in capillary_pressure fl c s) = Ok p /\ capillary_pressure fl c s = Ok p).
  { intros c Hc. destruct (zget_in_range sat c Hc) as [s E]. destruct (H c s E) as (r & K & poro & D & G).
    exists s, (leverett r (jr_J r) (mean_diag K) poro s). split; [exact E |]. unfold rget. rewrite E. cbn [bind].
    rewrite (proj1 (dispatch fl c r K poro D)), (proj1 (cap_press_ok r K poro s G)). auto. }
  destruct (mapM_exists (fun c => let* s := rget sat c in capillary_pressure fl c s) (zrange 0 (zlen sat))) as [l El].
  { intros c Hc. apply In_zrange in Hc. destruct (F c ltac:(lia)) as (s & p & _ & E & _). exists p. exact E. }
  exists l. split; [exact El |].
  split. { apply mapM_len in El. unfold zlen at 1. rewrite El, zrange_length. unfold zlen. lia. }
  intros c s r K poro E D. pose proof (zget_Some_range _ _ _ E) as Hc.
  destruct (mapM_get _ _ _ c (0 + c) El) as (b & Eb & Gb). { rewrite zget_zrange by lia. reflexivity. }
  rewrite Gb. f_equal. cbn [Z.add] in Eb. unfold rget in Eb. rewrite E in Eb. cbn [bind] in Eb.
  rewrite (proj1 (dispatch fl c r K poro D)) in Eb. destruct (H c s E) as (r' & K' & poro' & D' & G).
  assert (r' = r /\ K' = K /\ poro' = poro) as (-> & -> & ->).
  { destruct D as ((k & A1 & A2) & A3 & A4). destruct D' as ((k' & B1 & B2) & B3 & B4). rewrite A1 in B1. injection B1 as <-. rewrite A2 in B2.
    injection B2 as <-. rewrite A3 in B3. injection B3 as <-. rewrite A4 in B4. injection B4 as <-. auto. }
  rewrite (proj1 (cap_press_ok r K poro s G)) in Eb. injection Eb as <-. reflexivity.
Qed.
