From Verif Require Import Relp_Model Rpc_Spec BaseFacts RBaseFacts Lin_Facts Steady_Proofs Euler_Proofs2 Impl_Proofs Eld_Proofs2 Matx_Proofs Matx_Proofs2 Matx_Proofs3 Hnum_Proofs Hyb_Proofs Hyb_Proofs8 Hyb_Proofs9 Mim_Proofs Mim_Proofs2 Tens_Proofs5 Tens_Proofs6 Tens_Proofs7 Tens_Proofs9 Rpc_Proofs Rpc_Proofs3 Rpc_Proofs4 Tens_Spec Ssk_Spec Ssk_Proofs Ssk_Proofs2 Ssk_Proofs3 Ssk_Proofs4.
Open Scope Z_scope.

(* ---- one cubic cell: matrices are linear in the permeability ---- *)
Lemma evaluate_two dim c orth K K' k k' Binv fa T1 T2 : wf_cell dim c -> lapack_ok dim orth c -> holds K COrd dim dim k -> holds K' COrd dim dim k' -> shaped Binv FOrd (zlen (mc_faces c)) (zlen (mc_faces c)) -> shaped fa FOrd (zlen (mc_faces c)) (zlen (mc_faces c)) -> shaped T1 FOrd (zlen (mc_faces c)) dim -> shaped T2 FOrd (zlen (mc_faces c)) dim ->
  exists q B B', evaluate dim orth c K Binv fa T1 T2 = Ok B /\ evaluate dim orth c K' Binv fa T1 T2 = Ok B' /\ holds B FOrd (zlen (mc_faces c)) (zlen (mc_faces c)) (inverse_ip dim c k q) /\ holds B' FOrd (zlen (mc_faces c)) (zlen (mc_faces c)) (inverse_ip dim c k' q).
Proof.
  intros W LO HK HK' HB Hf H1 H2. unfold evaluate. assert (Hv : mc_vol c <> 0%R) by (destruct W as (_ & _ & Hv & _); lra). assert (Hd : IZR dim <> 0%R) by (apply not_0_IZR; destruct W; lia).
  destruct (setup_ok dim c W Binv fa T1 T2 _ _ _ _ HB Hf H1 H2) as (B1 & fa1 & S1 & S2 & E & HB1 & Hfa1 & HS1 & HS2). rewrite E. cbn [bind].
  destruct (regular_ok dim c orth B1 fa1 S2 LO HB1 Hfa1 HS2) as (q & B2 & S3 & E2 & Q & HB2 & HS3). rewrite E2. cbn [bind]. exists q.
  assert (X : forall K k, holds K COrd dim dim k -> exists B, (let* T2 := mat_mul_add_NNc 1 S1 K 0 S3 in let* tr := mtrace K in let* s1 := mdiv 1 (mc_vol c) in let* s2 := mdiv (6 * tr / IZR dim) (mc_vol c) in mat_mul_add_NT s1 T2 S1 s2 B2) = Ok B /\ holds B FOrd (zlen (mc_faces c)) (zlen (mc_faces c)) (inverse_ip dim c k q)).
  { clear K K' k k' HK HK'. intros K k HK. destruct (NNc_ok S1 K S3 _ dim dim _ _ _ 1 0 HS1 HK HS3) as (S4 & E3 & HS4). rewrite E3. cbn [bind]. rewrite (trace_ok K _ _ _ _ HK). cbn [bind]. rewrite Z.min_id. rewrite !mdiv_Ok by exact Hv. cbn [bind].
    destruct (NT_ok S4 S1 B2 _ _ dim _ _ _ (1 / mc_vol c) (6 * Sum dim (fun a => k a a) / IZR dim / mc_vol c) HS4 HS1 HB2) as (B & E4 & HB4). rewrite E4. exists B. split; [reflexivity|]. eapply holds_ext; [exact HB4|]. intros i j _ _. cbn beta. unfold inverse_ip.
    assert (M : mmul dim (fun i j => 1 * mmul dim (areavec c) k i j + 0 * q i j)%R (fun l j => areavec c j l) i j = mmul dim (mmul dim (areavec c) k) (fun l j => areavec c j l) i j) by (unfold mmul at 1 3; apply Sum_ext; intros; ring). rewrite M. field. split; assumption. }
  destruct (X K k HK) as (B & EB & HB'). destruct (X K' k' HK') as (B' & EB' & HB''). exists B, B'. split; [exact EB|]. split; [exact EB'|]. split; assumption.
Qed.
Lemma holds_same A B o rows cols f : holds A o rows cols f -> holds B o rows cols f -> A = B.
Proof.
  intros HA HB. rewrite (holds_eta _ _ _ _ _ HA), (holds_eta _ _ _ _ _ HB). f_equal. destruct HA as (_ & _ & _ & P1 & P2 & LA & GA). destruct HB as (_ & _ & _ & _ & _ & LB & GB). apply zlist_ext; [congruence|]. intros i Hi. rewrite LA in Hi. assert (0 < rows /\ 0 < cols) as (R0 & C0) by nia.
  rewrite !zget_nthR by lia. f_equal. destruct o.
  - pose proof (Z.div_mod i cols ltac:(lia)) as D. pose proof (Z.mod_pos_bound i cols C0) as M. assert (0 <= i / cols < rows) as Q by (split; [apply Z.div_pos; lia|apply Z.div_lt_upper_bound; lia]). specialize (GA _ _ Q M). specialize (GB _ _ Q M). cbn in GA, GB. replace (i / cols * cols + i mod cols) with i in GA, GB by lia. congruence.
  - pose proof (Z.div_mod i rows ltac:(lia)) as D. pose proof (Z.mod_pos_bound i rows R0) as M. assert (0 <= i / rows < cols) as Q by (split; [apply Z.div_pos; lia|apply Z.div_lt_upper_bound; lia]). specialize (GA _ _ M Q). specialize (GB _ _ M Q). cbn in GA, GB. replace (i mod rows + i / rows * rows) with i in GA, GB by lia. congruence.
Qed.
Lemma ip_linear dim c k q t i j : inverse_ip dim c (fun a b => k a b * t)%R q i j = (inverse_ip dim c k q i j * t)%R.
Proof.
  unfold inverse_ip. rewrite Sum_scal_r. assert (E : mmul dim (mmul dim (areavec c) (fun a b => k a b * t)%R) (fun l j => areavec c j l) i j = (mmul dim (mmul dim (areavec c) k) (fun l j => areavec c j l) i j * t)%R).
  { unfold mmul. rewrite <- Sum_scal_r. apply Sum_ext. intros l _. rewrite (Sum_ext dim _ (fun x => areavec c i x * k x l * t)%R) by (intros; ring). rewrite Sum_scal_r. ring. }
  rewrite E. unfold Rdiv. ring.
Qed.
Definition drock (t : R) : mat := diag_mat (2 * t, t, t / 2)%R.
Lemma drock_good t : (0 < t)%R -> good_rock (drock t).
Proof. intros P. apply diag_good. intros x [<- |[<- |[<- |[]]]]; lra. Qed.
Definition cube_steady (bct : Z) : ssups :=
  mkSsu (search (map (fun d => exact_pressures (start_at bct d) d) (zrange 0 3))) same_list one_cell cube_at (fun tot => rock_ip (drock (nthR tot 0))) bct 0 0 6.
Lemma one_tot tot : zlen tot = 1 -> Forall (fun x => 0 < x)%R tot -> exists t, tot = [t] /\ (0 < t)%R.
Proof. intros L P. assert (L' : length tot = 1%nat) by (unfold zlen in L; lia). destruct tot as [|t [|t' tot]]; try discriminate. exists t. split; [reflexivity|]. inversion P. assumption. Qed.
Lemma drock_rock t : (0 < t)%R -> rock_cells orth2 one_cell cube_at (fun _ => drock 1) (fun _ => t) (rock_ip (drock t)).
Proof.
  intros P k Hk. change (zlen one_cell) with 1 in Hk. assert (k = 0) by lia. subst k. pose proof (drock_good 1 ltac:(lra)) as G1. pose proof (drock_good t P) as Gt. assert (N : forall r c, 0 <= r -> 0 <= c -> shaped (mnew FOrd r c) FOrd r c) by (intros; eapply holds_shaped; apply holds_new; lia).
  destruct (evaluate_two 3 Mim_Proofs2.cube orth2 (drock 1) (drock t) _ _ (mnew FOrd 6 6) (mnew FOrd 6 6) (mnew FOrd 6 3) (mnew FOrd 6 3) cube_wf cube_lapack (proj1 G1) (proj1 Gt) (N 6 6 ltac:(lia) ltac:(lia)) (N 6 6 ltac:(lia) ltac:(lia)) (N 6 3 ltac:(lia) ltac:(lia)) (N 6 3 ltac:(lia) ltac:(lia))) as (q & B & B' & E & E' & HB & HB'). change (zlen (mc_faces Mim_Proofs2.cube)) with 6 in *.
  destruct G1 as (S1 & Y1 & P1). split; [exact S1|]. split; [exact Y1|]. split; [exact P1|]. split; [exact P|]. split; [exact cube_lapack|]. split; [|reflexivity].
  exists (mnew FOrd 6 6), (mnew FOrd 6 6), (mnew FOrd 6 3), (mnew FOrd 6 3), (mnew FOrd 6 6), B. change (nfaces one_cell 0) with 6. cbv zeta. repeat (split; [apply N; lia|]). split; [exact E|]. unfold rock_ip. cbn [ip_binv]. rewrite E'.
  apply (holds_same _ _ FOrd 6 6 (fun i j => inverse_ip 3 Mim_Proofs2.cube (entry (drock 1)) q i j * t)%R); [|apply get_inverse_ok; [exact HB|apply N; lia]]. eapply holds_ext; [apply get_inverse_ok; [exact HB'|apply N; lia]|]. intros i j _ _. cbn beta. rewrite Rmult_1_r, <- ip_linear. unfold inverse_ip.
  assert (D : forall a b, 0 <= a < 3 -> 0 <= b < 3 -> entry (drock t) a b = (entry (drock 1) a b * t)%R) by (intros a b Ha Hb; unfold drock; rewrite !diag_entry by assumption; destruct (Z.eqb_spec a b); [|ring]; destruct (three_cases a Ha) as [-> | [-> | ->]]; [change (2 * t = 2 * 1 * t)%R|change (t = 1 * t)%R|change (t / 2 = 1 / 2 * t)%R]; lra).
  f_equal. f_equal; [|f_equal; f_equal; f_equal; apply Sum_ext; intros a Ha; apply D; assumption]. unfold mmul. apply Sum_ext. intros l Hl. f_equal. apply Sum_ext. intros a Ha. rewrite D by assumption. reflexivity.
Qed.
Lemma cube_steady_ok bct : bct = 0 \/ bct = 2 -> steady_ok orth2 (cube_steady bct) (fun _ => drock 1) low_half hi_half.
Proof.
  intros Hb. split; [apply search_exact|]. split; [exact one_faces|]. split; [exact one_conforming|]. intros tot L P. change (zlen (su_g (cube_steady bct))) with 1 in L. destruct (one_tot tot L P) as (t & -> & Pt). cbn [cube_steady su_srt su_g su_geo su_ip su_bct]. change (nthR [t] 0) with t. split; [apply one_block; [apply drock_good; exact Pt|lia]|].
  intros k Hk. pose proof (drock_rock t Pt k Hk) as Q. change (zlen one_cell) with 1 in Hk. assert (k = 0) by lia. subst k. exact Q.
Qed.
Lemma cube_steady_total bct tot st : bct = 0 \/ bct = 2 -> zlen tot = 1 -> Forall (fun x => 0 < x)%R tot -> exists r, upscale_total (cube_steady bct) tot st = Ok r.
Proof.
  intros Hb L P. destruct (one_tot tot L P) as (t & -> & Pt). pose proof (drock_good t Pt) as G. unfold upscale_total. cbn [cube_steady su_K su_srt su_g su_geo su_ip su_bct su_ty su_maxit su_nf]. change (nthR [t] 0) with t.
  destruct (cube_upscaled (drock t) bct (start_at bct) 0 (fst st) (snd st) G ltac:(lia) ltac:(lia)) as (s & E & U & _).
  { intros d bc Lk. destruct Hb as [-> | ->]; unfold start_at; cbn [Z.eqb Pos.eqb]; [destruct (diag_fixed (2 * t, t, t / 2)%R d bc Lk) as (A & B)|destruct (periodic_linear (drock t) d bc Lk) as (A & B)]; auto. }
  rewrite E. cbn [bind]. assert (T : exists k, tensor_is (ts_cols s) k) by (destruct Hb as [-> | ->]; [destruct (fixed_diagonal _ _ _ _ _ _ _ _ U) as (k & Tk & _)|destruct (periodic_symmetric _ _ _ _ _ _ _ _ U) as (k & Tk & _)]; eauto).
  destruct T as (k & Tk). destruct (data_total _ k Tk) as (d & ->). cbn [bind]. eauto.
Qed.
(* straight-line relative permeabilities *)
Definition line_fluids : fluids := mkFl (fun ph _ s => if ph =? 0 then s else 1 - s)%R (fun ph => if ph =? 0 then 1 else 2)%R (1 / 100)%R 1000%R.
Lemma line_ok : fluids_ok line_fluids.
Proof. unfold fluids_ok. cbn. lra. Qed.
Lemma cube_case bct s ph : bct = 0 \/ bct = 2 -> 0 <= ph < 2 -> forall st st1, exists mK st' mw mo st2, single_tensor (cube_steady bct) st = Ok (mK, st') /\ steady_relperms (cube_steady bct) line_fluids [s] mK st1 = Ok ((mw, mo), st2) /\
  steady_kr orth2 (cube_steady bct) (fun _ => drock 1) low_half hi_half line_fluids bct [s] ph (entry mK) (entry (if ph =? 0 then mw else mo)).
Proof. intros Hb Hp st st1. apply steady_total; [exact Hb|apply cube_steady_ok; exact Hb|exact line_ok|reflexivity|reflexivity|exact Hp|]. intros tot s' L P. apply cube_steady_total; assumption. Qed.
(* two steps: the second changes nothing *)
Definition half_way : xsolver := fun _ s => Ok (map (fun _ => 1 / 2)%R s).
Lemma half_run : explicit_run (mkXp 5 (1 / 10)) half_way [1]%R = Ok ([[1 / 2]; [1 / 2]]%R, [1 / 2]%R).
Proof.
  unfold explicit_run. cbn [xp_steps]. change (Z.to_nat 5) with 5%nat. cbn [x_loop half_way map bind xp_change app].
  assert (D : forall a b, max_diff [a] [b] = Ok (smax 0 (Rabs (a - b)))) by reflexivity. rewrite D. cbn [bind]. rewrite smax_Rmax. replace (1 / 2 - 1)%R with (- (1 / 2))%R by lra. rewrite Rabs_Ropp, Rabs_pos_eq, Rmax_right by lra. destruct (Rltb (1 / 2) (1 / 10)) eqn:C; [apply Rltb_true in C; lra|].
  cbn [bind]. rewrite D. cbn [bind]. rewrite smax_Rmax. replace (1 / 2 - 1 / 2)%R with 0%R by lra. rewrite Rabs_R0, Rmax_left by lra. destruct (Rltb 0 (1 / 10)) eqn:C'; [reflexivity|apply Rltb_false in C'; lra].
Qed.
