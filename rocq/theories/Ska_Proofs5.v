From Verif Require Import Relp_Model Rpc_Spec BaseFacts RBaseFacts Lin_Facts Steady_Proofs Euler_Proofs2 Impl_Proofs Eld_Proofs2 Matx_Proofs Matx_Proofs2 Matx_Proofs3 Hnum_Proofs Hyb_Proofs Hyb_Proofs8 Hyb_Proofs9 Mim_Proofs Mim_Proofs2 Tens_Proofs5 Tens_Proofs6 Tens_Proofs7 Tens_Proofs9 Rpc_Proofs Rpc_Proofs3 Rpc_Proofs4 Ssk_Proofs Ssk_Proofs2 Ssk_Proofs3 Ssk_Proofs5 Ska_Spec Lin_Spec Tens_Spec Ska_Proofs Ska_Proofs2 Ska_Proofs3 Ska_Proofs4.
Open Scope Z_scope.

(* ---- one cubic cell whose mobility differs between the axes ---- *)
Definition trock (a b c : R) : mat := diag_mat (2 * a, b, c / 2)%R.
Lemma trock_good a b c : (0 < a)%R -> (0 < b)%R -> (0 < c)%R -> Tens_Proofs9.good_rock (trock a b c).
Proof. intros. apply diag_good. intros x [<- |[<- |[<- |[]]]]; lra. Qed.
Definition mob_rock (ph : cell_phases) : mat := trock (mob_total ph 0 0) (mob_total ph 1 1) (mob_total ph 2 2).
Lemma mob_rock_good ph : mobile ph -> Tens_Proofs9.good_rock (mob_rock ph).
Proof. intros (_ & D). apply trock_good; apply (diag_pos _ _ D); lia. Qed.
Definition cube_work : aniso_work := mkAWork (mnew FOrd 6 6) (mnew FOrd 6 6) (mnew FOrd 6 3) (mnew FOrd 6 3) [0; 0; 0]%R (mnew FOrd 3 3) (mnew FOrd 6 3) (mnew FOrd 6 6) (zrepeat 0%R 6).
Lemma shaped_new r c : 0 <= r -> 0 <= c -> shaped (mnew FOrd r c) FOrd r c.
Proof. intros. eapply holds_shaped. apply holds_new; lia. Qed.
Lemma cube_work_ok : aniso_work_ok 3 6 cube_work.
Proof. repeat split; try reflexivity; try apply shaped_new; lia. Qed.
Lemma ip_same dim c k k' q q' i j : wf_cell dim c -> closed_cell dim c -> qr_factor (zlen (mc_faces c)) dim (fun i j => area c i * offset c i j)%R q -> qr_factor (zlen (mc_faces c)) dim (fun i j => area c i * offset c i j)%R q' ->
  (forall a b, 0 <= a < dim -> 0 <= b < dim -> k a b = k' a b) -> 0 <= i < zlen (mc_faces c) -> 0 <= j < zlen (mc_faces c) -> inverse_ip dim c k q i j = inverse_ip dim c k' q' i j.
Proof.
  intros W Cl Q Q' E Hi Hj. unfold inverse_ip, regular_part. rewrite (same_projection dim c q q' W Cl Q Q' i j Hi Hj). f_equal. f_equal; [|f_equal; f_equal; f_equal; apply Sum_ext; intros a Ha; apply E; assumption].
  unfold mmul. apply Sum_ext. intros l Hl. f_equal. apply Sum_ext. intros a Ha. rewrite E by assumption. reflexivity.
Qed.
Lemma cube_tensor_cells ph : mobile ph -> tensor_cells orth2 one_cell cube_at (fun _ => trock 1 1 1) (fun _ => ph) (rock_ip (mob_rock ph)).
Proof.
  intros Mo k Hk. change (zlen one_cell) with 1 in Hk. assert (k = 0) by lia. subst k. pose proof (trock_good 1 1 1 ltac:(lra) ltac:(lra) ltac:(lra)) as G1. pose proof (mob_rock_good ph Mo) as Gm. destruct Mo as (Sh & D).
  assert (D1 : diagonal_positive (entry (trock 1 1 1))) by (intros i j Hi Hj; unfold trock; rewrite diag_entry by assumption; destruct (Z.eqb_spec i j); [|reflexivity]; destruct (three_cases i Hi) as [-> | [-> | ->]]; [change (0 < 2 * 1)%R|change (0 < 1)%R|change (0 < 1 / 2)%R]; lra).
  split; [exact (holds_shaped _ _ _ _ _ (proj1 G1))|]. split; [exact D1|]. split; [exact cube_lapack|]. exists cube_work. split; [exact cube_work_ok|].
  destruct (aniso_run_ok 3 orth2 (cube_at 0) (trock 1 1 1) [0; 0; 0]%R ph cube_work cube_wf cube_lapack (holds_shaped _ _ _ _ _ (proj1 G1)) eq_refl Sh cube_work_ok) as (q & B & gf & E & Q & HB & Lg & Gg). rewrite E. f_equal. f_equal.
  - destruct (evaluate_ok 3 Mim_Proofs2.cube cube_wf orth2 (mob_rock ph) _ _ _ _ _ _ _ _ _ cube_lapack (proj1 Gm) (shaped_new 6 6 ltac:(lia) ltac:(lia)) (shaped_new 6 6 ltac:(lia) ltac:(lia)) (shaped_new 6 3 ltac:(lia) ltac:(lia)) (shaped_new 6 3 ltac:(lia) ltac:(lia))) as (q' & B' & E' & Q' & HB').
    unfold rock_ip. cbn [ip_binv]. rewrite E'. apply (holds_same _ _ FOrd 6 6 _ HB). eapply holds_ext; [apply get_inverse_ok; [exact HB'|apply shaped_new; lia]|]. intros i j Hi Hj. cbn beta. rewrite Rmult_1_r. apply ip_same; try assumption; [exact cube_wf|exact cube_closed|]. intros a b Ha Hb. unfold lamK.
    rewrite (diag_mul _ _ D D1 a b Ha Hb). unfold mob_rock, trock. rewrite !diag_entry by assumption. destruct (Z.eqb_spec a b) as [-> |]; [|reflexivity]. rewrite ?Z.eqb_refl. destruct (three_cases b Hb) as [-> | [-> | ->]]; [change (2 * mob_total ph 0 0 = mob_total ph 0 0 * (2 * 1))%R|change (mob_total ph 1 1 = mob_total ph 1 1 * 1)%R|change (mob_total ph 2 2 / 2 = mob_total ph 2 2 * (1 / 2))%R]; lra.
  - change (ip_gflux (rock_ip (mob_rock ph)) (idx one_cell 0)) with (zrepeat 0%R 6). apply zlist_ext; [rewrite zlen_zrepeat by lia; exact Lg|]. intros i Hi. rewrite Lg in Hi. change (zlen (mc_faces (cube_at 0))) with 6 in Hi. rewrite zget_nthR by (rewrite Lg; exact Hi). rewrite zget_zrepeat by lia. f_equal. rewrite (Gg i Hi).
    assert (Z0 : forall j, 0 <= j < 3 -> nthR [0; 0; 0]%R j = 0%R) by (intros j Hj; destruct (three_cases j Hj) as [-> | [-> | ->]]; reflexivity). unfold dot, mvec. rewrite !Sum3. rewrite !Z0 by lia. ring.
Qed.
Definition cube_aniso (bct : Z) : asups :=
  mkAsu (search (map (fun d => exact_pressures (start_at bct d) d) (zrange 0 3))) same_list one_cell cube_at (fun phs => rock_ip (mob_rock (nth 0 phs []))) bct 0 0 6.
Lemma one_phs phs : zlen phs = 1 -> Forall mobile phs -> exists p, phs = [p] /\ mobile p.
Proof. intros L P. assert (L' : length phs = 1%nat) by (unfold zlen in L; lia). destruct phs as [|t [|t' phs]]; try discriminate. exists t. split; [reflexivity|]. inversion P. assumption. Qed.
Lemma cube_aniso_ok bct : bct = 0 \/ bct = 2 -> tensor_block orth2 (cube_aniso bct) (fun _ => trock 1 1 1) low_half hi_half.
Proof.
  intros Hb. split; [apply search_exact|]. split; [exact one_faces|]. split; [exact one_conforming|]. intros phs L P. change (zlen (au_g (cube_aniso bct))) with 1 in L. destruct (one_phs phs L P) as (p & -> & Mp). cbn [cube_aniso au_srt au_g au_geo au_ip au_bct]. change (nth 0 [p] []) with p. split; [apply one_block; [apply mob_rock_good; exact Mp|lia]|].
  intros k Hk. pose proof (cube_tensor_cells p Mp k Hk) as Q. change (zlen one_cell) with 1 in Hk. assert (k = 0) by lia. subst k. exact Q.
Qed.
Lemma cube_aniso_total bct phs st : bct = 0 \/ bct = 2 -> zlen phs = 1 -> Forall mobile phs -> exists r, aups_total (cube_aniso bct) phs st = Ok r.
Proof.
  intros Hb L P. destruct (one_phs phs L P) as (p & -> & Mp). pose proof (mob_rock_good p Mp) as G. unfold aups_total. cbn [cube_aniso au_K au_srt au_g au_geo au_ip au_bct au_ty au_maxit au_nf]. change (nth 0 [p] []) with p.
  destruct (cube_upscaled (mob_rock p) bct (start_at bct) 0 (fst st) (snd st) G ltac:(lia) ltac:(lia)) as (s & E & U & _).
  { intros d bc Lk. destruct Hb as [-> | ->]; unfold start_at; cbn [Z.eqb Pos.eqb]; [destruct (diag_fixed (2 * mob_total p 0 0, mob_total p 1 1, mob_total p 2 2 / 2)%R d bc Lk) as (A & B)|destruct (periodic_linear (mob_rock p) d bc Lk) as (A & B)]; auto. }
  rewrite E. cbn [bind]. assert (T : exists k, tensor_is (ts_cols s) k) by (destruct Hb as [-> | ->]; [destruct (fixed_diagonal _ _ _ _ _ _ _ _ U) as (k & Tk & _)|destruct (periodic_symmetric _ _ _ _ _ _ _ _ U) as (k & Tk & _)]; eauto).
  destruct T as (k & Tk). destruct (data_total _ k Tk) as (d & ->). cbn [bind]. eauto.
Qed.
(* one rock: the first phase flows half as easily along y, the second along z *)
Definition split_rock : arock := mkARock (fun ph d s => if ph =? 0 then (if d =? 1 then s / 2 else s) else (if d =? 2 then (1 - s) / 2 else 1 - s))%R.
Definition split_fluids : afluids := mkAfl (mkAFluid [split_rock] [0] 1%R 2%R) (1 / 100)%R 1000%R.
Lemma split_ok : afluids_ok split_fluids.
Proof. unfold afluids_ok. cbn. lra. Qed.
Lemma split_relperms p : 0 <= p < 2 -> relperms_of (al_fluid split_fluids) p 1 (fun _ => ar_kr split_rock p).
Proof.
  intros Hp c Hc. assert (c = 0) by lia. subst c. exists 0, (ar_kr split_rock 0), (ar_kr split_rock 1). split; [reflexivity|]. split; [right; split; [lia|]; exists split_rock; auto|]. intros d s. destruct (phase_case p Hp) as [-> | ->]; reflexivity.
Qed.
Lemma cube_aniso_case bct s ph : bct = 0 \/ bct = 2 -> 0 <= ph < 2 -> forall st st1, exists mK st' mw mo st2, asingle_tensor (cube_aniso bct) st = Ok (mK, st') /\ aniso_relperms (cube_aniso bct) split_fluids [s] mK st1 = Ok ((mw, mo), st2) /\
  aniso_kr orth2 (cube_aniso bct) (fun _ => trock 1 1 1) low_half hi_half split_fluids bct [s] ph (fun c d => ar_kr split_rock ph d (nthR [s] c)) (entry mK) (entry (if ph =? 0 then mw else mo)).
Proof.
  intros Hb Hp st st1. apply (aniso_total orth2 (cube_aniso bct) (fun _ => trock 1 1 1) low_half hi_half split_fluids bct [s] ph (fun p _ => ar_kr split_rock p)); [exact Hb|apply cube_aniso_ok; exact Hb|exact split_ok|reflexivity|reflexivity|exact Hp|exact split_relperms|]. intros phs s' L P. apply cube_aniso_total; assumption.
Qed.
(* ... and the tensor of the first phase at saturation 1/2 is diag (1/2, 1/4, 1/2) *)
Lemma cube_aniso_value st st1 : exists mK st' mw mo st2, asingle_tensor (cube_aniso 2) st = Ok (mK, st') /\ aniso_relperms (cube_aniso 2) split_fluids [1 / 2]%R mK st1 = Ok ((mw, mo), st2) /\
  forall i j, 0 <= i < 3 -> 0 <= j < 3 -> entry mw i j = (if i =? j then (if i =? 1 then 1 / 4 else 1 / 2) else 0)%R.
Proof.
  destruct (cube_aniso_case 2 (1 / 2) 0 (or_intror eq_refl) ltac:(lia) st st1) as (mK & st' & mw & mo & st2 & E1 & E2 & H). exists mK, st', mw, mo, st2. split; [exact E1|]. split; [exact E2|]. intros i j Hi Hj. cbn [Z.eqb] in H.
  pose proof (aniso_uniform_rock _ (cube_aniso 2) _ _ _ _ _ _ _ _ _ _ (fun d => if d =? 0 then 2 else if d =? 1 then 1 else 1 / 2)%R (fun d => if d =? 1 then 1 / 4 else 1 / 2)%R (or_intror (conj eq_refl one_translates)) H) as Q. apply Q; try assumption.
  - intros c d (Hc & Hd). change (zlen (au_g (cube_aniso 2))) with 1 in Hc. assert (c = 0) by lia. subst c. unfold trock. rewrite diag_entry by assumption. rewrite Z.eqb_refl. change (nthR [(1 / 2)%R] 0) with (1 / 2)%R. destruct (three_cases d Hd) as [-> | [-> | ->]]; [change (2 * 1 = 2 /\ 1 / 2 = 1 / 2)%R|change (1 = 1 /\ 1 / 2 / 2 = 1 / 4)%R|change (1 / 2 = 1 / 2 /\ 1 / 2 = 1 / 2)%R]; lra.
  - intros d Hd. destruct (d =? 1); cbn; lra.
  - intros d d' _ _. destruct (d =? 1), (d' =? 1); cbn; lra.
Qed.
