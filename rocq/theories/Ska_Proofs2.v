From Verif Require Import BaseFacts RBaseFacts Lin_Facts Steady_Proofs Steady_Proofs2 Euler_Proofs2 Matx_Proofs Matx_Proofs3 Mim_Proofs Mim_Proofs2 Fluid_Proofs3 Icap_Proofs4 Tens_Proofs5 Tens_Proofs6 Tens_Proofs7 Rpc_Proofs Rpc_Proofs3 Ssk_Proofs Ska_Spec Lin_Spec Tens_Spec Ska_Proofs.
Open Scope Z_scope.

(* ---- phases of a cell ---- *)
Lemma two_phases r1 a r2 b i j : mob_total [(r1, a); (r2, b)] i j = (entry a i j + entry b i j)%R.
Proof. unfold mob_total, Rsum. cbn [map snd fold_right]. rewrite Rplus_0_r. reflexivity. Qed.
Lemma tracer_cell_ok : exists c, tracer_cell = Ok c /\ mobile c /\ forall d, 0 <= d < 3 -> mob_total c d d = 1%R.
Proof.
  unfold tracer_cell, tracer_tensor. destruct (eye_ok _ _ _ _ _ (holds_new FOrd 3 3 ltac:(lia) ltac:(lia))) as (e & Ee & He). rewrite Ee. cbn [bind Z.eqb]. pose proof (scale_ok e _ _ _ _ 1 He) as H1.
  destruct (eye_ok _ _ _ _ _ H1) as (e2 & Ee2 & He2). rewrite Ee2. cbn [bind Z.eqb Pos.eqb]. pose proof (scale_ok e2 _ _ _ _ (1 - 1) He2) as H2.
  eexists. split; [reflexivity|]. assert (T : forall i j, 0 <= i < 3 -> 0 <= j < 3 -> mob_total [(1%R, mscale e 1); (1%R, mscale e2 (1 - 1))] i j = ident i j).
  { intros i j Hi Hj. rewrite two_phases, (holds_entry _ _ _ _ _ H1), (holds_entry _ _ _ _ _ H2) by assumption. ring. }
  split; [split|].
  - intros rho m [E|[E|[]]]; injection E as <- <-; [exact (holds_shaped _ _ _ _ _ H1)|exact (holds_shaped _ _ _ _ _ H2)].
  - intros i j Hi Hj. rewrite T by assumption. unfold ident. destruct (i =? j); lra.
  - intros d Hd. rewrite T by assumption. unfold ident. rewrite Z.eqb_refl. reflexivity.
Qed.
Lemma fixed_cell_ok m k : holds m COrd 3 3 (diag3 k) -> (forall d, 0 <= d < 3 -> (0 < k d)%R) -> exists c, fixed_cell m = Ok c /\ mobile c /\ forall d, 0 <= d < 3 -> mob_total c d d = k d.
Proof.
  intros H P. unfold fixed_cell. destruct (assign_ok _ _ _ _ _ _ _ _ (holds_new FOrd 3 3 ltac:(lia) ltac:(lia)) H) as (a & Ea & Ha). rewrite Ea. cbn [bind]. destruct (zero_ok _ _ _ _ _ Ha) as (b & Eb & Hb). rewrite Eb. cbn [bind]. eexists. split; [reflexivity|].
  assert (T : forall i j, 0 <= i < 3 -> 0 <= j < 3 -> mob_total [(1%R, a); (0%R, b)] i j = diag3 k i j) by (intros i j Hi Hj; rewrite two_phases, (holds_entry _ _ _ _ _ Ha), (holds_entry _ _ _ _ _ Hb) by assumption; ring).
  split; [split|].
  - intros rho x [E|[E|[]]]; injection E as <- <-; [exact (holds_shaped _ _ _ _ _ Ha)|exact (holds_shaped _ _ _ _ _ Hb)].
  - intros i j Hi Hj. rewrite T by assumption. unfold diag3. destruct (Z.eqb_spec i j) as [->|]; [apply P; exact Hj|reflexivity].
  - intros d Hd. rewrite T by assumption. unfold diag3. rewrite Z.eqb_refl. reflexivity.
Qed.
(* ---- mobilities ---- *)
Lemma almu_pos fl ph : afluids_ok fl -> (0 < al_mu fl ph)%R.
Proof. intros (A & B & _). unfold al_mu. destruct (ph =? 0); assumption. Qed.
Definition alimited (fl : afluids) (ph n : Z) (kr : Z -> Z -> R) (ms : list mat) (M : R) : Prop :=
  zlen ms = n /\ (0 <= M)%R /\ (M = 0%R \/ exists c d, 0 <= c < n /\ 0 <= d < 3 /\ M = (kr c d / al_mu fl ph)%R) /\ (forall c d, 0 <= c < n -> 0 <= d < 3 -> (kr c d / al_mu fl ph <= M)%R) /\
  forall c, 0 <= c < n -> exists m, zget ms c = Some m /\ holds m COrd 3 3 (diag3 (fun d => Rmax (kr c d / al_mu fl ph) (Rmax (al_thr fl / al_mu fl ph) (M / al_contrast fl)))%R).
Lemma steady_mob fl ph sat n krf c : afluids_ok fl -> 0 <= ph < 2 -> zlen sat = n -> relperms_of (al_fluid fl) ph n krf -> 0 <= c < n ->
  exists m, steady_mobility fl ph sat c = Ok m /\ holds m COrd 3 3 (diag3 (fun d => krf c d (nthR sat c) / al_mu fl ph)%R).
Proof.
  intros FO Hp L RO Hc. destruct (RO c Hc) as (rock & k1 & k2 & CR & AR & E). unfold steady_mobility. destruct (zget_in_range sat c ltac:(lia)) as (s & Es). unfold nthR, rget. rewrite Es. cbn [bind].
  assert (AM : amob (al_fluid fl) ph c s (mnew COrd 3 3) = amob_rock (al_fluid fl) ph rock s (mnew COrd 3 3)) by (unfold amob, acell_rock in *; destruct (af_rocks (al_fluid fl)); [subst; reflexivity|unfold rget; rewrite CR; reflexivity]). rewrite AM.
  pose proof (almu_pos fl ph FO) as P. destruct (amob_ok (al_fluid fl) rock k1 k2 ph s _ _ AR ltac:(lia) ltac:(unfold amu; fold (al_mu fl ph); lra) (holds_new COrd 3 3 ltac:(lia) ltac:(lia))) as (m & Em & Hm). exists m. split; [exact Em|]. eapply holds_ext; [exact Hm|]. intros i j _ _. unfold diag3. destruct (i =? j); [|reflexivity]. rewrite E. reflexivity.
Qed.
Lemma max_tensor_ok m k x : holds m COrd 3 3 (diag3 k) -> max_tensor x m = Ok (Rmax (Rmax (Rmax x (k 0)) (k 1)) (k 2)).
Proof.
  intros H. unfold max_tensor. pose proof H as (_ & R3 & C3 & _). rewrite R3, C3. change (zrange 0 (Z.min 3 3)) with [0; 1; 2]. cbn [foldM]. rewrite (holds_get _ _ _ _ _ 0 0 H) by lia. cbn [bind]. rewrite (holds_get _ _ _ _ _ 1 1 H) by lia. cbn [bind]. rewrite (holds_get _ _ _ _ _ 2 2 H) by lia. cbn [bind]. rewrite !smax_Rmax. reflexivity.
Qed.
Lemma alimited_ok fl ph sat n krf : afluids_ok fl -> 0 <= ph < 2 -> zlen sat = n -> relperms_of (al_fluid fl) ph n krf -> exists ms M, limited_tensors fl ph sat n = Ok ms /\ alimited fl ph n (fun c d => krf c d (nthR sat c)) ms M.
Proof.
  intros FO Hp L RO. unfold limited_tensors. pose proof (almu_pos fl ph FO) as P. pose proof (zlen_nonneg sat) as N. pose proof FO as (_ & _ & T & Cn). set (kr := fun c d => krf c d (nthR sat c)).
  destruct (zloop (fun mx c => let* m := steady_mobility fl ph sat c in max_tensor mx m) (fun i mx => (0 <= mx)%R /\ (mx = 0%R \/ exists c d, 0 <= c < i /\ 0 <= d < 3 /\ mx = (kr c d / al_mu fl ph)%R) /\ forall c d, 0 <= c < i -> 0 <= d < 3 -> (kr c d / al_mu fl ph <= mx)%R) 0 n 0%R ltac:(lia)) as (M & EM & M0 & MX & MU).
  { split; [lra|]. split; [left; reflexivity|intros; lia]. }
  { intros i mx Hi (A & B & C). destruct (steady_mob fl ph sat n krf i FO Hp L RO Hi) as (m & Em & Hm). rewrite Em. cbn [bind]. rewrite (max_tensor_ok m _ mx Hm). eexists. split; [reflexivity|].
    change (krf i 0 (nthR sat i)) with (kr i 0). change (krf i 1 (nthR sat i)) with (kr i 1). change (krf i 2 (nthR sat i)) with (kr i 2).
    set (a := (kr i 0%Z / al_mu fl ph)%R). set (b := (kr i 1%Z / al_mu fl ph)%R). set (c := (kr i 2%Z / al_mu fl ph)%R). pose proof (Rmax_l (Rmax (Rmax mx a) b) c). pose proof (Rmax_r (Rmax (Rmax mx a) b) c). pose proof (Rmax_l (Rmax mx a) b). pose proof (Rmax_r (Rmax mx a) b). pose proof (Rmax_l mx a). pose proof (Rmax_r mx a).
    split; [lra|]. split.
    - assert (K : forall y, (y = mx \/ exists d, 0 <= d < 3 /\ y = (kr i d / al_mu fl ph)%R) -> y = 0%R \/ exists c d, 0 <= c < i + 1 /\ 0 <= d < 3 /\ y = (kr c d / al_mu fl ph)%R).
      { intros y [->|(d & Hd & ->)]; [destruct B as [B|(c' & d & Hc & Hd & B)]; [left; exact B|right; exists c', d; split; [lia|auto]]|right; exists i, d; split; [lia|auto]]. }
      apply K. assert (MC : forall x y, Rmax x y = x \/ Rmax x y = y) by (intros x y; unfold Rmax; destruct (Rle_dec x y); auto). destruct (MC (Rmax (Rmax mx a) b) c) as [-> | ->]; [|right; exists 2; split; [lia|reflexivity]]. destruct (MC (Rmax mx a) b) as [-> | ->]; [|right; exists 1; split; [lia|reflexivity]]. destruct (MC mx a) as [-> | ->]; [left; reflexivity|right; exists 0; split; [lia|reflexivity]].
    - intros c' d Hc Hd. destruct (Z.eq_dec c' i) as [->|]; [destruct (three_cases d Hd) as [-> | [-> | ->]]; fold a b c; lra|]. specialize (C c' d ltac:(lia) Hd). lra. }
  rewrite EM. cbn [bind]. rewrite !mdiv_Ok by lra. cbn [bind]. set (t := smax _ _).
  destruct (mapM_exists (fun c => let* m := steady_mobility fl ph sat c in threshold_tensor m t) (zrange 0 n)) as (ms & Ems).
  { intros c Hc. apply In_zrange in Hc. destruct (steady_mob fl ph sat n krf c FO Hp L RO ltac:(lia)) as (m & Em & Hm). rewrite Em. cbn [bind]. destruct (threshold_ok m COrd _ t Hm) as (m' & E' & _). eauto. }
  exists ms, M. split; [exact Ems|]. destruct (mapM_out _ _ _ Ems) as (Lm & Gm). rewrite zlen_zrange in Lm by lia. split; [lia|]. split; [exact M0|]. split; [exact MX|]. split; [exact MU|].
  intros c Hc. destruct (Gm c c) as (m' & E & G); [rewrite zget_zrange by lia; f_equal; lia|]. exists m'. split; [exact G|]. destruct (steady_mob fl ph sat n krf c FO Hp L RO Hc) as (m & Em & Hm). rewrite Em in E. cbn [bind] in E. destruct (threshold_ok m COrd _ t Hm) as (m2 & E2 & H2). rewrite E2 in E. injection E as <-.
  eapply holds_ext; [exact H2|]. intros i j _ _. cbn beta. unfold diag3. destruct (i =? j); [|reflexivity]. unfold t. rewrite smax_Rmax. reflexivity.
Qed.
Definition alim (fl : afluids) (ph : Z) (kr : Z -> Z -> R) (M : R) (c d : Z) : R := Rmax (kr c d / al_mu fl ph) (Rmax (al_thr fl / al_mu fl ph) (M / al_contrast fl)).
Lemma alim_pos fl ph kr M c d : afluids_ok fl -> (0 < alim fl ph kr M c d)%R.
Proof.
  intros FO. pose proof (almu_pos fl ph FO) as P. destruct FO as (_ & _ & T & _). unfold alim. eapply Rlt_le_trans; [|apply Rmax_r]. eapply Rlt_le_trans; [|apply Rmax_l]. apply Rdiv_lt_0_compat; assumption.
Qed.
(* the phases of all cells *)
Definition phases_are (phs : list cell_phases) (n : Z) (lam : Z -> Z -> R) : Prop :=
  zlen phs = n /\ Forall mobile phs /\ forall c d, 0 <= c < n -> 0 <= d < 3 -> mob_total (nth (Z.to_nat c) phs []) d d = lam c d.
Lemma nth_zget {A} (l : list A) i x d : 0 <= i -> zget l i = Some x -> nth (Z.to_nat i) l d = x.
Proof. intros Hi E. unfold zget in E. destruct (Z.ltb_spec i 0); [lia|]. apply nth_error_nth. exact E. Qed.
Lemma fixed_phases fl ph n kr ms M : afluids_ok fl -> alimited fl ph n kr ms M -> exists phs, mapM fixed_cell ms = Ok phs /\ phases_are phs n (alim fl ph kr M).
Proof.
  intros FO (L & _ & _ & _ & V).
  assert (C : forall i m, zget ms i = Some m -> exists c, fixed_cell m = Ok c /\ mobile c /\ forall d, 0 <= d < 3 -> mob_total c d d = alim fl ph kr M i d).
  { intros i m Gm. assert (Hi : 0 <= i < n) by (rewrite <- L; apply zget_Some_range in Gm; exact Gm). destruct (V i Hi) as (m' & G' & Hm). rewrite Gm in G'. injection G' as <-. apply (fixed_cell_ok m _ Hm). intros d Hd. apply (alim_pos fl ph kr M i d FO). }
  destruct (mapM_exists fixed_cell ms) as (phs & E). { intros m Hm. apply In_zget in Hm. destruct Hm as (i & Hi & G). destruct (C i m G) as (c & Ec & _). eauto. }
  exists phs. split; [exact E|]. destruct (mapM_out _ _ _ E) as (Lp & Gp). split; [lia|]. assert (Q : forall i c, zget phs i = Some c -> mobile c /\ forall d, 0 <= d < 3 -> mob_total c d d = alim fl ph kr M i d).
  { intros i c Gc. assert (Hi : 0 <= i < zlen ms) by (rewrite <- Lp; apply zget_Some_range in Gc; exact Gc). destruct (zget_in_range ms i Hi) as (m & Gm). destruct (Gp i m Gm) as (c' & Ec & Gc'). rewrite Gc in Gc'. injection Gc' as <-. destruct (C i m Gm) as (c2 & Ec2 & Q). rewrite Ec in Ec2. injection Ec2 as <-. exact Q. }
  split; [apply Forall_forall; intros c Hc; apply In_zget in Hc; destruct Hc as (i & Hi & G); exact (proj1 (Q i c G))|]. intros c d Hc Hd. destruct (zget_in_range phs c ltac:(lia)) as (x & Gx). rewrite (nth_zget phs c x [] ltac:(lia) Gx). apply (Q c x Gx). exact Hd.
Qed.
Lemma ones_phases n : 0 <= n -> exists c, tracer_cell = Ok c /\ phases_are (zrepeat c n) n (fun _ _ => 1%R).
Proof.
  intros N. destruct tracer_cell_ok as (c & E & M & V). exists c. split; [exact E|]. split; [apply zlen_zrepeat; exact N|]. split; [apply Forall_forall; intros x Hx; apply repeat_spec in Hx; subst x; exact M|]. intros k d Hk Hd. rewrite (nth_zget (zrepeat c n) k c []); [apply V; exact Hd|lia|apply zget_zrepeat; lia].
Qed.
