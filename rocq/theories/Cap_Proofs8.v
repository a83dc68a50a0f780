From Verif Require Import BaseFacts RBaseFacts Bgrid_Proofs Steady_Proofs Shape_Proofs2 Relp_Spec Relp_Proofs3 Drv_Proofs2 Mpi_Spec Cap_Proofs3 Cap_Proofs4 Cap_Proofs5 Cap_Proofs6 Cap_Proofs7 Cap_Spec.
Open Scope Z_scope.

Lemma voigt_ok {A} (r : list A) v : zlen r = 9 -> 0 <= v < 9 -> exists e, get_voigt r v = Ok e.
Proof.
  intros L H. apply len9 in L. destruct L as (a & b & c & d & e & f & g & h & i & ->).
  assert (C : v = 0 \/ v = 1 \/ v = 2 \/ v = 3 \/ v = 4 \/ v = 5 \/ v = 6 \/ v = 7 \/ v = 8) by lia.
  repeat destruct C as [-> | C]; try (cbn; eexists; reflexivity). subst v. cbn. eexists. reflexivity.
Qed.
Lemma rank_total x l a ecl up inv tec n rank ps g0 : 0 <= tec <= 9 -> li_pore l <> 0%R -> (forall g, exists k, up g = Ok k) -> (forall k, exists r, inv k = Ok r /\ zlen r = 9) ->
  (forall p, In p ps -> exists wg, cond_cells x l a ecl p = Ok wg) -> exists ar, rank_arrays x l a ecl up inv tec n rank ps g0 = Ok ar.
Proof.
  intros Ht Po Up In' Cc. unfold rank_arrays. pose proof (zlen_nonneg ps).
  destruct (foldM_inv (rank_step x l a ecl up inv tec n rank ps) (fun _ st => zlen (fst (fst st)) = zlen ps /\ zlen (snd (fst st)) = zlen ps) (zrange 0 (zlen ps))
    ((zrepeat 0%R (zlen ps), zrepeat (zrepeat 0%R tec) (zlen ps)), (0%R, g0))) as (st & E & _).
  - cbn [fst snd]. now rewrite !zlen_zrepeat by lia.
  - intros done idx [[ws rows] wg] Hi (L1 & L2). cbn [fst snd] in *. apply In_zrange in Hi. unfold rank_step. cbn [fst snd].
    assert (W : exists wg', (if mpi_node n idx =? rank then let* p := rget ps idx in cond_cells x l a ecl p else Ok wg) = Ok wg').
    { destruct (_ =? rank); [|eauto]. destruct (rget_range ps idx Hi) as (p & -> & Ep). cbn [bind]. apply Cc. eapply zget_In. exact Ep. }
    destruct W as (wg' & ->). cbn [bind]. destruct (Up (snd wg')) as (k & ->). cbn [bind]. rewrite mdiv_ok by exact Po. cbn [bind].
    destruct (rset_exists ws idx (fst wg' / li_pore l)%R ltac:(lia)) as (ws' & E1 & L1' & _). rewrite E1. cbn [bind]. destruct (In' k) as (r & -> & Lr). cbn [bind].
    destruct (mapM_exists (get_voigt r) (zrange 0 tec)) as (row & ->); [intros v Hv; apply In_zrange in Hv; apply voigt_ok; [exact Lr|lia]|]. cbn [bind].
    destruct (rset_exists rows idx row ltac:(lia)) as (rows' & E2 & L2' & _). rewrite E2. cbn [bind]. eexists. split; [reflexivity|]. cbn [fst snd]. lia.
  - rewrite E. cbn [bind]. eauto.
Qed.

(* ---- examples *)
Definition ex_curve (lo : R) : curve := mkCurve 0 1 lo 1 (fun j => Rmax lo (Rmin 1 (1 - j))).
Definition exx : cin := mkCin [1; 0; 2] [/ 5; 0; / 2]%R [/ 5; 1; / 2]%R [ex_curve (/ 5); ex_curve (/ 10)] 1 1.
Definition exc : list (Z * R) := [(0, 1%R); (1, 1%R); (2, 2%R)].
Lemma ex_range c : 0 <= c < zlen (ci_sat exx) -> c = 0 \/ c = 1 \/ c = 2.
Proof. change (zlen (ci_sat exx)) with 3. lia. Qed.
Lemma ex_proper : proper exx exc.
Proof.
  split; [cbn; repeat constructor; cbn; intuition lia|]. split; [cbn; lra|]. split; [cbn; lra|]. split; [cbn; intuition lia|]. split.
  - intros cv [<-|[<-|[<-|[]]]]; cbn; (split; [lia|lra]).
  - intros c Hc. apply ex_range in Hc. destruct Hc as [-> | [-> | ->]]; intros H.
    + split; [discriminate|]. split; [reflexivity|]. split; [reflexivity|]. unfold nthR. cbn. lra.
    + discriminate.
    + split; [discriminate|]. split; [reflexivity|]. split; [reflexivity|]. change (nthR (ci_poro exx) 2) with (/ 2)%R. change (nthR (ci_perm exx) 2) with (/ 2)%R. lra.
Qed.
Lemma ex_rocky : rocky exx exc = [(0, 1%R); (2, 2%R)].
Proof. reflexivity. Qed.
Lemma ex_pc c j : c = 0 \/ c = 2 -> pc_of_j exx c j = j.
Proof.
  intros [-> | ->]; unfold pc_of_j; [change (nthR (ci_poro exx) 0) with (/ 5)%R; change (nthR (ci_perm exx) 0) with (/ 5)%R|change (nthR (ci_poro exx) 2) with (/ 2)%R; change (nthR (ci_perm exx) 2) with (/ 2)%R]; cbn [ci_md ci_st exx].
  - replace (/ 5 * 1 / / 5)%R with 1%R by field. rewrite sqrt_1. field.
  - replace (/ 2 * 1 / / 2)%R with 1%R by field. rewrite sqrt_1. field.
Qed.
Lemma dbl_max_1 : (1 <= dbl_max)%R.
Proof.
  unfold dbl_max. assert (A : (/ 2 ^ 52 <= 1)%R) by (rewrite <- Rinv_1; apply Rinv_le_contravar; [lra|apply pow_R1_Rle; lra]). assert (B : (1 <= 2 ^ 1023)%R) by (apply pow_R1_Rle; lra).
  rewrite <- (Rmult_1_l 1) at 1. apply Rmult_le_compat; lra.
Qed.
Lemma ex_limits : exists l, cap_limits exx (/ 1000000) exc = Ok l /\ li_pcmin l = 0%R /\ li_pcmax l = 1%R.
Proof.
  destruct (limits_ok exx exc ex_proper (/ 1000000)) as (l & E & Mn & Mx & _).
  - exists (0, 1%R). split; [now left|cbn; lra].
  - intros cv I. rewrite ex_rocky in I. pose proof dbl_max_1. destruct I as [<-|[<-|[]]]; cbn [fst]; rewrite !ex_pc by lia; [change (curve_at exx 0) with (ex_curve (/ 5))|change (curve_at exx 2) with (ex_curve (/ 10))]; cbn [cv_minx cv_maxx cv_minf cv_maxf ex_curve]; repeat split; lra.
  - exists l. split; [exact E|]. rewrite ex_rocky in Mn, Mx. cbn [map fst] in Mn, Mx. rewrite !ex_pc in Mn, Mx by lia. change (curve_at exx 0) with (ex_curve (/ 5)) in Mn, Mx. change (curve_at exx 2) with (ex_curve (/ 10)) in Mn, Mx. cbn [cv_minx cv_maxx ex_curve] in Mn, Mx. destruct Mn as [Mn _]. destruct Mx as [Mx _]. split; [destruct Mn as [Mn|[Mn|[]]]; lra|destruct Mx as [Mx|[Mx|[]]]; lra].
Qed.
Lemma ex_within lo : (0 <= lo <= 1)%R -> within (ex_curve lo).
Proof. intros H j. cbn. split; [apply Rmax_l|]. apply Rmax_lub; [lra|apply Rmin_l]. Qed.
Lemma ex_curves cv : In cv (rocky exx exc) -> within (curve_at exx (fst cv)) /\ (forall j, (0 <= cv_eval (curve_at exx (fst cv)) j)%R) /\ forall j j', (j <= j')%R -> (cv_eval (curve_at exx (fst cv)) j' <= cv_eval (curve_at exx (fst cv)) j)%R.
Proof.
  intros I. assert (C : exists lo, (0 <= lo <= 1)%R /\ curve_at exx (fst cv) = ex_curve lo).
  { rewrite ex_rocky in I. destruct I as [<-|[<-|[]]]; [exists (/ 5)%R|exists (/ 10)%R]; (split; [lra|reflexivity]). }
  destruct C as (lo & Hl & ->). split; [now apply ex_within|]. split; cbn.
  - intros j. pose proof (Rmax_l lo (Rmin 1 (1 - j))). lra.
  - intros j j' H. apply Rle_max_compat_l. apply Rle_min_compat_l. lra.
Qed.
Lemma ex_tab : exists fuel t, tabulate fuel (fun p => Ok ((1 - p)%R, tt)) 0 1 0 1 200 = Ok (Some t).
Proof.
  exists 500%nat. assert (Hf : (3 + 2 * (1 - 0) / / 200 <= INR 500)%R) by (rewrite INR_IZR_INZ; change (Z.of_nat 500) with 500; lra). apply (tab_terminates _ 500 0 1 0 1 200 (/ 200)); try lra.
  - eauto.
  - intros p q s a s' b Hp Hq D E1 E2. injection E1 as <- _. injection E2 as <- _. replace (1 - q - (1 - p))%R with (- (q - p))%R by ring. rewrite Rabs_Ropp. lra.
Qed.
Lemma ex_jump fuel : tabulate fuel (fun p => Ok (if Rle_dec p (/ 2) then (1%R, tt) else (/ 5, tt)%R)) (/ 5) 1 0 1 500 = Ok None.
Proof. apply (tab_jump _ fuel (/ 5) 1 0 1 500 (/ 2) 1 (/ 5) tt tt); try lra; [|reflexivity]. replace (/ 5 - 1)%R with (- (4 / 5))%R by field. rewrite Rabs_Ropp, Rabs_pos_eq; lra. Qed.
Definition ex_archie : archie := mkArchie 100000 (7 / 5) 0 0 1 (/ 5) [0; 9 / 5; 9 / 5]%R [0; 2; 2]%R.
Lemma ex_fit : archie_fit exx ex_archie.
Proof.
  unfold archie_fit. change (max_satnum (ci_sat exx)) with 2. change (zlen (ar_cem ex_archie)) with 3. change (zlen (ar_sexp ex_archie)) with 3. repeat split; try (cbn; lra); try lia.
  intros s Hs. assert (C : s = 1 \/ s = 2) by lia. destruct C as [-> | ->]; [change (nthR (ar_sexp ex_archie) 1) with 2%R|change (nthR (ar_sexp ex_archie) 2) with 2%R]; lra.
Qed.
Lemma ex_ranks : exists l (ars : Z -> arrays), cap_limits exx (/ 1000000) exc = Ok l /\
  forall r, 0 <= r < 2 -> rank_arrays exx l ex_archie (map fst exc) (fun _ => Ok (zrepeat 1%R 9)) (fun k => Ok (zrepeat (nthR k 0) 9)) 3 2 r [0; / 2; 1]%R [1; 1; 1]%R = Ok (ars r).
Proof.
  destruct ex_limits as (l & E & _). exists l. destruct (limits_inv exx exc _ l ex_proper E) as (_ & Pp & _).
  assert (T : forall r, exists ar, rank_arrays exx l ex_archie (map fst exc) (fun _ => Ok (zrepeat 1%R 9)) (fun k => Ok (zrepeat (nthR k 0) 9)) 3 2 r [0; / 2; 1]%R [1; 1; 1]%R = Ok ar).
  { intros r. apply rank_total; [lia|lra|intros; eauto|intros; eexists; split; [reflexivity|reflexivity]|]. intros p _. rewrite (cond_cells_ok exx exc _ l ex_archie p ex_proper E ex_fit); [eauto|]. intros cv I. now apply ex_curves. }
  destruct (T 0) as (a0 & E0). destruct (T 1) as (a1 & E1). exists (fun r => if r =? 0 then a0 else a1). split; [exact E|]. intros r Hr. assert (C : r = 0 \/ r = 1) by lia. destruct C as [-> | ->]; assumption.
Qed.
