From Verif Require Import BaseFacts RBaseFacts Relp_Model Relp_Spec Relp_Proofs Relp_Proofs2 Relp_Proofs3 Relp_Proofs4.
Open Scope Z_scope.

Lemma minmax_accepts h grav tol vols : wf h -> length vols = length (h_ecl h) ->
  (forall v, In v vols -> 0 <= v)%R -> (forall x, In x (h_poro h) -> 0 <= x)%R ->
  good_curves h -> h_contrast h <> 0%R -> (grav = true -> h_dP h <> []) ->
  sumR (pore_volume h) (rock_pairs h vols) <> 0%R ->
  exists r, minmax_pc h grav tol vols = Ok r.
Proof.
  intros Hwf Hlen Hv Hp Hcu Hco HdP HW. unfold minmax_pc. destruct (Req_EM_T (h_contrast h) 0); [contradiction|].
  assert (exists dpr, dP_range (h_dP h) = Ok dpr /\ (grav = true -> (fst dpr <= snd dpr)%R)) as [dpr [Ed Hd]].
  { destruct (h_dP h) as [|d t] eqn:E.
    - exists (dbl_max, (- dbl_max)%R). split; [reflexivity|]. intros G. destruct (HdP G). reflexivity.
    - destruct (dP_range_prop (d :: t)) as [lo [hi [E1 [[A B] [C D]]]]]; [discriminate|].
      exists (lo, hi). split; [exact E1|]. intros _. cbn. apply B, C. }
  rewrite Ed. cbn [bind].
  destruct (mm_fold h vols Hwf) as [st [Est Inv]]. rewrite Est. cbn [bind].
  destruct Inv as (Lp & Lv & Gp & Zp & Sp & Sir & Sor & Mn & Mx & Kx).
  change (filter (rockb h) (combine (h_ecl h) vols)) with (rock_pairs h vols) in *.
  set (rk := rock_pairs h vols) in *. set (W := sumR (pore_volume h) rk) in *.
  assert (forall cv, In cv rk -> In (fst cv) (rock_cells h) /\ 0 <= pore_volume h cv)%R as Hrk.
  { intros [c v] Hin. unfold rk, rock_pairs in Hin. apply filter_In in Hin. destruct Hin as [Hin Hr]. cbn [fst] in *. split.
    - apply filter_In. split; [apply (in_combine_l _ _ _ _ Hin)|exact Hr].
    - unfold pore_volume. cbn [fst snd]. apply Rmult_le_pos; [apply Hv, (in_combine_r _ _ _ _ Hin)|].
      apply Hp. apply (zget_In _ c). apply get_at. destruct Hwf as [A [_ [_ [D _]]]]. rewrite D. apply A. apply (in_combine_l _ _ _ _ Hin). }
  assert (0 < W)%R as HWp.
  { assert (0 <= W)%R by (apply Rsum_map_nonneg; intros x Hx; apply Hrk, Hx). lra. }
  assert (mm_pcmin st <= mm_pcmax st)%R as Hpc.
  { destruct rk as [|cv t] eqn:R0; [exfalso; apply HW; reflexivity|].
    destruct (Hcu (fst cv)) as [_ [_ [_ Ho]]]; [apply Hrk; left; reflexivity|].
    destruct Mn as [_ Mn], Mx as [_ Mx].
    apply Rle_trans with (own_low h (fst cv)); [apply Mn; right; left; reflexivity|].
    apply Rle_trans with (own_high h (fst cv)); [exact Ho|]. apply Mx. right. left. reflexivity. }
  match goal with |- context [if Rltb ?a ?b then Throw else _] => destruct (Rltb_spec a b) as [Hlt|Hlt] end.
  { exfalso. destruct grav; [specialize (Hd eq_refl)|]; lra. }
  assert (forall (f : Z -> R) lo hi, (forall c, In c (rock_cells h) -> lo <= f c <= hi)%R ->
     (lo <= sumR (fun cv => f (fst cv) * pore_volume h cv)%R rk / W <= hi)%R) as Hmean.
  { intros f lo hi Hf. unfold sumR.
    rewrite (Rsum_map_ext _ (fun cv => pore_volume h cv * f (fst cv))%R) by (intros; apply Rmult_comm).
    apply mean_bounds; [intros x Hx; apply Hrk, Hx|intros x Hx _; apply Hf, Hrk, Hx|exact HWp]. }
  rewrite Sp, !fdiv_Some by exact HW. rewrite Sir, Sor.
  assert (0 <= sumR (fun cv => cv_minf (curve_of h (fst cv)) * pore_volume h cv) rk / W <= 1)%R as Ha.
  { apply (Hmean (fun c => cv_minf (curve_of h c))). intros c Hc. destruct (Hcu c Hc) as [A [B [C _]]]. specialize (A 0%R). lra. }
  assert (0 <= sumR (fun cv => cv_maxf (curve_of h (fst cv)) * pore_volume h cv) rk / W <= 1)%R as Hb.
  { apply (Hmean (fun c => cv_maxf (curve_of h c))). intros c Hc. destruct (Hcu c Hc) as [A [B [C _]]]. specialize (A 0%R). lra. }
  destruct (clamp_id _ tol Ha) as [_ [A2 [A3 A4]]]. destruct (clamp_id _ tol Hb) as [B1 [_ [B3 B4]]].
  rewrite A2, B1, A3, A4, B3, B4. cbn [orb]. eauto.
Qed.

(* ---------- witnesses *)
Lemma zget_mem {A} (l : list A) i x : zget l i = Some x -> In x l.
Proof. apply zget_In. Qed.

Lemma ex_wf aniso kx ky kz dP ecl : zlen ky = zlen kx -> zlen kz = zlen kx -> NoDup ecl ->
  (forall c, In c ecl -> 0 <= c < zlen kx) -> wf (ex_helper aniso kx ky kz dP ecl).
Proof.
  intros Hy Hz Hn Hc. unfold wf, ex_helper. cbn. rewrite !zlen_map. split; [exact Hc|]. split; [exact Hn|].
  split; [reflexivity|]. split; [reflexivity|]. split; [auto|]. split.
  - intros s Hs. apply in_map_iff in Hs. destruct Hs as [x [<- _]]. lia.
  - intros s Hs _. apply in_map_iff in Hs. destruct Hs as [x [<- _]]. split; [destruct aniso; cbv; discriminate|].
    intros. cbv; discriminate.
Qed.
Lemma ex_region aniso kx ky kz dP ecl c : 0 <= c < zlen kx -> region (ex_helper aniso kx ky kz dP ecl) c = 1.
Proof.
  intros Hc. unfold region, ex_helper. cbn. destruct (zget_in_range (map (fun _ => 1) kx) c) as [s Es]; [rewrite zlen_map; lia|].
  rewrite Es. apply zget_In in Es. apply in_map_iff in Es. destruct Es as [x [<- _]]. reflexivity.
Qed.
Lemma ex_poro_at (kx : list R) c : 0 <= c < zlen kx -> at_ (map (fun _ => 1%R) kx) c = 1%R.
Proof.
  intros Hc. unfold at_. destruct (zget_in_range (map (fun _ => 1%R) kx) c) as [s Es]; [rewrite zlen_map; lia|].
  rewrite Es. apply zget_In in Es. apply in_map_iff in Es. destruct Es as [x [<- _]]. reflexivity.
Qed.
Lemma ex_curve aniso kx ky kz dP ecl c : 0 <= c < zlen kx -> curve_of (ex_helper aniso kx ky kz dP ecl) c = half_curve.
Proof.
  intros Hc. unfold curve_of, sat_curve. rewrite ex_region by lia. cbn. destruct aniso; reflexivity.
Qed.
Lemma ex_good aniso kx ky kz dP ecl : (forall k, In k kx -> 0 < k)%R -> (forall c, In c ecl -> 0 <= c < zlen kx) ->
  good_curves (ex_helper aniso kx ky kz dP ecl).
Proof.
  intros Hk Hc c Hin. apply filter_In in Hin. destruct Hin as [Hin _]. specialize (Hc c Hin).
  unfold own_low, own_high. rewrite ex_curve by exact Hc. cbn.
  assert (0 < scaling (ex_helper aniso kx ky kz dP ecl) c)%R as Hs.
  { unfold scaling, ex_helper. cbn. destruct aniso; [lra|]. rewrite ex_poro_at by exact Hc. apply sqrt_lt_R0.
    unfold at_. destruct (zget_in_range kx c Hc) as [x Ex]. rewrite Ex. unfold Rdiv. rewrite Rinv_1, Rmult_1_r. apply Hk. apply (zget_In _ _ _ Ex). }
  assert (0 < / scaling (ex_helper aniso kx ky kz dP ecl) c)%R by (apply Rinv_0_lt_compat; exact Hs).
  split; [intros x; cbn; lra|]. split; [lra|]. split; [lra|]. unfold Rdiv. nra.
Qed.
Lemma ex_offsets aniso kx ky kz dP ecl : zlen dP = zlen kx \/ dP = [] -> (forall c, In c ecl -> 0 <= c < zlen kx) ->
  offsets_cover (ex_helper aniso kx ky kz dP ecl).
Proof. intros [H|H] Hc; [right|left; exact H]. intros c Hin _. unfold ex_helper in *. cbn in *. specialize (Hc c Hin). lia. Qed.

(* two cells, gravity offsets of opposite sign *)
Definition h2 (aniso : bool) : helper := ex_helper aniso [1; 4]%R [1000; 4]%R [1; 4]%R [-1; 1]%R [0; 1].
Lemma h2_in c : In c [0; 1] -> 0 <= c < 2.
Proof. intros [<-|[<-|[]]]; lia. Qed.
Lemma h2_nodup : NoDup [0; 1].
Proof. repeat constructor; cbn; intuition congruence. Qed.
Lemma h2_wf aniso : wf (h2 aniso).
Proof. apply ex_wf; [reflexivity|reflexivity|exact h2_nodup|exact h2_in]. Qed.
Lemma h2_cover aniso : offsets_cover (h2 aniso).
Proof. apply ex_offsets; [left; reflexivity|exact h2_in]. Qed.
Lemma h2_good aniso : good_curves (h2 aniso).
Proof. apply ex_good; [intros k [<-|[<-|[]]]; lra|exact h2_in]. Qed.
Lemma h2_pore aniso : sumR (pore_volume (h2 aniso)) (rock_pairs (h2 aniso) [1; 2]%R) = 3%R.
Proof. unfold sumR. cbv -[Rplus Rmult IZR]. lra. Qed.
Lemma h2_run aniso grav : exists r, minmax_pc (h2 aniso) grav 0 [1; 2]%R = Ok r.
Proof.
  apply minmax_accepts; [apply h2_wf|reflexivity|intros v [<-|[<-|[]]]; lra|intros v [<-|[<-|[]]]; lra|apply h2_good| | |].
  - cbn. lra.
  - discriminate.
  - rewrite h2_pore. lra.
Qed.

(* anisotropic single-phase run: the floor only looks at PERMX *)
Lemma single_aniso_refuted : exists h tol vols r ts k k',
  wf h /\ length vols = length (h_ecl h) /\ (forall c, In c (h_ecl h) -> 0 < region h c) /\
  (1 <= h_contrast h)%R /\ minmax_pc h false tol vols = Ok r /\ single_perms h (mr_kmin r) = Ok ts /\
  In k (flat_map entries ts) /\ In k' (flat_map entries ts) /\ (k > h_contrast h * k')%R.
Proof.
  destruct (h2_run true false) as [r E]. exists (h2 true), 0%R, [1; 2]%R, r.
  assert (exists M, mr_kmin r = Rmax (M / 10) 0 /\ (M <= 4)%R) as [M [Hk HM]].
  { pose proof E as E0. unfold minmax_pc in E0. change (h_contrast (h2 true)) with 10%R in E0. change (h_minperm (h2 true)) with 0%R in E0.
    destruct (Req_EM_T 10 0); [discriminate|].
    destruct (dP_range (h_dP (h2 true))) as [dpr| |]; try discriminate. cbn [bind] in E0.
    destruct (mm_fold (h2 true) [1; 2]%R (h2_wf true)) as [st [Est Inv]]. rewrite Est in E0. cbn [bind] in E0.
    destruct Inv as (_ & _ & _ & _ & _ & _ & _ & _ & _ & [Kx _]).
    exists (mm_kmax st). split.
    - rewrite <- smax_Rmax. match type of E0 with (if ?x then _ else _) = _ => destruct x; [discriminate|] end.
      destruct (fdiv _ _); [|inversion E0; reflexivity]. destruct (fdiv _ _); [|inversion E0; reflexivity].
      match type of E0 with (if ?x then _ else _) = _ => destruct x; [discriminate|] end. inversion E0; reflexivity.
    - change (filter (rockb (h2 true)) (combine (h_ecl (h2 true)) [1; 2]%R)) with [(0, 1%R); (1, 2%R)] in Kx. cbn [map fst] in Kx.
      change (at_ (h_kx (h2 true)) 0) with 1%R in Kx. change (at_ (h_kx (h2 true)) 1) with 4%R in Kx.
      destruct Kx as [<-|[<-|[<-|[]]]]; lra. }
  assert (0 <= mr_kmin r <= 1)%R as Hr. { rewrite Hk. unfold Rmax. destruct (Rle_dec _ _); lra. }
  exists [(smax (mr_kmin r) 1, smax (mr_kmin r) 1000, smax (mr_kmin r) 1); (smax (mr_kmin r) 4, smax (mr_kmin r) 4, smax (mr_kmin r) 4)]%R.
  exists 1000%R, 1%R. split; [apply h2_wf|]. split; [reflexivity|]. split.
  { intros c Hc. unfold h2. rewrite (ex_region true) by (apply h2_in; exact Hc). lia. }
  split; [cbn; lra|]. split; [exact E|]. split; [reflexivity|].
  rewrite !smax_Rmax. rewrite (Rmax_right _ 1) by lra. rewrite (Rmax_right _ 1000) by lra.
  cbn. split; [auto|]. split; [auto|]. lra.
Qed.
