From Verif Require Import BaseFacts RBaseFacts Relp_Model Relp_Spec Relp_Proofs Relp_Proofs2.
Open Scope Z_scope.

(* ---------- reading the data of a cell *)
Section WF.
Variable h : helper.
Hypothesis Hwf : wf h.


Lemma wf_cell c : In c (h_ecl h) -> rget (h_sat h) c = Ok (region h c) /\ 0 <= region h c /\ 0 <= c < zlen (h_sat h) /\
  rget (h_kx h) c = Ok (at_ (h_kx h) c) /\ rget (h_poro h) c = Ok (at_ (h_poro h) c).
Proof.
  intros Hc. destruct Hwf as [A [B [C [D [E [F G]]]]]]. specialize (A c Hc).
  destruct (zget_in_range (h_sat h) c A) as [s Es]. unfold region. rewrite Es. split; [apply rget_Ok; exact Es|].
  split; [apply F; apply (zget_In _ _ _ Es)|]. split; [exact A|]. split; apply rget_at; lia.
Qed.
Lemma wf_curve c : In c (h_ecl h) -> 0 < region h c ->
  rget (if h_aniso h then h_swpc h else h_inv h) (region h c - 1) = Ok (curve_of h c) /\
  (forall d ph, 0 <= d < 3 -> 0 <= ph < 2 -> exists cu, rget (h_kr h d ph) (region h c - 1) = Ok cu /\ zget (h_kr h d ph) (region h c - 1) = Some cu).
Proof.
  intros Hc Hr. destruct Hwf as [A [B [C [D [E [F G]]]]]]. specialize (A c Hc).
  destruct (zget_in_range (h_sat h) c A) as [s Es].
  assert (region h c = s) as R by (unfold region; rewrite Es; reflexivity). rewrite R in *.
  destruct (G s (zget_In _ _ _ Es) Hr) as [G1 G2]. split.
  - unfold curve_of, sat_curve. rewrite R.
    destruct (zget_in_range (if h_aniso h then h_swpc h else h_inv h) (s - 1)) as [cu Ecu]; [lia|].
    rewrite Ecu. apply rget_Ok. exact Ecu.
  - intros d ph Hd Hp. apply rget_range. specialize (G2 d ph Hd Hp). lia.
Qed.
End WF.

(* ---------- minimum and maximum capillary pressure *)
Lemma Rsum_nset l i x y : nth_error l i = Some y -> Rsum (nset l i x) = (Rsum l - y + x)%R.
Proof.
  revert i. induction l as [|a l IH]; intros [|i]; cbn [nth_error nset]; try discriminate.
  - intros E. inversion E. subst. rewrite !Rsum_cons. lra.
  - intros E. rewrite !Rsum_cons, (IH _ E). lra.
Qed.
Lemma Rsum_rset l i x y l' : zget l i = Some y -> rset l i x = Ok l' -> Rsum l' = (Rsum l - y + x)%R.
Proof.
  intros E1 E2. pose proof (zget_Some_range _ _ _ E1) as R. rewrite rset_Ok in E2 by lia. inversion E2.
  apply Rsum_nset. rewrite zget_nth in E1 by lia. exact E1.
Qed.
Lemma Rsum_zeros n : Rsum (zrepeat 0%R n) = 0%R.
Proof. unfold zrepeat. induction (Z.to_nat n); cbn [repeat]; rewrite ?Rsum_cons, ?Rsum_nil; lra. Qed.

Definition rockb h (cv : Z * R) := 0 <? region h (fst cv).
Lemma minf_fold h cells init : fold_left (fun m cv => smin (own_low h (fst cv)) m) cells init =
  fold_left Rmin (map (fun cv : Z * R => own_low h (fst cv)) cells) init.
Proof. revert init. induction cells as [|a l IH]; intros init; [reflexivity|]. cbn. rewrite IH, smin_Rmin, Rmin_comm. reflexivity. Qed.

Lemma combine_fst_In {A B} (l : list A) (l' : list B) a b : In (a, b) (combine l l') -> In a l.
Proof. apply in_combine_l. Qed.

Definition mm_inv (h : helper) (all done : list (Z * R)) (st : mmstate) : Prop :=
  let rk := filter (rockb h) done in
  zlen (mm_pv st) = zlen (h_sat h) /\ zlen (mm_vol st) = zlen (h_sat h) /\
  (forall cv, In cv rk -> zget (mm_pv st) (fst cv) = Some (pore_volume h cv)) /\
  (forall c, 0 <= c < zlen (h_sat h) -> ~ In c (map fst rk) -> zget (mm_pv st) c = Some 0%R) /\
  Rsum (mm_pv st) = sumR (pore_volume h) rk /\
  mm_swir st = sumR (fun cv => cv_minf (curve_of h (fst cv)) * pore_volume h cv)%R rk /\
  mm_swor st = sumR (fun cv => cv_maxf (curve_of h (fst cv)) * pore_volume h cv)%R rk /\
  is_min (mm_pcmin st) (dbl_max :: map (fun cv => own_low h (fst cv)) rk) /\
  is_max (mm_pcmax st) ((- dbl_max)%R :: map (fun cv => own_high h (fst cv)) rk) /\
  is_max (mm_kmax st) (0%R :: map (fun cv => at_ (h_kx h) (fst cv)) rk).

Lemma sumR_snoc {A} (f : A -> R) l a : sumR f (l ++ [a]) = (sumR f l + f a)%R.
Proof. unfold sumR. rewrite map_app, Rsum_app. cbn [map]. rewrite Rsum_cons, Rsum_nil. lra. Qed.
Lemma is_min_step m l x : is_min m l -> is_min (smin x m) (l ++ [x]).
Proof.
  intros [A B]. unfold smin. destruct (Rltb_spec m x); split.
  - apply in_or_app. auto.
  - intros y Hy. apply in_app_or in Hy. destruct Hy as [Hy|[<-|[]]]; [auto|lra].
  - apply in_or_app. right. left. reflexivity.
  - intros y Hy. apply in_app_or in Hy. destruct Hy as [Hy|[<-|[]]]; [specialize (B y Hy); lra|lra].
Qed.
Lemma is_max_step m l x : is_max m l -> is_max (smax x m) (l ++ [x]).
Proof.
  intros [A B]. unfold smax. destruct (Rltb_spec x m); split.
  - apply in_or_app. auto.
  - intros y Hy. apply in_app_or in Hy. destruct Hy as [Hy|[<-|[]]]; [auto|lra].
  - apply in_or_app. right. left. reflexivity.
  - intros y Hy. apply in_app_or in Hy. destruct Hy as [Hy|[<-|[]]]; [specialize (B y Hy); lra|lra].
Qed.
Lemma smax_comm a b : smax a b = smax b a.
Proof. rewrite !smax_Rmax. apply Rmax_comm. Qed.
Lemma combine_NoDup_split {A B} (l : list A) (l' : list B) done a rest :
  NoDup l -> combine l l' = done ++ a :: rest -> ~ In (fst a) (map fst done).
Proof.
  intros Hn E Hin. assert (NoDup (map fst (combine l l'))) as N.
  { clear E Hin. revert l'. induction l as [|x l IH]; intros [|y l']; cbn; try constructor.
    - inversion Hn; subst. intros Hx. apply in_map_iff in Hx. destruct Hx as [[u v] [<- Hx]].
      apply in_combine_l in Hx. contradiction.
    - inversion Hn; subst. apply IH. assumption. }
  rewrite E, map_app in N. cbn [map] in N. apply NoDup_remove_2 in N. apply N. apply in_or_app. left. exact Hin.
Qed.

Lemma mm_fold h vols : wf h ->
  exists st, foldM (mm_step h) (combine (h_ecl h) vols)
     (mkMm (zrepeat 0%R (zlen (h_sat h))) (zrepeat 0%R (zlen (h_sat h))) dbl_max (- dbl_max)%R 0%R 0%R 0%R) = Ok st /\
     mm_inv h (combine (h_ecl h) vols) (combine (h_ecl h) vols) st.
Proof.
  intros Hwf. apply foldM_split_inv.
  - unfold mm_inv. cbn [filter map mm_pv mm_vol mm_swir mm_swor mm_pcmin mm_pcmax mm_kmax].
    pose proof (zlen_nonneg (h_sat h)). rewrite !zlen_zrepeat by lia. rewrite Rsum_zeros.
    split; [reflexivity|]. split; [reflexivity|]. split; [intros cv []|].
    split; [intros c Hc _; apply zget_zrepeat; lia|]. unfold sumR. cbn [map]. rewrite Rsum_nil.
    repeat split; try (left; reflexivity); intros x [<-|[]]; lra.
  - intros done [c v] rest st Hall (Lp & Lv & Gp & Zp & Sp & Sir & Sor & Mn & Mx & Kx).
    assert (In c (h_ecl h)) as Hc.
    { apply (combine_fst_In (h_ecl h) vols c v). rewrite Hall. apply in_or_app. right. left. reflexivity. }
    assert (~ In c (map fst done)) as Hfresh.
    { apply (combine_NoDup_split (h_ecl h) vols done (c, v) rest); [apply Hwf|exact Hall]. }
    destruct (wf_cell h Hwf c Hc) as [Es [H0 [Hr [Ek Ep]]]].
    unfold mm_step. cbn [fst snd]. rewrite Es. cbn [bind].
    assert (rockb h (c, v) = (0 <? region h c)) as Hrk by reflexivity.
    destruct (0 <? region h c) eqn:Q.
    + destruct (wf_curve h Hwf c Hc ltac:(lia)) as [Ec _].
      rewrite Ep. cbn [bind].
      destruct (rset_exists (mm_vol st) c v ltac:(lia)) as [vol' [E1 [L1 [G1 O1]]]]. rewrite E1. cbn [bind].
      destruct (rset_exists (mm_pv st) c (v * at_ (h_poro h) c)%R ltac:(lia)) as [pv' [E2 [L2 [G2 O2]]]]. rewrite E2. cbn [bind].
      rewrite Ek. cbn [bind]. rewrite Ec. cbn [bind].
      eexists. split; [reflexivity|]. unfold mm_inv. rewrite filter_app. cbn [filter].
      replace (rockb h (c, v)) with true by (rewrite Hrk; reflexivity). rewrite !map_app.
      cbn [map mm_pv mm_vol mm_swir mm_swor mm_pcmin mm_pcmax mm_kmax fst snd].
      assert (~ In c (map fst (filter (rockb h) done))) as Hfr.
      { intros Hin. apply Hfresh. apply in_map_iff in Hin. destruct Hin as [x [<- Hx]]. apply filter_In in Hx.
        apply in_map, Hx. }
      split; [lia|]. split; [lia|]. split; [|split; [|split; [|split; [|split; [|split; [|split]]]]]].
      * intros cv Hin. apply in_app_or in Hin. destruct Hin as [Hin|[<-|[]]].
        -- rewrite O2; [apply Gp, Hin|]. intros E. apply Hfr. rewrite <- E. apply in_map, Hin.
        -- cbn [fst]. rewrite G2. reflexivity.
      * intros c' Hc' Hn'. rewrite O2.
        -- apply Zp; [exact Hc'|]. intros H. apply Hn'. apply in_or_app. left. exact H.
        -- intros ->. apply Hn'. apply in_or_app. right. left. reflexivity.
      * rewrite sumR_snoc. rewrite (Rsum_rset _ _ _ 0%R _ (Zp c Hr Hfr) E2), Sp. unfold pore_volume. cbn [fst snd]. lra.
      * rewrite sumR_snoc, Sir. reflexivity.
      * rewrite sumR_snoc, Sor. reflexivity.
      * apply (is_min_step _ (_ :: _)). exact Mn.
      * apply (is_max_step _ (_ :: _)). exact Mx.
      * rewrite smax_comm. apply (is_max_step _ (_ :: _)). exact Kx.
    + exists st. split; [reflexivity|]. unfold mm_inv. rewrite filter_app. cbn [filter].
      replace (rockb h (c, v)) with false by (rewrite Hrk; reflexivity). rewrite app_nil_r. repeat split; try assumption; try apply Mn; try apply Mx; try apply Kx.
Qed.

Lemma dP_range_prop dP : dP <> [] -> exists lo hi, dP_range dP = Ok (lo, hi) /\ is_min lo dP /\ is_max hi dP.
Proof.
  intros H. unfold dP_range. destruct dP as [|d t] eqn:E; [congruence|]. rewrite <- E in *.
  destruct (lmin_spec dP H) as [lo [-> [A B]]]. destruct (lmax_spec dP H) as [hi [-> [C D]]]. cbn [bind].
  exists lo, hi. repeat split; auto.
Qed.

(* C34 *)
Lemma pc_range_prop h tol vols r : wf h -> length vols = length (h_ecl h) -> h_dP h <> [] ->
  rock_cells h <> [] ->
  (forall c, In c (rock_cells h) -> - dbl_max <= own_low h c <= dbl_max /\ - dbl_max <= own_high h c <= dbl_max)%R ->
  minmax_pc h true tol vols = Ok r ->
  exists lo hi dmin dmax,
    is_min lo (map (own_low h) (rock_cells h)) /\ is_max hi (map (own_high h) (rock_cells h)) /\
    is_min dmin (h_dP h) /\ is_max dmax (h_dP h) /\
    mr_pcmin r = (lo - dmax)%R /\ mr_pcmax r = (hi - dmin)%R /\
    ((forall d, In d (h_dP h) -> mr_pcmin r - d <= lo /\ hi <= mr_pcmax r - d)%R <-> (dmin + dmax = 0)%R) /\
    ((dmin + dmax = 0)%R -> forall c d, In c (rock_cells h) -> In d (h_dP h) ->
       (mr_pcmin r - d <= own_low h c /\ own_high h c <= mr_pcmax r - d)%R).
Proof.
  intros Hwf Hlen HdP Hrock Hb E. unfold minmax_pc in E. destruct (Req_EM_T (h_contrast h) 0); [discriminate|].
  destruct (dP_range_prop _ HdP) as [dmin [dmax [Ed [Dmin Dmax]]]]. rewrite Ed in E. cbn [bind] in E.
  destruct (mm_fold h vols Hwf) as [st [Est Inv]]. rewrite Est in E. cbn [bind fst snd] in E.
  destruct Inv as (Lp & Lv & Gp & Zp & Sp & Sir & Sor & Mn & Mx & Kx).
  assert (map fst (combine (h_ecl h) vols) = h_ecl h) as Hfst.
  { clear -Hlen. revert vols Hlen. induction (h_ecl h) as [|x l IH]; intros [|y v]; cbn; intros; try discriminate; [reflexivity|].
    f_equal. apply IH. lia. }
  assert (map fst (filter (rockb h) (combine (h_ecl h) vols)) = rock_cells h) as Hrc.
  { unfold rock_cells. rewrite <- Hfst at 2. clear. unfold rockb. induction (combine (h_ecl h) vols) as [|[c v] l IH]; [reflexivity|].
    cbn [filter map fst]. destruct (0 <? region h c); cbn [map fst]; rewrite IH; reflexivity. }
  assert (forall f : Z -> R, map (fun cv => f (fst cv)) (filter (rockb h) (combine (h_ecl h) vols)) = map f (rock_cells h)) as Hmap.
  { intros f. rewrite <- Hrc, map_map. reflexivity. }
  rewrite Hmap in Mn, Mx.
  assert (is_min (mm_pcmin st) (map (own_low h) (rock_cells h))) as Mn'.
  { destruct Mn as [[A|A] B]; split; try assumption; try (intros x Hx; apply B; right; exact Hx).
    destruct (rock_cells h) as [|c0 t] eqn:R0; [congruence|]. left.
    rewrite <- A. apply Rle_antisym; [apply Hb; left; reflexivity|]. rewrite A. apply B. right. left. reflexivity. }
  assert (is_max (mm_pcmax st) (map (own_high h) (rock_cells h))) as Mx'.
  { destruct Mx as [[A|A] B]; split; try assumption; try (intros x Hx; apply B; right; exact Hx).
    destruct (rock_cells h) as [|c0 t] eqn:R0; [congruence|]. left.
    rewrite <- A. apply Rle_antisym; [rewrite A; apply B; right; left; reflexivity|]. apply Hb; left; reflexivity. }
  assert (mr_pcmin r = (mm_pcmin st - dmax)%R /\ mr_pcmax r = (mm_pcmax st - dmin)%R) as [E1 E2].
  { destruct (Rltb (mm_pcmax st - dmin) (mm_pcmin st - dmax)); [discriminate|].
    destruct (fdiv (mm_swir st) (Rsum (mm_pv st))); [|inversion E; auto].
    destruct (fdiv (mm_swor st) (Rsum (mm_pv st))); [|inversion E; auto].
    match type of E with (if ?b then _ else _) = _ => destruct b; [discriminate|] end. inversion E; auto. }
  exists (mm_pcmin st), (mm_pcmax st), dmin, dmax. repeat (split; [assumption|]). rewrite E1, E2.
  destruct Dmin as [D1 D2], Dmax as [D3 D4]. split; [split|].
  - intros H. pose proof (H dmin D1). pose proof (H dmax D3). lra.
  - intros H d Hd. specialize (D2 d Hd). specialize (D4 d Hd). lra.
  - intros H c d Hc Hd. specialize (D2 d Hd). specialize (D4 d Hd).
    destruct Mn' as [_ Mn'], Mx' as [_ Mx'].
    specialize (Mn' (own_low h c) (in_map _ _ _ Hc)). specialize (Mx' (own_high h c) (in_map _ _ _ Hc)). lra.
Qed.

(* ---------- saturations *)
Lemma pressure_ok h p c : offsets_cover h -> In c (h_ecl h) -> 0 < region h c ->
  0 <= c -> cell_pressure h p c = Ok (p - offset_of h c)%R.
Proof.
  intros Hd Hc Hr H0. unfold cell_pressure, offset_of. destruct (h_dP h) as [|d t] eqn:E; [f_equal; lra|].
  rewrite <- E. destruct Hd as [Hd|Hd]; [congruence|].
  rewrite rget_at; [reflexivity|]. split; [exact H0|]. apply Hd; [exact Hc|].
  unfold region in Hr. destruct (zget (h_sat h) c) as [s|]; [|lia]. intros Q. inversion Q. lia.
Qed.
Lemma cell_sat_ok h p c : wf h -> offsets_cover h -> In c (h_ecl h) -> 0 < region h c ->
  cell_sat h p c (region h c) = Ok (local_sat h p c).
Proof.
  intros Hwf Hd Hc Hr. destruct (wf_cell h Hwf c Hc) as [Es [H0 [Hrg [Ek Ep]]]].
  destruct (wf_curve h Hwf c Hc Hr) as [Ec _].
  unfold cell_sat. rewrite (pressure_ok h p c Hd Hc Hr) by lia. cbn [bind]. rewrite Ek, Ep. cbn [bind].
  unfold local_sat, scaling. destruct (h_aniso h); rewrite Ec; cbn [bind].
  - do 2 f_equal. lra.
  - reflexivity.
Qed.

Lemma sweep_fold h p pv (f : Z -> R) : wf h -> offsets_cover h -> zlen pv = zlen (h_sat h) ->
  exists w, foldM (fun w c =>
      let* s := rget (h_sat h) c in
      let* sw := (if 0 <? s then cell_sat h p c s else Ok 0%R) in
      let* v := rget pv c in
      Ok (w + sw * v)%R) (h_ecl h) 0%R = Ok w /\
   w = sumR (fun c => local_sat h p c * at_ pv c)%R (rock_cells h).
Proof.
  intros Hwf Hd Hl. unfold rock_cells.
  apply (foldM_inv _ (fun done w => w = sumR (fun c => local_sat h p c * at_ pv c)%R (filter (fun c => 0 <? region h c) done))).
  - reflexivity.
  - intros done c w Hc ->. destruct (wf_cell h Hwf c Hc) as [Es [H0 [Hrg [Ek Ep]]]]. rewrite Es. cbn [bind].
    rewrite filter_app. cbn [filter]. destruct (0 <? region h c) eqn:Q.
    + rewrite cell_sat_ok by (try assumption; lia). cbn [bind]. rewrite rget_at by lia. cbn [bind].
      eexists. split; [reflexivity|]. rewrite sumR_snoc. reflexivity.
    + cbn [bind]. rewrite rget_at by lia. cbn [bind]. eexists. split; [reflexivity|]. rewrite app_nil_r. lra.
Qed.

Lemma clamp_id lo tol : (0 <= lo <= 1)%R -> (if Rltb 1 lo && Rltb (lo - tol) 1 then 1%R else lo) = lo /\
  (if Rltb lo 0 && Rltb 0 (lo + tol) then 0%R else lo) = lo /\ Rltb lo 0 = false /\ Rltb 1 lo = false.
Proof. intros H. destruct (Rltb_spec 1 lo), (Rltb_spec lo 0); cbn [andb]; try lra; auto. Qed.

(* C32 *)
Lemma saturation_prop h grav tol vols r : wf h -> offsets_cover h -> length vols = length (h_ecl h) ->
  (forall v, In v vols -> 0 <= v)%R -> (forall x, In x (h_poro h) -> 0 <= x)%R ->
  (forall c, In c (rock_cells h) -> curve_ok (curve_of h c) /\ 0 <= cv_minf (curve_of h c) /\ cv_maxf (curve_of h c) <= 1)%R ->
  let rk := rock_pairs h vols in
  let W := sumR (pore_volume h) rk in
  W <> 0%R ->
  minmax_pc h grav tol vols = Ok r ->
  exists swir swor,
    mr_pore r = W /\ mr_sw r = Some (swir, swor) /\
    (swir * W = sumR (fun cv => cv_minf (curve_of h (fst cv)) * pore_volume h cv) rk)%R /\
    (swor * W = sumR (fun cv => cv_maxf (curve_of h (fst cv)) * pore_volume h cv) rk)%R /\
    (0 <= swir <= swor)%R /\ (swor <= 1)%R /\
    forall p, exists s,
      sweep_sat h (mr_pv r) (mr_pore r) p = Ok (Some s) /\
      (s * W = sumR (fun cv => local_sat h p (fst cv) * pore_volume h cv) rk)%R /\
      (swir <= s <= swor)%R /\
      (forall lo hi, (forall c, In c (rock_cells h) -> lo <= local_sat h p c <= hi)%R -> (lo <= s <= hi)%R).
Proof.
  intros Hwf Hd Hlen Hv Hp Hcu rk W HW E.
  unfold minmax_pc in E. destruct (Req_EM_T (h_contrast h) 0); [discriminate|].
  destruct (dP_range (h_dP h)) as [dpr| |]; try discriminate. cbn [bind] in E.
  destruct (mm_fold h vols Hwf) as [st [Est Inv]]. rewrite Est in E. cbn [bind] in E.
  destruct Inv as (Lp & Lv & Gp & Zp & Sp & Sir & Sor & Mn & Mx & Kx).
  change (filter (rockb h) (combine (h_ecl h) vols)) with rk in *.
  assert (forall cv, In cv rk -> In (fst cv) (rock_cells h) /\ 0 <= pore_volume h cv)%R as Hrk.
  { intros [c v] Hin. unfold rk, rock_pairs in Hin. apply filter_In in Hin. destruct Hin as [Hin Hr]. cbn [fst] in *. split.
    - apply filter_In. split; [apply (in_combine_l _ _ _ _ Hin)|exact Hr].
    - unfold pore_volume. cbn [fst snd]. apply Rmult_le_pos; [apply Hv, (in_combine_r _ _ _ _ Hin)|].
      apply Hp. apply (zget_In _ c). apply get_at. destruct Hwf as [A [_ [_ [D _]]]]. rewrite D. apply A. apply (in_combine_l _ _ _ _ Hin). }
  assert (0 < W)%R as HWp.
  { assert (0 <= W)%R by (apply Rsum_map_nonneg; intros x Hx; apply Hrk, Hx). lra. }
  assert (forall (f : Z -> R) lo hi, (forall c, In c (rock_cells h) -> lo <= f c <= hi)%R ->
     (lo <= sumR (fun cv => f (fst cv) * pore_volume h cv)%R rk / W <= hi)%R) as Hmean.
  { intros f lo hi Hf. unfold sumR.
    rewrite (Rsum_map_ext _ (fun cv => pore_volume h cv * f (fst cv))%R) by (intros; apply Rmult_comm).
    apply mean_bounds; [intros x Hx; apply Hrk, Hx|intros x Hx _; apply Hf, Hrk, Hx|exact HWp]. }
  rewrite Sp in E. fold W in E. rewrite !fdiv_Some in E by exact HW. rewrite Sir, Sor in E.
  set (a := (sumR (fun cv => cv_minf (curve_of h (fst cv)) * pore_volume h cv) rk)%R) in *.
  set (b := (sumR (fun cv => cv_maxf (curve_of h (fst cv)) * pore_volume h cv) rk)%R) in *.
  assert (0 <= a / W <= 1)%R as Ha.
  { apply (Hmean (fun c => cv_minf (curve_of h c))). intros c Hc. destruct (Hcu c Hc) as [A [B C]]. specialize (A 0%R). lra. }
  assert (0 <= b / W <= 1)%R as Hb.
  { apply (Hmean (fun c => cv_maxf (curve_of h c))). intros c Hc. destruct (Hcu c Hc) as [A [B C]]. specialize (A 0%R). lra. }
  destruct (clamp_id _ tol Ha) as [_ [A2 [A3 A4]]]. destruct (clamp_id _ tol Hb) as [B1 [_ [B3 B4]]].
  rewrite A2, B1, A3, A4, B3, B4 in E. cbn [orb] in E.
  match type of E with (if ?x then _ else _) = _ => destruct x; [discriminate|] end.
  inversion E. subst r. clear E. cbn [mr_pore mr_sw mr_pv].
  assert (forall p, (a <= sumR (fun cv => local_sat h p (fst cv) * pore_volume h cv)%R rk <= b)%R) as Hab.
  { intros p. unfold a, b, sumR. split; apply Rsum_map_le; intros x Hx; apply Rmult_le_compat_r; try apply Hrk, Hx;
    destruct (Hcu (fst x)) as [A _]; try (apply Hrk, Hx); apply A. }
  exists (a / W)%R, (b / W)%R. split; [first [reflexivity|exact Sp]|]. split; [reflexivity|].
  split; [field; exact HW|]. split; [field; exact HW|].
  assert (forall x y, x <= y -> x / W <= y / W)%R as Hdm.
  { intros x y Hxy. unfold Rdiv. apply Rmult_le_compat_r; [left; apply Rinv_0_lt_compat; exact HWp|exact Hxy]. }
  split. { split; [lra|]. apply Hdm. specialize (Hab 0%R). lra. }
  split; [lra|]. intros p.
  destruct (sweep_fold h p (mm_pv st) (fun _ => 0%R) Hwf Hd Lp) as [w [Ew Hw]].
  assert (w = sumR (fun cv => local_sat h p (fst cv) * pore_volume h cv)%R rk) as Hw'.
  { rewrite Hw. unfold sumR.
    assert (map fst rk = rock_cells h) as Hrc.
    { unfold rk, rock_pairs, rock_cells. clear -Hlen. revert vols Hlen.
      induction (h_ecl h) as [|x l IH]; intros [|y v] Hl; cbn in Hl; try discriminate; [reflexivity|].
      cbn [combine filter fst]. destruct (0 <? region h x); cbn [map fst]; rewrite IH by lia; reflexivity. }
    rewrite <- Hrc, map_map. apply Rsum_map_ext. intros cv Hcv. rewrite (at_get _ _ _ (Gp cv Hcv)). reflexivity. }
  exists (w / W)%R. unfold sweep_sat. rewrite Ew. cbn [bind].
  rewrite ?Sp. fold W. rewrite fdiv_Some by exact HW.
  split; [reflexivity|]. rewrite Hw'. split; [field; exact HW|]. split.
  - specialize (Hab p). split; apply Hdm; lra.
  - intros lo hi Hlh. apply (Hmean (local_sat h p)). exact Hlh.
Qed.
