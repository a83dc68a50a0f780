From Verif Require Import BaseFacts RBaseFacts Lin_Facts Steady_Proofs Euler_Proofs2 Matx_Proofs Matx_Proofs3 Eld_Proofs2 Relp_Proofs Relp_Proofs2 Relp_Proofs3 Relp_Proofs4 Visc_Proofs8 Tens_Proofs5 Tens_Proofs6 Tens_Proofs7 Rpc_Spec Rpc_Proofs.
Open Scope Z_scope.

Lemma zlen_more {A} (a : A) l : zlen (a :: l) = 1 + zlen l.
Proof. change (a :: l) with ([a] ++ l). rewrite zlen_app. reflexivity. Qed.
(* ---- the loops ---- *)
Lemma points_out u h pv tec (both : bool) ps : forall acc st pts st', foldM (one_point u h pv tec both) ps (acc, st) = Ok (pts, st') ->
  exists new, pts = acc ++ new /\ zlen new = zlen ps /\ forall i p, zget ps i = Some p -> exists rows s s', zget new i = Some rows /\ foldM (point_phase u h pv tec p) (zrange 0 (if both then 2 else 1)) ([], s) = Ok (rows, s').
Proof.
  induction ps as [|p ps IH]; intros acc st pts st' E.
  - cbn in E. injection E as <- <-. exists []. split; [now rewrite app_nil_r|]. split; [reflexivity|]. intros i p H. apply zget_In in H. destruct H.
  - cbn [foldM] in E. unfold one_point at 1 in E. cbn [fst snd] in E. destruct (foldM (point_phase u h pv tec p) _ _) as [[rows s']| |] eqn:Ep; try discriminate. cbn [bind fst snd] in E.
    destruct (IH _ _ _ _ E) as (new & -> & L & G). exists (rows :: new). split; [now rewrite <- app_assoc|]. split; [rewrite !zlen_more; lia|].
    intros i q H. destruct (Z.eq_dec i 0) as [-> |N].
    + injection H as <-. exists rows, st, s'. split; [reflexivity|exact Ep].
    + pose proof (zget_Some_range _ _ _ H). change (p :: ps) with ([p] ++ ps) in H. change (rows :: new) with ([rows] ++ new). rewrite zget_app_r in H by (cbn; lia). rewrite zget_app_r by (cbn; lia). change (zlen [p]) with 1 in H. change (zlen [rows]) with 1. apply G. exact H.
Qed.
Lemma phase_out u h pv tec p acc s ph rows s' : point_phase u h pv tec p (acc, s) ph = Ok (rows, s') ->
  exists ts w d row, rows = acc ++ [row] /\ phase_perms h pv ph p = Ok (ts, w) /\ upscale_cells u ts s = Ok (d, s') /\ mapM (get_voigt d) (zrange 0 tec) = Ok row.
Proof.
  unfold point_phase. cbn [fst snd]. intros E. destruct (phase_perms h pv ph p) as [[ts w]| |]; try discriminate. cbn [bind fst] in E. destruct (upscale_cells u ts s) as [[d s1]| |] eqn:Eu; try discriminate. cbn [bind fst snd] in E.
  destruct (mapM (get_voigt d) (zrange 0 tec)) as [row| |] eqn:Er; try discriminate. cbn [bind] in E. injection E as <- <-. exists ts, w, d, row. auto.
Qed.
Lemma phases_out u h pv tec (both : bool) p s rows s' : foldM (point_phase u h pv tec p) (zrange 0 (if both then 2 else 1)) ([], s) = Ok (rows, s') ->
  forall ph row, zget rows ph = Some row -> exists ts w d s1 s2, 0 <= ph < 2 /\ phase_perms h pv ph p = Ok (ts, w) /\ upscale_cells u ts s1 = Ok (d, s2) /\ mapM (get_voigt d) (zrange 0 tec) = Ok row.
Proof.
  intros E ph row G. assert (Z1 : forall A (a x : A), zget [a] ph = Some x -> ph = 0 /\ x = a).
  { intros A a x H. pose proof (zget_Some_range _ _ _ H) as B. change (zlen [a]) with 1 in B. assert (ph = 0) by lia. subst ph. injection H as <-. auto. }
  assert (Z2 : forall A (a b x : A), zget [a; b] ph = Some x -> (ph = 0 /\ x = a) \/ (ph = 1 /\ x = b)).
  { intros A a b x H. pose proof (zget_Some_range _ _ _ H) as B. change (zlen [a; b]) with 2 in B. assert (C : ph = 0 \/ ph = 1) by lia. destruct C as [-> | ->]; injection H as <-; auto. }
  destruct both.
  - change (zrange 0 2) with [0; 1] in E. cbn [foldM] in E. destruct (point_phase u h pv tec p ([], s) 0) as [[r1 s1]| |] eqn:E1; try discriminate. cbn [bind] in E. destruct (point_phase u h pv tec p (r1, s1) 1) as [[r2 s2]| |] eqn:E2; try discriminate. cbn [bind] in E. injection E as <- <-.
    apply phase_out in E1. destruct E1 as (ts & w & d & r & -> & P & U & V). apply phase_out in E2. destruct E2 as (ts' & w' & d' & r' & -> & P' & U' & V'). cbn [app] in G. destruct (Z2 _ _ _ _ G) as [(-> & ->)|(-> & ->)]; [exists ts, w, d, s, s1|exists ts', w', d', s1, s2]; (split; [lia|auto]).
  - change (zrange 0 1) with [0] in E. cbn [foldM] in E. destruct (point_phase u h pv tec p ([], s) 0) as [[r1 s1]| |] eqn:E1; try discriminate. cbn [bind] in E. injection E as <- <-.
    apply phase_out in E1. destruct E1 as (ts & w & d & r & -> & P & U & V). cbn [app] in G. destruct (Z1 _ _ _ G) as (-> & ->). exists ts, w, d, s, s1. split; [lia|auto].
Qed.
Lemma voigt_at d v : zlen d = 9 -> 0 <= v < 9 -> get_voigt d v = Ok (Visc_Spec.tensor_of d (element_row v) (element_col v)).
Proof.
  intros L Hv. destruct d as [|x0 [|x1 [|x2 [|x3 [|x4 [|x5 [|x6 [|x7 [|x8 [|x9 d]]]]]]]]]]; try (rewrite ?zlen_more in L; change (zlen (@nil R)) with 0 in L; pose proof (zlen_nonneg d); lia); try (exfalso; rewrite ?zlen_more in L; change (zlen (@nil R)) with 0 in L; lia).
  - assert (C : v = 0 \/ v = 1 \/ v = 2 \/ v = 3 \/ v = 4 \/ v = 5 \/ v = 6 \/ v = 7 \/ v = 8) by lia. destruct C as [-> | [-> | [-> | [-> | [-> | [-> | [-> | [-> | ->]]]]]]]]; reflexivity.
Qed.
Lemma row_out tec d row : tec = 3 \/ tec = 9 -> zlen d = 9 -> mapM (get_voigt d) (zrange 0 tec) = Ok row -> zlen row = tec /\ forall v, 0 <= v < tec -> nthR row v = Visc_Spec.tensor_of d (element_row v) (element_col v).
Proof.
  intros T L E. destruct (mapM_out _ _ _ E) as (Lr & G). rewrite zlen_zrange in Lr by lia. split; [lia|]. intros v Hv. destruct (G v v) as (y & Ey & Gy); [rewrite zget_zrange by lia; f_equal; lia|]. rewrite voigt_at in Ey by lia. injection Ey as <-. unfold nthR. rewrite Gy. reflexivity.
Qed.

Section Run.
Context (orth : mat -> mat) (u : upscaler) (low hi : Z -> R) (UO : upscaler_ok orth u low hi) (Hb : us_bct u = 0 \/ us_bct u = 2).
Context (h : helper) (pv : list R) (RO : run_ok u h pv) (grav : bool) (tol : R) (vols : list R) (mr : mmresult) (LV : length vols = length (h_ecl h)) (MM : minmax_pc h grav tol vols = Ok mr).
Lemma run_wf : wf h.
Proof. exact (proj1 RO). Qed.
Lemma run_co : (1 <= h_contrast h)%R.
Proof. exact (proj1 (proj2 (proj2 (proj2 (proj2 (proj2 RO)))))). Qed.
Lemma run_mp : (0 < h_minperm h)%R.
Proof. exact (proj1 (proj2 (proj2 (proj2 (proj2 RO))))). Qed.
Lemma run_an : h_aniso h = true -> forall c, In c (h_ecl h) -> 0 < region h c.
Proof. exact (proj2 (proj2 (proj2 (proj2 (proj2 (proj2 RO)))))). Qed.
Lemma run_len : zlen (h_ecl h) = zlen (us_g u).
Proof. exact (proj1 (proj2 (proj2 (proj2 RO)))). Qed.
Notation kmin := (mr_kmin mr).
Lemma kmin_is : exists Kx, is_max Kx (0%R :: map (fun c => cell_k h c 0) (Relp_Spec.rock_cells h)) /\ kmin = Rmax (Kx / h_contrast h) (h_minperm h).
Proof.
  pose proof run_co as Hco. pose proof run_mp as Hmp. pose proof MM as E. unfold minmax_pc in E. destruct (Req_EM_T (h_contrast h) 0); [discriminate|].
  destruct (dP_range (h_dP h)) as [dpr| |]; try discriminate. cbn [bind] in E.
  destruct (mm_fold h vols run_wf) as [st [Est Inv]]. rewrite Est in E. cbn [bind] in E.
  destruct Inv as (_ & _ & _ & _ & _ & _ & _ & _ & _ & Kx). exists (mm_kmax st). split.
  - assert (Ex : map (fun c => cell_k h c 0) (Relp_Spec.rock_cells h) = map (fun cv => at_ (h_kx h) (fst cv)) (filter (rockb h) (combine (h_ecl h) vols))).
    { unfold Relp_Spec.rock_cells. generalize (h_ecl h) vols LV. induction l as [|c l IH]; intros v Lv; [reflexivity|]. destruct v as [|x v]; [discriminate|]. cbn [combine filter]. unfold rockb at 1. cbn [fst]. injection Lv as Lv. destruct (0 <? region h c); cbn [map fst]; rewrite (IH v Lv); reflexivity. }
    rewrite Ex. exact Kx.
  - rewrite <- smax_Rmax. match type of E with (if ?x then _ else _) = _ => destruct x; [discriminate|] end.
    destruct (fdiv _ _); [|inversion E; reflexivity]. destruct (fdiv _ _); [|inversion E; reflexivity].
    match type of E with (if ?x then _ else _) = _ => destruct x; [discriminate|] end. inversion E; reflexivity.
Qed.
Lemma kmin_low : (h_minperm h <= kmin)%R /\ forall c, In c (Relp_Spec.rock_cells h) -> (cell_k h c 0 <= h_contrast h * kmin)%R.
Proof.
  pose proof run_co as Hco. pose proof run_mp as Hmp. destruct kmin_is as (Kx & (_ & H) & E). split; [rewrite E; apply Rmax_r|]. intros c Hc. assert (A : (cell_k h c 0 <= Kx)%R) by (apply H; right; apply in_map_iff; eauto).
  assert (B : (Kx / h_contrast h <= kmin)%R) by (rewrite E; apply Rmax_l). apply Rle_trans with Kx; [exact A|]. apply (Rmult_le_compat_l (h_contrast h)) in B; [|lra]. replace (h_contrast h * (Kx / h_contrast h))%R with Kx in B by (field; lra). exact B.
Qed.
Definition single_of (c : Z) : R * R * R := (Rmax kmin (cell_k h c 0), Rmax kmin (cell_k h c (dir_of h 1)), Rmax kmin (cell_k h c (dir_of h 2))).
Lemma single_entry c d : 0 <= d < 3 -> nth (Z.to_nat d) (entries (single_of c)) 0%R = Rmax kmin (cell_k h c (dir_of h d)).
Proof. intros Hd. destruct (three_cases d Hd) as [-> | [-> | ->]]; try reflexivity. unfold dir_of. destruct (h_aniso h); reflexivity. Qed.
Lemma single_ok : single_perms h kmin = Ok (map single_of (h_ecl h)).
Proof.
  pose proof run_co as Hco. pose proof run_mp as Hmp. unfold single_perms. apply mapM_all_Ok. intros c Hc. destruct (Relp_Proofs3.wf_cell h run_wf c Hc) as [W1 [_ [_ [Ekx _]]]]. rewrite Ekx. cbn [bind]. unfold single_of, dir_of, cell_k. cbn [Z.eqb Pos.eqb]. destruct (h_aniso h) eqn:A.
  - destruct run_wf as (W & _ & _ & _ & Wa & _). destruct (Wa A) as (Ly & Lz). specialize (W c Hc). unfold rget, at_. destruct (zget_in_range (h_ky h) c) as (y & Ey); [lia|]. destruct (zget_in_range (h_kz h) c) as (z & Ez); [lia|]. cbn [Z.eqb Pos.eqb]. rewrite Ey, Ez. cbn [bind]. rewrite !smax_Rmax. reflexivity.
  - rewrite smax_Rmax, Rmax_comm. reflexivity.
Qed.
Lemma all_positive f : (forall c, In c (h_ecl h) -> forall d, 0 <= d < 3 -> (0 < nth (Z.to_nat d) (entries (f c)) 0)%R) -> positive_cells (map f (h_ecl h)).
Proof.
  pose proof run_co as Hco. pose proof run_mp as Hmp. intros H t x Ht Hx. apply in_map_iff in Ht. destruct Ht as (c & <- & Hc). pose proof (H c Hc) as P. destruct (f c) as [[a b] e]. cbn [entries] in *. destruct Hx as [<- |[<- |[<- |[]]]]; [exact (P 0 ltac:(lia))|exact (P 1 ltac:(lia))|exact (P 2 ltac:(lia))].
Qed.
Lemma single_ran st d st' : upscale_single u h kmin st = Ok (d, st') -> ran u low hi (map single_of (h_ecl h)) d.
Proof.
  pose proof run_co as Hco. pose proof run_mp as Hmp. intros E. unfold upscale_single in E. rewrite single_ok in E. cbn [bind] in E. apply (cells_ran orth u low hi UO _ _ _ _ Hb) in E; [exact E|rewrite zlen_map; exact run_len|].
  apply all_positive. intros c _ i Hi. rewrite single_entry by exact Hi. pose proof (proj1 kmin_low). pose proof (Rmax_l kmin (cell_k h c (dir_of h i))). lra.
Qed.
Lemma phase_cells ph p ts w : 0 <= ph < 2 -> phase_perms h pv ph p = Ok (ts, w) -> exists M fl, ts = map (Relp_Spec.tensor_of h ph p fl) (h_ecl h) /\
  is_max M (0%R :: flat_map (cand h ph p) (Relp_Spec.rock_cells h)) /\ fl = Rmax (M / h_contrast h) (h_minperm h).
Proof.
  pose proof run_co as Hco. pose proof run_mp as Hmp. intros Hp E. destruct RO as (_ & Cov & Lpv & _). destruct (phase_perms_prop h pv ph p run_wf Cov Lpv Hp ltac:(lra) run_an) as (M & fl & E' & A & B). rewrite E in E'. injection E' as -> _. eauto.
Qed.
Lemma phase_ran ph p ts w st d st' : 0 <= ph < 2 -> phase_perms h pv ph p = Ok (ts, w) -> upscale_cells u ts st = Ok (d, st') -> ran u low hi ts d.
Proof.
  pose proof run_co as Hco. pose proof run_mp as Hmp. intros Hp E U. destruct (phase_cells ph p ts w Hp E) as (M & fl & -> & _ & F). apply (cells_ran orth u low hi UO _ _ _ _ Hb) in U; [exact U|rewrite zlen_map; exact run_len|].
  apply all_positive. intros c Hc i Hi. rewrite tensor_entry by (try exact Hi; intros A; apply run_an; assumption). assert (0 < fl)%R by (pose proof (Rmax_r (M / h_contrast h) (h_minperm h)); lra). destruct (0 <? region h c); [|assumption]. pose proof (Rmax_l fl (phase_perm h ph p c (dir_of h i))). lra.
Qed.
Lemma all_below f f' c : (forall x, In x (h_ecl h) -> forall d, 0 <= d < 3 -> (nth (Z.to_nat d) (entries (f x)) 0 <= c * nth (Z.to_nat d) (entries (f' x)) 0)%R) ->
  forall k t t', zget (map f (h_ecl h)) k = Some t -> zget (map f' (h_ecl h)) k = Some t' -> below c t t'.
Proof.
  pose proof run_co as Hco. pose proof run_mp as Hmp. intros H k t t' E E'. rewrite zget_map in E, E'. destruct (zget (h_ecl h) k) as [x|] eqn:Q; [|discriminate]. cbn in E, E'. injection E as <-. injection E' as <-. apply below_iff. intros d Hd. apply H; [exact (zget_In _ _ _ Q)|exact Hd].
Qed.
Lemma phase_order ph p p' fl fl' M M' : is_max M (0%R :: flat_map (cand h ph p) (Relp_Spec.rock_cells h)) -> fl = Rmax (M / h_contrast h) (h_minperm h) ->
  is_max M' (0%R :: flat_map (cand h ph p') (Relp_Spec.rock_cells h)) -> fl' = Rmax (M' / h_contrast h) (h_minperm h) ->
  (forall c d, In c (Relp_Spec.rock_cells h) -> given_dir h d -> (phase_perm h ph p c d <= phase_perm h ph p' c d)%R) ->
  forall k t t', zget (map (Relp_Spec.tensor_of h ph p fl) (h_ecl h)) k = Some t -> zget (map (Relp_Spec.tensor_of h ph p' fl') (h_ecl h)) k = Some t' -> below 1 t t'.
Proof.
  pose proof run_co as Hco. pose proof run_mp as Hmp. intros A F A' F' H. assert (MM' : (M <= M')%R).
  { apply (max_le h ph p M M' A); [exact (cand_le h ph p' M' Hco A')| |].
    - intros N. destruct (Relp_Spec.rock_cells h) as [|c l] eqn:Q; [now destruct N|]. apply (max_min h ph p' M' c); rewrite Q; [exact A'|left; reflexivity].
    - intros c d Hc Hd. apply Rle_trans with (phase_perm h ph p' c d); [exact (H c d Hc Hd)|exact (cand_in h ph p' M' c d A' Hc Hd)]. }
  assert (FF : (fl <= fl')%R) by (rewrite F, F'; apply Rle_max_compat_r; unfold Rdiv; apply Rmult_le_compat_r; [left; apply Rinv_0_lt_compat; lra|exact MM']).
  apply all_below. intros c Hc d Hd. rewrite !tensor_entry by (try exact Hd; intros Q; apply run_an; assumption). destruct (Z.ltb_spec 0 (region h c)) as [R0|]; [|lra]. rewrite Rmult_1_l. apply Rle_trans with (Rmax fl (phase_perm h ph p' c (dir_of h d))).
  - apply Rle_max_compat_l. apply H; [apply rock_in; auto|apply dir_given; exact Hd].
  - apply Rle_max_compat_r. exact FF.
Qed.
Lemma phase_below ph p fl M : perms_ok h -> (forall c d, In c (Relp_Spec.rock_cells h) -> given_dir h d -> (cell_kr h ph p c d <= 1)%R) -> is_max M (0%R :: flat_map (cand h ph p) (Relp_Spec.rock_cells h)) -> fl = Rmax (M / h_contrast h) (h_minperm h) ->
  forall k t t', zget (map (Relp_Spec.tensor_of h ph p fl) (h_ecl h)) k = Some t -> zget (map single_of (h_ecl h)) k = Some t' -> below 1 t t'.
Proof.
  pose proof run_co as Hco. pose proof run_mp as Hmp. intros P Kr A F. destruct kmin_low as (K1 & K2).
  assert (PP : forall c d, In c (Relp_Spec.rock_cells h) -> given_dir h d -> (phase_perm h ph p c d <= cell_k h c d)%R).
  { intros c d Hc Hd. destruct (P c d Hc Hd) as (N & _). change (phase_perm h ph p c d) with (cell_kr h ph p c d * cell_k h c d)%R. specialize (Kr c d Hc Hd). nra. }
  assert (ML : (M <= h_contrast h * kmin)%R).
  { apply (max_le h ph p M _ A); [nra|intros _; nra|]. intros c d Hc Hd. destruct (P c d Hc Hd) as (_ & c' & Hc' & L). specialize (PP c d Hc Hd). specialize (K2 c' Hc'). lra. }
  assert (FL : (fl <= kmin)%R).
  { rewrite F. apply Rmax_lub; [|exact K1]. apply (Rmult_le_reg_l (h_contrast h)); [lra|]. replace (h_contrast h * (M / h_contrast h))%R with M by (field; lra). exact ML. }
  apply all_below. intros c Hc d Hd. rewrite tensor_entry, single_entry by (try exact Hd; intros Q; apply run_an; assumption). rewrite Rmult_1_l. destruct (Z.ltb_spec 0 (region h c)) as [R0|].
  - apply Rmax_lub; [apply Rle_trans with kmin; [exact FL|apply Rmax_l]|]. apply Rle_trans with (cell_k h c (dir_of h d)); [|apply Rmax_r]. apply PP; [apply rock_in; auto|apply dir_given; exact Hd].
  - apply Rle_trans with kmin; [exact FL|apply Rmax_l].
Qed.
Lemma phase_uniform lam ph p fl M : (forall c, In c (h_ecl h) -> 0 < region h c) -> (0 < lam <= 1)%R ->
  (forall c d, In c (h_ecl h) -> given_dir h d -> cell_kr h ph p c d = lam /\ (h_minperm h <= lam * cell_k h c d)%R) ->
  (forall c d c' d', In c (h_ecl h) -> In c' (h_ecl h) -> given_dir h d -> given_dir h d' -> (cell_k h c d <= h_contrast h * cell_k h c' d')%R) ->
  is_max M (0%R :: flat_map (cand h ph p) (Relp_Spec.rock_cells h)) -> fl = Rmax (M / h_contrast h) (h_minperm h) ->
  forall c d, In c (h_ecl h) -> 0 <= d < 3 -> nth (Z.to_nat d) (entries (Relp_Spec.tensor_of h ph p fl c)) 0%R = (lam * cell_k h c (dir_of h d))%R /\ nth (Z.to_nat d) (entries (single_of c)) 0%R = cell_k h c (dir_of h d).
Proof.
  pose proof run_co as Hco. pose proof run_mp as Hmp. intros Rk Hl Hk Hc A F c d Ic Hd. rewrite tensor_entry, single_entry by (try exact Hd; intros Q; apply Rk; exact Ic). rewrite (proj2 (Z.ltb_lt 0 (region h c)) (Rk c Ic)). change (phase_perm h ph p c (dir_of h d)) with (cell_kr h ph p c (dir_of h d) * cell_k h c (dir_of h d))%R.
  pose proof (dir_given h d Hd) as Gd. destruct (Hk c _ Ic Gd) as (-> & Lk). set (k := cell_k h c (dir_of h d)) in *.
  assert (PP : forall c' d', In c' (Relp_Spec.rock_cells h) -> given_dir h d' -> (phase_perm h ph p c' d' <= h_contrast h * (lam * k))%R).
  { intros c' d' Hc' Gd'. apply rock_in in Hc'. destruct Hc' as (Hc' & _). change (phase_perm h ph p c' d') with (cell_kr h ph p c' d' * cell_k h c' d')%R. destruct (Hk c' d' Hc' Gd') as (-> & _). specialize (Hc c' d' c _ Hc' Ic Gd' Gd). fold k in Hc. nra. }
  assert (0 < k)%R by nra. assert (0 < lam * k)%R by nra. split.
  - apply Rmax_right. rewrite F. apply Rmax_lub; [|exact Lk]. apply (Rmult_le_reg_l (h_contrast h)); [lra|]. replace (h_contrast h * (M / h_contrast h))%R with M by (field; lra). apply (max_le h ph p M _ A); [nra|intros _; nra|exact PP].
  - apply Rmax_right. destruct kmin_is as (Kx & (HK & _) & ->). apply Rmax_lub; [|nra]. apply (Rmult_le_reg_l (h_contrast h)); [lra|]. replace (h_contrast h * (Kx / h_contrast h))%R with Kx by (field; lra).
    destruct HK as [<- |HK]; [nra|]. apply in_map_iff in HK. destruct HK as (c' & <- & Hc'). apply rock_in in Hc'. apply Hc; try tauto. split; [lia|reflexivity].
Qed.
(* what a run leaves behind *)
Definition point_run (tec : Z) (inv : list R -> list R) (ds : list R) (cols : list (list R)) (ph i : Z) (p : R) (ts : list (R * R * R)) (d row out : list R) : Prop :=
  (exists M fl, ts = map (Relp_Spec.tensor_of h ph p fl) (h_ecl h) /\ is_max M (0%R :: flat_map (cand h ph p) (Relp_Spec.rock_cells h)) /\ fl = Rmax (M / h_contrast h) (h_minperm h)) /\
  ran u low hi ts d /\ zlen row = tec /\ (forall v, 0 <= v < tec -> nthR row v = Visc_Spec.tensor_of d (element_row v) (element_col v)) /\
  phase_relperm tec (inv ds) row = Ok out /\ forall v, 0 <= v < tec -> value cols v i = nthR out v.
Lemma curves_out inv tec (both : bool) thresh ps st ph cols : (forall ts d, ran u low hi ts d -> zlen (inv d) = 9) -> tec = 3 \/ tec = 9 -> a_phase both ph -> relperm_curves u h inv pv kmin tec both false thresh ps st ph = Ok cols ->
  exists ds, ran u low hi (map single_of (h_ecl h)) ds /\ (exists st', upscale_single u h kmin st = Ok (ds, st')) /\ zlen cols = tec /\ (forall v, 0 <= v < tec -> exists col, zget cols v = Some col /\ zlen col = zlen ps) /\
    forall i p, zget ps i = Some p -> exists ts d row out, point_run tec inv ds cols ph i p ts d row out.
Proof.
  pose proof run_co as Hco. pose proof run_mp as Hmp. intros Hinv T Hph E. unfold relperm_curves in E. destruct (upscale_single u h kmin st) as [[ds st']| |] eqn:Es; try discriminate. cbn [bind fst snd] in E. pose proof (single_ran _ _ _ Es) as Rs. exists ds. split; [exact Rs|]. split; [eauto|].
  destruct (all_points u h pv tec both ps st') as [[pts st2]| |] eqn:Ep; try discriminate. cbn [bind fst] in E. destruct (mapM (fun x => rget x ph) pts) as [rows| |] eqn:Er; try discriminate. cbn [bind] in E.
  unfold all_points in Ep. destruct (points_out _ _ _ _ _ _ _ _ _ _ Ep) as (new & -> & Ln & Gn). cbn [app] in Er. destruct (mapM_out _ _ _ Er) as (Lr & Gr).
  assert (RP : forall i p, zget ps i = Some p -> exists row ts w d s1 s2, zget rows i = Some row /\ 0 <= ph < 2 /\ phase_perms h pv ph p = Ok (ts, w) /\ upscale_cells u ts s1 = Ok (d, s2) /\ mapM (get_voigt d) (zrange 0 tec) = Ok row).
  { intros i p Hi. destruct (Gn i p Hi) as (rr & s & s' & G1 & F1). destruct (Gr i rr G1) as (row & E1 & G2). unfold rget in E1. destruct (zget rr ph) as [row'|] eqn:Eq; [|discriminate]. injection E1 as ->. destruct (phases_out _ _ _ _ _ _ _ _ _ F1 ph row Eq) as (ts & w & d & s1 & s2 & Q). exists row, ts, w, d, s1, s2. auto. }
  assert (RL : forall r, In r rows -> zlen r = tec).
  { intros r Hr. apply In_zget in Hr. destruct Hr as (i & Hi & Gi). destruct (zget_in_range ps i) as (p & Hp); [lia|]. destruct (RP i p Hp) as (row & ts & w & d & s1 & s2 & G1 & P2 & PE & UE & ME). rewrite Gi in G1. injection G1 as ->. pose proof (phase_ran ph p ts w _ _ _ P2 PE UE) as Rd. destruct Rd as (_ & _ & L9 & _). exact (proj1 (row_out tec d row T L9 ME)). }
  destruct (helper_spec thresh (zlen ps) tec (inv ds) rows T (Hinv _ _ Rs) ltac:(lia) RL) as (HE & _). rewrite HE in E. destruct (columns_ok tec (inv ds) rows T (Hinv _ _ Rs) RL) as (cols' & EC & LC & GC). rewrite E in EC. injection EC as <-.
  split; [exact LC|]. split; [intros v Hv; destruct (GC v Hv) as (col & A & B & _); exists col; split; [exact A|lia]|]. intros i p Hi. destruct (RP i p Hi) as (row & ts & w & d & s1 & s2 & G1 & P2 & PE & UE & ME). pose proof (phase_ran ph p ts w _ _ _ P2 PE UE) as Rd. pose proof Rd as (_ & _ & L9 & _). destruct (row_out tec d row T L9 ME) as (Lrow & Vrow).
  destruct (phase_relperm_ok tec (inv ds) row (Visc_Spec.tensor_of (match foldM (fun t v => let* e := rget row v in set_voigt t v e) (zrange 0 tec) (zrepeat 0%R 9) with Ok t => t | _ => [] end)) T Lrow (Hinv _ _ Rs)) as (out & Eo & _).
  { destruct (spread_ok tec row T Lrow) as (t & Et & _ & F). rewrite Et. exact F. }
  exists ts, d, row, out. split; [exact (phase_cells ph p ts w P2 PE)|]. split; [exact Rd|]. split; [exact Lrow|]. split; [exact Vrow|]. split; [exact Eo|]. intros v Hv. destruct (GC v Hv) as (col & A & B & C). destruct (C i row G1) as (out' & Eo' & Q). rewrite Eo in Eo'. injection Eo' as <-. unfold value. rewrite A. exact Q.
Qed.
End Run.
