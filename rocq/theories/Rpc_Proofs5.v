From Verif Require Import BaseFacts RBaseFacts Lin_Facts Steady_Proofs Euler_Proofs2 Matx_Proofs Matx_Proofs3 Eld_Proofs2 Impl_Proofs Relp_Proofs Relp_Proofs2 Relp_Proofs3 Relp_Proofs4 Relp_Proofs5 Visc_Proofs8 Tens_Proofs5 Tens_Proofs6 Tens_Proofs9 Rpc_Spec Rpc_Proofs Rpc_Proofs2 Rpc_Proofs3 Rpc_Proofs4.
Open Scope Z_scope.

(* ---- the program delivers the curves when the flow solutions are found ---- *)
Lemma positive_map h (f : Z -> R * R * R) : (forall c, In c (h_ecl h) -> forall d, 0 <= d < 3 -> (0 < nth (Z.to_nat d) (entries (f c)) 0)%R) -> positive_cells (map f (h_ecl h)).
Proof.
  intros H t x Ht Hx. apply in_map_iff in Ht. destruct Ht as (c & <- & Hc). pose proof (H c Hc) as P. destruct (f c) as [[a b] e]. cbn [entries] in *. destruct Hx as [<- |[<- |[<- |[]]]]; [exact (P 0 ltac:(lia))|exact (P 1 ltac:(lia))|exact (P 2 ltac:(lia))].
Qed.
Section Total.
Context (u : upscaler) (h : helper) (pv : list R) (RO : run_ok u h pv) (TT : forall ts st, zlen ts = zlen (us_g u) -> positive_cells ts -> exists d st', upscale_cells u ts st = Ok (d, st') /\ zlen d = 9).
Lemma phase_total tec p acc ph : 0 <= tec <= 9 -> 0 <= ph < 2 -> exists rows s, point_phase u h pv tec p acc ph = Ok (rows, s) /\ exists row, rows = fst acc ++ [row] /\ zlen row = tec.
Proof.
  intros Ht Hp. pose proof RO as (Hwf & Cov & Lpv & Lg & Hmp & Hco & Han). destruct (phase_perms_prop h pv ph p Hwf Cov Lpv Hp ltac:(lra) Han) as (M & fl & E & _ & F). unfold point_phase. rewrite E. cbn [bind fst].
  destruct (TT (map (Relp_Spec.tensor_of h ph p fl) (h_ecl h)) (snd acc)) as (d & s & Eu & Ld).
  - rewrite zlen_map. exact Lg.
  - apply positive_map. intros c Hc i Hi. rewrite tensor_entry by (try exact Hi; intros A; apply Han; assumption). assert (0 < fl)%R by (pose proof (Rmax_r (M / h_contrast h) (h_minperm h)); lra). destruct (0 <? region h c); [|assumption]. pose proof (Rmax_l fl (phase_perm h ph p c (dir_of h i))). lra.
  - rewrite Eu. cbn [bind fst snd]. destruct (mapM_exists (get_voigt d) (zrange 0 tec)) as (row & Er); [intros v Iv; apply In_zrange in Iv; eexists; apply voigt_at; lia|]. rewrite Er. cbn [bind]. eexists _, _. split; [reflexivity|]. exists row. split; [reflexivity|]. destruct (mapM_out _ _ _ Er) as (Lr & _). rewrite zlen_zrange in Lr by lia. lia.
Qed.
Lemma point_total tec (both : bool) acc p : 0 <= tec <= 9 -> exists pts s, one_point u h pv tec both acc p = Ok (pts, s) /\ exists rows, pts = fst acc ++ [rows] /\ zlen rows = (if both then 2 else 1) /\ forall row, In row rows -> zlen row = tec.
Proof.
  intros Ht. unfold one_point. destruct (phase_total tec p ([], snd acc) 0 Ht ltac:(lia)) as (r1 & s1 & E1 & row1 & Q1 & L1). destruct both.
  - change (zrange 0 2) with [0; 1]. cbn [foldM]. rewrite E1. cbn [bind]. destruct (phase_total tec p (r1, s1) 1 Ht ltac:(lia)) as (r2 & s2 & E2 & row2 & Q2 & L2). rewrite E2. cbn [bind fst snd]. eexists _, _. split; [reflexivity|]. exists r2. split; [reflexivity|]. cbn [fst app] in *. subst r1 r2. cbn [app]. split; [reflexivity|]. intros row [<- |[<- |[]]]; assumption.
  - change (zrange 0 1) with [0]. cbn [foldM]. rewrite E1. cbn [bind fst snd]. eexists _, _. split; [reflexivity|]. exists r1. split; [reflexivity|]. cbn [fst app] in *. subst r1. cbn [app]. split; [reflexivity|]. intros row [<- |[]]; assumption.
Qed.
Lemma points_total tec (both : bool) ps : 0 <= tec <= 9 -> forall acc, exists pts s, foldM (one_point u h pv tec both) ps acc = Ok (pts, s) /\ exists new, pts = fst acc ++ new /\ zlen new = zlen ps /\
  forall rows, In rows new -> zlen rows = (if both then 2 else 1) /\ forall row, In row rows -> zlen row = tec.
Proof.
  intros Ht. induction ps as [|p ps IH]; intros acc.
  - exists (fst acc), (snd acc). split; [destruct acc; reflexivity|]. exists []. split; [now rewrite app_nil_r|]. split; [reflexivity|]. intros rows [].
  - cbn [foldM]. destruct (point_total tec both acc p Ht) as (pts & s & E & rows & Q & L1 & L2). rewrite E. cbn [bind]. destruct (IH (pts, s)) as (pts' & s' & E' & new & Q' & Ln & Hn). exists pts', s'. split; [exact E'|]. exists (rows :: new). cbn [fst] in Q'. split; [rewrite Q', Q, <- app_assoc; reflexivity|]. split; [rewrite !zlen_more; lia|].
    intros r [<- |I]; [split; assumption|apply Hn; exact I].
Qed.
End Total.
Lemma curves_exist u h inv pv bct tec both ps ph orth low hi grav tol vols mr thresh st : bct = 0 /\ tec = 3 \/ bct = 2 /\ tec = 9 -> upscaler_ok orth u low hi -> run_ok u h pv -> inverts inv -> us_bct u = bct -> a_phase both ph ->
  length vols = length (h_ecl h) -> minmax_pc h grav tol vols = Ok mr -> (forall ts st, zlen ts = zlen (us_g u) -> positive_cells ts -> exists r, upscale_cells u ts st = Ok r) ->
  exists ds cols, relperm_run u h inv pv bct tec both ps ph ds cols /\ relperm_curves u h inv pv (mr_kmin mr) tec both false thresh ps st ph = Ok cols.
Proof.
  intros Hbt UO RO IV Hb AP LV MM TT. assert (Hb' : us_bct u = 0 \/ us_bct u = 2) by lia. assert (Ht : tec = 3 \/ tec = 9) by lia.
  assert (T9 : forall ts st, zlen ts = zlen (us_g u) -> positive_cells ts -> exists d st', upscale_cells u ts st = Ok (d, st') /\ zlen d = 9).
  { intros ts s L P. destruct (TT ts s L P) as ([d s'] & E). exists d, s'. split; [exact E|]. destruct (cells_ran orth u low hi UO ts s d s' Hb' L P E) as (_ & _ & L9 & _). exact L9. }
  pose proof RO as (Hwf & _ & _ & Lg & Hmp & _). unfold relperm_run, relperm_curves.
  assert (ES : exists ds st', upscale_single u h (mr_kmin mr) st = Ok (ds, st')).
  { unfold upscale_single. rewrite (single_ok u h pv RO vols mr LV). cbn [bind]. destruct (T9 (map (single_of h mr) (h_ecl h)) st) as (d & s & E & _); [rewrite zlen_map; exact Lg| |eauto]. apply positive_map. intros c _ i Hi. rewrite single_entry by exact Hi. destruct (kmin_low u h pv RO grav tol vols mr LV MM) as (K1 & _). pose proof (Rmax_l (mr_kmin mr) (cell_k h c (dir_of h i))). lra. }
  destruct ES as (ds & st' & ES). pose proof (single_ran orth u low hi UO Hb' h pv RO grav tol vols mr LV MM st ds st' ES) as Rs.
  destruct (points_total u h pv RO T9 tec both ps ltac:(lia) ([], st')) as (pts & s & EP & new & Q & Ln & Hn). cbn [fst app] in Q. subst pts.
  destruct (mapM_exists (fun x => rget x ph) new) as (rows & Er); [intros x I; destruct (Hn x I) as (L & _); unfold a_phase in AP; destruct (zget_in_range x ph ltac:(lia)) as (r & Er); exists r; unfold rget; rewrite Er; reflexivity|].
  destruct (mapM_out _ _ _ Er) as (Lr & Gr).
  assert (RL : forall r, In r rows -> zlen r = tec).
  { intros r I. apply In_zget in I. destruct I as (i & Hi & Gi). destruct (zget_in_range new i ltac:(lia)) as (x & Gx). destruct (Gr i x Gx) as (y & Ey & Gy). rewrite Gi in Gy. injection Gy as <-. unfold rget in Ey. destruct (zget x ph) as [z|] eqn:Ez; [|discriminate]. injection Ey as ->. apply (proj2 (Hn x (zget_In _ _ _ Gx))). exact (zget_In _ _ _ Ez). }
  assert (Li : zlen (inv ds) = 9) by (destruct Hb' as [H|H]; [exact (proj1 (fixed_inv u low hi inv IV _ ds H Rs))|exact (proj1 (periodic_inv u low hi inv IV _ ds H Rs))]).
  destruct (helper_spec thresh (zlen ps) tec (inv ds) rows Ht Li ltac:(lia) RL) as (HE & _). destruct (columns_ok tec (inv ds) rows Ht Li RL) as (cols & EC & _ & _).
  assert (EE : (let* k := upscale_single u h (mr_kmin mr) st in let* r := all_points u h pv tec both ps (snd k) in let* rows := mapM (fun x => rget x ph) (fst r) in helper_relperm false thresh (zlen ps) tec (inv (fst k)) rows) = Ok cols).
  { rewrite ES. cbn [bind fst snd]. unfold all_points. rewrite EP. cbn [bind fst]. rewrite Er. cbn [bind]. rewrite HE. exact EC. }
  exists ds, cols. split; [|exact EE]. exists orth, low, hi, grav, tol, vols, mr, thresh, st, st'. do 8 (split; [assumption|]). exact EE.
Qed.

(* ---- a block of one cell ---- *)
Definition sat_line : curve := mkCurve 0 1 0 1 (fun x => Rmax 0 (Rmin 1 (1 - x))).
Definition kr_up : curve := mkCurve 0 1 0 1 (fun s => Rmax 0 (Rmin 1 s)).
Definition kr_down : curve := mkCurve 0 1 0 1 (fun s => 1 - Rmax 0 (Rmin 1 s))%R.
Definition cube_helper (aniso : bool) (ky : R) : helper :=
  mkHelper [0] [1] [1]%R [ky] [1]%R [1]%R aniso [] [sat_line] [sat_line] (fun _ ph => if ph =? 0 then [kr_up] else [kr_down]) (/ 1000) 10.
Lemma ch_region a ky c : In c (h_ecl (cube_helper a ky)) -> c = 0 /\ 0 < region (cube_helper a ky) c.
Proof. intros [<- |[]]. split; [reflexivity|]. reflexivity. Qed.
Lemma ch_rock a ky : Relp_Spec.rock_cells (cube_helper a ky) = [0].
Proof. reflexivity. Qed.
Lemma ch_run bct a ky : run_ok (cube_ups bct) (cube_helper a ky) [1]%R.
Proof.
  split; [|split; [left; reflexivity|split; [reflexivity|split; [reflexivity|split; [cbn; lra|split; [cbn; lra|intros _ c Hc; apply (ch_region a ky c Hc)]]]]]].
  unfold wf. cbn. split; [intros c [<- |[]]; lia|]. split; [repeat constructor; intros []|]. split; [reflexivity|]. split; [reflexivity|]. split; [intros _; split; reflexivity|].
  split; [intros s [<- |[]]; lia|]. intros s [<- |[]] _. split; [destruct a; vm_compute; discriminate|]. intros d ph _ _. destruct (ph =? 0); vm_compute; discriminate.
Qed.
Lemma clamp_range x : (0 <= Rmax 0 (Rmin 1 x) <= 1)%R.
Proof. unfold Rmax, Rmin. destruct (Rle_dec 1 x), (Rle_dec 0 _); lra. Qed.
Lemma clamp_mono x y : (x <= y)%R -> (Rmax 0 (Rmin 1 x) <= Rmax 0 (Rmin 1 y))%R.
Proof. intros H. apply Rle_max_compat_l. unfold Rmin. destruct (Rle_dec 1 x), (Rle_dec 1 y); lra. Qed.
Lemma ch_curve a ky : curve_of (cube_helper a ky) 0 = sat_line.
Proof. destruct a; reflexivity. Qed.
Lemma ch_minmax a ky : exists mr, minmax_pc (cube_helper a ky) false 0 [1]%R = Ok mr.
Proof.
  apply minmax_accepts; [exact (proj1 (ch_run 0 a ky))|reflexivity|intros v [<- |[]]; lra|intros v [<- |[]]; lra| |cbn; lra|discriminate|unfold sumR; cbv -[Rplus Rmult IZR]; lra].
  intros c Hc. rewrite ch_rock in Hc. destruct Hc as [<- |[]]. unfold own_low, own_high. rewrite ch_curve. cbn [sat_line cv_eval cv_minf cv_maxf cv_minx cv_maxx]. split; [intros x; apply clamp_range|]. split; [lra|]. split; [lra|].
  assert (0 < scaling (cube_helper a ky) 0)%R. { unfold scaling. destruct a; cbn [cube_helper h_aniso]; [lra|]. apply sqrt_lt_R0. change (at_ (h_kx (cube_helper false ky)) 0) with 1%R. change (at_ (h_poro (cube_helper false ky)) 0) with 1%R. lra. }
  assert (0 < / scaling (cube_helper a ky) 0)%R by (apply Rinv_0_lt_compat; assumption). unfold Rdiv. nra.
Qed.
Lemma ch_kr a ky ph p d : 0 <= ph < 2 -> cell_kr (cube_helper a ky) ph p 0 d = if ph =? 0 then Rmax 0 (Rmin 1 (Rmax 0 (Rmin 1 (1 - p)))) else (1 - Rmax 0 (Rmin 1 (Rmax 0 (Rmin 1 (1 - p)))))%R.
Proof.
  intros Hp. unfold cell_kr, local_sat. rewrite ch_curve. assert (Es : (scaling (cube_helper a ky) 0 * (p - offset_of (cube_helper a ky) 0))%R = p).
  { unfold scaling, offset_of. cbn [cube_helper h_dP h_aniso]. destruct a; [ring|]. change (at_ (h_kx (cube_helper false ky)) 0) with 1%R. change (at_ (h_poro (cube_helper false ky)) 0) with 1%R. replace (1 / 1)%R with 1%R by field. rewrite sqrt_1. ring. }
  rewrite Es. cbn [sat_line cv_eval]. cbn [cube_helper h_kr]. assert (H : ph = 0 \/ ph = 1) by lia. destruct H as [-> | ->]; reflexivity.
Qed.
Lemma ch_exists bct tec a ky (both : bool) ps ph : bct = 0 /\ tec = 3 \/ bct = 2 /\ tec = 9 -> a_phase both ph -> exists ds cols, relperm_run (cube_ups bct) (cube_helper a ky) inv3 [1]%R bct tec both ps ph ds cols.
Proof.
  intros Hbt AP. destruct (ch_minmax a ky) as (mr & MM). destruct (curves_exist (cube_ups bct) (cube_helper a ky) inv3 [1]%R bct tec both ps ph orth2 low_half hi_half false 0%R [1]%R mr 0%R (bcs_empty, fresh)) as (ds & cols & Rn & _); try assumption; try reflexivity; eauto.
  - apply cube_ups_ok. lia.
  - apply ch_run.
  - exact inv3_inverts.
  - intros ts st L P. destruct (cube_total bct ts st ltac:(lia) L P) as (d & st' & E). eauto.
Qed.
Lemma ch_given a ky d : given_dir (cube_helper a ky) d -> 0 <= d < 3 /\ (a = false -> d = 0).
Proof. intros H. exact H. Qed.
Lemma ch_k a ky d : cell_k (cube_helper a ky) 0 d = if d =? 1 then ky else 1%R.
Proof. unfold cell_k. destruct (Z.eqb_spec d 0) as [-> |]; [reflexivity|]. destruct (d =? 1); reflexivity. Qed.
Lemma ch_kr_ok a ky ph p : 0 <= ph < 2 -> kr_ok (cube_helper a ky) ph p.
Proof.
  intros Hp c d Hc _. rewrite ch_rock in Hc. destruct Hc as [<- |[]]. rewrite ch_kr by exact Hp. pose proof (clamp_range (Rmax 0 (Rmin 1 (1 - p)))). destruct (ph =? 0); lra.
Qed.
Lemma ch_perms : perms_ok (cube_helper false 1).
Proof.
  intros c d Hc (_ & Hd). rewrite ch_rock in *. destruct Hc as [<- |[]]. rewrite (Hd eq_refl), ch_k. cbn [Z.eqb]. split; [lra|]. exists 0. split; [left; reflexivity|]. rewrite ch_k. cbn. lra.
Qed.
Lemma ch_monotone ph : ph = 0 \/ ph = 1 -> monotone_curves (cube_helper false 1) ph (ph =? 0).
Proof.
  intros Hp c Hc. rewrite ch_rock in Hc. destruct Hc as [<- |[]]. rewrite ch_curve. split; [intros x y H; cbn; apply clamp_mono; lra|]. intros d (_ & Hd). rewrite (Hd eq_refl), ch_k. cbn [Z.eqb]. split; [lra|].
  destruct Hp as [-> | ->]; cbn [Z.eqb]; [exists kr_up|exists kr_down]; (split; [reflexivity|]); intros x y H; cbn; pose proof (clamp_mono x y H); lra.
Qed.
Lemma clamp_half : Rmax 0 (Rmin 1 (1 / 2)) = (1 / 2)%R.
Proof. unfold Rmax, Rmin. destruct (Rle_dec 1 (1 / 2)), (Rle_dec 0 _); lra. Qed.
Lemma ch_uniform : uniform_kr (cube_helper false 1) 0 (1 / 2) (1 / 2).
Proof.
  split; [lra|]. intros c d Hc (_ & Hd). destruct (ch_region _ _ c Hc) as (-> & Hr). rewrite (Hd eq_refl). split; [exact Hr|]. split; [|split].
  - rewrite ch_kr by lia. cbn [Z.eqb]. replace (1 - 1 / 2)%R with (1 / 2)%R by lra. rewrite !clamp_half. reflexivity.
  - rewrite ch_k. cbn. lra.
  - intros c' d' Hc' (_ & Hd'). destruct (ch_region _ _ c' Hc') as (-> & _). rewrite (Hd' eq_refl), !ch_k. cbn. lra.
Qed.
Lemma aniso_refuted : exists u h inv pv ps p ds cols, relperm_run u h inv pv 0 3 false ps 0 ds cols /\ zget ps 0 = Some p /\
  (forall c d, In c (Relp_Spec.rock_cells h) -> given_dir h d -> (0 < cell_k h c d)%R) /\ kr_ok h 0 p /\ value cols 0 0 = 100%R.
Proof.
  destruct (ch_exists 0 3 true 1000 false [0%R] 0 (or_introl (conj eq_refl eq_refl)) (conj (Z.le_refl 0) Z.lt_0_1)) as (ds & cols & Rn).
  exists (cube_ups 0), (cube_helper true 1000), inv3, [1%R], [0%R], 0%R, ds, cols. split; [exact Rn|]. split; [reflexivity|]. split; [|split; [apply ch_kr_ok; lia|]].
  { intros c d Hc _. rewrite ch_rock in Hc. destruct Hc as [<- |[]]. rewrite ch_k. destruct (d =? 1); lra. }
  destruct (run_out _ _ _ _ _ _ _ _ _ _ _ (or_introl eq_refl) (or_introl eq_refl) Rn) as (orth & low & hi & grav & tol & vols & mr & UO & RO & IV & Hb & LV & MM & Rs & _ & _ & PT). destruct (PT 0 0%R eq_refl) as (ts & d & row & out & PR).
  rewrite (fixed_value (cube_ups 0) low hi _ inv3 ds cols 0 0 0 ts _ d row out IV Hb Rs PR 0 ltac:(lia)). destruct PR as ((M & fl & Ets & IM & F) & Rd & _). rewrite Ets in Rd. cbn [cube_helper h_ecl map] in Rd, Rs.
  rewrite (cube_ran orth low hi _ d 0 UO Rd ltac:(lia)), (cube_ran orth low hi _ ds 0 UO Rs ltac:(lia)). rewrite tensor_entry by (try lia; reflexivity). rewrite single_entry by lia.
  change (0 <? region (mkHelper [0] [1] [1%R] [1000%R] [1%R] [1%R] true [] [sat_line] [sat_line] (fun _ ph => if ph =? 0 then [kr_up] else [kr_down]) (/ 1000) 10) 0) with true. cbv iota.
  change (mkHelper [0] [1] [1%R] [1000%R] [1%R] [1%R] true [] [sat_line] [sat_line] (fun _ ph => if ph =? 0 then [kr_up] else [kr_down]) (/ 1000) 10) with (cube_helper true 1000). change (dir_of (cube_helper true 1000) 0) with 0.
  assert (C1 : Rmax 0 (Rmin 1 1) = 1%R) by (rewrite Rmin_left, Rmax_right; lra).
  assert (PP : forall e, phase_perm (cube_helper true 1000) 0 0 0 e = (if e =? 1 then 1000 else 1)%R).
  { intros e. change (phase_perm (cube_helper true 1000) 0 0 0 e) with (cell_kr (cube_helper true 1000) 0 0 0 e * cell_k (cube_helper true 1000) 0 e)%R. rewrite ch_kr, ch_k by lia. cbn [Z.eqb]. rewrite Rminus_0_r, !C1. destruct (e =? 1); lra. }
  assert (EM : M = 1000%R).
  { rewrite ch_rock in IM. unfold cand in IM. cbn [flat_map app] in IM. change (h_aniso (cube_helper true 1000)) with true in IM. cbv iota in IM. rewrite !PP in IM. cbn [Z.eqb Pos.eqb app] in IM. change (h_minperm (cube_helper true 1000)) with (/ 1000)%R in IM. destruct IM as (I1 & I2). apply Rle_antisym; [|apply I2; cbn; tauto]. cbn in I1. destruct I1 as [<- |[<- |[<- |[<- |[<- |[]]]]]]; lra. }
  assert (EK : mr_kmin mr = (1 / 10)%R).
  { destruct (kmin_is _ _ _ RO grav tol vols mr LV MM) as (Kx & (K1 & K2) & ->). rewrite ch_rock in *. cbn [map] in K1, K2. rewrite ch_k in *. cbn [Z.eqb] in K1, K2. assert (Kx = 1%R) as -> by (apply Rle_antisym; [destruct K1 as [<- |[<- |[]]]; lra|apply K2; cbn; tauto]). change (h_contrast (cube_helper true 1000)) with 10%R. change (h_minperm (cube_helper true 1000)) with (/ 1000)%R. rewrite Rmax_left; lra. }
  assert (EF : fl = 100%R). { rewrite F, EM. change (h_contrast (cube_helper true 1000)) with 10%R. change (h_minperm (cube_helper true 1000)) with (/ 1000)%R. rewrite Rmax_left; lra. }
  rewrite EF, EK, PP, ch_k. cbn [Z.eqb]. rewrite (Rmax_left 100 1), (Rmax_right (1 / 10) 1) by lra. destruct (0 <? region (cube_helper true 1000) 0); field.
Qed.
