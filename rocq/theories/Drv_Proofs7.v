(* Shifted rows, bounds; depth trend; variogram. *)
From Verif Require Import BaseFacts RBaseFacts Shape_Proofs2 Steady_Proofs Euler_Proofs2 Mload_Proofs Mload_Proofs2 Mload_Proofs3 Rprop_Proofs3 Bgrid_Proofs Avg_Proofs Avg_Proofs2 Chop_Spec Chop_Props Drv_Proofs2 Drv_Proofs3 Drv_Proofs4 Drv_Proofs5 Drv_Proofs6 Drv_Spec.
Open Scope Z_scope.

(* ---- late failures shift the rows *)
Lemma shifted_row o rocks s1 s2 t c : subsamples o rocks [s1; s2] = Ok t -> completes o s1 = false -> completes o s2 = true -> reaches o c s1 = true -> c <> Pc -> c <> Rock ->
  t_done t = 1 /\ cell_at (t_cols t) c 0 = Ok (datum o rocks s1 c).
Proof.
  intros E C1 C2 H N1 N2. destruct (table_entries _ _ _ _ E) as [D T]. cbn [filter] in D. rewrite C1, C2 in D. split; [exact D|]. specialize (T c). cbn [filter] in T. rewrite H in T.
  inversion T as [|? row ? rest En _ Ea Eb]; subst. unfold cell_at. assert (G : rget (t_cols t c) 0 = Ok row) by (rewrite <- Eb; reflexivity). rewrite G. cbn [bind]. assert (row = [datum o rocks s1 c]) as -> by (destruct c; try exact En; congruence). reflexivity.
Qed.
Definition opts_ex : opts := mkOpts true false false false false false false false true 0.
Definition perm_ex (x : R) : perm6 := mkPerm6 x x x 0 0 0.
Definition sample_ex (phi : R) (sat : option (list (Z * R))) : sample := mkSample true (Some (perm_ex 100)) (Some phi) None None None None None None None None sat.
Lemma rows_shift : exists o rocks s1 s2 t row, proper o rocks s1 /\ proper o rocks s2 /\ subsamples o rocks [s1; s2] = Ok t /\ completes o s1 = false /\ completes o s2 = true /\
  t_done t = 1 /\ cell_at (t_cols t) Poro 0 = Ok (datum o rocks s1 Poro) /\ datum o rocks s1 Poro <> datum o rocks s2 Poro /\
  zget (t_cols t Rock) 0 = Some row /\ entry_of o rocks Rock s2 row.
Proof.
  set (s1 := sample_ex (1 / 10) None). set (s2 := sample_ex (2 / 10) (Some [(1, 5%R)])).
  assert (P1 : proper opts_ex [] s1). { split; [reflexivity|]. split; [discriminate|]. split; discriminate. }
  assert (P2 : proper opts_ex [] s2). { split; [reflexivity|]. split; [discriminate|]. split; [discriminate|]. intros cs H. injection H as <-. split; [intros c [<-|[]]; cbn; lia|cbn [map snd]; rewrite Rsum_cons, Rsum_nil; lra]. }
  destruct (subsamples_defined opts_ex [] [s1; s2]) as (t & E); [constructor; [exact P1|constructor; [exact P2|constructor]]|]. destruct (shifted_row opts_ex [] s1 s2 t Poro E eq_refl eq_refl eq_refl) as [D C]; try discriminate.
  destruct (table_entries _ _ _ _ E) as [_ T]. specialize (T Rock). change (filter (reaches opts_ex Rock) [s1; s2]) with [s2] in T. inversion T as [|? row ? rest En _ Ea Eb]; subst.
  exists opts_ex, [], s1, s2, t, row. split; [exact P1|]. split; [exact P2|]. split; [exact E|]. split; [reflexivity|]. split; [reflexivity|]. split; [exact D|]. split; [exact C|]. split; [cbn; lra|]. split; [rewrite <- Eb; reflexivity|exact En].
Qed.
(* ---- net porosities are never computed without upscaling *)
Lemma unlisted o c s : ~ In c (columns_of o) -> reaches o c s = false.
Proof.
  intros N. unfold reaches. apply reached_absent. intros b Hb. apply not_true_is_false. intros Q. apply col_in_In in Q. apply N. rewrite <- (columns_stages o s). apply in_concat. exists (fst b). split; [apply in_map; exact Hb|exact Q].
Qed.
Lemma ntg_unfilled o rocks ss t : subsamples o rocks ss = Ok t -> o_end o = true -> o_ntg o = true -> o_upscale o = false -> 0 < t_done t -> print_rows o t = UB.
Proof.
  intros E En Nt U D. destruct (table_entries _ _ _ _ E) as [_ T]. specialize (T NetPoro).
  assert (N : ~ In NetPoro (columns_of o)) by (unfold columns_of; rewrite U, En; destruct (o_cappres o), (o_dips o), (o_satvol o); cbn; intuition discriminate).
  assert (F : filter (reaches o NetPoro) ss = []) by (clear -N; induction ss as [|s ss IH]; [reflexivity|]; cbn [filter]; rewrite unlisted by exact N; exact IH). rewrite F in T. inversion T as [Ea Eb|].
  unfold print_rows. rewrite zrange_cons by exact D. cbn [mapM]. unfold print_row at 1. cbv zeta. rewrite U, En, Nt. cbn [bind app mapM].
  assert (Q : cell_at (t_cols t) NetPoro 0 = UB) by (unfold cell_at; rewrite <- Eb; reflexivity).
  unfold cell_at at 1. pose proof (rget_nothrow (t_cols t Poro) 0). destruct (rget (t_cols t Poro) 0) as [l| |]; [|congruence|reflexivity]. cbn [bind]. pose proof (rget_nothrow l 0). destruct (rget l 0); [|congruence|reflexivity]. cbn [bind]. rewrite Q. reflexivity.
Qed.
(* ---- end points *)
Lemma end_mean_bounds rocks cells a b : (forall r, In r rocks -> a <= fst r <= snd r /\ snd r <= b)%R -> (forall c, In c cells -> e_sat c <= zlen rocks /\ (0 <= e_vol c)%R /\ (0 <= e_phi c)%R) ->
  (0 < Rsum (map pore cells))%R -> (a <= end_mean rocks fst cells <= end_mean rocks snd cells /\ end_mean rocks snd cells <= b)%R.
Proof.
  intros Hr Hc P. assert (PP : forall c, In c cells -> (0 <= pore c)%R) by (intros c I; destruct (Hc c I) as (_ & A & B); unfold pore; destruct (0 <? e_sat c); [apply Rmult_le_pos; assumption|lra]).
  assert (X : forall c, In c cells -> (a * pore c <= rock_end rocks fst c * pore c <= rock_end rocks snd c * pore c /\ rock_end rocks snd c * pore c <= b * pore c)%R).
  { intros c I. destruct (Z_lt_dec 0 (e_sat c)) as [G|G].
    - destruct (Hc c I) as (L & _). destruct (zget_in_range rocks (e_sat c - 1) ltac:(lia)) as (r & E). pose proof (Hr r (zget_In _ _ _ E)) as (R1 & R2). unfold rock_end. rewrite E. specialize (PP c I). repeat split; apply Rmult_le_compat_r; lra.
    - assert (pore c = 0%R) as -> by (unfold pore; rewrite (proj2 (Z.ltb_ge _ _)) by lia; reflexivity). lra. }
  assert (Sc : forall k, Rsum (map (fun c => k * pore c)%R cells) = (k * Rsum (map pore cells))%R) by (intros k; apply Rsum_map_scale).
  assert (M1 := Rsum_map_le (fun c => a * pore c)%R (fun c => rock_end rocks fst c * pore c)%R cells (fun c I => proj1 (proj1 (X c I)))). assert (M2 := Rsum_map_le (fun c => rock_end rocks fst c * pore c)%R (fun c => rock_end rocks snd c * pore c)%R cells (fun c I => proj2 (proj1 (X c I)))).
  assert (M3 := Rsum_map_le (fun c => rock_end rocks snd c * pore c)%R (fun c => b * pore c)%R cells (fun c I => proj2 (X c I))). rewrite Sc in M1, M3. unfold end_mean.
  assert (Dv : forall x y, (x <= y -> x / Rsum (map pore cells) <= y / Rsum (map pore cells))%R) by (intros x y Hxy; unfold Rdiv; apply Rmult_le_compat_r; [left; apply Rinv_0_lt_compat; exact P|exact Hxy]).
  assert (Un : forall k, (k * Rsum (map pore cells) / Rsum (map pore cells) = k)%R) by (intros k; field; lra). pose proof (Dv _ _ M1) as D1. pose proof (Dv _ _ M2) as D2. pose proof (Dv _ _ M3) as D3. rewrite Un in D1, D3. auto.
Qed.
(* ---- fractions *)
Lemma fractions_bounds cells row : fractions cells row -> (forall c, In c cells -> 0 <= snd c)%R -> (0 < Rsum (map snd cells))%R -> forall t, 1 <= t -> (0 <= nthR row (t - 1) <= 1)%R.
Proof.
  intros [F _] N P t Ht. rewrite F by exact Ht. assert (A : (0 <= sat_volume t cells)%R) by (apply Rsum_map_nonneg; intros c I; destruct (fst c =? t); [exact (N c I)|lra]).
  assert (B : (sat_volume t cells <= Rsum (map snd cells))%R) by (apply Rsum_map_le; intros c I; destruct (fst c =? t); [lra|exact (N c I)]).
  split; [apply Rmult_le_pos; [exact A|left; apply Rinv_0_lt_compat; exact P]|]. apply (Rmult_le_reg_r (Rsum (map snd cells))); [exact P|]. unfold Rdiv. rewrite Rmult_assoc, Rinv_l by lra. lra.
Qed.
(* ---- depth trend *)
Lemma trend_count zres x : (0 < zres)%R -> exists n, 0 <= n /\ forall k, 0 <= k -> (depth zres k <= x)%R <-> k < n.
Proof.
  intros H. set (m := up (x / zres)). destruct (archimed (x / zres)) as [A B]. fold m in A, B. exists (Z.max 0 m). split; [lia|]. intros k Hk. unfold depth.
  assert (Q : (x / zres * zres = x)%R) by (field; lra). split.
  - intros L. assert (IZR k <= x / zres)%R by (apply (Rmult_le_reg_r zres); [exact H|rewrite Q; exact L]). assert (IZR k < IZR m)%R by lra. apply lt_IZR in H1. lia.
  - intros L. assert (k <= m - 1) by lia. apply IZR_le in H0. rewrite minus_IZR in H0. rewrite <- Q. apply Rmult_le_compat_r; lra.
Qed.
Definition add_trend (upscale : bool) (upf : R -> option (option R * perm6)) (d : trend) (z : R) : trend :=
  if upscale then match upf z with None => d | Some (None, _) => mkTrend (d_z d ++ [z]) (d_poro d) (d_k d)
    | Some (Some phi, k) => mkTrend (d_z d ++ [z]) (d_poro d ++ [phi]) (d_k d ++ [(p_xx k, p_yy k, p_zz k)]) end else d.
Lemma trend_loop_run zl zmax zres upscale piece upf n : (forall k, 0 <= k -> (depth zres k <= zmax - zl)%R <-> k < n) ->
  (forall k, 0 <= k < n -> piece (depth zres k) (smin (depth zres k + zl) zmax) = Ok tt) ->
  forall m k fuel d, 0 <= k -> Z.of_nat m = n - k -> (m <= fuel)%nat ->
  trend_loop fuel zl zmax zres upscale piece upf (depth zres k) d = Some (Ok (fold_left (add_trend upscale upf) (map (depth zres) (zrange k n)) d)).
Proof.
  intros Hn Hp. induction m as [|m IH]; intros k fuel d Hk Hm Hf.
  - assert (F : Rleb (depth zres k) (zmax - zl) = false) by (apply not_true_is_false; intros Q; apply Rleb_true in Q; apply Hn in Q; lia). destruct fuel; cbn [trend_loop]; rewrite F, zrange_empty by lia; reflexivity.
  - destruct fuel as [|fuel]; [lia|]. cbn [trend_loop]. rewrite (proj2 (Rleb_true _ _)) by (apply Hn; lia). rewrite Hp by lia. replace (depth zres k + zres)%R with (depth zres (k + 1)) by (unfold depth; rewrite plus_IZR; ring).
    rewrite IH by lia. rewrite (zrange_cons k n) by lia. reflexivity.
Qed.
Lemma trend_fold upscale upf : forall zs d, upscale = true -> fold_left (add_trend upscale upf) zs d =
  mkTrend (d_z d ++ filter (fun z => is_some (upf z)) zs) (d_poro d ++ flat_map (fun z => match upf z with Some (Some phi, _) => [phi] | _ => [] end) zs)
          (d_k d ++ flat_map (fun z => match upf z with Some (Some _, k) => [(p_xx k, p_yy k, p_zz k)] | _ => [] end) zs).
Proof.
  intros zs d ->. revert d. induction zs as [|z zs IH]; intros [a b c]; cbn [fold_left filter flat_map]; [rewrite !app_nil_r; reflexivity|]. rewrite IH. unfold add_trend. destruct (upf z) as [[[phi|] k]|]; cbn [is_some d_z d_poro d_k app]; rewrite <- ?app_assoc; reflexivity.
Qed.
Lemma trend_print upf zs : (forall z, In z zs -> forall k, upf z <> Some (None, k)) ->
  exists rows, trend_rows (fold_left (add_trend true upf) zs (mkTrend [] [] [])) = Ok rows /\ Forall2 (trend_row upf) (filter (fun z => is_some (upf z)) zs) rows.
Proof.
  intros H. rewrite trend_fold by reflexivity. cbn [d_z d_poro d_k app]. unfold trend_rows. cbn [d_z d_poro d_k].
  set (f := fun z => match upf z with Some (Some phi, k) => (z, phi, (p_xx k, p_yy k, p_zz k)) | _ => (z, 0, (0, 0, 0))%R end). set (zz := filter (fun z => is_some (upf z)) zs).
  assert (E1 : flat_map (fun z => match upf z with Some (Some phi, _) => [phi] | _ => [] end) zs = map (fun z => snd (fst (f z))) zz).
  { unfold zz, f. clear zz f. induction zs as [|z zs IH]; [reflexivity|]. cbn [flat_map filter]. specialize (IH (fun x Hx => H x (or_intror Hx))). pose proof (H z (or_introl eq_refl)) as Hz. destruct (upf z) as [[[phi|] k]|] eqn:Q; cbn [is_some map app]; [rewrite Q, IH; reflexivity|destruct (Hz k eq_refl)|exact IH]. }
  assert (E2 : flat_map (fun z => match upf z with Some (Some _, k) => [(p_xx k, p_yy k, p_zz k)] | _ => [] end) zs = map (fun z => snd (f z)) zz).
  { unfold zz, f. clear zz f E1. induction zs as [|z zs IH]; [reflexivity|]. cbn [flat_map filter]. specialize (IH (fun x Hx => H x (or_intror Hx))). pose proof (H z (or_introl eq_refl)) as Hz. destruct (upf z) as [[[phi|] k]|] eqn:Q; cbn [is_some map app]; [rewrite Q, IH; reflexivity|destruct (Hz k eq_refl)|exact IH]. }
  rewrite E1, E2, zlen_map. assert (T : Forall2 (trend_row upf) zz (map f zz)).
  { assert (Hz : forall z, In z zz -> trend_row upf z (f z)).
    { intros z Hz. unfold zz in Hz. apply filter_In in Hz. destruct Hz as [Hz Sz]. unfold f, trend_row. pose proof (H z Hz) as Q. destruct (upf z) as [[[phi|] k]|]; [|destruct (Q k eq_refl)|discriminate]. exists phi, k. auto. }
    clear -Hz. induction zz as [|z l IH]; constructor; [apply Hz; left; reflexivity|apply IH; intros; apply Hz; right; assumption]. }
  exists (map f zz). split; [|exact T]. clear -f.
  assert (G : forall l2 l1, mapM (fun r => let* z := rget (l1 ++ l2) r in let* p := rget (map (fun z => snd (fst (f z))) (l1 ++ l2)) r in let* k := rget (map (fun z => snd (f z)) (l1 ++ l2)) r in Ok (z, p, k)) (zrange (zlen l1) (zlen l1 + zlen l2)) = Ok (map f l2)).
  { induction l2 as [|z l2 IH]; intros l1; [change (zlen (@nil R)) with 0; rewrite zrange_empty by lia; reflexivity|]. assert (Lx : zlen (z :: l2) = 1 + zlen l2) by (unfold zlen; cbn [List.length]; lia). pose proof (zlen_nonneg l2). rewrite Lx, zrange_cons by lia. cbn [mapM].
    assert (G : zget (l1 ++ z :: l2) (zlen l1) = Some z) by (rewrite zget_app_r by lia; rewrite Z.sub_diag; reflexivity). rewrite (proj2 (rget_Ok _ _ _) G). cbn [bind].
    rewrite (proj2 (rget_Ok (map (fun z => snd (fst (f z))) (l1 ++ z :: l2)) (zlen l1) (snd (fst (f z))))) by (rewrite zget_map, G; reflexivity). cbn [bind]. rewrite (proj2 (rget_Ok (map (fun z => snd (f z)) (l1 ++ z :: l2)) (zlen l1) (snd (f z)))) by (rewrite zget_map, G; reflexivity). cbn [bind].
    specialize (IH (l1 ++ [z])). rewrite zlen_app in IH. change (zlen [z]) with 1 in IH. rewrite <- app_assoc in IH. cbn [app] in IH. replace (zlen l1 + (1 + zlen l2)) with (zlen l1 + 1 + zlen l2) by lia. rewrite IH. cbn [bind map]. f_equal. f_equal. unfold f. destruct (upf z) as [[[phi|] k]|]; reflexivity. }
  specialize (G zz []). cbn [app] in G. change (zlen (@nil R)) with 0 in G. rewrite Z.add_0_l in G. exact G.
Qed.
Lemma trend_ok zl zmax zres piece upf : (0 < zres)%R -> exists n, 0 <= n /\ (forall k, 0 <= k -> (depth zres k <= zmax - zl)%R <-> k < n) /\
  ((forall k, 0 <= k < n -> piece (depth zres k) (Rmin (depth zres k + zl) zmax) = Ok tt) -> (forall k p, 0 <= k < n -> upf (depth zres k) <> Some (None, p)) ->
   forall fuel, (Z.to_nat n <= fuel)%nat -> exists d rows, depth_trend fuel zl zmax zres true piece upf = Some (Ok d) /\ trend_rows d = Ok rows /\
     Forall2 (trend_row upf) (filter (fun z => is_some (upf z)) (map (depth zres) (zrange 0 n))) rows).
Proof.
  intros H. destruct (trend_count zres (zmax - zl) H) as (n & Hn & Cn). exists n. split; [exact Hn|]. split; [exact Cn|]. intros Hp Hu fuel Hf.
  destruct (trend_print upf (map (depth zres) (zrange 0 n))) as (rows & E & T). { intros z Hz k. apply in_map_iff in Hz. destruct Hz as (i & <- & Hi). apply In_zrange in Hi. apply Hu. exact Hi. }
  exists (fold_left (add_trend true upf) (map (depth zres) (zrange 0 n)) (mkTrend [] [] [])), rows. split; [|split; assumption]. unfold depth_trend. replace 0%R with (depth zres 0) at 1 by (unfold depth; ring).
  apply (trend_loop_run zl zmax zres true piece upf n Cn) with (m := Z.to_nat n); try lia. intros k Hk. rewrite smin_Rmin. apply Hp. exact Hk.
Qed.
Lemma trend_endless zl zmax zres piece upf upscale fuel : (zres <= 0)%R -> (zl <= zmax)%R -> (forall a b, piece a b = Ok tt) -> depth_trend fuel zl zmax zres upscale piece upf = None.
Proof.
  intros H L P. unfold depth_trend. assert (G : forall fuel z d, (z <= 0)%R -> trend_loop fuel zl zmax zres upscale piece upf z d = None).
  { induction fuel0 as [|f IH]; intros z d Hz; cbn [trend_loop]; rewrite (proj2 (Rleb_true _ _)) by lra; [reflexivity|]. rewrite P. apply IH. lra. }
  apply G. lra.
Qed.
Lemma trend_deep g imin imax jmin jmax reset zl zmax zres upf upscale fuel bm tm :
  wf_arrays (g_nx g) (g_ny g) (g_nz g) (g_coord g) (g_zcorn g) -> box_within (g_nx g) (g_ny g) imin imax jmin jmax ->
  is_bottom_max (g_nx g) (g_ny g) (g_zcorn g) bm -> is_top_min (g_nx g) (g_ny g) (g_nz g) (g_zcorn g) tm -> (zl <= bm)%R -> (zl <= zmax)%R ->
  depth_trend (S fuel) zl zmax zres upscale (chopped_at g imin imax jmin jmax reset) upf = Some Throw.
Proof.
  intros W B Hb Ht L Lz. unfold depth_trend. cbn [trend_loop]. rewrite (proj2 (Rleb_true _ _)) by lra. unfold chopped_at. destruct (C03_chop_total g imin imax jmin jmax 0 (smin (0 + zl) zmax) reset bm tm W B Hb Ht) as [T _].
  rewrite T; [reflexivity|]. rewrite smin_Rmin. eapply Rle_trans; [apply Rmin_l|]. eapply Rle_trans; [apply Rmin_l|]. eapply Rle_trans; [|apply Rmax_r]. lra.
Qed.
(* ---- variogram *)
Lemma pair_ok vertical ilen jlen zl up w row : one_pair vertical ilen jlen zl up w = Ok row -> pair_row vertical ilen jlen zl up w row.
Proof.
  unfold one_pair. intros E. destruct (up (w_i1 w) _ _ _ _ _) as [[phi [[a b] c]]| |] eqn:U1; cbn [bind] in E; try discriminate. set (i := if vertical then w_i1 w else w_i2 w) in *. set (j := if vertical then w_j1 w else w_j2 w) in *. set (z := if vertical then w_z2 w else w_z1 w) in *.
  destruct (up i _ _ _ _ _) as [[phi' [[a' b'] c']]| |] eqn:U2; cbn [bind snd fst] in E; try discriminate. injection E as <-. exists phi, a, b, c, phi', a', b', c', i, j, z. eexists. split; [exact U1|]. split; [exact U2|]. split; [destruct vertical; auto|]. split; [reflexivity|].
  destruct vertical; unfold i, j, z.
  - split; [apply Rabs_pos|]. rewrite !Z.sub_diag. rewrite <- Rabs_mult, Rabs_pos_eq by apply Rle_0_sqr. simpl; ring.
  - split; [apply sqrt_pos|]. rewrite sqrt_sqrt; [ring|]. apply Rplus_le_le_0_compat; apply Rle_0_sqr.
Qed.
Lemma variogram_rows vertical nx ny azmin azmax imin ilen imax jmin jlen jmax zmin zl zmax ws up rows :
  variogram vertical nx ny azmin azmax imin ilen imax jmin jlen jmax zmin zl zmax ws up = Ok rows ->
  0 < ilen /\ 0 < jlen /\ (0 < zl)%R /\ Forall2 (pair_row vertical ilen jlen zl up) ws rows.
Proof.
  unfold variogram. intros E. destruct (Z.leb_spec ilen 0); [discriminate|]. destruct (Z.leb_spec jlen 0); [discriminate|]. destruct (Rleb zl 0) eqn:L; [discriminate|]. cbn [orb] in E.
  assert (~ (zl <= 0)%R) by (intros Q; apply Rleb_true in Q; congruence). destruct (verify_shoebox _ _ _ _ _ _ _ _ _ _ _ _ _); cbn [bind] in E; try discriminate. destruct (uniform_int imin _); cbn [bind] in E; try discriminate. destruct (uniform_int jmin _); cbn [bind] in E; try discriminate.
  repeat split; try lia; try lra. apply mapM_Ok in E. induction E as [|w r ws rs E1 E2 IH]; constructor; [apply pair_ok; exact E1|exact IH].
Qed.
Lemma variogram_refused vertical nx ny azmin azmax imin ilen imax jmin jlen jmax zmin zl zmax ws up : ilen <= 0 \/ jlen <= 0 \/ (zl <= 0)%R ->
  variogram vertical nx ny azmin azmax imin ilen imax jmin jlen jmax zmin zl zmax ws up = Throw.
Proof.
  intros H. unfold variogram. destruct (Z.leb_spec ilen 0); [reflexivity|]. destruct (Z.leb_spec jlen 0); [reflexivity|]. rewrite (proj2 (Rleb_true _ _)) by (destruct H as [H|[H|H]]; [lia|lia|exact H]). reflexivity.
Qed.
Lemma mapM_agree {A B} (f g : A -> res B) l : (forall a, In a l -> f a = g a) -> mapM f l = mapM g l.
Proof.
  induction l as [|a l IH]; intros H; cbn [mapM]; [reflexivity|]. rewrite (H a (or_introl eq_refl)), IH by (intros; apply H; right; assumption). reflexivity.
Qed.
(* only windows inside the box are looked at *)
Lemma variogram_inside vertical nx ny azmin azmax imin ilen imax jmin jlen jmax zmin zl zmax ws up up' : (zl <= zmax - zmin)%R ->
  Forall (drawn imin ilen imax jmin jlen jmax zmin zl zmax) ws ->
  (forall i j z, imin <= i -> i + ilen <= imax -> jmin <= j -> j + jlen <= jmax -> (zmin <= z)%R -> (z + zl <= zmax)%R -> up i (i + ilen) j (j + jlen) z (z + zl)%R = up' i (i + ilen) j (j + jlen) z (z + zl)%R) ->
  variogram vertical nx ny azmin azmax imin ilen imax jmin jlen jmax zmin zl zmax ws up = variogram vertical nx ny azmin azmax imin ilen imax jmin jlen jmax zmin zl zmax ws up'.
Proof.
  intros Hz D A. unfold variogram. replace (mapM (one_pair vertical ilen jlen zl up') ws) with (mapM (one_pair vertical ilen jlen zl up) ws); [reflexivity|]. apply mapM_agree. intros w Hw. rewrite Forall_forall in D. destruct (D w Hw) as (I1 & I2 & J1 & J2 & Z1 & Z2). rewrite Rmax_left in Z1, Z2 by lra.
  unfold one_pair. rewrite A by lia || lra. destruct vertical; rewrite A by lia || lra; reflexivity.
Qed.
Lemma variogram_lost vertical nx ny azmin azmax imin ilen imax jmin jlen jmax zmin zl zmax ws up w rows : In w ws ->
  up (w_i1 w) (w_i1 w + ilen) (w_j1 w) (w_j1 w + jlen) (w_z1 w) (w_z1 w + zl)%R = Throw ->
  variogram vertical nx ny azmin azmax imin ilen imax jmin jlen jmax zmin zl zmax ws up <> Ok rows.
Proof.
  intros Hw T E. destruct (variogram_rows _ _ _ _ _ _ _ _ _ _ _ _ _ _ _ _ _ E) as (_ & _ & _ & F). clear E. induction F as [|x r ws rs Hx F IH]; [destruct Hw|]. destruct Hw as [->|Hw]; [|exact (IH Hw)].
  destruct Hx as (phi & a & b & c & _ & _ & _ & _ & _ & _ & _ & _ & U & _). congruence.
Qed.
(* ---- cases *)
Definition good_ex : sample := mkSample true (Some (perm_ex 100)) (Some (1 / 5)%R) None None None None (Some [mkEndcell 1 2 (1 / 4) 3 4; mkEndcell 0 2 (1 / 4) 0 0]) None (Some (fun a b u v => [a; b; u; v; a])) (Some [((0, (0, 0)), (1, 2)%R, 1%R)]) (Some [(2, 3%R); (1, 1%R)]).
Definition bad_ex : sample := mkSample true None None None None None None None None None None None.
Definition all_ex : opts := mkOpts true true false false false true true true true 0.
Lemma table_case : exists t rows, subsamples all_ex [(1 / 10, 9 / 10)%R] [bad_ex; good_ex; bad_ex; good_ex] = Ok t /\ t_done t = 2 /\ print_rows all_ex t = Ok rows /\ zlen rows = 2.
Proof.
  assert (P1 : proper all_ex [(1 / 10, 9 / 10)%R] bad_ex). { split; [reflexivity|]. split; [discriminate|]. split; discriminate. }
  assert (P2 : proper all_ex [(1 / 10, 9 / 10)%R] good_ex).
  { split; [reflexivity|]. split; [|split].
    - intros cs H. injection H as <-. split; [intros c [<-|[<-|[]]]; unfold zlen; cbn; lia|]. cbn [map]. rewrite !Rsum_cons, Rsum_nil. unfold pore. cbn. lra.
    - intros l H. injection H as <-. split; [discriminate|]. unfold mean_dip. cbn [map fst snd]. rewrite Rsum_cons, Rsum_nil. unfold zlen. cbn [List.length]. simpl. lra.
    - intros cs H. injection H as <-. split; [intros c [<-|[<-|[]]]; cbn; lia|]. cbn [map snd]. rewrite !Rsum_cons, Rsum_nil. lra. }
  assert (T : forall s, In s [bad_ex; good_ex; bad_ex; good_ex] -> tidy all_ex s) by (intros s [<-|[<-|[<-|[<-|[]]]]]; (left; reflexivity) || (right; intros c; reflexivity)).
  destruct (subsamples_defined all_ex [(1 / 10, 9 / 10)%R] [bad_ex; good_ex; bad_ex; good_ex]) as (t & E); [constructor; [exact P1|constructor; [exact P2|constructor; [exact P1|constructor; [exact P2|constructor]]]]|].
  destruct (table_printed all_ex _ _ t E) as (rows & Er & F); [reflexivity|exact T| |].
  - intros s [<-|[<-|[<-|[<-|[]]]]] C; try discriminate C; (split; [intros _ Q; discriminate Q|intros f a b u v H; injection H as <-; unfold zlen; cbn; lia]).
  - exists t, rows. split; [exact E|]. destruct (table_entries _ _ _ _ E) as [D _]. split; [exact D|]. split; [exact Er|]. apply Forall2_length' in F. unfold zlen. rewrite <- F. reflexivity.
Qed.
Lemma ends_case : (0 <= end_mean [(1 / 10, 9 / 10); (2 / 10, 8 / 10)]%R fst [mkEndcell 1 2 (1 / 4) 0 0; mkEndcell 2 6 (1 / 4) 0 0; mkEndcell 0 9 (1 / 4) 0 0])%R /\ (0 < Rsum (map pore [mkEndcell 1 2 (1 / 4) 0 0; mkEndcell 2 6 (1 / 4) 0 0; mkEndcell 0 9 (1 / 4) 0 0]))%R.
Proof.
  assert (P : (0 < Rsum (map pore [mkEndcell 1 2 (1 / 4) 0 0; mkEndcell 2 6 (1 / 4) 0 0; mkEndcell 0 9 (1 / 4) 0 0]))%R) by (cbn [map]; rewrite !Rsum_cons, Rsum_nil; unfold pore; cbn; lra).
  split; [|exact P]. apply (end_mean_bounds [(1 / 10, 9 / 10); (2 / 10, 8 / 10)]%R [mkEndcell 1 2 (1 / 4) 0 0; mkEndcell 2 6 (1 / 4) 0 0; mkEndcell 0 9 (1 / 4) 0 0] 0 1).
  - intros r [<-|[<-|[]]]; cbn; lra.
  - intros c [<-|[<-|[<-|[]]]]; unfold zlen; cbn; (split; [lia|lra]).
  - exact P.
Qed.
Lemma trend_case : exists d rows, depth_trend 3 1 3 1 true (fun _ _ => Ok tt) (fun z => if Rltb z (1 / 2) then None else Some (Some z, perm_ex 1)) = Some (Ok d) /\ trend_rows d = Ok rows /\ zlen rows = 2.
Proof.
  destruct (trend_ok 1 3 1 (fun _ _ => Ok tt) (fun z => if Rltb z (1 / 2) then None else Some (Some z, perm_ex 1))) as (n & Hn & Cn & T); [lra|].
  assert (n = 3). { pose proof (proj1 (Cn 2 ltac:(lia))) as A. pose proof (proj2 (Cn 3 ltac:(lia))) as B. unfold depth in *. assert (2 < n) by (apply A; lra). destruct (Z_lt_dec 3 n) as [Q|Q]; [specialize (B Q); lra|lia]. } subst n.
  destruct (T (fun _ _ => eq_refl) (fun k p _ H => ltac:(destruct (Rltb (depth 1 k) (1 / 2)); discriminate H)) 3%nat ltac:(cbn; lia)) as (d & rows & E & Er & F). exists d, rows. split; [exact E|]. split; [exact Er|].
  apply Forall2_length' in F. unfold zlen. rewrite <- F. change (zrange 0 3) with [0; 1; 2]. cbn [map filter]. unfold depth. rewrite (proj2 (Rltb_true (0 * 1) (1 / 2))) by lra. rewrite (proj2 (Rltb_false (1 * 1) (1 / 2))) by lra. rewrite (proj2 (Rltb_false (2 * 1) (1 / 2))) by lra. reflexivity.
Qed.
Lemma variogram_case : exists rows, variogram false 4 4 0 10 0 2 4 0 2 4 0 2 10 [mkDraws 0 0 1 2 1 0; mkDraws 1 1 3 1 2 0] (fun _ _ _ _ z _ => Ok (z, (1, 2, 3)%R)) = Ok rows /\ zlen rows = 2 /\
  Forall (drawn 0 2 4 0 2 4 0 2 10) [mkDraws 0 0 1 2 1 0; mkDraws 1 1 3 1 2 0].
Proof.
  unfold variogram. cbn [Z.leb Z.compare orb]. assert (L : Rleb 2 0 = false) by (apply not_true_is_false; intros Q; apply Rleb_true in Q; lra). rewrite L. cbn [orb].
  rewrite (proj2 (proj1 (C01_verify_shoebox 4 4 0 10 0 2 4 0 2 4 0 2 10))) by (repeat split; try lia; lra). cbn [bind]. eexists. split; [reflexivity|]. split; [reflexivity|].
  repeat constructor; cbn; try lia; rewrite ?Rmax_left by lra; lra.
Qed.
Lemma subsamples_limits o rocks ss t : subsamples o rocks ss = Ok t ->
  is_least (t_pcmin t) (pc_start :: flat_map (pressures e_pcmin) (filter (searched o) ss)) /\ is_greatest (t_pcmax t) (- pc_start :: flat_map (pressures e_pcmax) (filter (searched o) ss))%R.
Proof.
  exact (subsamples_lims o rocks ss t).
Qed.
Lemma rock_shares m cells : 0 <= m -> (forall c, In c cells -> 1 <= fst c) -> Rsum (map snd cells) <> 0%R -> exists m' row out, sat_volumes m cells = Ok (m', row) /\ normalised row = Ok out /\
  m' = fold_right Z.max m (map fst cells) /\ zlen out = m' /\ fractions cells out.
Proof.
  intros Hm Hc N. destruct (sat_volumes_exists cells Hc (m, [])) as ([m' row] & E); [exact Hm|]. pose proof (sat_volumes_from cells [] (m, []) (m', row) (vinv0 m Hm) E) as ((V & Sm & Le & Eq) & M & B). cbn [app fst snd] in *.
  assert (NE : cells <> []) by (intros ->; apply N; reflexivity). unfold normalised. assert (Sr : racc (fun x => x) row = Rsum row) by (rewrite racc_sum, map_id; reflexivity).
  assert (E2 : normalised row = Ok (map (fun v => v / Rsum row)%R row)) by (unfold normalised; rewrite Sr; apply mapM_all_Ok; intros; apply mdiv_ok; rewrite Sm; exact N). destruct (normalised_inv _ _ E2) as [L Q]. rewrite Sm in Q. destruct (Q N) as [Q1 Q2].
  exists m', row, (map (fun v => v / Rsum row)%R row). split; [exact E|]. split; [exact E2|]. split; [|split; [rewrite L; apply Eq; exact NE|split; [|rewrite Sm; exact Q2]]].
  - clear -E Hm. change (m' = fold_right Z.max m (map fst cells)). assert (G : forall l s s', foldM (fun (s : Z * list R) (c : Z * R) => let m := Z.max (fst s) (fst c) in let row := snd s ++ zrepeat 0%R (m - zlen (snd s)) in let* row' := add_vol row (fst c - 1) (snd c) in Ok (m, row')) l s = Ok s' -> fst s' = fold_left Z.max (map fst l) (fst s)).
    { induction l as [|c l IH]; intros s s' Q; cbn [foldM map fold_left] in *; [injection Q as <-; reflexivity|]. cbv zeta in Q. destruct (add_vol _ _ _); cbn [bind] in Q; try discriminate. exact (IH _ _ Q). }
    rewrite <- fold_symmetric; [exact (G cells (m, []) (m', row) E)|intros; apply Z.max_assoc|intros; apply Z.max_comm].
  - intros t Ht. rewrite Sm. rewrite Q1, V. reflexivity.
Qed.
Lemma shares_case : exists m row out, sat_volumes 1 [(3, 1%R); (1, 4%R); (3, 5%R)] = Ok (m, row) /\ normalised row = Ok out /\ m = 3.
Proof.
  destruct (rock_shares 1 [(3, 1%R); (1, 4%R); (3, 5%R)]) as (m & row & out & A & B & C & _); [lia|intros c [<-|[<-|[<-|[]]]]; cbn; lia|cbn [map snd]; rewrite !Rsum_cons, Rsum_nil; lra|]. exists m, row, out. split; [exact A|]. split; [exact B|exact C].
Qed.
Lemma window_case : exists w, chop_window true 1 2 5 0 3 3 10 2 3 0 11 = Ok w /\ w = (3, 5, 0, 3, 11%R, (11 + 2)%R) /\ (10 <= 11 <= z_upper 10 2 14)%R.
Proof.
  eexists. split; [reflexivity|]. split; [reflexivity|]. unfold z_upper. rewrite smax_Rmax, Rmax_left by lra. lra.
Qed.
