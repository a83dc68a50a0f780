From Verif Require Import BaseFacts RBaseFacts Bgrid_Proofs Steady_Proofs Euler_Proofs2 Lin_Facts Matx_Proofs Cap_Proofs6 Cap_Proofs7 Visc_Proofs5 Visc_Proofs7 Visc_Spec.
Open Scope Z_scope.

Lemma tensor_holds t : zlen t = 9 -> holds (mkMat 3 3 COrd t) COrd 3 3 (tensor_of t).
Proof.
  intros L. unfold holds. cbn [m_ord m_rows m_cols m_data]. repeat split; try lia. intros r c _ _. unfold tensor_of. f_equal. lia.
Qed.
Lemma three z : 0 <= z < 3 -> z = 0 \/ z = 1 \/ z = 2. Proof. lia. Qed.
Lemma spread_ok tec row : tec = 3 \/ tec = 9 -> zlen row = tec ->
  exists t, foldM (fun t v => let* e := rget row v in set_voigt t v e) (zrange 0 tec) (zrepeat 0%R 9) = Ok t /\ zlen t = 9 /\ row_tensor tec row (tensor_of t).
Proof.
  intros [-> | ->] L.
  - destruct (len3 row L) as (a & b & c & ->). exists [a; 0; 0; 0; b; 0; 0; 0; c]%R. split; [reflexivity|]. split; [reflexivity|]. split.
    + intros v Hv. apply three in Hv. destruct Hv as [-> | [-> | ->]]; reflexivity.
    + intros _ r c0 Hr Hc N. apply three in Hr, Hc. destruct Hr as [-> | [-> | ->]], Hc as [-> | [-> | ->]]; try congruence; reflexivity.
  - destruct (len9 row L) as (a & b & c & d & e & f & g & h & i & ->). exists [a; f; e; i; b; d; h; g; c]%R. split; [reflexivity|]. split; [reflexivity|]. split; [|lia].
    intros v Hv. nine v Hv; reflexivity.
Qed.
Lemma tensor_unique tec row f g : tec = 3 \/ tec = 9 -> row_tensor tec row f -> row_tensor tec row g -> forall r c, 0 <= r < 3 -> 0 <= c < 3 -> f r c = g r c.
Proof.
  intros T [F1 F2] [G1 G2] r c Hr Hc.
  assert (K : exists v, 0 <= v < 9 /\ element_row v = r /\ element_col v = c /\ (r = c -> v < 3)).
  { apply three in Hr, Hc. destruct Hr as [-> | [-> | ->]], Hc as [-> | [-> | ->]];
    [exists 0|exists 5|exists 4|exists 8|exists 1|exists 3|exists 7|exists 6|exists 2]; (split; [lia|]; split; [reflexivity|]; split; [reflexivity|lia]). }
  destruct K as (v & Hv & Er & Ec & D). destruct (Z.eq_dec r c) as [E|N].
  - specialize (D E). rewrite <- Er, <- Ec. rewrite F1, G1 by lia. reflexivity.
  - destruct T as [T|T]; [rewrite F2, G2 by assumption; reflexivity|]. rewrite <- Er, <- Ec. rewrite F1, G1 by lia. reflexivity.
Qed.
Lemma element_range v : 0 <= v < 9 -> 0 <= element_row v < 3 /\ 0 <= element_col v < 3.
Proof. intros H. nine v H; vm_compute; repeat split; congruence. Qed.
(* product with the inverse of the single phase tensor *)
Lemma phase_relperm_ok tec kinv row f : tec = 3 \/ tec = 9 -> zlen row = tec -> zlen kinv = 9 -> row_tensor tec row f ->
  exists out, phase_relperm tec kinv row = Ok out /\ zlen out = tec /\
    forall v, 0 <= v < tec -> nthR out v = mmul 3 f (tensor_of kinv) (element_row v) (element_col v).
Proof.
  intros T L Lk F. destruct (spread_ok tec row T L) as (t & Et & Lt & Ft). unfold phase_relperm. rewrite Et. cbn [bind].
  destruct (prod_ok (mkMat 3 3 COrd t) (mkMat 3 3 COrd kinv) (mnew COrd 3 3) COrd COrd COrd 3 3 3 _ _ _ (tensor_holds t Lt) (tensor_holds kinv Lk) (holds_new COrd 3 3 ltac:(lia) ltac:(lia))) as (m & Em & Hm).
  rewrite Em. cbn [bind]. destruct Hm as (_ & _ & _ & _ & _ & Ld & Gd). destruct (voigt_row (m_data m) tec Ld ltac:(lia)) as (out & Eo & Lo & Go).
  exists out. split; [exact Eo|]. split; [exact Lo|]. intros v Hv. rewrite Go by lia. destruct (element_range v ltac:(lia)) as [R1 R2]. unfold tensor_of at 1.
  replace (3 * element_row v + element_col v) with (element_row v * 3 + element_col v) by lia. rewrite Gd by assumption. unfold mmul. apply Sum_ext. intros k Hk.
  rewrite (tensor_unique tec row (tensor_of t) f T Ft F) by (assumption || lia). reflexivity.
Qed.
(* all elements: the relative permeability tensor times the single phase tensor is the phase tensor *)
Lemma relperm_recovers kinv row f kt out g : zlen row = 9 -> zlen kinv = 9 -> row_tensor 9 row f ->
  (forall r c, 0 <= r < 3 -> 0 <= c < 3 -> mmul 3 (tensor_of kinv) kt r c = ident r c) ->
  phase_relperm 9 kinv row = Ok out -> row_tensor 9 out g ->
  forall r c, 0 <= r < 3 -> 0 <= c < 3 -> mmul 3 g kt r c = f r c.
Proof.
  intros L Lk F I E G r c Hr Hc. destruct (phase_relperm_ok 9 kinv row f (or_intror eq_refl) L Lk F) as (out' & E' & _ & V). rewrite E in E'. injection E' as <-.
  assert (Gm : forall i j, 0 <= i < 3 -> 0 <= j < 3 -> g i j = mmul 3 f (tensor_of kinv) i j).
  { apply (tensor_unique 9 out g (mmul 3 f (tensor_of kinv)) (or_intror eq_refl) G). split; [|lia]. intros v Hv. symmetry. now apply V. }
  transitivity (mmul 3 (mmul 3 f (tensor_of kinv)) kt r c). { unfold mmul at 1 2. apply Sum_ext. intros k Hk. rewrite Gm by assumption. reflexivity. }
  rewrite <- mmul_assoc. unfold mmul at 1. rewrite (Sum_ext 3 _ (fun p => f r p * ident p c)%R) by (intros p Hp; rewrite I by assumption; reflexivity).
  unfold Sum. change (zrange 0 3) with [0; 1; 2]. cbn [map]. rewrite !Rsum_cons, Rsum_nil. apply three in Hc. destruct Hc as [-> | [-> | ->]]; unfold ident; cbn; ring.
Qed.
(* three elements: a quotient when the single phase tensor is diagonal *)
Lemma relperm_diagonal kinv row out (k : Z -> R) : zlen row = 3 -> zlen kinv = 9 -> (forall v, 0 <= v < 3 -> k v <> 0%R /\ tensor_of kinv v v = (/ k v)%R) ->
  phase_relperm 3 kinv row = Ok out -> zlen out = 3 /\ forall v, 0 <= v < 3 -> nthR out v = (nthR row v / k v)%R.
Proof.
  intros L Lk K E. destruct (spread_ok 3 row (or_introl eq_refl) L) as (t & _ & _ & F). destruct (phase_relperm_ok 3 kinv row _ (or_introl eq_refl) L Lk F) as (out' & E' & Lo & V). rewrite E in E'. injection E' as <-.
  split; [exact Lo|]. intros v Hv. rewrite V by assumption. assert (Er : element_row v = v /\ element_col v = v) by (apply three in Hv; destruct Hv as [-> | [-> | ->]]; split; reflexivity).
  destruct Er as [-> ->]. destruct F as [F1 F2]. destruct (K v Hv) as [Kv Iv]. unfold mmul, Sum. change (zrange 0 3) with [0; 1; 2]. cbn [map]. rewrite !Rsum_cons, Rsum_nil.
  pose proof (F1 v ltac:(lia)) as Fv. assert (Er : element_row v = v /\ element_col v = v) by (apply three in Hv; destruct Hv as [-> | [-> | ->]]; split; reflexivity). destruct Er as [Er Ec]. rewrite Er, Ec in Fv.
  apply three in Hv. destruct Hv as [-> | [-> | ->]];
  [rewrite (F2 eq_refl 0 1), (F2 eq_refl 0 2) by lia|rewrite (F2 eq_refl 1 0), (F2 eq_refl 1 2) by lia|rewrite (F2 eq_refl 2 0), (F2 eq_refl 2 1) by lia]; rewrite Fv, Iv; unfold Rdiv; ring.
Qed.
(* a phase tensor that is a multiple of the single phase tensor has that multiple on the diagonal *)
Lemma relperm_multiple kinv row f kt c out : zlen row = 9 -> zlen kinv = 9 -> row_tensor 9 row f ->
  (forall r c, 0 <= r < 3 -> 0 <= c < 3 -> mmul 3 kt (tensor_of kinv) r c = ident r c) -> (forall i j, 0 <= i < 3 -> 0 <= j < 3 -> f i j = (c * kt i j)%R) ->
  phase_relperm 9 kinv row = Ok out -> forall v, 0 <= v < 9 -> nthR out v = if v <? 3 then c else 0%R.
Proof.
  intros L Lk F I M E v Hv. destruct (phase_relperm_ok 9 kinv row f (or_intror eq_refl) L Lk F) as (out' & E' & _ & V). rewrite E in E'. injection E' as <-. rewrite V by assumption.
  destruct (element_range v Hv) as [Hr Hc].
  transitivity (c * mmul 3 kt (tensor_of kinv) (element_row v) (element_col v))%R.
  - unfold mmul. rewrite <- Sum_scal. apply Sum_ext. intros k Hk. rewrite M by assumption. ring.
  - rewrite I by assumption. unfold ident. assert ((element_row v =? element_col v) = (v <? 3)) as -> by (nine v Hv; reflexivity). destruct (v <? 3); ring.
Qed.
Lemma columns_ok tec kinv rows : tec = 3 \/ tec = 9 -> zlen kinv = 9 -> (forall r, In r rows -> zlen r = tec) ->
  exists cols, relperm_columns tec kinv rows = Ok cols /\ zlen cols = tec /\
    forall v, 0 <= v < tec -> exists col, zget cols v = Some col /\ zlen col = zlen rows /\
      forall i row, zget rows i = Some row -> exists out, phase_relperm tec kinv row = Ok out /\ nthR col i = nthR out v.
Proof.
  intros T Lk R1. unfold relperm_columns.
  set (g := fun row => match phase_relperm tec kinv row with Ok o => o | _ => [] end).
  assert (G : forall row, In row rows -> phase_relperm tec kinv row = Ok (g row) /\ zlen (g row) = tec).
  { intros row I. destruct (spread_ok tec row T (R1 row I)) as (t & _ & _ & F). destruct (phase_relperm_ok tec kinv row _ T (R1 row I) Lk F) as (o & Eo & Lo & _). unfold g. rewrite Eo. auto. }
  rewrite (mapM_all_Ok _ g) by (intros; now apply G). cbn [bind].
  exists (map (fun v => map (fun row => nthR (g row) v) rows) (zrange 0 tec)). split.
  - apply mapM_all_Ok. intros v Hv. apply In_zrange in Hv. rewrite (mapM_all_Ok _ (fun r => nthR r v)).
    + now rewrite map_map.
    + intros r I. apply in_map_iff in I. destruct I as (row & <- & I). apply nthR_rget. destruct (G row I) as [_ ->]. lia.
  - split; [rewrite zlen_map, zlen_zrange; lia|]. intros v Hv. eexists. split; [rewrite zget_map, zget_zrange by lia; reflexivity|]. split; [apply zlen_map|].
    intros i row Hi. exists (g row). split; [apply G, (zget_In _ _ _ Hi)|]. unfold nthR at 1. rewrite zget_map, Hi. cbn [option_map]. now rewrite Z.add_0_l.
Qed.
(* ---- the critical end of a column *)
Lemma critical_spec thresh points col : 1 <= points -> zlen col = points ->
  exists i, (i = 0 \/ i = points - 1) /\ nthR col i = Rmin (nthR col 0) (nthR col (points - 1)) /\
    ((nthR col i < thresh)%R -> exists col', critical_end thresh points col = Ok col' /\ zlen col' = points /\ nthR col' i = 0%R /\ forall j, j <> i -> nthR col' j = nthR col j) /\
    ((thresh <= nthR col i)%R -> critical_end thresh points col = Throw).
Proof.
  intros Hp L. unfold critical_end. rewrite !nthR_rget by lia. cbn [bind]. set (i := if Rltb (nthR col 0) (nthR col (points - 1)) then 0 else points - 1).
  assert (Hi : 0 <= i < points) by (unfold i; destruct (Rltb _ _); lia). exists i. split; [unfold i; destruct (Rltb _ _); auto|].
  split. { unfold i. destruct (Rltb_spec (nthR col 0) (nthR col (points - 1))); [rewrite Rmin_left by lra|rewrite Rmin_right by lra]; reflexivity. }
  rewrite nthR_rget by lia. cbn [bind]. split; intros H.
  - rewrite Rltb_t by exact H. destruct (rset_exists col i 0%R ltac:(lia)) as (col' & E & L' & G & O). exists col'. split; [exact E|]. split; [lia|]. split; [unfold nthR; now rewrite G|].
    intros j Hj. unfold nthR. now rewrite O.
  - rewrite Rltb_f by lra. reflexivity.
Qed.
Lemma helper_spec thresh points tec kinv rows : tec = 3 \/ tec = 9 -> zlen kinv = 9 -> zlen rows = points -> (forall r, In r rows -> zlen r = tec) ->
  (helper_relperm false thresh points tec kinv rows = relperm_columns tec kinv rows) /\
  (1 <= points -> forall cols, helper_relperm true thresh points tec kinv rows = Ok cols <->
     exists raw, relperm_columns tec kinv rows = Ok raw /\ Forall2 (fun c c' => critical_end thresh points c = Ok c') raw cols).
Proof.
  intros T Lk L R1. unfold helper_relperm. rewrite (mapM_all_Ok (fun i => rget rows i) (fun i => match zget rows i with Some r => r | None => [] end)).
  2:{ intros i Hi. apply In_zrange in Hi. destruct (rget_range rows i ltac:(lia)) as (r & E & Z1). now rewrite E, Z1. }
  assert (Em : map (fun i => match zget rows i with Some r => r | None => [] end) (zrange 0 points) = rows).
  { pose proof (zlen_nonneg rows). apply zlist_ext; [rewrite zlen_map, zlen_zrange; lia|]. intros i Hi. rewrite zlen_map, zlen_zrange in Hi by lia. rewrite zget_map, zget_zrange by lia. cbn [option_map]. rewrite Z.add_0_l.
    destruct (zget_in_range rows i ltac:(lia)) as (r & ->). reflexivity. }
  cbn [bind]. rewrite Em. split.
  - destruct (relperm_columns tec kinv rows); reflexivity.
  - intros Hp cols. destruct (columns_ok tec kinv rows T Lk R1) as (raw & Er & _). rewrite Er. cbn [bind]. rewrite mapM_Ok. split; [eauto|]. intros (raw' & E & F). injection E as <-. exact F.
Qed.
(* ---- rows *)
Lemma cut_spec sats : forall rows, zlen sats = zlen rows -> exists rest, rows = cut_rows sats rows ++ rest /\
  (rest <> [] -> cut_rows sats rows <> [] /\ nthR sats (zlen (cut_rows sats rows) - 1) = 0%R) /\
  (forall i, 0 <= i < zlen (cut_rows sats rows) - 1 -> nthR sats i <> 0%R).
Proof.
  induction sats as [|s sats IH]; intros rows L.
  - destruct rows as [|r rows]; [|unfold zlen in L; cbn [length] in L; lia]. exists []. repeat split; try congruence. cbn. intros i Hi. unfold zlen in Hi. cbn in Hi. lia.
  - destruct rows as [|r rows]; [unfold zlen in L; cbn [length] in L; lia|]. cbn [cut_rows]. destruct (Req_EM_T s 0) as [E|N].
    + exists rows. split; [reflexivity|]. split; [intros _; split; [congruence|exact E]|]. intros i Hi. unfold zlen in Hi. cbn [length] in Hi. lia.
    + destruct (IH rows) as (rest & E1 & E2 & E3); [unfold zlen in *; cbn [length] in *; lia|]. exists rest. split; [cbn [app]; now rewrite <- E1|].
      assert (Z : zlen (r :: cut_rows sats rows) = 1 + zlen (cut_rows sats rows)) by (unfold zlen; cbn [length]; lia). rewrite Z.
      assert (Sh : forall k, 0 <= k -> nthR (s :: sats) (1 + k) = nthR sats k).
      { intros k Hk. unfold nthR. rewrite !zget_nth by lia. replace (Z.to_nat (1 + k)) with (S (Z.to_nat k)) by lia. reflexivity. }
      split.
      * intros Hr. destruct (E2 Hr) as [Ne Hz]. split; [congruence|]. assert (0 < zlen (cut_rows sats rows)) by (destruct (cut_rows sats rows); [congruence|unfold zlen; cbn [length]; lia]).
        replace (1 + zlen (cut_rows sats rows) - 1) with (1 + (zlen (cut_rows sats rows) - 1)) by lia. rewrite Sh by lia. exact Hz.
      * intros i Hi. destruct (Z.eq_dec i 0) as [->|Ni]; [exact N|]. replace i with (1 + (i - 1)) by lia. rewrite Sh by lia. apply E3. lia.
Qed.
Lemma cut_all sats : forall rows, zlen sats = zlen rows -> (forall s, In s sats -> s <> 0%R) -> cut_rows sats rows = rows.
Proof.
  induction sats as [|s sats IH]; intros [|r rows] L H; try reflexivity; try (unfold zlen in L; cbn [length] in L; lia).
  cbn [cut_rows]. destruct (Req_EM_T s 0) as [E|N]; [exfalso; apply (H s); [now left|exact E]|]. f_equal. apply IH; [unfold zlen in *; cbn [length] in *; lia|]. intros q I. apply H. now right.
Qed.
Lemma report_spec interp sat_of_ratio ipoints tec kinv ps a ph : tec = 3 \/ tec = 9 -> zlen kinv = 9 -> arrays_ok true tec (zlen ps) a -> ps <> [] -> ipoints <= 1 ->
  exists rows, visc_report interp sat_of_ratio ipoints tec kinv ps a ph = Ok (cut_rows (ar_ws a) rows) /\ zlen rows = zlen ps /\
    forall i q s row, zget ps i = Some q -> zget (ar_ws a) i = Some s -> zget (phase_rows a ph) i = Some row ->
      exists out, phase_relperm tec kinv row = Ok out /\ zget rows i = Some (q :: s :: out).
Proof.
  intros T Lk (L0 & L1 & R1 & L2) Ne Hi. destruct (L2 eq_refl) as [L3 R3]. unfold visc_report.
  assert (Lp : zlen (phase_rows a ph) = zlen ps) by (unfold phase_rows; destruct (ph =? 0); lia). assert (Rp : forall r, In r (phase_rows a ph) -> zlen r = tec) by (unfold phase_rows; destruct (ph =? 0); assumption).
  destruct (ar_ws a) as [|s0 ws] eqn:Ews. { exfalso. apply Ne. destruct ps; [reflexivity|]. unfold zlen in L0. cbn [length] in L0. lia. }
  rewrite <- Ews in *. destruct (columns_ok tec kinv (phase_rows a ph) T Lk Rp) as (cols & Ec & Lc & Gc). rewrite Ec. cbn [bind]. unfold visc_columns. rewrite (proj2 (Z.ltb_ge 1 ipoints)) by lia. cbn [bind].
  destruct (rows_ok ps (ar_ws a) cols ltac:(lia)) as (rows & Er & Lr & Gr).
  { intros c I. apply In_zget in I. destruct I as (v & Hv & Zv). destruct (Gc v ltac:(lia)) as (col & Zc & Lcol & _). rewrite Zv in Zc. injection Zc as <-. lia. }
  rewrite Er. cbn [bind fst snd]. exists rows. split; [reflexivity|]. split; [lia|]. intros i q s row Hq Hs Hrow.
  pose proof (zget_Some_range _ _ _ Hq) as Bi. pose proof (zget_In _ _ _ Hrow) as Irow. destruct (spread_ok tec row T (Rp row Irow)) as (t & _ & _ & F). destruct (phase_relperm_ok tec kinv row _ T (Rp row Irow) Lk F) as (out & Eo & Lo & _).
  exists out. split; [exact Eo|]. rewrite Gr by lia. rewrite (nthR_get _ _ _ Hq), (nthR_get _ _ _ Hs). do 3 f_equal.
  apply zlist_ext; [rewrite zlen_map; lia|]. intros v Hv. rewrite zlen_map, Lc in Hv. destruct (Gc v Hv) as (col & Zc & _ & Vc). rewrite zget_map, Zc. cbn [option_map].
  destruct (Vc i row Hrow) as (out' & Eo' & ->). rewrite Eo in Eo'. injection Eo' as <-. symmetry. apply zget_nthR. lia.
Qed.
(* with interpolation the first column holds the saturation function at the saturations *)
Lemma report_interp interp sat_of_ratio ipoints tec kinv ps a ph : tec = 3 \/ tec = 9 -> zlen kinv = 9 -> arrays_ok true tec (zlen ps) a -> ps <> [] -> 2 <= ipoints ->
  (forall s, In s (ar_ws a) -> - dbl_max <= s <= dbl_max)%R ->
  exists g cols rows, sat_grid ipoints (ar_ws a) = Ok g /\ is_min (nthR g 0) (ar_ws a) /\ is_max (nthR g (ipoints - 1)) (ar_ws a) /\
    (forall i, 0 <= i < ipoints - 1 -> (nthR g (i + 1) - nthR g i = (nthR g (ipoints - 1) - nthR g 0) / IZR (ipoints - 1))%R) /\
    relperm_columns tec kinv (phase_rows a ph) = Ok cols /\
    visc_report interp sat_of_ratio ipoints tec kinv ps a ph = Ok (cut_rows g rows) /\ zlen rows = ipoints /\ zlen g = ipoints /\
    forall i s, zget g i = Some s -> zget rows i = Some (sat_of_ratio s :: s :: map (fun col => interp (ar_ws a) col s) cols).
Proof.
  intros T Lk (L0 & L1 & R1 & L2) Ne Hi Hb. destruct (L2 eq_refl) as [L3 R3]. unfold visc_report.
  assert (Lp : zlen (phase_rows a ph) = zlen ps) by (unfold phase_rows; destruct (ph =? 0); lia). assert (Rp : forall r, In r (phase_rows a ph) -> zlen r = tec) by (unfold phase_rows; destruct (ph =? 0); assumption).
  assert (Nw : ar_ws a <> []) by (intros Q; rewrite Q in L0; apply Ne; destruct ps; [reflexivity|]; unfold zlen in L0; cbn [length] in L0; lia).
  destruct (grid_spec ipoints (ar_ws a) Hi Nw Hb) as (g & Eg & Lg & Gmin & Gmax & _ & Gu). destruct (columns_ok tec kinv (phase_rows a ph) T Lk Rp) as (cols & Ec & Lc & Gc).
  destruct (rows_ok (map sat_of_ratio g) g (map (fun col => map (interp (ar_ws a) col) g) cols)) as (rows & Er & Lr & Gr).
  { apply zlen_map. } { intros c I. apply in_map_iff in I. destruct I as (col & <- & _). apply zlen_map. }
  exists g, cols, rows. split; [exact Eg|]. split; [exact Gmin|]. split; [exact Gmax|]. split; [exact Gu|]. split; [exact Ec|]. split.
  - rewrite Ec. unfold visc_columns. rewrite (proj2 (Z.ltb_lt 1 ipoints)) by lia. destruct (ar_ws a) as [|s0 ws]; [congruence|]. cbn [bind]. rewrite Eg. cbn [bind]. rewrite Er. reflexivity.
  - split; [lia|]. split; [exact Lg|]. intros i s Hs. pose proof (zget_Some_range _ _ _ Hs). rewrite Gr by lia. f_equal. rewrite (nthR_get _ i s Hs). rewrite (nthR_get _ i (sat_of_ratio s)) by (rewrite zget_map, Hs; reflexivity). do 2 f_equal.
    rewrite map_map. apply map_ext. intros col. apply nthR_get. now rewrite zget_map, Hs.
Qed.
Lemma report_nothing interp sat_of_ratio ipoints tec kinv ps a ph : ar_ws a = [] -> visc_report interp sat_of_ratio ipoints tec kinv ps a ph = Throw.
Proof. unfold visc_report. now intros ->. Qed.
