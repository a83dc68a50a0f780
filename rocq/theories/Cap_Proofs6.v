From Verif Require Import BaseFacts RBaseFacts Bgrid_Proofs Steady_Proofs Shape_Proofs2 Relp_Spec Relp_Proofs3 Drv_Proofs2 Icap_Proofs2 Cap_Proofs3 Cap_Proofs4 Cap_Proofs5 Cap_Spec.
Open Scope Z_scope.

(* ---- smallest and largest saturation *)
Lemma sat_min_fold l : forall m, is_min (fold_left (fun m s => if Rltb s m then s else m) l m) (m :: l).
Proof.
  induction l as [|a l IH]; intros m; cbn [fold_left]; [split; [now left|intros y [<-|[]]; lra]|].
  destruct (IH (if Rltb a m then a else m)) as [A B]. destruct (Rltb a m) eqn:E; [apply Rltb_true in E|apply Rltb_false in E]; split.
  - destruct A as [A|A]; [right; left; exact A|right; now right].
  - intros y [<-|[<-|I]]; [specialize (B a (or_introl eq_refl)); lra|apply B; now left|apply B; now right].
  - destruct A as [A|A]; [now left|right; now right].
  - intros y [<-|[<-|I]]; [apply B; now left|specialize (B m (or_introl eq_refl)); lra|apply B; now right].
Qed.
Lemma sat_max_fold l : forall m, is_max (fold_left (fun m s => if Rltb m s then s else m) l m) (m :: l).
Proof.
  induction l as [|a l IH]; intros m; cbn [fold_left]; [split; [now left|intros y [<-|[]]; lra]|].
  destruct (IH (if Rltb m a then a else m)) as [A B]. destruct (Rltb m a) eqn:E; [apply Rltb_true in E|apply Rltb_false in E]; split.
  - destruct A as [A|A]; [right; left; exact A|right; now right].
  - intros y [<-|[<-|I]]; [specialize (B a (or_introl eq_refl)); lra|apply B; now left|apply B; now right].
  - destruct A as [A|A]; [now left|right; now right].
  - intros y [<-|[<-|I]]; [apply B; now left|specialize (B m (or_introl eq_refl)); lra|apply B; now right].
Qed.
Lemma sat_min_ok l : l <> [] -> (forall s, In s l -> (s <= dbl_max)%R) -> is_min (sat_min l) l.
Proof.
  intros N H. destruct (sat_min_fold l dbl_max) as [A B]. fold (sat_min l) in *. split; [|intros; apply B; now right]. destruct A as [A|A]; [|exact A].
  destruct l as [|a l]; [now contradiction N|]. specialize (B a (or_intror (or_introl eq_refl))). specialize (H a (or_introl eq_refl)). left. lra.
Qed.
Lemma sat_max_ok l : l <> [] -> (forall s, In s l -> (- dbl_max <= s)%R) -> is_max (sat_max l) l.
Proof.
  intros N H. destruct (sat_max_fold l (- dbl_max)%R) as [A B]. fold (sat_max l) in *. split; [|intros; apply B; now right]. destruct A as [A|A]; [|exact A].
  destruct l as [|a l]; [now contradiction N|]. specialize (B a (or_intror (or_introl eq_refl))). specialize (H a (or_introl eq_refl)). left. lra.
Qed.
Lemma grid_ok n sats : 2 <= n -> exists g, sat_grid n sats = Ok g /\ zlen g = n /\
  forall i, 0 <= i < n -> zget g i = Some (sat_min sats + IZR i / IZR (n - 1) * (sat_max sats - sat_min sats))%R.
Proof.
  intros Hn. assert (N0 : (IZR (n - 1) <> 0)%R) by (apply not_0_IZR; lia). unfold sat_grid.
  rewrite (mapM_all_Ok _ (fun i => (sat_min sats + IZR i / IZR (n - 1) * (sat_max sats - sat_min sats))%R)) by (intros i _; rewrite mdiv_ok by exact N0; reflexivity).
  eexists. split; [reflexivity|]. split; [rewrite zlen_map, zlen_zrange; lia|]. intros i Hi. rewrite zget_map, zget_zrange by lia. reflexivity.
Qed.
Lemma grid_one sats : sat_grid 1 sats = UB.
Proof. unfold sat_grid. change (zrange 0 1) with [0]. cbn [mapM]. change (1 - 1) with 0. now rewrite mdiv_0. Qed.
Lemma grid_spec n sats : 2 <= n -> sats <> [] -> (forall s, In s sats -> - dbl_max <= s <= dbl_max)%R -> exists g, sat_grid n sats = Ok g /\ zlen g = n /\
  is_min (nthR g 0) sats /\ is_max (nthR g (n - 1)) sats /\
  (forall i, 0 <= i < n -> (nthR g 0 <= nthR g i <= nthR g (n - 1))%R) /\
  (forall i, 0 <= i < n - 1 -> (nthR g (i + 1) - nthR g i = (nthR g (n - 1) - nthR g 0) / IZR (n - 1))%R).
Proof.
  intros Hn N B. destruct (grid_ok n sats Hn) as (g & E & L & G). exists g. split; [exact E|]. split; [exact L|].
  assert (Mn : is_min (sat_min sats) sats) by (apply sat_min_ok; [exact N|apply B]). assert (Mx : is_max (sat_max sats) sats) by (apply sat_max_ok; [exact N|apply B]).
  assert (N0 : (0 < IZR (n - 1))%R) by (apply IZR_lt; lia).
  assert (G' : forall i, 0 <= i < n -> nthR g i = (sat_min sats + IZR i / IZR (n - 1) * (sat_max sats - sat_min sats))%R) by (intros i Hi; apply nthR_get, G, Hi).
  assert (G0 : nthR g 0 = sat_min sats) by (rewrite G' by lia; field; lra). assert (G1 : nthR g (n - 1) = sat_max sats) by (rewrite G' by lia; field; lra). rewrite G0, G1.
  split; [exact Mn|]. split; [exact Mx|]. assert (Le : (sat_min sats <= sat_max sats)%R) by (apply Mn, Mx). split.
  - intros i Hi. rewrite G' by exact Hi. assert (Q : (0 <= IZR i / IZR (n - 1) <= 1)%R).
    { split; [apply Rmult_le_pos; [apply IZR_le; lia|apply Rlt_le, Rinv_0_lt_compat, N0]|]. apply Rmult_le_reg_r with (IZR (n - 1)); [exact N0|]. unfold Rdiv. rewrite Rmult_assoc, Rinv_l by lra. rewrite Rmult_1_r, Rmult_1_l. apply IZR_le. lia. }
    split; [assert (0 <= IZR i / IZR (n - 1) * (sat_max sats - sat_min sats))%R by (apply Rmult_le_pos; lra); lra|].
    assert (IZR i / IZR (n - 1) * (sat_max sats - sat_min sats) <= 1 * (sat_max sats - sat_min sats))%R by (apply Rmult_le_compat_r; lra). lra.
  - intros i Hi. rewrite !G' by lia. rewrite plus_IZR. field. lra.
Qed.

(* ---- rows *)
Lemma rows_ok ps sats cols : zlen ps = zlen sats -> (forall c, In c cols -> zlen c = zlen sats) ->
  exists rows, out_rows (ps, (sats, cols)) = Ok rows /\ zlen rows = zlen sats /\
  forall i, 0 <= i < zlen sats -> zget rows i = Some (nthR ps i :: nthR sats i :: map (fun c => nthR c i) cols).
Proof.
  intros L1 L2. unfold out_rows. cbn [fst snd]. rewrite (mapM_all_Ok _ (fun i => nthR ps i :: nthR sats i :: map (fun c => nthR c i) cols)).
  - eexists. split; [reflexivity|]. pose proof (zlen_nonneg sats). split; [rewrite zlen_map, zlen_zrange; lia|]. intros i Hi. rewrite zget_map, zget_zrange by lia. reflexivity.
  - intros i Hi. apply In_zrange in Hi. rewrite (proj2 (rget_Ok _ _ _) (zget_nthR ps i ltac:(lia))), (proj2 (rget_Ok _ _ _) (zget_nthR sats i ltac:(lia))). cbn [bind].
    rewrite (mapM_all_Ok _ (fun c => nthR c i)); [reflexivity|]. intros c Hc. apply rget_Ok, zget_nthR. rewrite (L2 c Hc). lia.
Qed.
Lemma transpose_rows n (t : table (list R)) : 0 <= n -> (forall e, In e t -> zlen (snd (snd e)) = n) -> forall i e, zget t i = Some e -> map (fun c => nthR c i) (rock_columns n t) = snd (snd e).
Proof.
  intros Hn H i e E. unfold rock_columns. rewrite map_map. specialize (H e (zget_In _ _ _ E)). apply zlist_ext.
  - rewrite zlen_map, zlen_zrange; lia.
  - intros j Hj. rewrite zlen_map, zlen_zrange in Hj by lia. rewrite zget_map, zget_zrange by lia. cbn [option_map]. destruct (zget_in_range (snd (snd e)) j ltac:(lia)) as (v & Ev). rewrite Ev. f_equal.
    apply nthR_get. rewrite zget_map, E. cbn. replace (0 + j) with j by lia. now rewrite Ev.
Qed.
Lemma report_raw fuel interp points x l t : points <= 0 -> tabulate fuel (cap_values x l) (li_swir l) (li_swor l) (li_pcmin l) (li_pcmax l) 200 = Ok (Some t) ->
  (forall e, In e t -> zlen (snd (snd e)) = max_satnum (ci_sat x)) ->
  cap_report fuel interp points x l = Ok (Some (map (fun e => fst e :: fst (snd e) :: snd (snd e)) t)).
Proof.
  intros P E H. unfold cap_report. rewrite E. cbn [bind]. unfold out_columns. rewrite (proj2 (Z.ltb_ge 0 points)) by lia. cbn [bind].
  destruct (rows_ok (map fst t) (map (fun e => fst (snd e)) t) (rock_columns (max_satnum (ci_sat x)) t)) as (rows & Er & Lr & Gr).
  - now rewrite !zlen_map.
  - intros c Hc. apply in_map_iff in Hc. destruct Hc as (r & <- & _). now rewrite !zlen_map.
  - rewrite Er. cbn [bind]. do 2 f_equal. rewrite zlen_map in *. apply zlist_ext; [now rewrite zlen_map|]. intros i Hi. rewrite Lr in Hi. rewrite Gr by lia. rewrite zget_map.
    destruct (zget_in_range t i Hi) as (e & Ee). rewrite Ee. cbn [option_map]. rewrite (transpose_rows _ t (max_satnum_pos _) H i e Ee).
    rewrite (nthR_get (map fst t) i (fst e)) by (rewrite zget_map, Ee; reflexivity). rewrite (nthR_get (map _ t) i (fst (snd e))) by (rewrite zget_map, Ee; reflexivity). reflexivity.
Qed.
Lemma report_interpolated fuel interp points x l t : 2 <= points -> interpolates interp ->
  tabulate fuel (cap_values x l) (li_swir l) (li_swor l) (li_pcmin l) (li_pcmax l) 200 = Ok (Some t) -> t <> [] ->
  (forall e, In e t -> (li_pcmin l <= fst e <= li_pcmax l)%R /\ (- dbl_max <= fst (snd e) <= dbl_max)%R) ->
  exists rows, cap_report fuel interp points x l = Ok (Some rows) /\ zlen rows = points /\
  (forall i row, zget rows i = Some row -> zlen row = 2 + max_satnum (ci_sat x) /\ (li_pcmin l <= nthR row 0 <= li_pcmax l)%R) /\
  (forall i row, zget rows i = Some row -> exists g0 g1, is_min g0 (map (fun e => fst (snd e)) t) /\ is_max g1 (map (fun e => fst (snd e)) t) /\
     (nthR row 1 = g0 + IZR i / IZR (points - 1) * (g1 - g0))%R) /\
  (NoDup (map (fun e => fst (snd e)) t) -> (forall e, In e t -> zlen (snd (snd e)) = max_satnum (ci_sat x)) ->
   forall i row e, zget rows i = Some row -> In e t -> nthR row 1 = fst (snd e) -> row = fst e :: fst (snd e) :: snd (snd e)).
Proof.
  intros P [Ex Rg] E N B. unfold cap_report. rewrite E. cbn [bind]. unfold out_columns. rewrite (proj2 (Z.ltb_lt 0 points)) by lia.
  set (sats := map (fun e => fst (snd e)) t) in *. assert (Ns : sats <> []) by (unfold sats; destruct t; [now contradiction N|discriminate]).
  assert (Lst : zlen sats = zlen (map fst t)) by (unfold sats; now rewrite !zlen_map).
  assert (Bs : forall s, In s sats -> (- dbl_max <= s <= dbl_max)%R) by (intros s I; apply in_map_iff in I; destruct I as (e & <- & I); now apply B).
  destruct (grid_ok points sats P) as (g & Eg & Lg & Gg). destruct sats as [|s0 sats'] eqn:Es; [now contradiction Ns|]. rewrite <- Es in *. rewrite Eg. cbn [bind].
  destruct (rows_ok (map (interp sats (map fst t)) g) g (map (fun col => map (interp sats col) g) (rock_columns (max_satnum (ci_sat x)) t))) as (rows & Er & Lr & Gr).
  - now rewrite zlen_map.
  - intros c Hc. apply in_map_iff in Hc. destruct Hc as (r & <- & _). now rewrite !zlen_map.
  - rewrite Er. cbn [bind]. exists rows. split; [reflexivity|]. split; [lia|].
    assert (Row : forall i row, zget rows i = Some row -> 0 <= i < points /\ row = nthR (map (interp sats (map fst t)) g) i :: nthR g i :: map (fun c => nthR c i) (map (fun col => map (interp sats col) g) (rock_columns (max_satnum (ci_sat x)) t))).
    { intros i row Ei. pose proof (zget_Some_range _ _ _ Ei) as Ri. rewrite Lr in Ri. rewrite Gr in Ei by lia. injection Ei as <-. split; [lia|reflexivity]. }
    split; [|split].
    + intros i row Ei. destruct (Row i row Ei) as [Ri ->]. split.
      * unfold zlen. cbn [length]. rewrite !map_length. unfold rock_columns. rewrite map_length, zrange_length. pose proof (max_satnum_pos (ci_sat x)). lia.
      * change (nthR (?a :: _) 0) with a. destruct (zget_in_range g i ltac:(lia)) as (gi & Egi). rewrite (nthR_get _ i (interp sats (map fst t) gi)) by (rewrite zget_map, Egi; reflexivity).
        apply Rg; [exact Ns| |].
        -- exact Lst.
        -- intros y I. apply in_map_iff in I. destruct I as (e & <- & I). now apply B.
    + intros i row Ei. destruct (Row i row Ei) as [Ri ->]. exists (sat_min sats), (sat_max sats). split; [apply sat_min_ok; [exact Ns|apply Bs]|]. split; [apply sat_max_ok; [exact Ns|apply Bs]|].
      change (nthR (_ :: ?a :: _) 1) with a. apply nthR_get. apply Gg. exact Ri.
    + intros Nd Hr i row e Ei Ie Eq. destruct (Row i row Ei) as [Ri ->]. change (nthR (_ :: ?a :: _) 1) with a in Eq. rewrite Eq.
      destruct (zget_in_range g i ltac:(lia)) as (gi & Egi). rewrite (nthR_get _ _ _ Egi) in Eq. subst gi. destruct (In_zget t e Ie) as (k & Rk & Ek).
      assert (Sk : zget sats k = Some (fst (snd e))) by (unfold sats; rewrite zget_map, Ek; reflexivity).
      f_equal; [|f_equal].
      * apply nthR_get. rewrite zget_map, Egi. cbn [option_map]. f_equal. eapply Ex; [exact Nd|exact Lst|exact Sk|]. rewrite zget_map, Ek. reflexivity.
      * rewrite map_map. rewrite <- (transpose_rows _ t (max_satnum_pos _) Hr k e Ek). apply map_ext_in. intros col Ic. apply nthR_get. rewrite zget_map, Egi. cbn [option_map]. f_equal.
        apply in_map_iff in Ic. destruct Ic as (r & <- & Ic). eapply Ex; [exact Nd| |exact Sk|]; [rewrite zlen_map, <- (zlen_map fst t); exact Lst|]. apply zget_nthR. rewrite zlen_map. exact Rk.
Qed.
Lemma report_one_point fuel interp x l t : tabulate fuel (cap_values x l) (li_swir l) (li_swor l) (li_pcmin l) (li_pcmax l) 200 = Ok (Some t) ->
  cap_report fuel interp 1 x l = UB.
Proof. intros E. unfold cap_report. rewrite E. cbn [bind]. unfold out_columns. change (0 <? 1) with true. cbn iota. destruct (map (fun e => fst (snd e)) t); [reflexivity|]. now rewrite grid_one. Qed.
Lemma report_empty fuel interp points x l : (li_swor l <= li_swir l)%R ->
  (points <= 0 -> cap_report fuel interp points x l = Ok (Some [])) /\ (0 < points -> cap_report fuel interp points x l = UB).
Proof.
  intros H. assert (E : tabulate fuel (cap_values x l) (li_swir l) (li_swor l) (li_pcmin l) (li_pcmax l) 200 = Ok (Some [])) by (apply tab_empty; lra). split; intros P.
  - rewrite (report_raw fuel interp points x l [] P E); [reflexivity|intros e []].
  - unfold cap_report. rewrite E. cbn [bind]. unfold out_columns. rewrite (proj2 (Z.ltb_lt 0 points)) by lia. reflexivity.
Qed.
