From Verif Require Import BaseFacts RBaseFacts Bgrid_Proofs Steady_Proofs Shape_Proofs2 Relp_Spec Relp_Proofs3 Drv_Proofs2 Cap_Proofs4 Cap_Spec.
Open Scope Z_scope.

Lemma limits_inv x cells tol l : proper x cells -> cap_limits x tol cells = Ok l ->
  li_pore l = sum_cells (pore_of x) (rocky x cells) /\ (0 < li_pore l)%R /\
  zlen (li_rock l) = max_satnum (ci_sat x) + 1 /\
  (forall r, 0 <= r <= max_satnum (ci_sat x) -> zget (li_rock l) r = Some (sum_cells (pore_of x) (of_rock x r (rocky x cells)))) /\
  zlen (li_vol l) = zlen (ci_sat x) /\ zlen (li_pv l) = zlen (ci_sat x) /\
  (forall cv, In cv (rocky x cells) -> zget (li_vol l) (fst cv) = Some (snd cv) /\ zget (li_pv l) (fst cv) = Some (pore_of x cv)) /\
  (forall c, 0 <= c < zlen (ci_sat x) -> ~ In c (map fst (rocky x cells)) -> zget (li_vol l) c = Some 0%R /\ zget (li_pv l) c = Some 0%R).
Proof.
  intros Pr H. destruct (lim_fold x cells Pr) as (st & E & Lv & Lp & Lr & Gc & Zc & Sv & Sp & Ro & _). unfold cap_limits in H. rewrite E in H. cbn [bind] in H.
  destruct (Rltb (lm_pcmax st) (lm_pcmin st)); [discriminate|].
  destruct (mdiv (lm_swir st) (Rsum (lm_pv st))) as [a| |] eqn:E1; try discriminate. cbn [bind] in H. destruct (mdiv (lm_swor st) (Rsum (lm_pv st))) as [b| |]; try discriminate. cbn [bind] in H.
  destruct (mdiv (Rsum (lm_pv st)) (Rsum (lm_vol st))) as [ph| |]; try discriminate. cbn [bind] in H.
  destruct (_ || _ || _ || _) in H; [discriminate|]. injection H as <-. cbn [li_vol li_pv li_rock li_pore].
  apply mdiv_inv in E1. destruct E1 as [E1 _]. rewrite Sp in *.
  assert (0 <= sum_cells (pore_of x) (rocky x cells))%R. { apply sum_nonneg. intros cv I. now apply (rocky_in x cells Pr). }
  split; [reflexivity|]. split; [lra|]. split; [exact Lr|]. split; [exact Ro|]. split; [exact Lv|]. split; [exact Lp|]. split; [exact Gc|exact Zc].
Qed.

(* a sum over all cells with contributions of some of them only *)
Lemma rocky_nodup x cells : proper x cells -> NoDup (map fst (rocky x cells)).
Proof.
  intros (Nd & _). revert Nd. unfold rocky. induction cells as [|a l IH]; cbn; [constructor|]. inversion 1 as [|? ? N1 N2]; subst. destruct (0 <? _); [|now apply IH]. cbn. constructor; [|now apply IH].
  intros I. apply N1. apply in_map_iff in I. destruct I as (b & <- & I). apply filter_In in I. apply in_map, I.
Qed.
Lemma sum_scattered (G : Z -> R) (h : Z * R -> R) n L : NoDup (map fst L) -> (forall cv, In cv L -> 0 <= fst cv < n) ->
  (forall cv, In cv L -> G (fst cv) = h cv) -> (forall c, 0 <= c < n -> ~ In c (map fst L) -> G c = 0%R) ->
  sum_cells G (zrange 0 n) = sum_cells h L.
Proof.
  intros Nd Rg Gh G0. unfold sum_cells. set (rest := filter (fun c => if in_dec Z.eq_dec c (map fst L) then false else true) (zrange 0 n)).
  assert (P : Permutation.Permutation (zrange 0 n) (map fst L ++ rest)).
  { apply Permutation.NoDup_Permutation; [apply zrange_NoDup| |].
    - apply NoDup_app'; [exact Nd|apply NoDup_filter, zrange_NoDup|]. intros b I1 I2. apply filter_In in I2. destruct I2 as [_ I2]. destruct (in_dec Z.eq_dec b (map fst L)); [discriminate|contradiction].
    - intros c. rewrite in_app_iff. unfold rest. rewrite filter_In, In_zrange. destruct (in_dec Z.eq_dec c (map fst L)) as [I|I].
      + split; [now left|]. intros _. apply in_map_iff in I. destruct I as (cv & <- & I). now apply Rg.
      + split; [intros H; right; now split|]. intros [I'|[H _]]; [contradiction|exact H]. }
  rewrite (Rsum_perm _ _ (Permutation.Permutation_map G P)). rewrite map_app, Rsum_app. rewrite (Rsum_map_zero G rest).
  - rewrite Rplus_0_r, map_map. apply Rsum_map_ext. exact Gh.
  - intros c I. apply filter_In in I. destruct I as [I1 I2]. apply In_zrange in I1. destruct (in_dec Z.eq_dec c (map fst L)); [discriminate|]. now apply G0.
Qed.
Lemma sum_big h L : sum_cells (fun cv : Z * R => if Rltb (/ 10000000000) (snd cv) then h cv else 0%R) L = sum_cells h (big L).
Proof.
  unfold sum_cells, big. induction L as [|a L IH]; cbn [map filter]; [reflexivity|]. rewrite Rsum_cons, IH. destruct (Rltb _ (snd a)); cbn [map]; rewrite ?Rsum_cons; lra.
Qed.
Lemma sum_rock x r h L : sum_cells (fun cv : Z * R => if sat_of x (fst cv) =? r then h cv else 0%R) L = sum_cells h (of_rock x r L).
Proof.
  unfold sum_cells, of_rock. induction L as [|a L IH]; cbn [map filter]; [reflexivity|]. rewrite Rsum_cons, IH. destruct (_ =? r); cbn [map]; rewrite ?Rsum_cons; lra.
Qed.

Section Water.
  Variables (x : cin) (cells : list (Z * R)) (tol : R) (l : limits) (p : R).
  Hypothesis pr : proper x cells.
  Hypothesis hl : cap_limits x tol cells = Ok l.
  Definition contrib (c : Z) : R :=
    match find (fun cv => fst cv =? c) (rocky x cells) with
    | Some cv => if Rltb (/ 10000000000) (snd cv) then (water_sat x p c * pore_of x cv)%R else 0%R
    | None => 0%R
    end.
  Lemma find_in cv : In cv (rocky x cells) -> find (fun e => fst e =? fst cv) (rocky x cells) = Some cv.
  Proof.
    pose proof (rocky_nodup x cells pr) as Nd. induction (rocky x cells) as [|a L IH]; [intros []|]. cbn in Nd. inversion Nd as [|? ? N1 N2]; subst. intros [-> | I]; cbn [find].
    - now rewrite Z.eqb_refl.
    - destruct (fst a =? fst cv) eqn:E; [|now apply IH]. apply Z.eqb_eq in E. exfalso. apply N1. rewrite E. now apply in_map.
  Qed.
  Lemma find_out c : ~ In c (map fst (rocky x cells)) -> find (fun e => fst e =? c) (rocky x cells) = None.
  Proof.
    intros N. destruct (find _ _) as [cv|] eqn:E; [|reflexivity]. apply find_some in E. destruct E as [I E]. apply Z.eqb_eq in E. subst c. exfalso. apply N. now apply in_map.
  Qed.
  Lemma j_sat_ok c : 0 <= c < zlen (ci_sat x) -> 0 < sat_of x c -> j_sat x p c (sat_of x c) = Ok (water_sat x p c).
  Proof.
    intros H S. destruct (lev_get x cells pr c H S) as (_ & Ec & El & _). unfold j_sat. rewrite El. cbn [bind]. rewrite mdiv_ok by (destruct pr as (_ & _ & St & _); lra). cbn [bind].
    rewrite Ec. reflexivity.
  Qed.
  Lemma water_fold : exists w, cap_water x l p = Ok w /\ fst w = sum_cells contrib (zrange 0 (zlen (ci_sat x))) /\ zlen (snd w) = max_satnum (ci_sat x) + 1 /\
    forall r, 0 <= r <= max_satnum (ci_sat x) -> zget (snd w) r = Some (sum_cells (fun c => if sat_of x c =? r then contrib c else 0%R) (zrange 0 (zlen (ci_sat x)))).
  Proof.
    destruct (limits_inv x cells tol l pr hl) as (_ & _ & Lr & _ & Lv & Lp & Gc & Zc). pose proof (max_satnum_pos (ci_sat x)). unfold cap_water.
    refine (foldM_split_inv _ (fun done w => fst w = sum_cells contrib done /\ zlen (snd w) = max_satnum (ci_sat x) + 1 /\
      forall r, 0 <= r <= max_satnum (ci_sat x) -> zget (snd w) r = Some (sum_cells (fun c => if sat_of x c =? r then contrib c else 0%R) done)) _ _ _ _).
    - cbn [fst snd]. unfold sum_cells. cbn [map]. rewrite Rsum_nil. split; [reflexivity|]. split; [now rewrite zlen_zrepeat by lia|]. intros r Hr. apply zget_zrepeat. lia.
    - intros done c rest w Hall (W1 & W2 & W3). assert (Hc : 0 <= c < zlen (ci_sat x)) by (apply In_zrange; rewrite Hall; apply in_or_app; right; now left).
      assert (Snoc : forall r, sum_cells (fun c => if sat_of x c =? r then contrib c else 0%R) (done ++ [c]) = (sum_cells (fun c => if sat_of x c =? r then contrib c else 0%R) done + if sat_of x c =? r then contrib c else 0)%R) by (intros; apply sum_snoc).
      destruct (in_dec Z.eq_dec c (map fst (rocky x cells))) as [I|I].
      + apply in_map_iff in I. destruct I as (cv & Ecv & I). destruct (Gc cv I) as [G1 G2]. rewrite Ecv in G1, G2. destruct (rocky_in x cells pr cv I) as (_ & S0 & _). rewrite Ecv in S0.
        assert (Ct : contrib c = if Rltb (/ 10000000000) (snd cv) then (water_sat x p c * pore_of x cv)%R else 0%R) by (unfold contrib; rewrite <- Ecv, (find_in cv I); reflexivity).
        rewrite (proj2 (rget_Ok _ _ _) G1). cbn [bind]. destruct (Rltb (/ 10000000000) (snd cv)).
        * destruct (sat_get x cells pr c Hc) as [Es Hs]. rewrite Es. cbn [bind]. rewrite (proj2 (Z.ltb_lt 0 (sat_of x c)) S0). rewrite (j_sat_ok c Hc S0). cbn [bind].
          rewrite (proj2 (rget_Ok _ _ _) G2). cbn [bind]. rewrite (proj2 (rget_Ok _ _ _) (W3 _ Hs)). cbn [bind].
          destruct (rset_exists (snd w) (sat_of x c) (sum_cells (fun c0 => if sat_of x c0 =? sat_of x c then contrib c0 else 0%R) done + water_sat x p c * pore_of x cv)%R ltac:(lia)) as (ro & E3 & L3 & G3 & O3).
          rewrite E3. cbn [bind]. eexists. split; [reflexivity|]. cbn [fst snd]. split; [rewrite sum_snoc, W1, Ct; reflexivity|]. split; [lia|]. intros r Hr. rewrite Snoc.
          destruct (sat_of x c =? r) eqn:Er; [apply Z.eqb_eq in Er; subst r; now rewrite G3, Ct|]. apply Z.eqb_neq in Er. rewrite O3 by congruence. rewrite Rplus_0_r. now apply W3.
        * exists w. split; [reflexivity|]. split; [rewrite sum_snoc, W1, Ct; lra|]. split; [exact W2|]. intros r Hr. rewrite Snoc, Ct. replace (if sat_of x c =? r then 0%R else 0%R) with 0%R by (now destruct (_ =? _)).
          rewrite Rplus_0_r. now apply W3.
      + destruct (Zc c Hc I) as [Z1 _]. assert (Ct : contrib c = 0%R) by (unfold contrib; now rewrite (find_out c I)). rewrite (proj2 (rget_Ok _ _ _) Z1). cbn [bind].
        rewrite (Rltb_f _ 0) by lra. exists w. split; [reflexivity|]. split; [rewrite sum_snoc, W1, Ct; lra|]. split; [exact W2|]. intros r Hr. rewrite Snoc, Ct. replace (if sat_of x c =? r then 0%R else 0%R) with 0%R by (now destruct (_ =? _)).
        rewrite Rplus_0_r. now apply W3.
  Qed.
  Definition weighted (cv : Z * R) : R := (water_sat x p (fst cv) * pore_of x cv)%R.
  Lemma contrib_in cv : In cv (rocky x cells) -> contrib (fst cv) = if Rltb (/ 10000000000) (snd cv) then weighted cv else 0%R.
  Proof. intros I. unfold contrib. now rewrite (find_in cv I). Qed.
  Lemma contrib_sum : sum_cells contrib (zrange 0 (zlen (ci_sat x))) = sum_cells weighted (big (rocky x cells)).
  Proof.
    rewrite <- sum_big. apply sum_scattered; [now apply rocky_nodup| | |].
    - intros cv I. now apply (rocky_in x cells pr).
    - apply contrib_in.
    - intros c _ N. unfold contrib. now rewrite (find_out c N).
  Qed.
  Lemma big_rock r L : big (of_rock x r L) = of_rock x r (big L).
  Proof.
    unfold big, of_rock. induction L as [|a L IH]; [reflexivity|]. cbn [filter]. destruct (sat_of x (fst a) =? r) eqn:E1; destruct (Rltb (/ 10000000000) (snd a)) eqn:E2; cbn [filter]; rewrite ?E1, ?E2, IH; reflexivity.
  Qed.
  Lemma contrib_rock r : sum_cells (fun c => if sat_of x c =? r then contrib c else 0%R) (zrange 0 (zlen (ci_sat x))) = sum_cells weighted (big (of_rock x r (rocky x cells))).
  Proof.
    rewrite big_rock, <- sum_rock, <- sum_big. apply sum_scattered; [now apply rocky_nodup| | |].
    - intros cv I. now apply (rocky_in x cells pr).
    - intros cv I. rewrite (contrib_in cv I). destruct (Rltb _ _); destruct (_ =? _); reflexivity.
    - intros c _ N. unfold contrib. rewrite (find_out c N). now destruct (_ =? _).
  Qed.
  Lemma values_ok : exists s rs, cap_values x l p = Ok (s, rs) /\
    (s * li_pore l = sum_cells weighted (big (rocky x cells)))%R /\ zlen rs = max_satnum (ci_sat x) /\
    forall r, 1 <= r <= max_satnum (ci_sat x) ->
      (sum_cells (pore_of x) (of_rock x r (rocky x cells)) = 0%R -> zget rs (r - 1) = Some 0%R) /\
      ((0 < sum_cells (pore_of x) (of_rock x r (rocky x cells)))%R -> exists v, zget rs (r - 1) = Some v /\
         (v * sum_cells (pore_of x) (of_rock x r (rocky x cells)) = sum_cells weighted (big (of_rock x r (rocky x cells))))%R).
  Proof.
    destruct (limits_inv x cells tol l pr hl) as (Po & Pp & Lr & Ro & _). destruct water_fold as (w & E & W1 & W2 & W3). pose proof (max_satnum_pos (ci_sat x)) as Hm. unfold cap_values. rewrite E. cbn [bind].
    rewrite mdiv_ok by lra. cbn [bind]. set (F := fun r : Z => _ : res R).
    assert (Fr : forall r, 1 <= r <= max_satnum (ci_sat x) -> F r = Ok (if Rltb 0 (sum_cells (pore_of x) (of_rock x r (rocky x cells))) then (sum_cells weighted (big (of_rock x r (rocky x cells))) / sum_cells (pore_of x) (of_rock x r (rocky x cells)))%R else 0%R)).
    { intros r Hr. unfold F. rewrite (proj2 (rget_Ok _ _ _) (Ro r ltac:(lia))). cbn [bind]. rewrite (proj2 (rget_Ok _ _ _) (W3 r ltac:(lia))). cbn [bind]. rewrite contrib_rock.
      destruct (Rltb 0 _) eqn:B; [|reflexivity]. apply Rltb_true in B. now rewrite mdiv_ok by lra. }
    destruct (mapM_exists F (zrange 1 (max_satnum (ci_sat x) + 1))) as (rs & Em).
    { intros r Hr. apply In_zrange in Hr. rewrite Fr by lia. eauto. }
    rewrite Em. cbn [bind]. exists (fst w / li_pore l)%R, rs. split; [reflexivity|]. rewrite W1, contrib_sum. split; [field; lra|]. apply mapM_Ok in Em.
    split; [unfold zlen; rewrite <- (Forall2_length' _ _ _ Em), zrange_length; lia|]. intros r Hr.
    destruct (Forall2_zget _ _ _ Em (r - 1) _ (zget_zrange 1 (max_satnum (ci_sat x) + 1) (r - 1) ltac:(lia))) as (v & Ev & Fv). replace (1 + (r - 1)) with r in Fv by lia. rewrite Fr in Fv by lia. injection Fv as <-. rewrite Ev.
    split; intros Q; [rewrite Rltb_f by lra; reflexivity|]. rewrite Rltb_t by lra. eexists. split; [reflexivity|]. field. lra.
  Qed.
  (* the rock types together *)
  Lemma sum_by_rock (h : Z * R -> R) L n : (forall cv, In cv L -> 1 <= sat_of x (fst cv) <= n) ->
    sum_cells (fun r => sum_cells h (of_rock x r L)) (zrange 1 (n + 1)) = sum_cells h L.
  Proof.
    intros H. induction L as [|a L IH].
    - unfold sum_cells. cbn [of_rock filter map]. rewrite Rsum_nil. apply Rsum_map_zero. reflexivity.
    - transitivity (Rsum (map (fun r => (if sat_of x (fst a) =? r then h a else 0) + sum_cells h (of_rock x r L))%R (zrange 1 (n + 1)))).
      + apply Rsum_map_ext. intros r _. unfold sum_cells, of_rock. cbn [filter]. destruct (_ =? r); cbn [map]; rewrite ?Rsum_cons; lra.
      + rewrite Rsum_map_plus. change (Rsum (map (fun r => sum_cells h (of_rock x r L)) (zrange 1 (n + 1)))) with (sum_cells (fun r => sum_cells h (of_rock x r L)) (zrange 1 (n + 1))).
        rewrite IH by (intros; apply H; now right). unfold sum_cells at 2. cbn [map]. rewrite Rsum_cons. f_equal.
        specialize (H a (or_introl eq_refl)). set (s := sat_of x (fst a)) in *. rewrite (zrange_app 1 s (n + 1)) by lia. rewrite (zrange_cons s) by lia. rewrite map_app, Rsum_app. cbn [map]. rewrite Rsum_cons, Z.eqb_refl.
        rewrite !Rsum_map_zero; [lra| |]; intros r I; apply In_zrange in I; destruct (s =? r) eqn:E; try reflexivity; apply Z.eqb_eq in E; lia.
  Qed.
End Water.

Lemma big_in cv L : In cv (big L) -> In cv L.
Proof. intros I. now apply filter_In in I. Qed.
Lemma of_rock_in x r cv L : In cv (of_rock x r L) -> In cv L /\ sat_of x (fst cv) = r.
Proof. intros I. apply filter_In in I. destruct I as [I E]. apply Z.eqb_eq in E. now split. Qed.
Lemma sum_zero_each {A} (f : A -> R) l : (forall a, In a l -> (0 <= f a)%R) -> sum_cells f l = 0%R -> forall a, In a l -> f a = 0%R.
Proof.
  intros P E a I. destruct (Rle_lt_or_eq_dec 0 (f a) (P a I)) as [H|H]; [|easy]. exfalso. pose proof (sum_pos_one f l a P I H). lra.
Qed.
Lemma cap_values_spec x cells tol l p : proper x cells -> cap_limits x tol cells = Ok l ->
  exists s rs, cap_values x l p = Ok (s, rs) /\
  (s * sum_cells (pore_of x) (rocky x cells) = sum_cells (fun cv => water_sat x p (fst cv) * pore_of x cv) (big (rocky x cells)))%R /\ zlen rs = max_satnum (ci_sat x) /\
  forall r, 1 <= r <= max_satnum (ci_sat x) ->
    (sum_cells (pore_of x) (of_rock x r (rocky x cells)) = 0%R -> nthR rs (r - 1) = 0%R) /\
    (nthR rs (r - 1) * sum_cells (pore_of x) (of_rock x r (rocky x cells)) =
       sum_cells (fun cv => water_sat x p (fst cv) * pore_of x cv) (big (of_rock x r (rocky x cells))))%R.
Proof.
  intros Pr H. destruct (limits_inv x cells tol l Pr H) as (Po & Pp & _). destruct (values_ok x cells tol l p Pr H) as (s & rs & E & Q1 & Q2 & Q3). exists s, rs. split; [exact E|]. rewrite Po in Q1. split; [exact Q1|]. split; [exact Q2|].
  intros r Hr. destruct (Q3 r Hr) as [A B]. set (T := sum_cells (pore_of x) (of_rock x r (rocky x cells))) in *.
  assert (Pn : forall cv, In cv (of_rock x r (rocky x cells)) -> (0 <= pore_of x cv)%R) by (intros cv I; apply of_rock_in in I; now apply (rocky_in x cells Pr)).
  assert (Tn : (0 <= T)%R) by (now apply sum_nonneg). destruct (Rle_lt_or_eq_dec 0 T Tn) as [C|C].
  - split; [lra|]. destruct (B C) as (v & Ev & Qv). now rewrite (nthR_get _ _ _ Ev).
  - rewrite (nthR_get _ _ _ (A (eq_sym C))). split; [reflexivity|]. rewrite Rmult_0_l. symmetry. apply Rsum_map_zero. intros cv I. apply big_in in I.
    rewrite (sum_zero_each (pore_of x) _ Pn (eq_sym C) cv I). lra.
Qed.
Lemma cap_rock_balance x cells tol l p s rs : proper x cells -> cap_limits x tol cells = Ok l -> cap_values x l p = Ok (s, rs) ->
  (s * li_pore l = sum_cells (fun r => nthR rs (r - 1) * nthR (li_rock l) r) (zrange 1 (max_satnum (ci_sat x) + 1)))%R.
Proof.
  intros Pr H E. destruct (limits_inv x cells tol l Pr H) as (Po & Pp & _ & Ro & _). destruct (cap_values_spec x cells tol l p Pr H) as (s' & rs' & E' & Q1 & Q2 & Q3). rewrite E in E'. injection E' as <- <-.
  rewrite Po, Q1. rewrite <- (sum_by_rock x _ (big (rocky x cells)) (max_satnum (ci_sat x))).
  - apply Rsum_map_ext. intros r Hr. apply In_zrange in Hr. destruct (Q3 r ltac:(lia)) as [_ Q]. rewrite (nthR_get _ _ _ (Ro r ltac:(lia))), Q, big_rock. reflexivity.
  - intros cv I. apply big_in in I. destruct (rocky_in x cells Pr cv I) as (_ & S0 & R0 & _). destruct (sat_get x cells Pr _ R0) as [_ B]. lia.
Qed.
Lemma all_big L : (forall cv, In cv L -> (/ 10000000000 < snd cv)%R) -> big L = L.
Proof. induction L as [|a L IH]; intros H; [reflexivity|]. cbn. rewrite Rltb_t by (apply H; now left). f_equal. apply IH. intros; apply H; now right. Qed.
Lemma cap_within x cells tol l p s rs : proper x cells -> cap_limits x tol cells = Ok l -> cap_values x l p = Ok (s, rs) ->
  (forall cv, In cv (rocky x cells) -> (/ 10000000000 < snd cv)%R /\ within (curve_at x (fst cv))) ->
  (sum_cells (fun cv => cv_minf (curve_at x (fst cv)) * pore_of x cv) (rocky x cells) <= s * li_pore l <= sum_cells (fun cv => cv_maxf (curve_at x (fst cv)) * pore_of x cv) (rocky x cells))%R /\
  forall r, 1 <= r <= max_satnum (ci_sat x) -> (exists cv, In cv (rocky x cells) /\ sat_of x (fst cv) = r) ->
    (cv_minf (rock_curve x r) <= nthR rs (r - 1) <= cv_maxf (rock_curve x r))%R.
Proof.
  intros Pr H E W. destruct (limits_inv x cells tol l Pr H) as (Po & Pp & _ & Ro & _). destruct (cap_values_spec x cells tol l p Pr H) as (s' & rs' & E' & Q1 & Q2 & Q3). rewrite E in E'. injection E' as <- <-.
  assert (Pn : forall cv, In cv (rocky x cells) -> (0 <= pore_of x cv)%R) by (intros cv I; now apply (rocky_in x cells Pr)).
  split.
  - rewrite Po, Q1. rewrite all_big by (intros; now apply W). split; apply sum_le; intros cv I; destruct (W cv I) as [_ Wc]; specialize (Wc (j_of_pc x (fst cv) p)); specialize (Pn cv I); apply Rmult_le_compat_r; unfold water_sat; lra.
  - intros r Hr (cv0 & I0 & S0). destruct (Q3 r Hr) as [_ Q]. rewrite all_big in Q by (intros cv I; apply of_rock_in in I; now apply W).
    set (T := sum_cells (pore_of x) (of_rock x r (rocky x cells))) in *.
    assert (Ir : In cv0 (of_rock x r (rocky x cells))) by (apply filter_In; split; [exact I0|now apply Z.eqb_eq]).
    assert (Tp : (0 < T)%R).
    { apply (sum_pos_one (pore_of x) _ cv0); [intros cv I; apply of_rock_in in I; now apply Pn|exact Ir|]. destruct (rocky_in x cells Pr cv0 I0) as (_ & _ & _ & _ & Q0 & _). destruct (W cv0 I0) as [V0 _].
      unfold pore_of. apply Rmult_lt_0_compat; [|exact Q0]. apply Rlt_trans with (/ 10000000000)%R; [apply Rinv_0_lt_compat; lra|exact V0]. }
    assert (Lo : (cv_minf (rock_curve x r) * T <= sum_cells (fun cv => water_sat x p (fst cv) * pore_of x cv) (of_rock x r (rocky x cells)))%R).
    { unfold T, sum_cells. rewrite <- Rsum_map_scale. apply Rsum_map_le. intros cv I. apply of_rock_in in I. destruct I as [I Sr]. destruct (W cv I) as [_ Wc]. unfold curve_at in Wc. rewrite Sr in Wc. specialize (Wc (j_of_pc x (fst cv) p)).
      apply Rmult_le_compat_r; [now apply Pn|]. unfold water_sat, curve_at. rewrite Sr. lra. }
    assert (Hi : (sum_cells (fun cv => water_sat x p (fst cv) * pore_of x cv) (of_rock x r (rocky x cells)) <= cv_maxf (rock_curve x r) * T)%R).
    { unfold T, sum_cells. rewrite <- Rsum_map_scale. apply Rsum_map_le. intros cv I. apply of_rock_in in I. destruct I as [I Sr]. destruct (W cv I) as [_ Wc]. unfold curve_at in Wc. rewrite Sr in Wc. specialize (Wc (j_of_pc x (fst cv) p)).
      apply Rmult_le_compat_r; [now apply Pn|]. unfold water_sat, curve_at. rewrite Sr. lra. }
    split; apply Rmult_le_reg_r with T; lra.
Qed.
Lemma cap_monotone x cells tol l lo hi : proper x cells -> cap_limits x tol cells = Ok l ->
  (forall cv, In cv (rocky x cells) -> forall j j', (j <= j')%R -> (cv_eval (curve_at x (fst cv)) j' <= cv_eval (curve_at x (fst cv)) j)%R) ->
  (forall p, exists v, cap_values x l p = Ok v) /\ monotone (cap_values x l) lo hi.
Proof.
  intros Pr H D. destruct (limits_inv x cells tol l Pr H) as (Po & Pp & _). split.
  - intros p. destruct (cap_values_spec x cells tol l p Pr H) as (s & rs & E & _). eauto.
  - left. intros p q s a s' b Hp Hq E1 E2.
    destruct (cap_values_spec x cells tol l p Pr H) as (s1 & rs1 & E1' & Q1 & _). rewrite E1 in E1'. injection E1' as <- <-.
    destruct (cap_values_spec x cells tol l q Pr H) as (s2 & rs2 & E2' & Q2 & _). rewrite E2 in E2'. injection E2' as <- <-.
    rewrite Po in Pp. apply Rmult_le_reg_r with (sum_cells (pore_of x) (rocky x cells)); [exact Pp|]. rewrite Q1, Q2. apply sum_le. intros cv I. apply big_in in I.
    destruct (rocky_in x cells Pr cv I) as (_ & S0 & R0 & _ & _ & P0). apply Rmult_le_compat_r; [exact P0|]. unfold water_sat. apply (D cv I). unfold j_of_pc, Rdiv.
    apply Rmult_le_compat_r; [apply Rlt_le, Rinv_0_lt_compat; destruct Pr as (_ & _ & St & _); exact St|]. destruct (lev_get x cells Pr _ R0 S0) as (_ & _ & _ & L0). apply Rmult_le_compat_l; lra.
Qed.
