From Verif Require Import BaseFacts RBaseFacts Relp_Model Relp_Spec Relp_Proofs.
Open Scope Z_scope.

Lemma at_get l c x : zget l c = Some x -> at_ l c = x.
Proof. unfold at_. intros ->. reflexivity. Qed.
Lemma get_at l c : 0 <= c < zlen l -> zget l c = Some (at_ l c).
Proof. intros H. destruct (zget_in_range l c H) as [x E]. rewrite E. rewrite (at_get _ _ _ E). reflexivity. Qed.
Lemma rget_at l c : 0 <= c < zlen l -> rget l c = Ok (at_ l c).
Proof. intros H. apply rget_Ok, get_at, H. Qed.

(* ---------- model thickness *)
Lemma avg_fold vs s n : fold_left avg_add vs (s, n) = ((s + Rsum vs)%R, (n + INR (length vs))%R).
Proof.
  revert s n. induction vs as [|v vs IH]; intros s n; cbn [fold_left].
  - rewrite Rsum_nil. cbn [length INR]. f_equal; lra.
  - unfold avg_add at 2. cbn [fst snd]. rewrite IH, Rsum_cons. cbn [length]. rewrite S_INR. f_equal; lra.
Qed.

Lemma activate_fold zcorn k L h :
  (forall x, In x L -> 0 <= snd x < zlen zcorn /\ 0 <= 2 * k + Z.quot (fst x) 4 < zlen h) ->
  exists h', foldM (fun h nc =>
           let* z := rget zcorn (snd nc) in
           let l := 2 * k + Z.quot (fst nc) 4 in
           let* a := rget h l in rset h l (avg_add a z)) L h = Ok h' /\ zlen h' = zlen h /\
   forall l a, zget h l = Some a ->
     zget h' l = Some (fold_left avg_add (map (fun x => at_ zcorn (snd x)) (filter (fun x => 2 * k + Z.quot (fst x) 4 =? l) L)) a).
Proof.
  revert h. induction L as [|x L IH]; intros h H; cbn [foldM].
  - exists h. split; [reflexivity|]. split; [reflexivity|]. intros l a E. exact E.
  - destruct (H x (or_introl eq_refl)) as [Hz Hl]. rewrite rget_at by lia. cbn [bind].
    destruct (rget_range h _ Hl) as [a [Ea Ga]]. rewrite Ea. cbn [bind].
    destruct (rset_exists h _ (avg_add a (at_ zcorn (snd x))) Hl) as [h1 [E1 [L1 [G1 O1]]]]. rewrite E1. cbn [bind].
    destruct (IH h1) as [h' [E' [L' G']]].
    { intros y Hy. rewrite L1. apply H. right; exact Hy. }
    exists h'. split; [exact E'|]. split; [lia|]. intros l b Eb.
    cbn [filter]. destruct (2 * k + Z.quot (fst x) 4 =? l) eqn:Q.
    + apply Z.eqb_eq in Q. subst l. cbn [map fold_left]. assert (b = a) as -> by congruence.
      apply G'. exact G1.
    + apply G'. rewrite O1 by lia. exact Eb.
Qed.

Definition level_depths (nx ny : Z) (zcorn : list R) (l : Z) (cells : list (Z * (Z * Z))) : list R :=
  flat_map (fun c => map (fun x => at_ zcorn (snd x))
     (filter (fun x => 2 * fst c + Z.quot (fst x) 4 =? l)
        (combine (zrange 0 8) (cell_corners nx ny (snd (snd c)) (fst (snd c)) (fst c))))) cells.

Lemma thickness_fold nx ny nz zcorn cells : 0 < nx -> 0 < ny -> 0 < nz -> zlen zcorn = 8 * nx * ny * nz ->
  (forall k j i, In (k, (j, i)) cells -> 0 <= i < nx /\ 0 <= j < ny /\ 0 <= k < nz) ->
  exists h, foldM (activate_cell nx ny zcorn) cells (zrepeat (0, 0)%R (2 * nz)) = Ok h /\ zlen h = 2 * nz /\
    forall l, 0 <= l < 2 * nz -> zget h l =
      Some (Rsum (level_depths nx ny zcorn l cells), INR (length (level_depths nx ny zcorn l cells))).
Proof.
  intros Hx Hy Hz Hlen Hc.
  apply (foldM_inv _ (fun done h => zlen h = 2 * nz /\ forall l, 0 <= l < 2 * nz -> zget h l =
      Some (Rsum (level_depths nx ny zcorn l done), INR (length (level_depths nx ny zcorn l done))))).
  - split; [apply zlen_zrepeat; lia|]. intros l Hl. rewrite zget_zrepeat by lia. reflexivity.
  - intros done [k [j i]] h Hin [L G]. destruct (Hc k j i Hin) as [Hi [Hj Hk]].
    unfold activate_cell. cbn [fst snd].
    destruct (activate_fold zcorn k (combine (zrange 0 8) (cell_corners nx ny i j k)) h) as [h' [E' [L' G']]].
    + intros [n p] HIn. cbn [fst snd].
      apply In_zget in HIn. destruct HIn as [q [_ Eq]]. apply zget_combine_inv in Eq. destruct Eq as [En Ep].
      pose proof (zget_Some_range _ _ _ En) as Rn. rewrite zlen_zrange in Rn by lia.
      rewrite zget_zrange in En by lia. inversion En. subst n.
      apply corner_get in Ep. destruct Ep as [Hq ->]. split.
      * rewrite Hlen. apply pos_range; try assumption; lia.
      * rewrite L. lia.
    + exists h'. split; [exact E'|]. split; [lia|]. intros l Hl.
      rewrite (G' l _ (G l Hl)). rewrite avg_fold. unfold level_depths. rewrite flat_map_app.
      cbn [flat_map fst snd]. rewrite app_nil_r, Rsum_app, app_length, plus_INR. reflexivity.
Qed.

Lemma level_face nx ny zcorn layer side cells : 0 <= side < 2 ->
  level_depths nx ny zcorn (2 * layer + side) cells = face_depths nx ny zcorn layer side cells.
Proof.
  intros Hs. unfold level_depths, face_depths. induction cells as [|[k [j i]] cells IH]; [reflexivity|].
  cbn [flat_map fst snd]. rewrite IH. f_equal. clear IH. rewrite corners_eq.
  change (zrange 0 8) with [0;1;2;3;4;5;6;7]. cbn [combine filter fst snd].
  change (Z.quot 0 4) with 0. change (Z.quot 1 4) with 0. change (Z.quot 2 4) with 0. change (Z.quot 3 4) with 0.
  change (Z.quot 4 4) with 1. change (Z.quot 5 4) with 1. change (Z.quot 6 4) with 1. change (Z.quot 7 4) with 1.
  assert (side = 0 \/ side = 1) as [->| ->] by lia.
  - destruct (k =? layer) eqn:Q; destruct (2 * k + 0 =? 2 * layer + 0) eqn:Q1; try lia;
      destruct (2 * k + 1 =? 2 * layer + 0) eqn:Q2; try lia; reflexivity.
  - destruct (k =? layer) eqn:Q; destruct (2 * k + 1 =? 2 * layer + 1) eqn:Q1; try lia;
      destruct (2 * k + 0 =? 2 * layer + 1) eqn:Q2; try lia; reflexivity.
Qed.

Lemma thickness_prop nx ny nz zcorn cells : 0 < nx -> 0 < ny -> 0 < nz -> zlen zcorn = 8 * nx * ny * nz ->
  (forall k j i, In (k, (j, i)) cells -> 0 <= i < nx /\ 0 <= j < ny /\ 0 <= k < nz) ->
  model_thickness nx ny nz zcorn cells =
    Ok (match mean (face_depths nx ny zcorn (nz - 1) 1 cells), mean (face_depths nx ny zcorn 0 0 cells) with
        | Some b, Some t => Some (b - t)%R | _, _ => None end).
Proof.
  intros Hx Hy Hz Hl Hc. unfold model_thickness.
  destruct (thickness_fold nx ny nz zcorn cells Hx Hy Hz Hl Hc) as [h [-> [L G]]]. cbn [bind].
  pose proof (G 0 ltac:(lia)) as G0. pose proof (G (2 * nz - 1) ltac:(lia)) as G1.
  apply rget_Ok in G0, G1. rewrite G0, G1. cbn [bind]. unfold avg_value. cbn [fst snd].
  replace (2 * nz - 1) with (2 * (nz - 1) + 1) by lia.
  rewrite (level_face nx ny zcorn (nz - 1) 1) by lia.
  assert (level_depths nx ny zcorn 0 cells = face_depths nx ny zcorn 0 0 cells) as -> by (apply (level_face nx ny zcorn 0 0); lia).
  reflexivity.
Qed.

Lemma mean_None l : mean l = None <-> l = [].
Proof.
  unfold mean, fdiv. destruct l as [|x l].
  - cbn [length INR]. destruct (Req_EM_T 0 0); [tauto|lra].
  - destruct (Req_EM_T (INR (length (x :: l))) 0) as [E|E].
    + exfalso. cbn [length] in E. rewrite S_INR in E. pose proof (pos_INR (length l)). lra.
    + split; discriminate.
Qed.

Lemma face_depths_empty nx ny zcorn layer side cells :
  face_depths nx ny zcorn layer side cells = [] <-> (forall k j i, In (k, (j, i)) cells -> k <> layer).
Proof.
  unfold face_depths. induction cells as [|[k [j i]] cells IH]; cbn [flat_map].
  - split; [intros _ k j i []|reflexivity].
  - destruct (k =? layer) eqn:Q.
    + split; [discriminate|]. intros H. exfalso. apply (H k j i); [left; reflexivity|lia].
    + cbn [app]. rewrite IH. split.
      * intros H k' j' i' [E|E]; [inversion E; lia|eauto].
      * intros H k' j' i' E. apply (H k' j' i'). right; exact E.
Qed.

Lemma thickness_finite nx ny nz zcorn cells : 0 < nx -> 0 < ny -> 0 < nz -> zlen zcorn = 8 * nx * ny * nz ->
  (forall k j i, In (k, (j, i)) cells -> 0 <= i < nx /\ 0 <= j < ny /\ 0 <= k < nz) ->
  (exists t, model_thickness nx ny nz zcorn cells = Ok (Some t)) <->
  (exists j i, In (0, (j, i)) cells) /\ (exists j i, In (nz - 1, (j, i)) cells).
Proof.
  intros Hx Hy Hz Hl Hc. rewrite thickness_prop by assumption.
  assert (forall layer side, (exists v, mean (face_depths nx ny zcorn layer side cells) = Some v) <-> exists j i, In (layer, (j, i)) cells) as A.
  { intros layer side. destruct (mean (face_depths nx ny zcorn layer side cells)) as [v|] eqn:E.
    - split; [intros _|eauto].
      destruct (face_depths nx ny zcorn layer side cells) as [|x l] eqn:F; [rewrite (proj2 (mean_None []) eq_refl) in E; discriminate|].
      destruct (Exists_dec (fun c => fst c = layer) cells) as [D|D]; [intros c; apply Z.eq_dec| |].
      + apply Exists_exists in D. destruct D as [[k [j i]] [Hin Hk]]. cbn in Hk. subst k. eauto.
      + exfalso. assert (face_depths nx ny zcorn layer side cells = []) as F'.
        { apply face_depths_empty. intros k j i Hin Hk. apply D. apply Exists_exists. exists (k, (j, i)). auto. }
        rewrite F' in F. discriminate.
    - split; [intros [v Ev]; discriminate|]. intros [j [i Hin]]. exfalso.
      apply mean_None in E. rewrite face_depths_empty in E. apply (E _ _ _ Hin). reflexivity. }
  rewrite <- (A 0 0), <- (A (nz - 1) 1).
  destruct (mean (face_depths nx ny zcorn (nz-1) 1 cells)), (mean (face_depths nx ny zcorn 0 0 cells));
    (split; [intros [t Et]; try discriminate; split; eexists; reflexivity
            |intros [[v Ev] [v' Ev']]; try discriminate; eexists; reflexivity]).
Qed.

(* ---------- checkCurve *)
Lemma check_curve_prop thresh xs fs : fs <> [] ->
  exists m ok fs', In m fs /\ (forall f, In f fs -> m <= f)%R /\
    check_curve thresh xs fs = Ok (ok, (xs, fs')) /\ (ok = true <-> m = 0 \/ m < thresh)%R /\
    zlen fs' = zlen fs /\
    (fs' = fs \/
     (m <> 0 /\ m < thresh /\ exists e old, (e = 0 \/ e = zlen fs - 1)%Z /\ zget fs e = Some old /\ old < thresh /\
        zget fs' e = Some 0 /\ forall i, (i <> e)%Z -> zget fs' i = zget fs i)%R) /\
    ((m <> 0 /\ m < thresh /\ (at_ fs 0 < thresh \/ at_ fs (zlen fs - 1) < thresh))%R ->
       (at_ fs 0 < thresh -> zget fs' 0 = Some 0)%R /\ (~ at_ fs 0 < thresh -> zget fs' (zlen fs - 1) = Some 0)%R).
Proof.
  intros Hne. destruct (lmin_spec fs Hne) as [m [Em [Hin Hmin]]]. unfold check_curve. rewrite Em. cbn [bind].
  assert (0 < zlen fs) as Hl by (destruct fs; [congruence|unfold zlen; cbn [length]; lia]).
  destruct (Req_EM_T m 0) as [H0|H0].
  { exists m, true, fs. repeat split; auto; tauto. }
  destruct (Rltb_spec m thresh) as [Ht|Ht].
  2: { exists m, false, fs. split; [exact Hin|]. split; [exact Hmin|]. split; [reflexivity|].
       split; [split; [discriminate|tauto]|]. split; [reflexivity|]. split; [auto|]. tauto. }
  rewrite !rget_at by lia. cbn [bind].
  destruct (Rltb_spec (at_ fs 0) thresh) as [H1|H1].
  - destruct (rset_exists fs 0 0%R ltac:(lia)) as [fs' [E [L [G O]]]]. rewrite E. cbn [bind].
    exists m, true, fs'. split; [exact Hin|]. split; [exact Hmin|]. split; [reflexivity|].
    split; [split; auto|]. split; [exact L|]. split.
    + right. split; [exact H0|]. split; [exact Ht|]. exists 0, (at_ fs 0). repeat split; auto. apply get_at. lia.
    + intros _. split; [auto|contradiction].
  - destruct (Rltb_spec (at_ fs (zlen fs - 1)) thresh) as [H2|H2].
    + destruct (rset_exists fs (zlen fs - 1) 0%R ltac:(lia)) as [fs' [E [L [G O]]]]. rewrite E. cbn [bind].
      exists m, true, fs'. split; [exact Hin|]. split; [exact Hmin|]. split; [reflexivity|].
      split; [split; auto|]. split; [exact L|]. split.
      * right. split; [exact H0|]. split; [exact Ht|]. exists (zlen fs - 1), (at_ fs (zlen fs - 1)). repeat split; auto. apply get_at. lia.
      * intros _. split; [contradiction|auto].
    + cbn [bind]. exists m, true, fs. split; [exact Hin|]. split; [exact Hmin|]. split; [reflexivity|].
      split; [split; auto|]. split; [reflexivity|]. split; [auto|]. tauto.
Qed.

(* an accepted curve with its minimum at an end, and the other end not below the
   threshold, has a zero end value afterwards *)
Lemma check_curve_zero_end thresh xs fs fs' :
  (0 < thresh)%R -> fs <> [] -> (forall f, In f fs -> 0 <= f)%R ->
  (exists e, (e = 0 \/ e = zlen fs - 1) /\ forall f, In f fs -> (at_ fs e <= f)%R) ->
  check_curve thresh xs fs = Ok (true, (xs, fs')) -> zget fs' 0 = Some 0%R \/ zget fs' (zlen fs - 1) = Some 0%R.
Proof.
  intros Hth Hne Hpos [e [He Hmin]] E.
  destruct (check_curve_prop thresh xs fs Hne) as [m [ok [fs1 [Hin [Hm [E1 [Hok [L [Hch Hz]]]]]]]]].
  rewrite E1 in E. inversion E. subst ok fs1. clear E.
  assert (0 < zlen fs) as Hl by (destruct fs; [congruence|unfold zlen; cbn [length]; lia]).
  assert (at_ fs e = m) as Hem.
  { apply Rle_antisym; [apply Hmin, Hin|]. apply Hm. apply (zget_In fs e). apply get_at. lia. }
  destruct (Req_EM_T m 0) as [H0|H0].
  - assert (fs' = fs) as ->.
    { destruct Hch as [->|[H _]]; [reflexivity|contradiction]. }
    destruct He as [->| ->]; [left|right]; rewrite get_at by lia; f_equal; lra.
  - assert (m < thresh)%R as Ht by (destruct (proj1 Hok eq_refl); [contradiction|assumption]).
    destruct Hz as [A B].
    { split; [exact H0|]. split; [exact Ht|]. destruct He as [->| ->]; rewrite Hem; auto. }
    destruct (Rlt_dec (at_ fs 0) thresh); auto.
Qed.

(* interior minimum only, and a falling curve wholly below the threshold *)
Lemma check_curve_findings :
  check_curve (/ 2) [0; 1; 2]%R [1; / 4; 1]%R = Ok (true, ([0; 1; 2]%R, [1; / 4; 1]%R)) /\
  check_curve (/ 2) [0; 1; 2]%R [/ 4; / 5; / 8]%R = Ok (true, ([0; 1; 2]%R, [0; / 5; / 8]%R)).
Proof.
  assert (lmin [1; / 4; 1]%R = Ok (/ 4)%R) as E1.
  { cbn [lmin bind]. rewrite !smin_Rmin. unfold Rmin. destruct (Rle_dec (/4) 1); [|lra]. destruct (Rle_dec 1 (/4)); [lra|reflexivity]. }
  assert (lmin [/ 4; / 5; / 8]%R = Ok (/ 8)%R) as E2.
  { cbn [lmin bind]. rewrite !smin_Rmin. unfold Rmin. destruct (Rle_dec (/5) (/8)); [lra|]. destruct (Rle_dec (/4) (/8)); [lra|reflexivity]. }
  split; unfold check_curve; rewrite ?E1, ?E2; cbn [bind].
  - destruct (Req_EM_T (/4) 0); [lra|]. destruct (Rltb_spec (/4) (/2)); [|lra].
    change (rget [1; / 4; 1]%R 0) with (@Ok R 1%R). change (rget [1; / 4; 1]%R (zlen [1; / 4; 1]%R - 1)) with (@Ok R 1%R).
    cbn [bind]. destruct (Rltb_spec 1 (/2)); [lra|]. reflexivity.
  - destruct (Req_EM_T (/8) 0); [lra|]. destruct (Rltb_spec (/8) (/2)); [|lra].
    change (rget [/4; / 5; /8]%R 0) with (@Ok R (/4)%R). change (rget [/4; / 5; /8]%R (zlen [/4; / 5; /8]%R - 1)) with (@Ok R (/8)%R).
    cbn [bind]. destruct (Rltb_spec (/4) (/2)); [|lra]. reflexivity.
Qed.
