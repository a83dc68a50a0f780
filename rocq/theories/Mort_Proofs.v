From Coq Require Import Lra.
From Verif Require Import BaseFacts RBaseFacts Lin_Facts Steady_Proofs Euler_Proofs2 Shape_Proofs2 Hyb_Proofs8 Rprop_Proofs2 Smat_Proofs Smat_Proofs2 Mort_Spec.
Open Scope Z_scope.

(* ---- sums over the stored entries *)
Definition rowval (row : list (Z * R)) (j : Z) : R := match row_find row j with Some v => v | None => 0%R end.
Lemma row_sum (g : Z -> R -> R) M row : (forall j, g j 0%R = 0%R) -> increasing (map fst row) -> (forall e, In e row -> 0 <= fst e < M) ->
  Rsum (map (fun e => g (fst e) (snd e)) row) = Sum M (fun j => g j (rowval row j)).
Proof.
  intros G. induction row as [|[k v] t IH]; cbn [map fst snd increasing]; intros I B.
  - symmetry. rewrite Rsum_nil. apply Sum_zero. intros. unfold rowval. cbn. apply G.
  - destruct I as [I1 I2]. rewrite Rsum_cons, IH by (auto; intros; apply B; right; assumption).
    assert (K : 0 <= k < M) by (apply (B (k, v)); left; reflexivity).
    assert (NF : row_find t k = None). { apply row_find_None. intros H. specialize (I1 k H). lia. }
    rewrite (Sum_ext M (fun j => g j (rowval ((k, v) :: t) j)) (fun j => (if j =? k then g k v else 0) + g j (rowval t j))%R).
    + rewrite Sum_plus. f_equal. rewrite (Sum_pick M k); [rewrite Z.eqb_refl; reflexivity|exact K|].
      intros i _ E. rewrite (proj2 (Z.eqb_neq i k)) by lia. reflexivity.
    + intros j _. unfold rowval. cbn [row_find]. destruct (Z.eqb_spec k j) as [->|E].
      * rewrite Z.eqb_refl, NF, G. ring.
      * rewrite (proj2 (Z.eqb_neq j k)) by lia. ring.
Qed.
Lemma entries_from_sum (g : Z -> Z -> R -> R) M rows : (forall i j, g i j 0%R = 0%R) ->
  (forall row, In row rows -> increasing (map fst row) /\ forall e, In e row -> 0 <= fst e < M) -> forall s,
  Rsum (map (fun e => g (fst (fst e)) (snd (fst e)) (snd e)) (entries_from s rows)) =
  Rsum (map (fun i => Sum M (fun j => g i j (match zget rows (i - s) with Some row => rowval row j | None => 0%R end))) (zrange s (s + zlen rows))).
Proof.
  intros G. induction rows as [|r t IH]; intros W s.
  - change (zlen (@nil (list (Z * R)))) with 0. rewrite zrange_empty by lia. reflexivity.
  - change (zlen (r :: t)) with (zlen ([r] ++ t)). rewrite zlen_app. change (zlen [r]) with 1. pose proof (zlen_nonneg t).
    rewrite zrange_cons by lia. cbn [entries_from map]. rewrite map_app, Rsum_app, Rsum_cons. f_equal.
    + rewrite map_map. cbn [fst snd]. replace (s - s) with 0 by ring. change (zget (r :: t) 0) with (Some r). cbv iota.
      destruct (W r (or_introl eq_refl)) as [W1 W2]. apply (row_sum (g s)); auto.
    + rewrite (IH (fun row H => W row (or_intror H)) (s + 1)). replace (s + 1 + zlen t) with (s + (1 + zlen t)) by ring.
      apply Rsum_map_ext. intros i Hi. apply In_zrange in Hi. apply Sum_ext. intros j _.
      change (r :: t) with ([r] ++ t). rewrite zget_app_r by (change (zlen [r]) with 1; lia). change (zlen [r]) with 1.
      replace (i - (s + 1)) with (i - s - 1) by ring. reflexivity.
Qed.
Lemma entries_sum (g : Z -> Z -> R -> R) m : wf_smat m -> (forall i j, g i j 0%R = 0%R) ->
  Rsum (map (fun e => g (fst (fst e)) (snd (fst e)) (snd e)) (entries m)) = Sum (sm_n m) (fun i => Sum (sm_m m) (fun j => g i j (coef m i j))).
Proof.
  intros (L & M & W) G. unfold entries. rewrite (entries_from_sum g (sm_m m)) by auto. unfold Sum at 2. rewrite L, Z.add_0_l.
  apply Rsum_map_ext. intros i _. apply Sum_ext. intros j _. unfold coef, rowval. rewrite Z.sub_0_r. destruct (zget (sm_rows m) i); reflexivity.
Qed.

(* ---- products with sparse matrices *)
Lemma rget_ok l i : 0 <= i < zlen l -> rget l i = Ok (nthR l i).
Proof. intros H. apply rget_Ok. apply zget_nthR. exact H. Qed.
Lemma rset_ok l i x : 0 <= i < zlen l -> exists l', rset l i x = Ok l' /\ zlen l' = zlen l /\ forall k, nthR l' k = if k =? i then x else nthR l k.
Proof.
  intros H. destruct (Rprop_Proofs2.rset_at l i x H) as (l' & E & L & P). exists l'. split; [exact E|]. split; [exact L|].
  intros k. unfold nthR. rewrite P. destruct (Z.eqb_spec k i); reflexivity.
Qed.
Lemma nthR_out l i : ~ (0 <= i < zlen l) -> nthR l i = 0%R.
Proof. intros H. unfold nthR. rewrite (proj2 (zget_None_iff l i) H). reflexivity. Qed.
Lemma nthR_zero n i : nthR (zrepeat 0%R n) i = 0%R.
Proof.
  unfold nthR. destruct (zget (zrepeat 0%R n) i) eqn:E; [|reflexivity]. apply zget_In in E. unfold zrepeat in E. apply repeat_spec in E. exact E.
Qed.
Lemma zlen_zr n : 0 <= n -> zlen (zrepeat 0%R n) = n.
Proof. apply zlen_zrepeat. Qed.
Lemma coef_out m i j : wf_smat m -> ~ (0 <= i < sm_n m /\ 0 <= j < sm_m m) -> coef m i j = 0%R.
Proof. intros W H. apply coef_stored; [exact W|]. intros S. apply H. apply stored_range; assumption. Qed.
Lemma entry_range m e : wf_smat m -> In e (entries m) -> 0 <= fst (fst e) < sm_n m /\ 0 <= snd (fst e) < sm_m m.
Proof. destruct e as [[i j] v]. intros W H. cbn [fst snd]. apply stored_range; [exact W|]. apply entries_stored. exists v. exact H. Qed.
(* the generic accumulation loop: y[t(e)] += alpha * (v x[s(e)]) *)
Lemma accum_ok (src tgt : Z * Z -> Z) alpha x (es : list (Z * Z * R)) : forall y,
  (forall e, In e es -> 0 <= src (fst e) < zlen x /\ 0 <= tgt (fst e) < zlen y) ->
  exists y', foldM (fun y (e : Z * Z * R) => let* a := rget x (src (fst e)) in let* b := rget y (tgt (fst e)) in rset y (tgt (fst e)) (b + alpha * (snd e * a))%R) es y = Ok y' /\
    zlen y' = zlen y /\
    forall k, nthR y' k = (nthR y k + Rsum (map (fun e => if tgt (fst e) =? k then alpha * (snd e * nthR x (src (fst e))) else 0) es))%R.
Proof.
  induction es as [|e t IH]; intros y B.
  - exists y. split; [reflexivity|]. split; [reflexivity|]. intros k. cbn [map]. rewrite Rsum_nil. ring.
  - cbn [foldM]. destruct (B e (or_introl eq_refl)) as [B1 B2]. rewrite (rget_ok x) by exact B1. cbn [bind]. rewrite (rget_ok y) by exact B2. cbn [bind].
    destruct (rset_ok y (tgt (fst e)) (nthR y (tgt (fst e)) + alpha * (snd e * nthR x (src (fst e))))%R B2) as (y1 & E1 & L1 & P1). rewrite E1. cbn [bind].
    destruct (IH y1) as (y2 & E2 & L2 & P2). { intros f Hf. rewrite L1. apply B. right. exact Hf. }
    exists y2. split; [exact E2|]. split; [congruence|]. intros k. rewrite P2, P1. cbn [map]. rewrite Rsum_cons.
    rewrite (Z.eqb_sym (tgt (fst e)) k). destruct (Z.eqb_spec k (tgt (fst e))) as [->|]; ring.
Qed.
Lemma usmv_ok alpha m x y : wf_smat m -> sm_m m <= zlen x -> sm_n m <= zlen y ->
  exists y', usmv alpha m x y = Ok y' /\ zlen y' = zlen y /\ forall k, nthR y' k = (nthR y k + alpha * mvec (sm_m m) (coef m) (nthR x) k)%R.
Proof.
  intros W X Y. unfold usmv.
  rewrite (foldM_ext _ (fun y (e : Z * Z * R) => let* a := rget x (snd (fst e)) in let* b := rget y (fst (fst e)) in rset y (fst (fst e)) (b + alpha * (snd e * a))%R)) by (intros ? [[? ?] ?] _; reflexivity).
  destruct (accum_ok (fun p => snd p) (fun p => fst p) alpha x (entries m) y) as (y' & E & L & P).
  { intros e He. destruct (entry_range m e W He). lia. }
  exists y'. split; [exact E|]. split; [exact L|]. intros k. rewrite P. f_equal.
  rewrite (entries_sum (fun i j v => if i =? k then alpha * (v * nthR x j) else 0)%R m W) by (intros i j; destruct (i =? k); ring).
  destruct (Z_lt_dec k 0) as [K|K]; [|destruct (Z_lt_dec k (sm_n m)) as [K2|K2]].
  - rewrite Sum_zero. 2:{ intros i Hi. apply Sum_zero. intros j _. rewrite (proj2 (Z.eqb_neq i k)) by lia. reflexivity. }
    unfold mvec. rewrite Sum_zero. ring. intros j _. rewrite coef_out; [ring|exact W|lia].
  - rewrite (Sum_pick _ k); [|lia|]. 2:{ intros i Hi Hne. apply Sum_zero. intros j _. rewrite (proj2 (Z.eqb_neq i k)) by lia. reflexivity. }
    unfold mvec. rewrite <- Sum_scal. apply Sum_ext. intros j _. rewrite Z.eqb_refl. reflexivity.
  - rewrite Sum_zero. 2:{ intros i Hi. apply Sum_zero. intros j _. rewrite (proj2 (Z.eqb_neq i k)) by lia. reflexivity. }
    unfold mvec. rewrite Sum_zero. ring. intros j _. rewrite coef_out; [ring|exact W|lia].
Qed.
Lemma usmtv_ok alpha m x y : wf_smat m -> sm_n m <= zlen x -> sm_m m <= zlen y ->
  exists y', usmtv alpha m x y = Ok y' /\ zlen y' = zlen y /\ forall k, nthR y' k = (nthR y k + alpha * mvec (sm_n m) (transpose (coef m)) (nthR x) k)%R.
Proof.
  intros W X Y. unfold usmtv.
  rewrite (foldM_ext _ (fun y (e : Z * Z * R) => let* a := rget x (fst (fst e)) in let* b := rget y (snd (fst e)) in rset y (snd (fst e)) (b + alpha * (snd e * a))%R)) by (intros ? [[? ?] ?] _; reflexivity).
  destruct (accum_ok (fun p => fst p) (fun p => snd p) alpha x (entries m) y) as (y' & E & L & P).
  { intros e He. destruct (entry_range m e W He). lia. }
  exists y'. split; [exact E|]. split; [exact L|]. intros k. rewrite P. f_equal.
  rewrite (entries_sum (fun i j v => if j =? k then alpha * (v * nthR x i) else 0)%R m W) by (intros i j; destruct (j =? k); ring).
  unfold mvec, transpose. rewrite <- Sum_scal. apply Sum_ext. intros i _.
  destruct (Z_lt_dec k 0) as [K|K]; [|destruct (Z_lt_dec k (sm_m m)) as [K2|K2]].
  - rewrite Sum_zero. rewrite coef_out by (auto; lia). ring. intros j Hj. rewrite (proj2 (Z.eqb_neq j k)) by lia. reflexivity.
  - rewrite (Sum_pick _ k); [rewrite Z.eqb_refl; reflexivity|lia|]. intros j Hj Hne. rewrite (proj2 (Z.eqb_neq j k)) by lia. reflexivity.
  - rewrite Sum_zero. rewrite coef_out by (auto; lia). ring. intros j Hj. rewrite (proj2 (Z.eqb_neq j k)) by lia. reflexivity.
Qed.
Lemma mtv_ok m x y : wf_smat m -> sm_n m <= zlen x -> sm_m m <= zlen y ->
  exists y', mtv m x y = Ok y' /\ zlen y' = zlen y /\ forall k, nthR y' k = mvec (sm_n m) (transpose (coef m)) (nthR x) k.
Proof.
  intros W X Y. unfold mtv. pose proof (zlen_nonneg y).
  destruct (usmtv_ok 1 m x (zrepeat 0%R (zlen y)) W X) as (y' & E & L & P). { rewrite zlen_zr; lia. }
  exists y'. split; [exact E|]. split. { rewrite L, zlen_zr; lia. } intros k. rewrite P, nthR_zero. ring.
Qed.
Lemma clear_ok n : forall y, 0 <= n <= zlen y -> exists y', foldM (fun y i => rset y i 0%R) (zrange 0 n) y = Ok y' /\ zlen y' = zlen y /\
  forall k, nthR y' k = if (0 <=? k) && (k <? n) then 0%R else nthR y k.
Proof.
  intros y H. pose proof (foldM_inv (fun y i => rset y i 0%R) (fun done y' => zlen y' = zlen y /\ forall k, nthR y' k = if existsb (Z.eqb k) done then 0%R else nthR y k) (zrange 0 n) y) as F.
  destruct F as (y' & E & L & P).
  - split; [reflexivity|]. intros k. reflexivity.
  - intros done a s Ha [L P]. apply In_zrange in Ha. destruct (rset_ok s a 0%R) as (s' & E & L' & P'); [lia|].
    exists s'. split; [exact E|]. split; [lia|]. intros k. rewrite P', P, existsb_app. cbn [existsb]. rewrite orb_false_r.
    destruct (Z.eqb_spec k a); [subst; rewrite orb_true_r; reflexivity|rewrite orb_false_r; reflexivity].
  - exists y'. split; [exact E|]. split; [exact L|]. intros k. rewrite P.
    replace (existsb (Z.eqb k) (zrange 0 n)) with ((0 <=? k) && (k <? n)); [reflexivity|].
    apply eq_true_iff_eq. rewrite existsb_exists. split.
    + intros B. exists k. rewrite In_zrange. split; [lia|apply Z.eqb_refl].
    + intros (j & Hj & Ej). apply In_zrange in Hj. lia.
Qed.
Lemma mv_ok m x y : wf_smat m -> sm_m m <= zlen x -> sm_n m <= zlen y ->
  exists y', mv m x y = Ok y' /\ zlen y' = zlen y /\ forall k, nthR y' k = if (0 <=? k) && (k <? sm_n m) then mvec (sm_m m) (coef m) (nthR x) k else nthR y k.
Proof.
  intros W X Y. unfold mv. pose proof (wf_n m W). destruct (clear_ok (sm_n m) y ltac:(lia)) as (y1 & E1 & L1 & P1). rewrite E1. cbn [bind].
  destruct (usmv_ok 1 m x y1 W X) as (y2 & E2 & L2 & P2); [lia|]. exists y2. split; [exact E2|]. split; [lia|].
  intros k. rewrite P2, P1. destruct ((0 <=? k) && (k <? sm_n m)) eqn:B; [ring|]. unfold mvec. rewrite Sum_zero; [ring|].
  intros j _. rewrite coef_out; [ring|exact W|lia].
Qed.

(* ---- blocks of vectors *)
Lemma vextract_ok y len start : 0 <= len -> 0 <= start -> start + len <= zlen y ->
  exists x, vextract y len start = Ok x /\ zlen x = len /\ forall i, 0 <= i < len -> nthR x i = nthR y (start + i).
Proof.
  intros H1 H2 H3. unfold vextract. rewrite (mapM_all_Ok _ (fun i => nthR y (start + i))).
  2:{ intros i Hi. apply In_zrange in Hi. apply rget_ok. lia. }
  eexists. split; [reflexivity|]. split. { rewrite zlen_map, zlen_zrange by lia. lia. }
  intros i Hi. unfold nthR at 1. rewrite zget_map, zget_zrange by lia. reflexivity.
Qed.
Lemma vinject_ok x y len start : 0 <= len <= zlen y -> 0 <= start -> start + len <= zlen x ->
  exists x', vinject x y len start = Ok x' /\ zlen x' = zlen x /\ forall i, nthR x' i = if (start <=? i) && (i <? start + len) then nthR y (i - start) else nthR x i.
Proof.
  intros H1 H2 H3. unfold vinject.
  pose proof (foldM_inv (fun x i => let* v := rget y i in rset x (start + i) v) (fun done x' => zlen x' = zlen x /\ forall k, nthR x' k = if existsb (fun i => k =? start + i) done then nthR y (k - start) else nthR x k) (zrange 0 len) x) as F.
  destruct F as (x' & E & L & P).
  - split; [reflexivity|]. intros k. reflexivity.
  - intros done a s Ha [L P]. apply In_zrange in Ha. rewrite rget_ok by lia. cbn [bind].
    destruct (rset_ok s (start + a) (nthR y a)) as (s' & E & L' & P'); [lia|].
    exists s'. split; [exact E|]. split; [lia|]. intros k. rewrite P', P, existsb_app. cbn [existsb]. rewrite orb_false_r.
    destruct (Z.eqb_spec k (start + a)).
    + rewrite orb_true_r. f_equal. lia.
    + rewrite orb_false_r. reflexivity.
  - exists x'. split; [exact E|]. split; [exact L|]. intros k. rewrite P.
    replace (existsb (fun i => k =? start + i) (zrange 0 len)) with ((start <=? k) && (k <? start + len)); [reflexivity|].
    apply eq_true_iff_eq. rewrite existsb_exists. split.
    + intros B. exists (k - start). rewrite In_zrange. split; lia.
    + intros (j & Hj & Ej). apply In_zrange in Hj. lia.
Qed.
