From Coq Require Import Lra.
From Verif Require Import BaseFacts RBaseFacts Lin_Facts Steady_Proofs Shape_Proofs2 Hyb_Proofs8 Rprop_Proofs2 Smat_Proofs Smat_Proofs2 Elast_Proofs8 Mort_Proofs Mort_Spec.
Open Scope Z_scope.

Lemma saddle_top n m A B x i : 0 <= n -> 0 <= m -> i < n ->
  mvec (n + m) (saddle n A B) x i = (mvec n A x i + mvec m B (fun j => x (n + j)%Z) i)%R.
Proof.
  intros Hn Hm Hi. unfold mvec. rewrite (Sum_split n (n + m)) by lia. replace (n + m - n) with m by ring. f_equal; apply Sum_ext; intros j Hj; unfold saddle.
  - rewrite (proj2 (Z.ltb_lt i n)), (proj2 (Z.ltb_lt j n)) by lia. reflexivity.
  - rewrite (proj2 (Z.ltb_lt i n)), (proj2 (Z.ltb_ge (n + j) n)) by lia. replace (n + j - n) with j by ring. reflexivity.
Qed.
Lemma saddle_bottom n m A B x i : 0 <= n -> 0 <= m -> n <= i ->
  mvec (n + m) (saddle n A B) x i = mvec n (transpose B) x (i - n).
Proof.
  intros Hn Hm Hi. unfold mvec. rewrite (Sum_split n (n + m)) by lia. rewrite (Sum_zero (n + m - n)); [rewrite Rplus_0_r|]; [apply Sum_ext|]; intros j Hj; unfold saddle, transpose.
  - rewrite (proj2 (Z.ltb_ge i n)), (proj2 (Z.ltb_lt j n)) by lia. reflexivity.
  - rewrite (proj2 (Z.ltb_ge i n)), (proj2 (Z.ltb_ge (n + j) n)) by lia. ring.
Qed.
Lemma mvec_ext m a x x' i : (forall j, 0 <= j < m -> x j = x' j) -> mvec m a x i = mvec m a x' i.
Proof. intros H. apply Sum_ext. intros j Hj. rewrite H by exact Hj. reflexivity. Qed.
Lemma coupled_sizes A B n m : coupled A B n m -> 0 <= n /\ 0 <= m /\ wf_smat A /\ wf_smat B /\ sm_n A = n /\ sm_m A = n /\ sm_n B = n /\ sm_m B = m.
Proof. intros (WA & WB & [A1 A2] & [B1 B2]). pose proof (wf_n A WA). pose proof (proj1 (proj2 WB)). repeat (split; [first [lia|assumption]|]); lia. Qed.

Lemma mortar_apply_ok A B n m x y : coupled A B n m -> zlen x = n + m -> zlen y = n + m ->
  exists y', mortar_apply A B x y = Ok y' /\ zlen y' = n + m /\ forall i, 0 <= i < n + m -> nthR y' i = mvec (n + m) (saddle n (coef A) (coef B)) (nthR x) i.
Proof.
  intros C Lx Ly. apply coupled_sizes in C as (Hn & Hm & WA & WB & A1 & A2 & B1 & B2). unfold mortar_apply. rewrite A1, B2.
  destruct (vextract_ok x m n) as (la & E1 & L1 & P1); [lia..|]. rewrite E1. cbn [bind].
  destruct (mv_ok A x y WA) as (y1 & E2 & L2 & P2); [lia..|]. rewrite E2. cbn [bind].
  destruct (usmv_ok 1 B la y1 WB) as (y2 & E3 & L3 & P3); [lia..|]. rewrite E3. cbn [bind].
  destruct (mtv_ok B x (zrepeat 0%R (zlen la)) WB) as (l2 & E4 & L4 & P4); [lia|rewrite zlen_zr; lia|]. rewrite E4. cbn [bind].
  rewrite zlen_zr in L4 by lia.
  destruct (vinject_ok y2 l2 m n) as (y3 & E5 & L5 & P5); [lia..|]. exists y3. split; [exact E5|]. split; [lia|].
  intros i Hi. rewrite P5. destruct (Z_lt_dec i n) as [K|K].
  - replace ((n <=? i) && (i <? n + m)) with false by lia. rewrite P3, P2, A1. replace ((0 <=? i) && (i <? n)) with true by lia.
    rewrite saddle_top by lia. rewrite A2, B2, (mvec_ext m (coef B) (nthR la) (fun j => nthR x (n + j))) by (intros; apply P1; lia). ring.
  - replace ((n <=? i) && (i <? n + m)) with true by lia. rewrite P4, B1. symmetry. apply saddle_bottom; lia.
Qed.

(* the last loop of applyscaleadd *)
Lemma add_tail_ok n alpha l2 : forall y, 0 <= n <= zlen y -> zlen y - n <= zlen l2 ->
  exists y', foldM (fun y i => let* l := rget l2 (i - n) in let* v := rget y i in rset y i (v + alpha * l)%R) (zrange n (zlen y)) y = Ok y' /\ zlen y' = zlen y /\
  forall k, nthR y' k = (nthR y k + if (n <=? k) && (k <? zlen y) then alpha * nthR l2 (k - n) else 0)%R.
Proof.
  intros y H HL.
  assert (G : forall e y1, n <= e <= zlen y -> zlen y1 = zlen y -> (forall k, nthR y1 k = (nthR y k + if (n <=? k) && (k <? e) then alpha * nthR l2 (k - n) else 0)%R) ->
    exists y', foldM (fun y i => let* l := rget l2 (i - n) in let* v := rget y i in rset y i (v + alpha * l)%R) (zrange e (zlen y)) y1 = Ok y' /\ zlen y' = zlen y /\
    forall k, nthR y' k = (nthR y k + if (n <=? k) && (k <? zlen y) then alpha * nthR l2 (k - n) else 0)%R).
  { intros e. remember (Z.to_nat (zlen y - e)) as d eqn:Ed. revert e Ed. induction d as [|d IH]; intros e Ed y1 He L1 P1.
    - assert (e = zlen y) by lia. subst e. rewrite zrange_empty by lia. exists y1. split; [reflexivity|]. split; [exact L1|exact P1].
    - rewrite zrange_cons by lia. cbn [foldM]. rewrite (rget_ok l2) by lia. cbn [bind]. rewrite (rget_ok y1) by lia. cbn [bind].
      destruct (rset_ok y1 e (nthR y1 e + alpha * nthR l2 (e - n))%R) as (y2 & E2 & L2 & P2); [lia|]. rewrite E2. cbn [bind].
      apply (IH (e + 1)); [lia..|]. intros k. rewrite P2. destruct (Z.eqb_spec k e) as [->|N]; rewrite P1.
      + replace ((n <=? e) && (e <? e)) with false by lia. replace ((n <=? e) && (e <? e + 1)) with true by lia. ring.
      + replace ((n <=? k) && (k <? e + 1)) with ((n <=? k) && (k <? e)) by lia. reflexivity. }
  apply (G n y); [lia|reflexivity|]. intros k. replace ((n <=? k) && (k <? n)) with false by lia. ring.
Qed.
Lemma mortar_scaleadd_ok alpha A B n m x y : coupled A B n m -> zlen x = n + m -> zlen y = n + m ->
  exists y', mortar_scaleadd alpha A B x y = Ok y' /\ zlen y' = n + m /\ forall i, 0 <= i < n + m ->
    nthR y' i = (nthR y i + alpha * mvec (n + m) (saddle n (coef A) (coef B)) (nthR x) i
                 + if i <? n then (1 - alpha) * mvec m (coef B) (fun j => nthR x (n + j)) i else 0)%R.
Proof.
  intros C Lx Ly. apply coupled_sizes in C as (Hn & Hm & WA & WB & A1 & A2 & B1 & B2). unfold mortar_scaleadd. rewrite A1, B2.
  destruct (usmv_ok alpha A x y WA) as (y1 & E2 & L2 & P2); [lia..|]. rewrite E2. cbn [bind].
  destruct (vextract_ok x m n) as (la & E1 & L1 & P1); [lia..|]. rewrite E1. cbn [bind].
  destruct (usmv_ok 1 B la y1 WB) as (y2 & E3 & L3 & P3); [lia..|]. rewrite E3. cbn [bind].
  destruct (mtv_ok B x (zrepeat 0%R (zlen la)) WB) as (l2 & E4 & L4 & P4); [lia|rewrite zlen_zr; lia|]. rewrite E4. cbn [bind].
  rewrite zlen_zr in L4 by lia.
  destruct (add_tail_ok n alpha l2 y2) as (y3 & E5 & L5 & P5); [lia..|]. exists y3. split; [exact E5|]. split; [lia|].
  assert (MB : forall i, mvec (sm_m B) (coef B) (nthR la) i = mvec m (coef B) (fun j => nthR x (n + j)) i).
  { intros i. rewrite B2. apply mvec_ext. intros; apply P1; lia. }
  intros i Hi. rewrite P5, P3, P2, MB, A2. destruct (Z.ltb_spec i n) as [K|K].
  - replace ((n <=? i) && (i <? zlen y2)) with false by lia. rewrite saddle_top by lia. ring.
  - replace ((n <=? i) && (i <? zlen y2)) with true by lia. rewrite saddle_bottom by lia. rewrite P4, B1.
    assert (Z1 : mvec n (coef A) (nthR x) i = 0%R) by (apply Sum_zero; intros; rewrite coef_out; [ring|exact WA|lia]).
    assert (Z2 : mvec m (coef B) (fun j => nthR x (n + j)) i = 0%R) by (apply Sum_zero; intros; rewrite coef_out; [ring|exact WB|lia]).
    rewrite Z1, Z2. ring.
Qed.
(* applyscaleadd is what its name says exactly when alpha is 1 or the multipliers exert no force *)
Lemma mortar_scaleadd_iff alpha A B n m x y y' : coupled A B n m -> zlen x = n + m -> zlen y = n + m -> mortar_scaleadd alpha A B x y = Ok y' ->
  ((forall i, 0 <= i < n + m -> nthR y' i = (nthR y i + alpha * mvec (n + m) (saddle n (coef A) (coef B)) (nthR x) i)%R) <->
   alpha = 1%R \/ forall i, 0 <= i < n -> mvec m (coef B) (fun j => nthR x (n + j)) i = 0%R).
Proof.
  intros C Lx Ly E. pose proof (coupled_sizes _ _ _ _ C) as (Hn & Hm & _).
  destruct (mortar_scaleadd_ok alpha A B n m x y C Lx Ly) as (y1 & E1 & L1 & P1). rewrite E in E1. injection E1 as <-. split.
  - intros H. destruct (Req_dec alpha 1) as [|NE]; [left; assumption|right]. intros i Hi. specialize (H i ltac:(lia)). rewrite P1 in H by lia.
    rewrite (proj2 (Z.ltb_lt i n)) in H by lia. apply Rmult_eq_reg_l with (1 - alpha)%R; [lra|lra].
  - intros H i Hi. rewrite P1 by exact Hi. destruct (Z.ltb_spec i n); [|ring]. destruct H as [->|H]; [ring|]. rewrite H by lia. ring.
Qed.
(* the matrix given to the direct solver *)
Lemma direct_matrix A B n m : coupled A B n m ->
  exists r, augment A B 0 (sm_m A) true = Ok r /\ wf_smat r /\ dims r (n + m) (n + m) /\
    forall i j, 0 <= i < n + m -> 0 <= j < n + m -> coef r i j = saddle n (coef A) (coef B) i j.
Proof.
  intros C. apply coupled_sizes in C as (Hn & Hm & WA & WB & A1 & A2 & B1 & B2).
  destruct (augment_symmetric A B 0 (sm_m A) WA WB) as (r & k & E & W & Ek & D & S & C1 & C2 & _); [lia..| |].
  { intros i j i' j' S S' Q Q'. apply stored_range in S, S'; auto. lia. }
  exists r. split; [exact E|]. split; [exact W|]. assert (k = n + m) by lia. subst k. rewrite H in D. split; [exact D|].
  intros i j Hi Hj. unfold saddle. rewrite A2 in *.
  assert (NB : forall a b, ~ (0 <= a < n /\ 0 <= b < m) -> ~ stored B a b). { intros a b Q Sb. apply stored_range in Sb; auto. lia. }
  destruct (Z.ltb_spec i n), (Z.ltb_spec j n).
  - apply C2; apply NB; lia.
  - destruct (stored_dec B (i - 0) (j - n)) as [Q|Q].
    + destruct (C1 i j Q) as [Q1 _]. rewrite Q1, Z.sub_0_r. reflexivity.
    + rewrite C2; [|exact Q|apply NB; lia]. rewrite Z.sub_0_r in Q. rewrite (coef_stored B i (j - n)) by assumption. apply coef_out; [exact WA|lia].
  - destruct (stored_dec B (j - 0) (i - n)) as [Q|Q].
    + destruct (C1 j i Q) as [_ Q1]. rewrite Q1, Z.sub_0_r. reflexivity.
    + rewrite C2; [|apply NB; lia|exact Q]. rewrite Z.sub_0_r in Q. rewrite (coef_stored B j (i - n)) by assumption. apply coef_out; [exact WA|lia].
  - rewrite C2; [apply coef_out; [exact WA|lia]|apply NB; lia|apply NB; lia].
Qed.

(* ---- the Schur operator *)
Lemma block_ok op B n m W init alpha x y : wf_smat B -> dims B n m -> multiplies_by n W op -> m <= zlen x -> m <= zlen y ->
  exists y', block_scaleadd op B init alpha x y = Ok y' /\ zlen y' = zlen y /\
    forall k, nthR y' k = (nthR y k + alpha * mvec m (schur n (coef B) W) (nthR x) k)%R.
Proof.
  intros WB [B1 B2] (Pre & Post & Ap) Lx Ly. pose proof (wf_n B WB). unfold block_scaleadd.
  destruct (mv_ok B x (zrepeat 0%R (sm_n B)) WB) as (t & E & L & P); [lia|rewrite zlen_zr; lia|]. rewrite E. cbn [bind]. rewrite zlen_zr in L by lia.
  rewrite Pre by lia. rewrite Pre by lia. rewrite Post. rewrite B1 in *. destruct (Ap t ltac:(lia)) as [L2 P2].
  destruct (usmtv_ok alpha B (ap_apply op (zrepeat 0%R n) t) y WB) as (y' & E' & L' & P'); [lia..|].
  exists y'. split; [exact E'|]. split; [exact L'|]. intros k. rewrite P', B1. do 2 f_equal.
  unfold schur. rewrite mvec_mmul. apply mvec_ext. intros i Hi. rewrite P2 by lia. rewrite mvec_mmul. apply mvec_ext. intros j Hj.
  rewrite P. replace ((0 <=? j) && (j <? n)) with true by lia. rewrite B2. reflexivity.
Qed.
Lemma block_apply_ok op B n m W init x y : wf_smat B -> dims B n m -> multiplies_by n W op -> m <= zlen x -> m <= zlen y ->
  exists y', block_apply op B init x y = Ok y' /\ zlen y' = zlen y /\ forall k, nthR y' k = mvec m (schur n (coef B) W) (nthR x) k.
Proof.
  intros WB D M Lx Ly. unfold block_apply. pose proof (zlen_nonneg y).
  destruct (block_ok op B n m W init 1 x (zrepeat 0%R (zlen y)) WB D M Lx) as (y' & E & L & P); [rewrite zlen_zr; lia|].
  exists y'. split; [exact E|]. split; [rewrite L, zlen_zr; lia|]. intros k. rewrite P, nthR_zero. ring.
Qed.
(* with any solver *)
Lemma block_inverse_ok s B n m init x y : wf_smat B -> dims B n m -> (forall b, zlen b = n -> zlen (fst (s (zrepeat 0%R n) b)) = n) -> m <= zlen x -> m <= zlen y ->
  exists t q, zlen t = n /\ (forall i, 0 <= i < n -> nthR t i = mvec m (coef B) (nthR x) i) /\
    block_apply (inverse_applier s) B init x y = Ok q /\ zlen q = zlen y /\ forall k, nthR q k = mvec n (transpose (coef B)) (nthR (fst (s (zrepeat 0%R n) t))) k.
Proof.
  intros WB [B1 B2] HS Lx Ly. pose proof (wf_n B WB). pose proof (zlen_nonneg y). unfold block_apply, block_scaleadd.
  destruct (mv_ok B x (zrepeat 0%R (sm_n B)) WB) as (t & E & L & P); [lia|rewrite zlen_zr; lia|]. rewrite E. cbn [bind ap_pre ap_apply ap_post inverse_applier].
  rewrite zlen_zr in L by lia. rewrite B1 in *.
  destruct (usmtv_ok 1 B (fst (s (zrepeat 0%R n) t)) (zrepeat 0%R (zlen y)) WB) as (q & E' & L' & P'); [rewrite HS; lia|rewrite zlen_zr; lia|].
  exists t, q. split; [lia|]. split. { intros i Hi. rewrite P. replace ((0 <=? i) && (i <? n)) with true by lia. rewrite B2. reflexivity. }
  split; [exact E'|]. split; [rewrite L', zlen_zr; lia|]. intros k. rewrite P', nthR_zero, B1. ring.
Qed.

(* ---- Uzawa *)
Lemma exact_injective n a s : 0 <= n -> (forall i j, 0 <= i < n -> 0 <= j < n -> a i j = a j i) -> exact_for n a s (fun _ => True) ->
  forall z, (forall i, 0 <= i < n -> mvec n a z i = 0%R) -> forall i, 0 <= i < n -> z i = 0%R.
Proof.
  intros Hn SY EX z HZ. set (b := map z (zrange 0 n)).
  assert (Lb : zlen b = n) by (unfold b; rewrite zlen_map, zlen_zrange; lia).
  destruct (EX b Lb I) as [L P]. apply Sum_sq_zero.
  assert (E : dot n z (mvec n a (nthR (fst (s (zrepeat 0%R n) b)))) = Sum n (fun i => z i * z i)%R).
  { apply Sum_ext. intros i Hi. rewrite P by exact Hi. unfold b. rewrite nthR_tab by exact Hi. reflexivity. }
  rewrite <- E, dot_mvec. apply Sum_zero. intros j Hj. replace (mvec n (fun i j0 => a j0 i) z j) with 0%R; [ring|].
  rewrite <- (HZ j Hj). apply Sum_ext. intros i Hi. rewrite (SY j i) by lia. reflexivity.
Qed.
Lemma mvec_minus n a x y i : mvec n a (fun j => x j - y j)%R i = (mvec n a x i - mvec n a y i)%R.
Proof. unfold mvec. rewrite <- Sum_minus. apply Sum_ext. intros. ring. Qed.
Lemma uzawa_ok A B n m inner outer x b : coupled A B n m -> (forall i j, 0 <= i < n -> 0 <= j < n -> coef A i j = coef A j i) ->
  exact_for n (coef A) inner (fun _ => True) -> outer_exact n m B inner outer -> zlen x = n + m -> zlen b = n + m ->
  exists x', uzawa inner outer B x b = Ok x' /\ zlen x' = n + m /\
    forall i, 0 <= i < n + m -> mvec (n + m) (saddle n (coef A) (coef B)) (nthR x') i = if i <? n then nthR b i else 0%R.
Proof.
  intros C SY EX OU Lx Lb. pose proof C as CC. apply coupled_sizes in C as (Hn & Hm & WA & WB & A1 & A2 & B1 & B2).
  assert (HS : forall c, zlen c = n -> zlen (fst (inner (zrepeat 0%R n) c)) = n) by (intros c Hc; apply (EX c Hc I)).
  unfold uzawa. rewrite B1, B2. destruct (vextract_ok b n 0) as (f & E1 & L1 & P1); [lia..|]. rewrite E1. cbn [bind]. rewrite L1.
  destruct (inner (zrepeat 0%R n) f) as [u0 r0] eqn:I0. pose proof (HS f L1) as Lu0. destruct (EX f L1 I) as [_ Q0]. rewrite I0 in Lu0, Q0. cbn [fst] in Lu0, Q0.
  destruct (mtv_ok B u0 (zrepeat 0%R m) WB) as (l0 & E2 & L2 & P2); [lia|rewrite zlen_zr; lia|]. rewrite E2. cbn [bind]. rewrite zlen_zr in L2 by lia. rewrite L2.
  destruct (outer (zrepeat 0%R m) l0) as [la r1] eqn:O0.
  assert (RG : in_range_of n (coef B) l0). { exists (nthR u0). intros j Hj. rewrite P2, B1. reflexivity. }
  destruct (OU l0 L2 RG) as [Lla Q1]. rewrite O0 in Lla, Q1. cbn [fst] in Lla, Q1. cbn [bind]. 
  destruct (usmv_ok (-1) B la f WB) as (g & E3 & L3 & P3); [lia..|]. rewrite E3. cbn [bind]. rewrite Lu0.
  destruct (inner (zrepeat 0%R n) g) as [u r2] eqn:I1. pose proof (HS g ltac:(lia)) as Lu. destruct (EX g ltac:(lia) I) as [_ Q2]. rewrite I1 in Lu, Q2. cbn [fst] in Lu, Q2.
  destruct (vinject_ok x u n 0) as (x1 & E4 & L4 & P4); [lia..|]. rewrite E4. cbn [bind].
  destruct (vinject_ok x1 la m n) as (x2 & E5 & L5 & P5); [lia..|]. exists x2. split; [exact E5|]. split; [lia|].
  assert (Xu : forall i, 0 <= i < n -> nthR x2 i = nthR u i).
  { intros i Hi. rewrite P5, P4. replace ((n <=? i) && (i <? n + m)) with false by lia. replace ((0 <=? i) && (i <? 0 + n)) with true by lia. f_equal. lia. }
  assert (Xl : forall j, 0 <= j < m -> nthR x2 (n + j) = nthR la j).
  { intros j Hj. rewrite P5. replace ((n <=? n + j) && (n + j <? n + m)) with true by lia. f_equal. lia. }
  (* the Schur operator applied to la *)
  destruct (Q1 [] (zrepeat 0%R m)) as (q & E6 & P6); [apply zlen_zr; lia|].
  destruct (block_inverse_ok inner B n m [] la (zrepeat 0%R m) WB (conj B1 B2) HS) as (t & q' & Lt & Pt & E7 & _ & P7); [lia|rewrite zlen_zr; lia|].
  rewrite E6 in E7. injection E7 as <-. destruct (EX t Lt I) as [Lw Q3]. set (w := fst (inner (zrepeat 0%R n) t)) in *.
  assert (U : forall i, 0 <= i < n -> nthR u i = (nthR u0 i - nthR w i)%R).
  { assert (Z0 : forall i, 0 <= i < n -> (nthR u i - (nthR u0 i - nthR w i))%R = 0%R).
    { apply (exact_injective n (coef A) inner Hn SY EX (fun i => nthR u i - (nthR u0 i - nthR w i))%R). intros i Hi.
      rewrite (mvec_minus n (coef A) (nthR u) (fun i => nthR u0 i - nthR w i)%R). rewrite mvec_minus. rewrite Q2, Q0, Q3, P3, Pt, B2 by exact Hi. ring. }
    intros i Hi. specialize (Z0 i Hi). lra. }
  intros i Hi. destruct (Z.ltb_spec i n) as [K|K].
  - rewrite saddle_top by lia. rewrite (mvec_ext n _ (nthR x2) (nthR u)) by (intros; apply Xu; lia).
    rewrite (mvec_ext m _ (fun j => nthR x2 (n + j)) (nthR la)) by (intros; apply Xl; lia). rewrite Q2, P3, B2, P1 by lia. rewrite Z.add_0_l. ring.
  - rewrite saddle_bottom by lia. rewrite (mvec_ext n _ (nthR x2) (fun i => nthR u0 i - nthR w i)%R) by (intros; rewrite Xu by lia; apply U; lia).
    rewrite mvec_minus. rewrite <- P7, P6 by lia. rewrite P2, B1. ring.
Qed.
(* the multiplier part of the load is not looked at *)
Lemma uzawa_ignores inner outer B n m x b b' : dims B n m -> zlen b = n + m -> zlen b' = n + m -> (forall i, 0 <= i < n -> nthR b i = nthR b' i) ->
  0 <= n -> 0 <= m -> uzawa inner outer B x b = uzawa inner outer B x b'.
Proof.
  intros [B1 B2] L L' H Hn Hm. unfold uzawa. rewrite B1.
  assert (E : vextract b n 0 = vextract b' n 0).
  { destruct (vextract_ok b n 0) as (f & E1 & L1 & P1); [lia..|]. destruct (vextract_ok b' n 0) as (f' & E1' & L1' & P1'); [lia..|].
    rewrite E1, E1'. f_equal. apply nthR_ext; [lia|]. intros i Hi. rewrite P1, P1' by lia. rewrite Z.add_0_l. apply H. lia. }
  rewrite E. reflexivity.
Qed.

(* ---- the block preconditioner *)
Lemma schur_apply_ok apre lsolve B n m P Ah sym init2 v d : wf_smat B -> dims B n m ->
  (forall init r, zlen r = m -> zlen (fst (lsolve init r)) = m /\ forall j, 0 <= j < m -> mvec m P (nthR (fst (lsolve init r))) j = nthR r j) ->
  (forall r, zlen r = n -> zlen (apre (zrepeat 0%R n) r) = n /\ forall i, 0 <= i < n -> mvec n Ah (nthR (apre (zrepeat 0%R n) r)) i = nthR r i) ->
  zlen v = n + m -> zlen d = n + m ->
  exists v', schur_apply apre lsolve B sym init2 v d = Ok v' /\ zlen v' = n + m /\
    (forall j, 0 <= j < m -> mvec m P (fun k => nthR v' (n + k)) j = nthR d (n + j)) /\
    (forall i, 0 <= i < n -> (mvec n Ah (nthR v') i + if sym then 0 else mvec m (coef B) (fun k => nthR v' (n + k)) i)%R = nthR d i).
Proof.
  intros WB [B1 B2] HL HA Lv Ld. pose proof (wf_n B WB). pose proof (proj1 (proj2 WB)). unfold schur_apply. rewrite B1, B2.
  destruct (vextract_ok d m n) as (t & E1 & L1 & P1); [lia..|]. rewrite E1. cbn [bind].
  destruct (lsolve init2 t) as [t2 r] eqn:LS. destruct (HL init2 t L1) as [L2 Q2]. rewrite LS in L2, Q2. cbn [fst] in L2, Q2.
  destruct (vinject_ok v t2 m n) as (v1 & E3 & L3 & P3); [lia..|]. rewrite E3. cbn [bind].
  destruct (vextract_ok d n 0) as (f & E4 & L4 & P4); [lia..|]. rewrite E4. cbn [bind].
  assert (exists g, (if sym then Ok f else usmv (-1) B t2 f) = Ok g /\ zlen g = n /\ forall i, 0 <= i < n -> nthR g i = (nthR d i - if sym then 0 else mvec m (coef B) (nthR t2) i)%R) as (g & E5 & L5 & P5).
  { destruct sym.
    - exists f. split; [reflexivity|]. split; [exact L4|]. intros i Hi. rewrite P4 by exact Hi. rewrite Z.add_0_l. ring.
    - destruct (usmv_ok (-1) B t2 f WB) as (g & E5 & L5 & P5); [lia..|]. exists g. split; [exact E5|]. split; [lia|].
      intros i Hi. rewrite P5, P4, B2 by exact Hi. rewrite Z.add_0_l. ring. }
  rewrite E5. cbn [bind]. destruct (HA g L5) as [L6 P6]. destruct (vinject_ok v1 (apre (zrepeat 0%R n) g) n 0) as (v2 & E7 & L7 & P7); [lia..|].
  exists v2. split; [exact E7|]. split; [lia|].
  assert (X2 : forall k, 0 <= k < m -> nthR v2 (n + k) = nthR t2 k).
  { intros k Hk. rewrite P7, P3. replace ((0 <=? n + k) && (n + k <? 0 + n)) with false by lia. replace ((n <=? n + k) && (n + k <? n + m)) with true by lia. f_equal. lia. }
  assert (X1 : forall k, 0 <= k < n -> nthR v2 k = nthR (apre (zrepeat 0%R n) g) k).
  { intros k Hk. rewrite P7. replace ((0 <=? k) && (k <? 0 + n)) with true by lia. f_equal. lia. }
  split.
  - intros j Hj. rewrite (mvec_ext m P _ (nthR t2)) by exact X2. rewrite Q2, P1 by exact Hj. reflexivity.
  - intros i Hi. rewrite (mvec_ext n Ah _ (nthR (apre (zrepeat 0%R n) g))) by exact X1. rewrite P6, P5 by exact Hi.
    rewrite (mvec_ext m (coef B) (fun k => nthR v2 (n + k)) (nthR t2)) by exact X2. destruct sym; ring.
Qed.
Lemma schur_pre_ok pre B n m x b x1 b1 : wf_smat B -> dims B n m -> zlen x = n + m -> zlen b = n + m ->
  (forall tx tb, zlen tx = n -> zlen tb = n -> (forall i, 0 <= i < n -> nthR tx i = nthR x i /\ nthR tb i = nthR b i) -> pre tx tb = (x1, b1)) -> zlen x1 = n -> zlen b1 = n ->
  exists x' b', schur_pre pre B x b = Ok (x', b') /\ zlen x' = n + m /\ zlen b' = n + m /\
    forall i, nthR x' i = (if (0 <=? i) && (i <? n) then nthR x1 i else nthR x i) /\ nthR b' i = (if (0 <=? i) && (i <? n) then nthR b1 i else nthR b i).
Proof.
  intros WB [B1 B2] Lx Lb HP L1 L2. pose proof (wf_n B WB). pose proof (proj1 (proj2 WB)). unfold schur_pre. rewrite B1.
  destruct (vextract_ok x n 0) as (tx & E1 & M1 & P1); [lia..|]. rewrite E1. cbn [bind].
  destruct (vextract_ok b n 0) as (tb & E2 & M2 & P2); [lia..|]. rewrite E2. cbn [bind].
  rewrite (HP tx tb M1 M2). 2:{ intros i Hi. rewrite P1, P2 by exact Hi. split; reflexivity. }
  destruct (vinject_ok x x1 n 0) as (x2 & E3 & M3 & P3); [lia..|]. rewrite E3. cbn [bind].
  destruct (vinject_ok b b1 n 0) as (b2 & E4 & M4 & P4); [lia..|]. rewrite E4. cbn [bind].
  exists x2, b2. split; [reflexivity|]. split; [lia|]. split; [lia|]. intros i. rewrite P3, P4, Z.sub_0_r. split; reflexivity.
Qed.

(* ---- the dense multiplier matrix *)
Lemma mortar_column_ok op B n m W init i : wf_smat B -> dims B n m -> multiplies_by n W op -> m <= n -> 0 <= i < m ->
  exists c, mortar_column op B init i = Ok c /\ zlen c = m /\ forall j, 0 <= j < m -> nthR c j = schur n (coef B) W j i.
Proof.
  intros WB D M Hmn Hi. pose proof D as [B1 B2]. pose proof (proj1 (proj2 WB)). unfold mortar_column. rewrite B1, B2.
  destruct (rset_ok (zrepeat 0%R n) i 1%R) as (v & E1 & L1 & P1). { rewrite zlen_zr; lia. } rewrite E1. cbn [bind]. rewrite zlen_zr in L1 by lia.
  destruct (block_apply_ok op B n m W init v (zrepeat 0%R n) WB D M) as (v2 & E2 & L2 & P2); [lia|rewrite zlen_zr; lia|]. rewrite E2. cbn [bind].
  rewrite zlen_zr in L2 by lia. rewrite (mapM_all_Ok _ (fun j => nthR v2 j)). 2:{ intros j Hj. apply In_zrange in Hj. apply rget_ok. lia. }
  eexists. split; [reflexivity|]. split. { rewrite zlen_map, zlen_zrange; lia. }
  intros j Hj. rewrite nthR_tab by exact Hj. rewrite P2. unfold mvec. rewrite (Sum_pick m i); [|exact Hi|].
  - rewrite P1, Z.eqb_refl. ring.
  - intros k Hk NE. rewrite P1, (proj2 (Z.eqb_neq k i)), nthR_zero by lia. ring.
Qed.
Lemma mortar_column_UB op B n m init i : wf_smat B -> dims B n m -> n <= i -> mortar_column op B init i = UB.
Proof.
  intros WB [B1 B2] H. pose proof (wf_n B WB). unfold mortar_column, rset. rewrite B1, zlen_zr by lia. replace ((0 <=? i) && (i <? n)) with false by lia. reflexivity.
Qed.
Lemma zget_nset {A} (l : list A) i (x : A) k l' : rset l i x = Ok l' -> zget l' k = if k =? i then Some x else zget l k.
Proof.
  intros E. unfold rset in E. destruct ((0 <=? i) && (i <? zlen l)) eqn:B; [|discriminate].
  destruct (Rprop_Proofs2.rset_at l i x ltac:(lia)) as (l1 & E1 & _ & P). unfold rset in E1. rewrite B in E1. rewrite E in E1. injection E1 as <-. apply P.
Qed.
Lemma mortar_matrix_ok op B n m W init order T : wf_smat B -> dims B n m -> multiplies_by n W op -> m <= n ->
  (forall i, In i order <-> 0 <= i < m) -> zlen T = m ->
  exists T' P, mortar_columns op B init order T = Ok T' /\ from_dense m m (by_columns T') = Ok P /\ wf_smat P /\ dims P m m /\
    forall i j, 0 <= i < m -> 0 <= j < m -> coef P i j = (if Rltb (/ 10 ^ 14) (Rabs (schur n (coef B) W i j)) then schur n (coef B) W i j else 0)%R.
Proof.
  intros WB D M Hmn HO LT. pose proof (proj1 (proj2 WB)). pose proof D as [B1 B2].
  pose proof (foldM_inv (fun T i => let* c := mortar_column op B init i in rset T i c)
    (fun done T' => zlen T' = m /\ forall i, In i done -> exists c, zget T' i = Some c /\ forall j, 0 <= j < m -> nthR c j = schur n (coef B) W j i) order T) as F.
  destruct F as (T' & E & L & P).
  - split; [exact LT|]. intros i [].
  - intros done a s Ha [L P]. apply HO in Ha. destruct (mortar_column_ok op B n m W init a WB D M Hmn Ha) as (c & Ec & Lc & Pc). rewrite Ec. cbn [bind].
    destruct (Rprop_Proofs2.rset_at s a c ltac:(lia)) as (s' & E & L' & P'). exists s'. split; [exact E|]. split; [lia|].
    intros i Hi. rewrite P'. destruct (Z.eqb_spec i a) as [->|NE].
    + exists c. split; [reflexivity|exact Pc].
    + apply P. apply in_app_iff in Hi as [Hi|[->|[]]]; [exact Hi|contradiction].
  - destruct (from_dense_ok m m (by_columns T')) as (Pm & EP & WP & DP & SP & CP & NP); [lia..|].
    exists T', Pm. split; [exact E|]. split; [exact EP|]. split; [exact WP|]. split; [exact DP|]. intros i j Hi Hj.
    assert (V : by_columns T' i j = schur n (coef B) W i j).
    { destruct (P j) as (c & Ec & Pc); [apply HO; exact Hj|]. unfold by_columns. rewrite Ec. apply Pc. exact Hi. }
    destruct (stored_dec Pm i j) as [Q|Q].
    + rewrite CP, V by exact Q. apply SP in Q as (_ & _ & Q). rewrite V in Q. unfold Rltb. destruct (Rlt_dec _ _); [reflexivity|contradiction].
    + rewrite NP by exact Q. rewrite SP, V in Q. unfold Rltb. destruct (Rlt_dec _ _); [exfalso; apply Q; tauto|reflexivity].
Qed.
(* more multipliers than displacement unknowns *)
Lemma foldM_each {A S} (f : S -> A -> res S) l : forall s s', foldM f l s = Ok s' -> forall a, In a l -> exists s1 s2, f s1 a = Ok s2.
Proof.
  induction l as [|b t IH]; intros s s' E a H; [destruct H|]. cbn [foldM] in E. destruct (f s b) as [s1| |] eqn:F; try discriminate. cbn [bind] in E.
  destruct H as [->|H]; [eauto|eapply IH; eauto].
Qed.
Lemma mortar_matrix_none op B n m init order T T' : wf_smat B -> dims B n m -> n < m -> (forall i, In i order <-> 0 <= i < m) ->
  mortar_columns op B init order T <> Ok T'.
Proof.
  intros WB D Hmn HO E. pose proof (wf_n B WB). pose proof D as [B1 B2].
  destruct (foldM_each _ _ _ _ E n) as (s1 & s2 & F); [apply HO; lia|]. cbv beta in F. rewrite (mortar_column_UB op B n m init n WB D (Z.le_refl n)) in F. discriminate.
Qed.

(* ---- the diagonal approximation *)
Lemma simple_diag_ok A n row : wf_smat A -> dims A n n -> stored A row row -> coef A row row <> 0%R ->
  Sum n (fun j => if j =? row then 0 else Rabs (coef A row j))%R <> 0%R ->
  simple_diag A row = Ok (Sum n (fun j => if j =? row then 0 else Rabs (coef A row j)) / coef A row row)%R.
Proof.
  intros WA [A1 A2] S NZ NS. unfold simple_diag. pose proof (stored_range A row row WA S) as [R1 R2].
  pose proof WA as (L & _ & W). destruct (zget_in_range (sm_rows A) row ltac:(lia)) as (r & Hr).
  assert (Er : rget (sm_rows A) row = Ok r) by (apply rget_Ok; exact Hr). rewrite Er. cbn [bind].
  rewrite (sm_at_stored A row row WA S). cbn [bind].
  assert (EA : racc (fun e => if fst e =? row then 0%R else Rabs (snd e)) r = Sum n (fun j => if j =? row then 0 else Rabs (coef A row j))%R).
  { unfold racc. assert (G : forall l s, fold_left (fun s (e : Z * R) => (s + (if fst e =? row then 0 else Rabs (snd e)))%R) l s = (s + Rsum (map (fun e : Z * R => if fst e =? row then 0%R else Rabs (snd e)) l))%R).
    { induction l as [|e t IH]; intros s; cbn [fold_left map]; [rewrite Rsum_nil; ring|]. rewrite IH, Rsum_cons. ring. }
    rewrite G. destruct (W r (zget_In _ _ _ Hr)) as [W1 W2].
    rewrite (row_sum (fun j v => if j =? row then 0%R else Rabs v) (sm_m A)); [|intros j; rewrite Rabs_R0; destruct (j =? row); reflexivity|exact W1|exact W2].
    rewrite A2, Rplus_0_l. apply Sum_ext. intros j _. unfold coef, rowval. rewrite Hr. reflexivity. }
  rewrite EA, (mdiv_ok _ _ NS). cbn [bind]. rewrite mdiv_ok.
  - f_equal. field. split; assumption.
  - unfold Rdiv. apply Rmult_integral_contrapositive_currified; [exact NZ|apply Rinv_neq_0_compat; exact NS].
Qed.

(* ---- chunks of work *)
Definition gofs (max chunks i : Z) : Z := i * (max / chunks) + Z.max 0 (i - (chunks - max mod chunks)).
Lemma log_sizes_ok max chunks : 0 <= max -> 0 < chunks -> exists s, log_sizes max chunks = Ok s /\ zlen s = chunks /\
  forall i, 0 <= i < chunks -> zget s i = Some (gofs max chunks (i + 1) - gofs max chunks i).
Proof.
  intros Hm Hc. unfold log_sizes. rewrite Z.quot_div_nonneg, Z.rem_mod_nonneg by lia.
  set (q := max / chunks). set (r := max mod chunks). assert (Hr : 0 <= r < chunks) by (unfold r; apply Z.mod_pos_bound; lia).
  change (gofs max chunks) with (fun i => i * q + Z.max 0 (i - (chunks - r))).
  clearbody q r.
  assert (G : forall e s, chunks - r <= e <= chunks -> zlen s = chunks -> (forall i, 0 <= i < chunks -> zget s i = Some (q + if (chunks - r <=? i) && (i <? e) then 1 else 0)) ->
    exists s', foldM (fun s i => let* v := rget s i in rset s i (v + 1)) (zrange e chunks) s = Ok s' /\ zlen s' = chunks /\ forall i, 0 <= i < chunks -> zget s' i = Some (q + if chunks - r <=? i then 1 else 0)).
  { intros e. remember (Z.to_nat (chunks - e)) as d eqn:Ed. revert e Ed. induction d as [|d IH]; intros e Ed s He L P.
    - rewrite zrange_empty by lia. exists s. split; [reflexivity|]. split; [exact L|]. intros i Hi. rewrite P by exact Hi. replace ((chunks - r <=? i) && (i <? e)) with (chunks - r <=? i) by lia. reflexivity.
    - rewrite zrange_cons by lia. cbn [foldM]. assert (Eg : rget s e = Ok (q + 0)). { apply rget_Ok. rewrite P by lia. replace ((chunks - r <=? e) && (e <? e)) with false by lia. reflexivity. }
      rewrite Eg. cbn [bind]. destruct (Rprop_Proofs2.rset_at s e (q + 0 + 1) ltac:(lia)) as (s2 & E2 & L2 & P2). rewrite E2. cbn [bind].
      apply (IH (e + 1)); [lia..|]. intros i Hi. rewrite P2. destruct (Z.eqb_spec i e) as [->|NE].
      + replace ((chunks - r <=? e) && (e <? e + 1)) with true by lia. f_equal. lia.
      + rewrite P by exact Hi. replace ((chunks - r <=? i) && (i <? e + 1)) with ((chunks - r <=? i) && (i <? e)) by lia. reflexivity. }
  destruct (G (chunks - r) (zrepeat q chunks)) as (s & E & L & P); [lia|apply zlen_zrepeat; lia| |].
  { intros i Hi. rewrite zget_zrepeat by lia. replace ((chunks - r <=? i) && (i <? chunks - r)) with false by lia. f_equal. lia. }
  exists s. split; [exact E|]. split; [exact L|]. intros i Hi. rewrite P by exact Hi. f_equal. destruct (Z.leb_spec (chunks - r) i); lia.
Qed.
Lemma log_groups_ok max chunks : 0 <= max -> 0 < chunks ->
  exists g, log_groups max chunks = Ok g /\ zlen g = chunks + 1 /\ forall i, 0 <= i <= chunks -> zget g i = Some (gofs max chunks i).
Proof.
  intros Hm Hc. unfold log_groups. destruct (log_sizes_ok max chunks Hm Hc) as (s & Es & Ls & Ps). rewrite Es. cbn [bind].
  unfold vresize. rewrite (proj2 (Z.ltb_ge chunks 0)) by lia. cbn [bind].
  destruct (Rprop_Proofs2.rset_at (zrepeat 0 chunks) 0 0) as (g0 & E0 & L0 & P0). { rewrite zlen_zrepeat; lia. } rewrite E0. cbn [bind].
  rewrite zlen_zrepeat in L0 by lia.
  assert (Hr : 0 <= max mod chunks < chunks) by (apply Z.mod_pos_bound; lia).
  assert (Z0 : gofs max chunks 0 = 0) by (unfold gofs; clear Ps; lia).
  assert (Zc : gofs max chunks chunks = max). { unfold gofs. pose proof (Z.div_mod max chunks ltac:(lia)). clear Ps. lia. }
  assert (G : forall e g, 1 <= e <= chunks -> zlen g = chunks -> (forall i, 0 <= i < e -> zget g i = Some (gofs max chunks i)) ->
    exists g', foldM (fun g i => let* p := rget g (i - 1) in let* s0 := rget s (i - 1) in rset g i (p + s0)) (zrange e chunks) g = Ok g' /\ zlen g' = chunks /\ forall i, 0 <= i < chunks -> zget g' i = Some (gofs max chunks i)).
  { intros e. remember (Z.to_nat (chunks - e)) as d eqn:Ed. revert e Ed. induction d as [|d IH]; intros e Ed g He L P.
    - rewrite zrange_empty by lia. exists g. split; [reflexivity|]. split; [exact L|]. intros i Hi. apply P. lia.
    - rewrite zrange_cons by lia. cbn [foldM]. rewrite (proj2 (rget_Ok g (e - 1) _) (P (e - 1) ltac:(lia))). cbn [bind].
      rewrite (proj2 (rget_Ok s (e - 1) _) (Ps (e - 1) ltac:(lia))). cbn [bind]. replace (e - 1 + 1) with e by ring.
      destruct (Rprop_Proofs2.rset_at g e (gofs max chunks (e - 1) + (gofs max chunks e - gofs max chunks (e - 1))) ltac:(lia)) as (g2 & E2 & L2 & P2). rewrite E2. cbn [bind].
      apply (IH (e + 1)); [lia..|]. intros i Hi. rewrite P2. destruct (Z.eqb_spec i e) as [->|NE]; [f_equal; lia|apply P; lia]. }
  destruct (G 1 g0) as (g & E & L & P); [lia|exact L0| |].
  { intros i Hi. rewrite P0. replace i with 0 by lia. rewrite Z.eqb_refl, Z0. reflexivity. }
  rewrite E. cbn [bind]. exists (g ++ [max]). split; [reflexivity|]. split. { rewrite zlen_app, L. reflexivity. }
  intros i Hi. destruct (Z.eq_dec i chunks) as [->|NE].
  - rewrite zget_app_r by lia. rewrite L, Z.sub_diag. rewrite Zc. reflexivity.
  - rewrite zget_app_l by lia. apply P. lia.
Qed.
Lemma chunk_partition max chunks : 0 <= max -> 0 < chunks ->
  exists g ab, log_groups max chunks = Ok g /\ mapM (log_group g) (zrange 0 chunks) = Ok ab /\
    concat (map (fun p => zrange (fst p) (snd p)) ab) = zrange 0 max /\
    forall p, In p ab -> snd p - fst p = max / chunks \/ snd p - fst p = max / chunks + 1.
Proof.
  intros Hm Hc. destruct (log_groups_ok max chunks Hm Hc) as (g & E & L & P). set (o := gofs max chunks) in *.
  assert (Hr : 0 <= max mod chunks < chunks) by (apply Z.mod_pos_bound; lia).
  assert (Z0 : o 0 = 0) by (unfold o, gofs; clear P; lia).
  assert (Zc : o chunks = max). { unfold o, gofs. pose proof (Z.div_mod max chunks ltac:(lia)). clear P. lia. }
  assert (Q : 0 <= max / chunks) by (apply Z.div_pos; lia).
  assert (St : forall i, o (i + 1) - o i = max / chunks \/ o (i + 1) - o i = max / chunks + 1). { intros i. unfold o, gofs. generalize dependent (max / chunks). generalize dependent (max mod chunks). clear. intros. lia. }
  exists g, (map (fun i => (o i, o (i + 1))) (zrange 0 chunks)). split; [exact E|]. split; [|split].
  - apply mapM_all_Ok. intros i Hi. apply In_zrange in Hi. unfold log_group. rewrite (proj2 (rget_Ok g i _) (P i ltac:(lia))). cbn [bind].
    rewrite (proj2 (rget_Ok g (i + 1) _) (P (i + 1) ltac:(lia))). reflexivity.
  - rewrite map_map. cbn [fst snd]. rewrite <- Zc.
    assert (G : forall k : nat, Z.of_nat k <= chunks -> concat (map (fun i => zrange (o i) (o (i + 1))) (zrange 0 (Z.of_nat k))) = zrange 0 (o (Z.of_nat k)) /\ 0 <= o (Z.of_nat k)).
    { induction k as [|k IH]; intros Hk.
      - cbn [Z.of_nat]. rewrite Z0. rewrite zrange_empty by lia. split; [reflexivity|lia].
      - destruct IH as [I1 I2]; [lia|]. rewrite Nat2Z.inj_succ. unfold Z.succ. pose proof (St (Z.of_nat k)).
        rewrite (zrange_app 0 (Z.of_nat k) (Z.of_nat k + 1)) by lia. rewrite map_app, concat_app, I1. rewrite (zrange_cons (Z.of_nat k) (Z.of_nat k + 1)), (zrange_empty (Z.of_nat k + 1)) by lia.
        cbn [map concat]. rewrite app_nil_r. rewrite <- zrange_app by lia. split; [reflexivity|lia]. }
    destruct (G (Z.to_nat chunks)) as [G1 _]; [lia|]. rewrite Z2Nat.id in G1 by lia. exact G1.
  - intros p Hp. apply in_map_iff in Hp as (i & <- & _). apply St.
Qed.
