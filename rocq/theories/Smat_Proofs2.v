From Verif Require Import BaseFacts RBaseFacts Smat_Proofs Smat_Spec.
From Coq Require Import Lra Lia.
Open Scope Z_scope.

Definition here (i j : Z) : list (Z * Z) := [(i, j)].
Lemma wf_n m : wf_smat m -> 0 <= sm_n m.
Proof. intros (W & _). pose proof (zlen_nonneg (sm_rows m)). lia. Qed.
Lemma updates_here_NoDup upd m : wf_smat m -> NoDup (map fst (updates here upd m)).
Proof.
  intros W. assert (E : map fst (updates here upd m) = map fst (entries m)).
  { unfold updates. clear W. induction (entries m) as [| [[i j] v] l IH]; [reflexivity |]. cbn [flat_map map]. rewrite map_app, IH. reflexivity. }
  rewrite E. apply entries_NoDup, W.
Qed.

Lemma axpy_ok A B alpha : wf_smat A -> wf_smat B -> dims B (sm_n A) (sm_m A) ->
  exists r, axpy A B alpha = Ok r /\ wf_smat r /\ dims r (sm_n A) (sm_m A) /\
    (forall i j, stored r i j <-> stored A i j \/ stored B i j) /\ forall i j, coef r i j = (coef A i j + alpha * coef B i j)%R.
Proof.
  intros WA WB [D1 D2]. unfold axpy. rewrite D1, D2, !Z.eqb_refl. cbn [andb]. change (fun i j : Z => [(i, j)]) with here.
  destruct (empty_adj (sm_n A) (wf_n A WA)) as [W0 P0].
  destruct (insert_all_ok here A _ _ W0) as (a1 & E1 & W1 & P1).
  { intros i j p S [<- | []]. exact (proj1 (stored_range A i j WA S)). }
  rewrite E1. cbn [bind]. destruct (insert_all_ok here B _ _ W1) as (a2 & E2 & W2 & P2).
  { intros i j p S [<- | []]. cbn [fst]. rewrite <- D1. exact (proj1 (stored_range B i j WB S)). }
  rewrite E2. cbn [bind].
  assert (P3 : forall a b, padj a2 a b <-> stored A a b \/ stored B a b).
  { intros a b. rewrite P2, P1. split.
    - intros [[Q | (i & j & S & [[= -> ->] | []])] | (i & j & S & [[= -> ->] | []])]; [destruct (P0 a b Q) | tauto | tauto].
    - intros [S | S]; [left; right | right]; exists a, b; (split; [exact S | left; reflexivity]). }
  destruct (from_adjacency_ok a2 (sm_n A) (sm_m A) W2 (proj1 (proj2 WA))) as (r & E3 & W3 & [D3 D4] & S3 & C3).
  { intros a b Q. apply P3 in Q as [Q | Q]; [exact (proj2 (stored_range A a b WA Q)) | rewrite <- D2; exact (proj2 (stored_range B a b WB Q))]. }
  rewrite E3. cbn [bind]. destruct (assign_all_ok here (fun v _ => v) A r W3) as (r1 & E4 & W4 & [D5 D6] & S4 & C4).
  { intros i j p S [<- | []]. apply S3, P3. tauto. }
  rewrite E4. cbn [bind]. destruct (assign_all_ok here (fun v x => (x + alpha * v)%R) B r1 W4) as (r2 & E5 & W5 & [D7 D8] & S5 & C5).
  { intros i j p S [<- | []]. apply S4, S3, P3. tauto. }
  exists r2. split; [exact E5 |]. split; [exact W5 |]. split; [split; congruence |]. split; [intros i j; rewrite S5, S4, S3; apply P3 |].
  assert (C6 : forall a b, coef r1 a b = coef A a b).
  { intros a b. rewrite C4. destruct (stored_dec A a b) as [S | S].
    - apply assigned with (i := a) (j := b); [exact WA | exact S | left; reflexivity |]. intros i' j' _ [[= -> ->] | []]. reflexivity.
    - rewrite not_assigned; [rewrite C3, coef_stored by assumption; reflexivity |]. intros i j Si [[= -> ->] | []]. exact (S Si). }
  intros a b. rewrite C5, C6. destruct (stored_dec B a b) as [S | S].
  - pose proof S as S'. apply entries_stored in S' as (v & S'). rewrite (fold_once _ a b (fun x => (x + alpha * v)%R)).
    + rewrite (entries_coef B a b v WB S'). reflexivity.
    + apply updates_here_NoDup, WB.
    + apply In_updates. exists a, b, v. split; [exact S' |]. split; [left; reflexivity | reflexivity].
  - rewrite not_assigned; [rewrite (coef_stored B) by assumption; ring |]. intros i j Si [[= -> ->] | []]. exact (S Si).
Qed.

Definition there (r0 c0 : Z) (symmetric : bool) (i j : Z) : list (Z * Z) := (i + r0, j + c0) :: (if symmetric then [(j + c0, i + r0)] else []).
Lemma In_there r0 c0 s i j a b : In (a, b) (there r0 c0 s i j) <-> (a = i + r0 /\ b = j + c0) \/ (s = true /\ a = j + c0 /\ b = i + r0).
Proof.
  unfold there. cbn [In]. split.
  - intros [[= <- <-] | H]; [left; tauto |]. destruct s; [| destruct H]. destruct H as [[= <- <-] | []]. right. tauto.
  - intros [[-> ->] | (-> & -> & ->)]; [left; reflexivity | right; left; reflexivity].
Qed.
Lemma diag_inserts adj n s : wf_adj adj n -> 0 <= n -> exists adj',
  (if s : bool then foldM (fun adj i => adj_insert adj (i, i)) (zrange 0 n) adj else Ok adj) = Ok adj' /\ wf_adj adj' n /\
  forall a b, padj adj' a b <-> padj adj a b \/ (s = true /\ a = b /\ 0 <= a < n).
Proof.
  intros W Hn. destruct s.
  - assert (E : foldM (fun adj i => adj_insert adj (i, i)) (zrange 0 n) adj = foldM adj_insert (map (fun i => (i, i)) (zrange 0 n)) adj).
    { clear. revert adj. induction (zrange 0 n) as [| i l IH]; intros adj; cbn [foldM map]; [reflexivity |]. destruct (adj_insert adj (i, i)); cbn [bind]; [apply IH | reflexivity | reflexivity]. }
    rewrite E. destruct (adj_inserts_ok (map (fun i => (i, i)) (zrange 0 n)) adj n W) as (adj' & E' & W' & P').
    { intros p Hp. apply in_map_iff in Hp as (i & <- & Hi). apply In_zrange in Hi. exact Hi. }
    exists adj'. split; [exact E' |]. split; [exact W' |]. intros a b. rewrite P', in_map_iff. split.
    + intros [Q | (i & [= <- <-] & Hi)]; [tauto |]. apply In_zrange in Hi. tauto.
    + intros [Q | (_ & -> & H)]; [tauto |]. right. exists b. split; [reflexivity | apply In_zrange; exact H].
  - exists adj. split; [reflexivity |]. split; [exact W |]. intros a b. split; [tauto |]. intros [Q | (Q & _)]; [exact Q | discriminate Q].
Qed.

Lemma augment_gen A B r0 c0 s : wf_smat A -> wf_smat B -> 0 <= r0 -> 0 <= c0 -> (s = true -> sm_n A = sm_m A) ->
  (s = true -> forall i j i' j', stored B i j -> stored B i' j' -> i + r0 = j' + c0 -> j + c0 = i' + r0 -> coef B i j = coef B i' j') ->
  exists r, augment A B r0 c0 s = Ok r /\ wf_smat r /\
    dims r (Z.max (Z.max (sm_n A) (r0 + sm_n B)) (if s then c0 + sm_m B else 0)) (Z.max (Z.max (sm_m A) (c0 + sm_m B)) (if s then r0 + sm_n B else 0)) /\
    (forall a b, stored r a b <-> stored A a b \/ stored B (a - r0) (b - c0) \/ (s = true /\ (stored B (b - r0) (a - c0) \/ (a = b /\ 0 <= a < sm_n r)))) /\
    (forall a b, stored B (a - r0) (b - c0) -> coef r a b = coef B (a - r0) (b - c0)) /\
    (forall a b, s = true -> stored B (b - r0) (a - c0) -> coef r a b = coef B (b - r0) (a - c0)) /\
    (forall a b, ~ stored B (a - r0) (b - c0) -> (s = true -> ~ stored B (b - r0) (a - c0)) -> coef r a b = coef A a b).
Proof.
  intros WA WB Hr Hc SQ CO. unfold augment. cbv zeta.
  pose proof (wf_n A WA) as NA. pose proof (wf_n B WB) as NB. pose proof (proj1 (proj2 WA)) as MA. pose proof (proj1 (proj2 WB)) as MB.
  set (nrow := if s && ((if sm_n A <? r0 + sm_n B then r0 + sm_n B else sm_n A) <? c0 + sm_m B) then c0 + sm_m B else if sm_n A <? r0 + sm_n B then r0 + sm_n B else sm_n A).
  set (ncol := if (if s && (sm_m A <? r0 + sm_n B) then r0 + sm_n B else sm_m A) <? c0 + sm_m B then c0 + sm_m B else if s && (sm_m A <? r0 + sm_n B) then r0 + sm_n B else sm_m A).
  assert (HN : nrow = Z.max (Z.max (sm_n A) (r0 + sm_n B)) (if s then c0 + sm_m B else 0)).
  { unfold nrow. destruct s; cbn [andb]; destruct (Z.ltb_spec (sm_n A) (r0 + sm_n B)); try (match goal with |- context [?x <? ?y] => destruct (Z.ltb_spec x y) end); lia. }
  assert (HM : ncol = Z.max (Z.max (sm_m A) (c0 + sm_m B)) (if s then r0 + sm_n B else 0)).
  { unfold ncol. destruct s; cbn [andb]; [destruct (Z.ltb_spec (sm_m A) (r0 + sm_n B)) |]; match goal with |- context [?x <? ?y] => destruct (Z.ltb_spec x y) end; lia. }
  clearbody nrow ncol. change (fun i j : Z => [(i, j)]) with here. change (fun i j : Z => (i + r0, j + c0) :: (if s then [(j + c0, i + r0)] else [])) with (there r0 c0 s).
  destruct (empty_adj nrow ltac:(lia)) as [W0 P0].
  destruct (insert_all_ok here A _ _ W0) as (a1 & E1 & W1 & P1).
  { intros i j p S [<- | []]. pose proof (proj1 (stored_range A i j WA S)). cbn [fst]. lia. }
  rewrite E1. cbn [bind]. destruct (insert_all_ok (there r0 c0 s) B _ _ W1) as (a2 & E2 & W2 & P2).
  { intros i j [a b] S Hp. pose proof (stored_range B i j WB S). apply In_there in Hp. cbn [fst]. destruct Hp as [[-> ->] | (-> & -> & ->)]; lia. }
  rewrite E2. cbn [bind]. destruct (diag_inserts a2 nrow s W2 ltac:(lia)) as (a3 & E3 & W3 & P3). rewrite E3. cbn [bind].
  assert (P4 : forall a b, padj a3 a b <-> stored A a b \/ stored B (a - r0) (b - c0) \/ (s = true /\ (stored B (b - r0) (a - c0) \/ (a = b /\ 0 <= a < nrow)))).
  { intros a b. rewrite P3, P2, P1. split.
    - intros [[[Q | (i & j & S & [[= -> ->] | []])] | (i & j & S & Q)] | Q]; [destruct (P0 a b Q) | tauto | | tauto].
      apply In_there in Q as [[-> ->] | (-> & -> & ->)]; rewrite !Z.add_simpl_r; tauto.
    - intros [S | [S | (Hs & [S | S])]].
      + left. left. right. exists a, b. split; [exact S | left; reflexivity].
      + left. right. exists (a - r0), (b - c0). split; [exact S |]. apply In_there. left. lia.
      + left. right. exists (b - r0), (a - c0). split; [exact S |]. apply In_there. right. split; [exact Hs | lia].
      + right. tauto. }
  destruct (from_adjacency_ok a3 nrow ncol W3 ltac:(lia)) as (r & E4 & W4 & [D3 D4] & S4 & C4).
  { intros a b Q. apply P4 in Q as [Q | [Q | (Hs & [Q | Q])]].
    - pose proof (stored_range A a b WA Q). lia.
    - pose proof (stored_range B _ _ WB Q). lia.
    - pose proof (stored_range B _ _ WB Q). rewrite Hs in HM. lia.
    - specialize (SQ Hs). rewrite Hs in HN, HM. lia. }
  rewrite E4. cbn [bind]. destruct (assign_all_ok here (fun v _ => v) A r W4) as (r1 & E5 & W5 & [D5 D6] & S5 & C5).
  { intros i j p S [<- | []]. apply S4, P4. tauto. }
  rewrite E5. cbn [bind]. destruct (assign_all_ok (there r0 c0 s) (fun v _ => v) B r1 W5) as (r2 & E6 & W6 & [D7 D8] & S6 & C6).
  { intros i j [a b] S Q. apply In_there in Q. apply S5, S4, P4. cbn [fst snd]. destruct Q as [[-> ->] | (-> & -> & ->)]; rewrite !Z.add_simpl_r; tauto. }
  exists r2. split; [exact E6 |]. split; [exact W6 |]. split; [split; congruence |].
  split; [intros a b; rewrite S6, S5, S4, P4, D7, D5, D3; reflexivity |].
  assert (C7 : forall a b, coef r1 a b = coef A a b).
  { intros a b. rewrite C5. destruct (stored_dec A a b) as [S | S].
    - apply assigned with (i := a) (j := b); [exact WA | exact S | left; reflexivity |]. intros i' j' _ [[= -> ->] | []]. reflexivity.
    - rewrite not_assigned; [rewrite C4, coef_stored by assumption; reflexivity |]. intros i j Si [[= -> ->] | []]. exact (S Si). }
  split; [| split].
  - intros a b S. rewrite C6. apply assigned; [exact WB | exact S | apply In_there; left; lia |].
    intros i j Si Q. apply In_there in Q as [[Q1 Q2] | (Hs & Q1 & Q2)].
    + replace (a - r0) with i by lia. replace (b - c0) with j by lia. reflexivity.
    + apply (CO Hs); [exact Si | exact S | lia | lia].
  - intros a b Hs S. rewrite C6. apply assigned; [exact WB | exact S | apply In_there; right; split; [exact Hs | lia] |].
    intros i j Si Q. apply In_there in Q as [[Q1 Q2] | (_ & Q1 & Q2)].
    + apply (CO Hs); [exact Si | exact S | lia | lia].
    + replace (b - r0) with i by lia. replace (a - c0) with j by lia. reflexivity.
  - intros a b N1 N2. rewrite C6, not_assigned; [apply C7 |]. intros i j Si Q. apply In_there in Q as [[Q1 Q2] | (Hs & Q1 & Q2)].
    + apply N1. replace (a - r0) with i by lia. replace (b - c0) with j by lia. exact Si.
    + apply (N2 Hs). replace (b - r0) with i by lia. replace (a - c0) with j by lia. exact Si.
Qed.
Lemma augment_plain A B r0 c0 : wf_smat A -> wf_smat B -> 0 <= r0 -> 0 <= c0 ->
  exists r, augment A B r0 c0 false = Ok r /\ wf_smat r /\ dims r (Z.max (sm_n A) (r0 + sm_n B)) (Z.max (sm_m A) (c0 + sm_m B)) /\
    (forall a b, stored r a b <-> stored A a b \/ stored B (a - r0) (b - c0)) /\
    (forall a b, stored B (a - r0) (b - c0) -> coef r a b = coef B (a - r0) (b - c0)) /\
    (forall a b, ~ stored B (a - r0) (b - c0) -> coef r a b = coef A a b).
Proof.
  intros WA WB Hr Hc. destruct (augment_gen A B r0 c0 false WA WB Hr Hc) as (r & E & W & [D1 D2] & S & C1 & _ & C2); try discriminate.
  exists r. split; [exact E |]. split; [exact W |]. pose proof (wf_n A WA). pose proof (proj1 (proj2 WA)).
  split; [split; lia |]. split; [| split; [exact C1 | intros a b N; apply C2; [exact N | discriminate]]].
  intros a b. rewrite S. split; [intros [Q | [Q | (Q & _)]]; [tauto | tauto | discriminate] | tauto].
Qed.
Lemma augment_symmetric A B r0 c0 : wf_smat A -> wf_smat B -> 0 <= r0 -> 0 <= c0 -> sm_n A = sm_m A ->
  (forall i j i' j', stored B i j -> stored B i' j' -> i + r0 = j' + c0 -> j + c0 = i' + r0 -> coef B i j = coef B i' j') ->
  exists r n, augment A B r0 c0 true = Ok r /\ wf_smat r /\ n = Z.max (sm_n A) (Z.max (r0 + sm_n B) (c0 + sm_m B)) /\ dims r n n /\
    (forall a b, stored r a b <-> stored A a b \/ stored B (a - r0) (b - c0) \/ stored B (b - r0) (a - c0) \/ (a = b /\ 0 <= a < n)) /\
    (forall a b, stored B (a - r0) (b - c0) -> coef r a b = coef B (a - r0) (b - c0) /\ coef r b a = coef B (a - r0) (b - c0)) /\
    (forall a b, ~ stored B (a - r0) (b - c0) -> ~ stored B (b - r0) (a - c0) -> coef r a b = coef A a b) /\
    ((forall a b, coef A a b = coef A b a) -> forall a b, coef r a b = coef r b a).
Proof.
  intros WA WB Hr Hc SQ CO. destruct (augment_gen A B r0 c0 true WA WB Hr Hc (fun _ => SQ) (fun _ => CO)) as (r & E & W & [D1 D2] & S & C1 & C2 & C3).
  exists r, (Z.max (sm_n A) (Z.max (r0 + sm_n B) (c0 + sm_m B))). split; [exact E |]. split; [exact W |]. split; [reflexivity |].
  assert (D3 : sm_n r = Z.max (sm_n A) (Z.max (r0 + sm_n B) (c0 + sm_m B))) by lia.
  split; [split; [exact D3 | lia] |].
  split; [intros a b; rewrite S, D3; tauto |]. split; [intros a b Q; split; [exact (C1 a b Q) | exact (C2 b a eq_refl Q)] |].
  split; [intros a b N1 N2; exact (C3 a b N1 (fun _ => N2)) |].
  intros SA a b. destruct (stored_dec B (a - r0) (b - c0)) as [Q | Q]; [rewrite (C1 a b Q), (C2 b a eq_refl Q); reflexivity |].
  destruct (stored_dec B (b - r0) (a - c0)) as [Q' | Q']; [rewrite (C2 a b eq_refl Q'), (C1 b a Q'); reflexivity |].
  rewrite (C3 a b Q (fun _ => Q')), (C3 b a Q' (fun _ => Q)). apply SA.
Qed.

Lemma diagonal_ok n : 0 <= n -> exists r, diagonal n = Ok r /\ wf_smat r /\ dims r n n /\ (forall a b, stored r a b <-> a = b /\ 0 <= a < n) /\ forall a b, coef r a b = 0%R.
Proof.
  intros Hn. unfold diagonal. destruct (empty_adj n Hn) as [W0 P0]. destruct (diag_inserts _ n true W0 Hn) as (adj & E & W & P). rewrite E. cbn [bind].
  assert (P' : forall a b, padj adj a b <-> a = b /\ 0 <= a < n).
  { intros a b. rewrite P. split; [intros [Q | (_ & Q)]; [destruct (P0 a b Q) | exact Q] | intros Q; right; tauto]. }
  destruct (from_adjacency_ok adj n n W Hn) as (r & E2 & W2 & D & S & C); [intros a b Q; apply P' in Q; lia |].
  exists r. split; [exact E2 |]. split; [exact W2 |]. split; [exact D |]. split; [intros a b; rewrite S; apply P' | exact C].
Qed.
Lemma sm_at_stored m i j : wf_smat m -> stored m i j -> sm_at m i j = Ok (coef m i j).
Proof.
  intros W S. apply entries_stored in S as (v & H). rewrite (entries_coef m i j v W H). apply In_entries in H as (row & E & H). unfold sm_at.
  rewrite (proj2 (rget_Ok _ _ _) E). cbn [bind]. rewrite (proj2 (row_find_In row (proj1 (proj2 (proj2 W) row (zget_In _ _ _ E))) j v) H). reflexivity.
Qed.
Lemma sm_at_UB m i j : wf_smat m -> ~ stored m i j -> sm_at m i j = UB.
Proof.
  intros W S. unfold sm_at, rget. destruct (zget (sm_rows m) i) as [row |] eqn:E; cbn [bind]; [| reflexivity].
  destruct (row_find row j) as [v |] eqn:F; [| reflexivity]. exfalso. apply S. exists row, v. split; [exact E |]. apply row_find_In; [apply W; eapply zget_In; eassumption | exact F].
Qed.
Lemma extract_diagonal_ok A : wf_smat A -> (forall i, 0 <= i < sm_m A -> stored A i i) ->
  exists r, extract_diagonal A = Ok r /\ wf_smat r /\ dims r (sm_m A) (sm_m A) /\ forall a b, coef r a b = if (a =? b) && (0 <=? a) && (a <? sm_m A) then coef A a a else 0%R.
Proof.
  intros WA H. unfold extract_diagonal. destruct (diagonal_ok (sm_m A) (proj1 (proj2 WA))) as (r & E & W & [D1 D2] & S & C). rewrite E. cbn [bind].
  set (l := map (fun i => ((i, i), fun _ : R => coef A i i)) (zrange 0 (sm_m A))).
  assert (E2 : foldM (fun r i => let* v := sm_at A i i in sm_upd r i i (fun _ => v)) (zrange 0 (sm_m A)) r = foldM (fun m e => sm_upd m (fst (fst e)) (snd (fst e)) (snd e)) l r).
  { rewrite (foldM_ext _ (fun r i => sm_upd r i i (fun _ => coef A i i))).
    - unfold l. clear. revert r. induction (zrange 0 (sm_m A)) as [| i t IH]; intros r; cbn [foldM map fst snd]; [reflexivity |]. destruct (sm_upd r i i (fun _ => coef A i i)); cbn [bind]; [apply IH | reflexivity | reflexivity].
    - intros s i Hi. apply In_zrange in Hi. rewrite sm_at_stored; [reflexivity | exact WA | exact (H i Hi)]. }
  rewrite E2. destruct (sm_upds_ok l r W) as (r' & E3 & W3 & [D3 D4] & S3 & C3).
  { intros e He. apply in_map_iff in He as (i & <- & Hi). apply In_zrange in Hi. cbn [fst snd]. apply S. lia. }
  exists r'. split; [exact E3 |]. split; [exact W3 |]. split; [split; congruence |]. intros a b. rewrite C3.
  destruct (Z.eqb_spec a b) as [<- | N]; cbn [andb].
  - destruct ((0 <=? a) && (a <? sm_m A)) eqn:Q.
    + apply fold_const; [intros e He Q1 x; apply in_map_iff in He as (i & <- & Hi); cbn in *; injection Q1 as ->; reflexivity |].
      exists ((a, a), fun _ => coef A a a). split; [apply in_map_iff; exists a; split; [reflexivity | apply In_zrange; lia] | reflexivity].
    + rewrite fold_none; [apply C |]. intros e He Q1. apply in_map_iff in He as (i & <- & Hi). apply In_zrange in Hi. cbn in Q1. injection Q1 as ->. lia.
  - rewrite fold_none; [apply C |]. intros e He Q1. apply in_map_iff in He as (i & <- & Hi). cbn in Q1. injection Q1 as -> ->. contradiction.
Qed.
Lemma extract_diagonal_missing A i : wf_smat A -> 0 <= i < sm_m A -> ~ stored A i i -> extract_diagonal A = UB.
Proof.
  intros WA Hi N. unfold extract_diagonal. destruct (diagonal_ok (sm_m A) (proj1 (proj2 WA))) as (r & E & W & [D1 D2] & S & _). rewrite E. cbn [bind].
  assert (Hin : In i (zrange 0 (sm_m A))) by (apply In_zrange; exact Hi).
  assert (Sub : forall k, In k (zrange 0 (sm_m A)) -> 0 <= k < sm_m A) by (intros k Hk; apply In_zrange in Hk; exact Hk).
  revert Hin Sub. clear E D1 D2. revert r W S. induction (zrange 0 (sm_m A)) as [| k t IH]; intros r W S Hin Sub; [destruct Hin |]. cbn [foldM].
  destruct (stored_dec A k k) as [Sk | Sk].
  - rewrite (sm_at_stored A k k WA Sk). cbn [bind]. destruct (sm_upd_ok r k k (fun _ => coef A k k) W) as (r' & E & W' & _ & S' & _); [apply S; split; [reflexivity | apply Sub; left; reflexivity] |].
    rewrite E. cbn [bind]. destruct Hin as [-> | Hin]; [contradiction |]. apply IH; [exact W' | | exact Hin | intros q Hq; apply Sub; right; exact Hq].
    intros a b. rewrite S'. apply S.
  - rewrite (sm_at_UB A k k WA Sk). reflexivity.
Qed.

Lemma extract_block_ok A r0 n c0 m : wf_smat A -> 0 <= n -> 0 <= m ->
  exists r, extract_block A r0 n c0 m = Ok r /\ wf_smat r /\ dims r n m /\
    (forall a b, stored r a b <-> 0 <= a < n /\ 0 <= b < m /\ stored A (a + r0) (b + c0)) /\
    forall a b, 0 <= a < n -> 0 <= b < m -> coef r a b = coef A (a + r0) (b + c0).
Proof.
  intros WA Hn Hm. unfold extract_block. cbv zeta.
  set (pos := fun i j : Z => if (i <? r0) || (n + r0 <=? i) then [] else if (j <? c0) || (m + c0 <=? j) then [] else [(i - r0, j - c0)]).
  assert (P : forall i j a b, In (a, b) (pos i j) <-> 0 <= a < n /\ 0 <= b < m /\ i = a + r0 /\ j = b + c0).
  { intros i j a b. unfold pos. destruct ((i <? r0) || (n + r0 <=? i)) eqn:Q1; [split; [intros [] | lia] |]. destruct ((j <? c0) || (m + c0 <=? j)) eqn:Q2; [split; [intros [] | lia] |].
    cbn [In]. split; [intros [[= <- <-] | []]; lia |]. intros Q. left. f_equal; lia. }
  clearbody pos. destruct (empty_adj n Hn) as [W0 P0].
  destruct (insert_all_ok pos A _ _ W0) as (a1 & E1 & W1 & P1); [intros i j [a b] S Q; apply P in Q; cbn [fst]; lia |].
  rewrite E1. cbn [bind].
  assert (P2 : forall a b, padj a1 a b <-> 0 <= a < n /\ 0 <= b < m /\ stored A (a + r0) (b + c0)).
  { intros a b. rewrite P1. split.
    - intros [Q | (i & j & S & Q)]; [destruct (P0 a b Q) |]. apply P in Q as (H1 & H2 & -> & ->). tauto.
    - intros (H1 & H2 & S). right. exists (a + r0), (b + c0). split; [exact S |]. apply P. tauto. }
  destruct (from_adjacency_ok a1 n m W1 Hm) as (r & E2 & W2 & [D1 D2] & S2 & C2); [intros a b Q; apply P2 in Q; lia |].
  rewrite E2. cbn [bind]. destruct (assign_all_ok pos (fun v _ => v) A r W2) as (r1 & E3 & W3 & [D3 D4] & S3 & C3).
  { intros i j [a b] S Q. apply P in Q as (H1 & H2 & -> & ->). apply S2, P2. tauto. }
  exists r1. split; [exact E3 |]. split; [exact W3 |]. split; [split; congruence |]. split; [intros a b; rewrite S3, S2; apply P2 |].
  intros a b Ha Hb. rewrite C3. destruct (stored_dec A (a + r0) (b + c0)) as [S | S].
  - apply assigned; [exact WA | exact S | apply P; tauto |]. intros i j _ Q. apply P in Q as (_ & _ & -> & ->). reflexivity.
  - rewrite not_assigned; [rewrite C2, coef_stored by assumption; reflexivity |]. intros i j Si Q. apply P in Q as (_ & _ & -> & ->). exact (S Si).
Qed.

Lemma from_dense_ok n m T : 0 <= n -> 0 <= m ->
  exists r, from_dense n m T = Ok r /\ wf_smat r /\ dims r n m /\
    (forall a b, stored r a b <-> 0 <= a < n /\ 0 <= b < m /\ (/ 10 ^ 14 < Rabs (T a b))%R) /\
    (forall a b, stored r a b -> coef r a b = T a b) /\ (forall a b, ~ stored r a b -> coef r a b = 0%R).
Proof.
  intros Hn Hm. unfold from_dense.
  set (ps := flat_map (fun i => map (fun j => (i, j)) (filter (fun j => Rltb (/ 10 ^ 14) (Rabs (T i j))) (zrange 0 m))) (zrange 0 n)).
  assert (E1 : foldM (fun a i => foldM (fun a j => if Rltb (/ 10 ^ 14) (Rabs (T i j)) then adj_insert a (i, j) else Ok a) (zrange 0 m) a) (zrange 0 n) (zrepeat [] n) = foldM adj_insert ps (zrepeat [] n)).
  { unfold ps. rewrite <- foldM_flat_map. apply foldM_ext. intros s i _. clear. revert s. induction (zrange 0 m) as [| j t IH]; intros s; cbn [foldM filter map]; [reflexivity |].
    destruct (Rltb (/ 10 ^ 14) (Rabs (T i j))); cbn [foldM map bind]; [| apply IH]. destruct (adj_insert s (i, j)); cbn [bind]; [apply IH | reflexivity | reflexivity]. }
  rewrite E1. destruct (empty_adj n Hn) as [W0 P0].
  assert (In_ps : forall a b, In (a, b) ps <-> 0 <= a < n /\ 0 <= b < m /\ (/ 10 ^ 14 < Rabs (T a b))%R).
  { intros a b. unfold ps. rewrite in_flat_map. split.
    - intros (i & Hi & H). apply in_map_iff in H as (j & [= -> ->] & H). apply filter_In in H as [Hj Hv]. apply In_zrange in Hi, Hj. unfold Rltb in Hv. destruct (Rlt_dec _ _); [tauto | discriminate].
    - intros (Ha & Hb & Hv). exists a. split; [apply In_zrange; exact Ha |]. apply in_map_iff. exists b. split; [reflexivity |]. apply filter_In. split; [apply In_zrange; exact Hb |].
      unfold Rltb. destruct (Rlt_dec _ _); [reflexivity | contradiction]. }
  clearbody ps. destruct (adj_inserts_ok ps _ n W0) as (a1 & E2 & W1 & P1); [intros [a b] Q; apply In_ps in Q; cbn [fst]; tauto |].
  rewrite E2. cbn [bind].
  assert (P2 : forall a b, padj a1 a b <-> 0 <= a < n /\ 0 <= b < m /\ (/ 10 ^ 14 < Rabs (T a b))%R).
  { intros a b. rewrite P1, In_ps. split; [intros [Q | Q]; [destruct (P0 a b Q) | exact Q] | tauto]. }
  destruct (from_adjacency_ok a1 n m W1 Hm) as (r & E3 & W3 & [D1 D2] & S3 & C3); [intros a b Q; apply P2 in Q; tauto |].
  rewrite E3. cbn [bind]. set (l := map (fun e : Z * Z * R => (fst e, fun _ : R => T (fst (fst e)) (snd (fst e)))) (entries r)).
  assert (E4 : foldM (fun r0 e => let '(i, j, _) := e in sm_upd r0 i j (fun _ => T i j)) (entries r) r = foldM (fun m e => sm_upd m (fst (fst e)) (snd (fst e)) (snd e)) l r).
  { unfold l. generalize r at 2 4. induction (entries r) as [| [[i j] v] t IH]; intros s; cbn [foldM map fst snd]; [reflexivity |]. destruct (sm_upd s i j (fun _ => T i j)); cbn [bind]; [apply IH | reflexivity | reflexivity]. }
  rewrite E4. destruct (sm_upds_ok l r W3) as (r1 & E5 & W5 & [D3 D4] & S5 & C5).
  { intros e He. apply in_map_iff in He as ([[i j] v] & <- & Hin). cbn [fst snd]. apply entries_stored. eauto. }
  exists r1. split; [exact E5 |]. split; [exact W5 |]. split; [split; congruence |]. split; [intros a b; rewrite S5, S3; apply P2 |]. split.
  - intros a b S. apply S5 in S. rewrite C5. apply fold_const.
    + intros e He Q x. apply in_map_iff in He as ([[i j] v] & <- & Hin). cbn [fst snd] in *. injection Q as -> ->. reflexivity.
    + apply entries_stored in S as (v & S). exists ((a, b), fun _ => T a b). split; [apply in_map_iff; exists (a, b, v); split; [reflexivity | exact S] | reflexivity].
  - intros a b S. rewrite S5 in S. rewrite C5, fold_none; [apply C3 |]. intros e He Q. apply in_map_iff in He as ([[i j] v] & <- & Hin). cbn [fst snd] in Q. injection Q as -> ->. apply S, entries_stored. eauto.
Qed.

Lemma asc_line_ok cols row : forall prev, increasing (map fst row) -> (forall e, In e row -> prev < fst e < cols) -> prev < cols ->
  zlen (asc_line cols prev row) = cols - prev - 1 /\
  forall j, prev < j < cols -> zget (asc_line cols prev row) (j - prev - 1) = Some (match row_find row j with Some v => v | None => 0%R end).
Proof.
  induction row as [| [k v] t IH]; intros prev I H Hp; cbn [asc_line].
  - split; [apply zlen_zrepeat; lia |]. intros j Hj. cbn [row_find]. rewrite zget_zrepeat by lia. reflexivity.
  - destruct I as [I1 I2]. pose proof (H (k, v) (or_introl eq_refl)) as Hk. cbn [fst] in Hk.
    destruct (IH k I2) as [L G]; [intros e He; split; [apply I1, in_map, He | apply H; right; exact He] | lia |].
    assert (L0 : zlen (zrepeat 0%R (k - prev - 1)) = k - prev - 1) by (apply zlen_zrepeat; lia).
    split.
    + rewrite zlen_app, L0. unfold zlen in *. cbn [length]. lia.
    + intros j Hj. cbn [row_find]. destruct (Z.eqb_spec k j) as [<- | N].
      * rewrite zget_app_r by lia. rewrite L0. replace (k - prev - 1 - (k - prev - 1)) with 0 by lia. reflexivity.
      * destruct (Z_lt_le_dec j k) as [Q | Q].
        -- rewrite zget_app_l by lia. rewrite zget_zrepeat by lia. destruct (row_find t j) as [w |] eqn:F; [| reflexivity]. exfalso.
           apply row_find_In in F; [| exact I2]. apply (in_map fst) in F. specialize (I1 _ F). cbn in I1. lia.
        -- rewrite zget_app_r by lia. rewrite L0. assert (0 < j - prev - 1 - (k - prev - 1)) by lia.
           rewrite zget_nth by lia. replace (Z.to_nat (j - prev - 1 - (k - prev - 1))) with (Datatypes.S (Z.to_nat (j - k - 1))) by lia. cbn [nth_error].
           rewrite <- zget_nth by lia. apply G. lia.
Qed.
Lemma save_asc_ok A : wf_smat A -> fst (save_asc A) = (sm_n A, sm_m A) /\ zlen (snd (save_asc A)) = sm_n A /\
  forall i line, zget (snd (save_asc A)) i = Some line -> zlen line = sm_m A /\ forall j, 0 <= j < sm_m A -> zget line j = Some (coef A i j).
Proof.
  intros (W1 & W2 & W3). unfold save_asc. cbn [fst snd]. split; [reflexivity |]. split; [rewrite zlen_map; exact W1 |].
  intros i line E. rewrite zget_map in E. unfold coef. destruct (zget (sm_rows A) i) as [row |] eqn:F; [| discriminate]. cbn [option_map] in E. injection E as <-.
  destruct (W3 row (zget_In _ _ _ F)) as [I1 I2].
  destruct (asc_line_ok (sm_m A) row (-1) I1) as [L G]; [intros e He; specialize (I2 e He); lia | lia |].
  split; [lia |]. intros j Hj. specialize (G j ltac:(lia)). replace (j - -1 - 1) with j in G by lia. exact G.
Qed.
Lemma print_ok A i j v : wf_smat A -> (In (i, j, v) (print_lines A) <-> stored A i j /\ v = coef A i j /\ (/ 10 ^ 14 <= Rabs v)%R).
Proof.
  intros W. unfold print_lines. rewrite filter_In. cbn [snd]. unfold Rltb. split.
  - intros [H1 H2]. destruct (Rlt_dec _ _) as [Q | Q]; [discriminate |]. split; [apply entries_stored; eauto |]. split; [symmetry; apply entries_coef; assumption | lra].
  - intros (S & -> & H). apply entries_stored in S as (v & S). rewrite (entries_coef A i j v W S) in H |- *. split; [exact S |]. destruct (Rlt_dec _ _) as [Q | Q]; [lra | reflexivity].
Qed.
Definition ex_smat : smat := mkSmat 2 2 [[(0, 1%R)]; [(0, 2%R); (1, 3%R)]].
Lemma ex_smat_ok : wf_smat ex_smat /\ dims ex_smat 2 2 /\ (forall i, 0 <= i < sm_m ex_smat -> stored ex_smat i i) /\ ~ stored ex_smat 0 1 /\
  (forall i j i' j', stored ex_smat i j -> stored ex_smat i' j' -> i + 0 = j' + 2 -> j + 2 = i' + 0 -> coef ex_smat i j = coef ex_smat i' j').
Proof.
  assert (W : wf_smat ex_smat).
  { split; [reflexivity |]. split; [cbn; lia |]. intros row [<- | [<- | []]]; cbn.
    - split; [split; [intros y [] | exact I] |]. intros e [<- | []]. cbn. lia.
    - split; [split; [intros y [<- | []]; lia | split; [intros y [] | exact I]] |]. intros e [<- | [<- | []]]; cbn; lia. }
  split; [exact W |]. split; [split; reflexivity |]. split.
  - intros i Hi. cbn in Hi. assert (i = 0 \/ i = 1) as [-> | ->] by lia.
    + exists [(0, 1%R)], 1%R. split; [reflexivity | left; reflexivity].
    + exists [(0, 2%R); (1, 3%R)], 3%R. split; [reflexivity | right; left; reflexivity].
  - split.
    + intros (row & v & E & H). injection E as <-. destruct H as [[= ] | []].
    + intros i j i' j' S S' H1 H2. pose proof (stored_range _ _ _ W S). pose proof (stored_range _ _ _ W S'). cbn in *. lia.
Qed.
