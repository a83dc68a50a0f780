From Verif Require Import BaseFacts RBaseFacts Smat_Spec.
From Coq Require Import Lra Lia.
Open Scope Z_scope.

(* ---- sets and patterns *)
Lemma In_set_insert x y l : In y (set_insert x l) <-> y = x \/ In y l.
Proof.
  induction l as [| h t IH]; cbn [set_insert].
  - cbn. intuition.
  - destruct (Z.ltb_spec x h); [cbn; intuition |]. destruct (Z.ltb_spec h x).
    + cbn [In]. rewrite IH. intuition.
    + assert (x = h) as -> by lia. cbn. intuition.
Qed.
Lemma increasing_insert x l : increasing l -> increasing (set_insert x l).
Proof.
  induction l as [| h t IH]; intros H; cbn [set_insert].
  - split; [intros y [] | exact I].
  - destruct H as [H1 H2]. destruct (Z.ltb_spec x h).
    + split; [| split; assumption]. intros y [<- | Hy]; [lia |]. specialize (H1 _ Hy). lia.
    + destruct (Z.ltb_spec h x).
      * split; [| exact (IH H2)]. intros y Hy. apply In_set_insert in Hy as [-> | Hy]; [lia | exact (H1 _ Hy)].
      * split; assumption.
Qed.
Definition padj (adj : list (list Z)) (i j : Z) : Prop := exists row, zget adj i = Some row /\ In j row.
Definition wf_adj (adj : list (list Z)) (n : Z) : Prop := zlen adj = n /\ forall row, In row adj -> increasing row.
Lemma adj_insert_ok adj n i j : wf_adj adj n -> 0 <= i < n -> exists adj', adj_insert adj (i, j) = Ok adj' /\ wf_adj adj' n /\
  forall a b, padj adj' a b <-> padj adj a b \/ (a = i /\ b = j).
Proof.
  intros [W1 W2] Hi. unfold adj_insert. cbn [fst snd].
  destruct (rget_range adj i) as (row & E & E'); [lia |]. rewrite E. cbn [bind].
  destruct (rset_exists adj i (set_insert j row)) as (adj' & E2 & L & G); [lia |].
  exists adj'. split; [exact E2 |].
  assert (G' : forall a, zget adj' a = if a =? i then Some (set_insert j row) else zget adj a) by (intros a; destruct (Z.eqb_spec a i) as [-> |]; [apply G | apply G; assumption]).
  split.
  - split; [lia |]. intros r Hr. apply In_zget in Hr as (a & Ha & Hr). rewrite G' in Hr. destruct (a =? i).
    + injection Hr as <-. apply increasing_insert, W2. eapply zget_In; eassumption.
    + apply W2. eapply zget_In; eassumption.
  - intros a b. unfold padj. rewrite G'. destruct (Z.eqb_spec a i) as [-> | N].
    + split.
      * intros (r & [= <-] & Hb). apply In_set_insert in Hb as [-> | Hb]; [right; tauto |]. left. eauto.
      * intros [(r & E3 & Hb) | [_ ->]]; (eexists; split; [reflexivity |]); apply In_set_insert; [right; congruence | left; reflexivity].
    + split; [intros H; left; exact H | intros [H | [-> _]]; [exact H | contradiction]].
Qed.
Lemma adj_inserts_ok ps : forall adj n, wf_adj adj n -> (forall p, In p ps -> 0 <= fst p < n) -> exists adj', foldM adj_insert ps adj = Ok adj' /\ wf_adj adj' n /\
  forall a b, padj adj' a b <-> padj adj a b \/ In (a, b) ps.
Proof.
  induction ps as [| [i j] ps IH]; intros adj n W H; cbn [foldM].
  - exists adj. split; [reflexivity |]. split; [exact W |]. intros a b. cbn. tauto.
  - destruct (adj_insert_ok adj n i j W (H (i, j) (or_introl eq_refl))) as (a1 & E & W1 & P1). rewrite E. cbn [bind].
    destruct (IH a1 n W1 (fun p Hp => H p (or_intror Hp))) as (a2 & E2 & W2 & P2). exists a2. split; [exact E2 |]. split; [exact W2 |].
    intros a b. rewrite P2, P1. cbn [In]. split.
    + intros [[Q | [-> ->]] | Q]; tauto.
    + intros [Q | [Q | Q]]; [tauto | injection Q as -> ->; tauto | tauto].
Qed.
Lemma foldM_flat_map {A B S} (f : S -> B -> res S) (g : A -> list B) l : forall s,
  foldM (fun s a => foldM f (g a) s) l s = foldM f (flat_map g l) s.
Proof.
  induction l as [| a l IH]; intros s; cbn [foldM flat_map]; [reflexivity |].
  rewrite foldM_app. destruct (foldM f (g a) s) as [s' | |]; cbn [bind]; [apply IH | reflexivity | reflexivity].
Qed.
Lemma foldM_ext {A S} (f g : S -> A -> res S) l : (forall s a, In a l -> f s a = g s a) -> forall s, foldM f l s = foldM g l s.
Proof.
  induction l as [| a l IH]; intros H s; cbn [foldM]; [reflexivity |]. rewrite (H s a (or_introl eq_refl)).
  destruct (g s a); cbn [bind]; [apply IH; intros; apply H; right; assumption | reflexivity | reflexivity].
Qed.
Lemma empty_adj n : 0 <= n -> wf_adj (zrepeat [] n) n /\ forall a b, ~ padj (zrepeat [] n) a b.
Proof.
  intros Hn. split.
  - split; [apply zlen_zrepeat; exact Hn |]. intros row H. apply repeat_spec in H. subst. exact I.
  - intros a b (row & E & Hb). pose proof (zget_Some_range _ _ _ E) as Ha. rewrite zlen_zrepeat in Ha by exact Hn.
    rewrite zget_zrepeat in E by lia. injection E as <-. destruct Hb.
Qed.

(* ---- rows *)
Lemma row_find_In row : increasing (map fst row) -> forall j v, row_find row j = Some v <-> In (j, v) row.
Proof.
  induction row as [| [k w] t IH]; intros H j v; cbn [row_find].
  - split; [discriminate | intros []].
  - destruct H as [H1 H2]. specialize (IH H2). destruct (Z.eqb_spec k j) as [-> | N].
    + split; [intros [= ->]; left; reflexivity |]. intros [[= ->] | Hin]; [reflexivity |].
      exfalso. assert (In j (map fst t)) as Q by (apply in_map_iff; exists (j, v); split; [reflexivity | exact Hin]). specialize (H1 _ Q). cbn in H1. lia.
    + rewrite IH. cbn [In]. split; [tauto |]. intros [[= -> _] | Q]; [contradiction | exact Q].
Qed.
Lemma row_find_None row j : row_find row j = None <-> ~ In j (map fst row).
Proof.
  induction row as [| [k w] t IH]; cbn [row_find map fst]; [split; [intros _ [] | reflexivity] |].
  destruct (Z.eqb_spec k j) as [-> | N]; [split; [discriminate | intros H; destruct H; left; reflexivity] |].
  rewrite IH. cbn [In]. tauto.
Qed.
Lemma row_upd_ok row j f : In j (map fst row) -> exists row', row_upd row j f = Some row' /\ map fst row' = map fst row /\
  forall b, row_find row' b = if b =? j then option_map f (row_find row j) else row_find row b.
Proof.
  induction row as [| [k v] t IH]; intros H; [destruct H |]. cbn [row_upd row_find]. destruct (Z.eqb_spec k j) as [-> | N].
  - eexists. split; [reflexivity |]. split; [reflexivity |]. intros b. cbn [row_find option_map]. rewrite (Z.eqb_sym j b). destruct (Z.eqb_spec b j); reflexivity.
  - destruct H as [H | H]; [cbn in H; contradiction |]. destruct (IH H) as (t' & E & M & G). rewrite E.
    eexists. split; [reflexivity |]. split; [cbn [map fst]; rewrite M; reflexivity |]. intros b. cbn [row_find]. rewrite G.
    destruct (Z.eqb_spec k b) as [-> | N2]; [destruct (Z.eqb_spec b j) as [-> | _]; [contradiction | reflexivity] | reflexivity].
Qed.
Lemma stored_map m i j : stored m i j <-> exists row, zget (sm_rows m) i = Some row /\ In j (map fst row).
Proof.
  split.
  - intros (row & v & E & H). exists row. split; [exact E |]. apply in_map_iff. exists (j, v). tauto.
  - intros (row & E & H). apply in_map_iff in H as ([j' v] & <- & H). exists row, v. tauto.
Qed.
Lemma coef_stored m i j : wf_smat m -> ~ stored m i j -> coef m i j = 0%R.
Proof.
  intros (_ & _ & W) H. unfold coef. destruct (zget (sm_rows m) i) as [row |] eqn:E; [| reflexivity].
  destruct (row_find row j) as [v |] eqn:F; [| reflexivity]. exfalso. apply H.
  exists row, v. split; [exact E |]. apply row_find_In; [| exact F]. apply W. eapply zget_In; eassumption.
Qed.
Lemma stored_range m i j : wf_smat m -> stored m i j -> 0 <= i < sm_n m /\ 0 <= j < sm_m m.
Proof.
  intros (W1 & _ & W2) (row & v & E & H). pose proof (zget_Some_range _ _ _ E). split; [lia |].
  exact (proj2 (W2 row (zget_In _ _ _ E)) (j, v) H).
Qed.

Lemma sm_upd_ok m i j f : wf_smat m -> stored m i j -> exists m', sm_upd m i j f = Ok m' /\ wf_smat m' /\ dims m' (sm_n m) (sm_m m) /\
  (forall a b, stored m' a b <-> stored m a b) /\ forall a b, coef m' a b = if (a =? i) && (b =? j) then f (coef m i j) else coef m a b.
Proof.
  intros W S. pose proof W as (W1 & W0 & W2). apply stored_map in S as (row & E & Hj).
  unfold sm_upd. assert (E1 : rget (sm_rows m) i = Ok row) by (apply rget_Ok; exact E). rewrite E1. cbn [bind].
  destruct (row_upd_ok row j f Hj) as (row' & E2 & M & G). rewrite E2.
  pose proof (zget_Some_range _ _ _ E) as Hi.
  destruct (rset_exists (sm_rows m) i row') as (rows' & E3 & L & G3); [exact Hi |]. rewrite E3. cbn [bind].
  eexists. split; [reflexivity |]. cbn [sm_rows sm_n sm_m].
  assert (G4 : forall a, zget rows' a = if a =? i then Some row' else zget (sm_rows m) a) by (intros a; destruct (Z.eqb_spec a i) as [-> |]; [apply G3 | apply G3; assumption]). clear G3.
  destruct (W2 row (zget_In _ _ _ E)) as [I1 I2].
  split; [| split; [split; reflexivity | split]].
  - split; [cbn; lia |]. split; [exact W0 |]. cbn [sm_rows sm_m]. intros r Hr. apply In_zget in Hr as (a & _ & Hr). rewrite G4 in Hr. destruct (a =? i).
    + injection Hr as <-. rewrite M. split; [exact I1 |]. intros e He.
      assert (In (fst e) (map fst row)) as Q by (rewrite <- M; apply in_map; exact He). apply in_map_iff in Q as (e' & <- & He'). exact (I2 e' He').
    + apply W2. eapply zget_In; eassumption.
  - intros a b. rewrite !stored_map. cbn [sm_rows]. rewrite G4. destruct (Z.eqb_spec a i) as [-> | N]; [| reflexivity].
    split; [intros (r & [= <-] & H); rewrite M in H; eauto | intros (r & E5 & H); exists row'; split; [reflexivity |]; rewrite M; congruence].
  - intros a b. unfold coef. cbn [sm_rows]. rewrite G4, E. destruct (Z.eqb_spec a i) as [-> | N]; cbn [andb]; [| reflexivity].
    rewrite G, E. destruct (b =? j); [| reflexivity]. destruct (row_find row j) eqn:F; [reflexivity |]. exfalso. exact (proj1 (row_find_None row j) F Hj).
Qed.
(* a list of updates *)
Definition at_pos (p : Z * Z) (a b : Z) : bool := (a =? fst p) && (b =? snd p).
Lemma sm_upds_ok (l : list ((Z * Z) * (R -> R))) : forall m, wf_smat m -> (forall e, In e l -> stored m (fst (fst e)) (snd (fst e))) ->
  exists m', foldM (fun m e => sm_upd m (fst (fst e)) (snd (fst e)) (snd e)) l m = Ok m' /\ wf_smat m' /\ dims m' (sm_n m) (sm_m m) /\
  (forall a b, stored m' a b <-> stored m a b) /\
  forall a b, coef m' a b = fold_left (fun x e => if at_pos (fst e) a b then (snd e) x else x) l (coef m a b).
Proof.
  induction l as [| [[i j] f] l IH]; intros m W H; cbn [foldM].
  - exists m. split; [reflexivity |]. split; [exact W |]. split; [split; reflexivity |]. split; [tauto | reflexivity].
  - destruct (sm_upd_ok m i j f W (H _ (or_introl eq_refl))) as (m1 & E & W1 & [D1 D2] & S1 & C1). cbn [fst snd]. rewrite E. cbn [bind].
    destruct (IH m1 W1) as (m2 & E2 & W2 & [D3 D4] & S2 & C2).
    { intros e He. apply S1. exact (H e (or_intror He)). }
    exists m2. split; [exact E2 |]. split; [exact W2 |]. split; [split; congruence |]. split; [intros a b; rewrite S2; apply S1 |].
    intros a b. rewrite C2, C1. cbn [fold_left fst snd]. change (at_pos (i, j) a b) with ((a =? i) && (b =? j)).
    destruct (Z.eqb_spec a i) as [-> | N]; cbn [andb]; [| reflexivity]. destruct (Z.eqb_spec b j) as [-> | N]; reflexivity.
Qed.
(* what assignments leave at a place *)
Lemma fold_none (l : list ((Z * Z) * (R -> R))) a b : (forall e, In e l -> fst e <> (a, b)) -> forall x,
  fold_left (fun x e => if at_pos (fst e) a b then (snd e) x else x) l x = x.
Proof.
  induction l as [| [[i j] f] l IH]; intros H x; cbn [fold_left fst snd]; [reflexivity |].
  assert (at_pos (i, j) a b = false) as ->.
  { unfold at_pos. cbn [fst snd]. destruct (Z.eqb_spec a i) as [-> |]; [| reflexivity]. destruct (Z.eqb_spec b j) as [-> |]; [| reflexivity].
    exfalso. exact (H (i, j, f) (or_introl eq_refl) eq_refl). }
  apply IH. intros e He. exact (H e (or_intror He)).
Qed.
Lemma at_pos_true p a b : at_pos p a b = true <-> p = (a, b).
Proof. unfold at_pos. destruct p as [i j]. cbn. rewrite andb_true_iff, !Z.eqb_eq. split; [intros [-> ->]; reflexivity | intros [= -> ->]; split; reflexivity]. Qed.
Lemma fold_const (l : list ((Z * Z) * (R -> R))) a b v : (forall e, In e l -> fst e = (a, b) -> forall x, snd e x = v) ->
  (exists e, In e l /\ fst e = (a, b)) -> forall x, fold_left (fun x e => if at_pos (fst e) a b then (snd e) x else x) l x = v.
Proof.
  intros H X.
  assert (G : forall l' x, (forall e, In e l' -> In e l) -> (x = v \/ exists e, In e l' /\ fst e = (a, b)) -> fold_left (fun x e => if at_pos (fst e) a b then (snd e) x else x) l' x = v).
  { induction l' as [| e l' IH]; intros x Sub Q; cbn [fold_left]; [destruct Q as [Q | (e & [] & _)]; exact Q |].
    apply IH; [intros e' He'; apply Sub; right; exact He' |]. destruct (at_pos (fst e) a b) eqn:A.
    - left. apply at_pos_true in A. apply H; [apply Sub; left; reflexivity | exact A].
    - destruct Q as [-> | (e' & [<- | He'] & Q)]; [left; reflexivity | | right; eauto]. exfalso. apply at_pos_true in Q. congruence. }
  intros x. apply G; [tauto | right; exact X].
Qed.
Lemma fold_once (l : list ((Z * Z) * (R -> R))) a b f : NoDup (map fst l) -> In ((a, b), f) l -> forall x,
  fold_left (fun x e => if at_pos (fst e) a b then (snd e) x else x) l x = f x.
Proof.
  induction l as [| [p g] l IH]; intros N H x; [destruct H |]. cbn [fold_left fst snd]. inversion N as [| ? ? N1 N2]; subst.
  destruct H as [[= -> ->] | H].
  - assert (at_pos (a, b) a b = true) as -> by (apply at_pos_true; reflexivity). apply fold_none. intros e He Q. apply N1. rewrite <- Q. apply in_map. exact He.
  - assert (at_pos p a b = false) as ->.
    { destruct (at_pos p a b) eqn:A; [| reflexivity]. apply at_pos_true in A. subst. exfalso. apply N1. cbn [fst]. apply (in_map fst) in H. exact H. }
    apply IH; assumption.
Qed.

(* ---- stored entries *)
Lemma In_entries_from rows : forall s i j v, In (i, j, v) (entries_from s rows) <-> exists row, s <= i /\ zget rows (i - s) = Some row /\ In (j, v) row.
Proof.
  induction rows as [| r t IH]; intros s i j v; cbn [entries_from].
  - split; [intros [] | intros (row & _ & E & _)]. pose proof (zget_Some_range _ _ _ E) as Q. unfold zlen in Q. cbn in Q. lia.
  - rewrite in_app_iff, IH. split.
    + intros [H | (row & H1 & H2 & H3)].
      * apply in_map_iff in H as ([j' v'] & [= -> -> ->] & H). exists r. split; [lia |]. rewrite Z.sub_diag. split; [reflexivity | exact H].
      * exists row. split; [lia |]. split; [| exact H3]. rewrite zget_nth in H2 |- * by lia. replace (Z.to_nat (i - s)) with (Datatypes.S (Z.to_nat (i - (s + 1)))) by lia. exact H2.
    + intros (row & H1 & H2 & H3). destruct (Z.eq_dec i s) as [-> | N].
      * left. rewrite Z.sub_diag in H2. cbn in H2. injection H2 as <-. apply in_map_iff. exists (j, v). split; [reflexivity | exact H3].
      * right. exists row. split; [lia |]. split; [| exact H3]. rewrite zget_nth in H2 |- * by lia. replace (Z.to_nat (i - s)) with (Datatypes.S (Z.to_nat (i - (s + 1)))) in H2 by lia. exact H2.
Qed.
Lemma In_entries m i j v : In (i, j, v) (entries m) <-> exists row, zget (sm_rows m) i = Some row /\ In (j, v) row.
Proof.
  unfold entries. rewrite In_entries_from. rewrite Z.sub_0_r. split.
  - intros (row & _ & H). eauto.
  - intros (row & E & H). exists row. split; [exact (proj1 (zget_Some_range _ _ _ E)) | tauto].
Qed.
Lemma entries_stored m i j : (exists v, In (i, j, v) (entries m)) <-> stored m i j.
Proof. unfold stored. split; [intros (v & H); apply In_entries in H as (row & H); eauto | intros (row & v & H); exists v; apply In_entries; eauto]. Qed.
Lemma entries_coef m i j v : wf_smat m -> In (i, j, v) (entries m) -> coef m i j = v.
Proof.
  intros (_ & _ & W) H. apply In_entries in H as (row & E & H). unfold coef. rewrite E.
  apply row_find_In in H; [rewrite H; reflexivity |]. apply W. eapply zget_In; eassumption.
Qed.
Lemma increasing_NoDup l : increasing l -> NoDup l.
Proof. induction l as [| x t IH]; intros H; constructor; [intros Q; destruct H as [H _]; specialize (H _ Q); lia | apply IH, H]. Qed.
Lemma entries_NoDup m : wf_smat m -> NoDup (map fst (entries m)).
Proof.
  intros (_ & _ & W). unfold entries. generalize 0. revert W. generalize (sm_m m). induction (sm_rows m) as [| r t IH]; intros c W s; cbn [entries_from map]; [constructor |].
  rewrite map_app. apply NoDup_app'.
  - rewrite map_map. cbn [fst]. assert (Q : NoDup (map fst r)) by (apply increasing_NoDup; apply W; left; reflexivity).
    clear - Q. induction r as [| [j v] r IH]; cbn [map]; [constructor |]. inversion Q as [| ? ? Q1 Q2]; subst. constructor; [| exact (IH Q2)].
    intros H. apply Q1. apply in_map_iff in H as ([j' v'] & [= ->] & H). apply (in_map fst) in H. exact H.
  - apply (IH c). intros row Hr. apply W. right. exact Hr.
  - intros [i j] H1 H2. apply in_map_iff in H1 as ([[i1 j1] v1] & [= -> ->] & H1). apply in_map_iff in H1 as (? & [= <- _ _] & _).
    apply in_map_iff in H2 as ([[i2 j2] v2] & [= -> ->] & H2). apply In_entries_from in H2 as (row & H2 & _). lia.
Qed.
Lemma stored_dec m i j : stored m i j \/ ~ stored m i j.
Proof.
  rewrite stored_map. destruct (zget (sm_rows m) i) as [row |]; [| right; intros (r & [=] & _)].
  destruct (in_dec Z.eq_dec j (map fst row)) as [H | H]; [left; eauto | right]. intros (r & [= <-] & H'). exact (H H').
Qed.

(* ---- from a pattern *)
Lemma from_adjacency_ok adj n m : wf_adj adj n -> 0 <= m -> (forall a b, padj adj a b -> 0 <= b < m) ->
  exists r, from_adjacency adj n m = Ok r /\ wf_smat r /\ dims r n m /\ (forall a b, stored r a b <-> padj adj a b) /\ forall a b, coef r a b = 0%R.
Proof.
  intros [W1 W2] Hm H. unfold from_adjacency.
  assert (F : forallb (forallb (fun j => (0 <=? j) && (j <? m))) adj = true).
  { apply forallb_forall. intros row Hr. apply forallb_forall. intros j Hj. apply In_zget in Hr as (i & _ & Hr). specialize (H i j (ex_intro _ row (conj Hr Hj))). lia. }
  rewrite F, (proj2 (Z.eqb_eq _ _) W1). cbn [andb]. eexists. split; [reflexivity |]. cbn [sm_rows sm_n sm_m].
  split; [| split; [split; reflexivity | split]].
  - split; [cbn; rewrite zlen_map; exact W1 |]. split; [exact Hm |]. cbn [sm_rows sm_m]. intros row Hr. apply in_map_iff in Hr as (row0 & <- & Hr). split.
    + rewrite map_map. cbn [fst]. rewrite map_id. apply W2, Hr.
    + intros e He. apply in_map_iff in He as (j & <- & Hj). cbn [fst]. apply In_zget in Hr as (i & _ & Hr). exact (H i j (ex_intro _ row0 (conj Hr Hj))).
  - intros a b. rewrite stored_map. cbn [sm_rows]. unfold padj. rewrite zget_map. destruct (zget adj a) as [row |]; cbn [option_map].
    + split; intros (r & [= <-] & Hb); (eexists; split; [reflexivity |]); rewrite map_map in *; cbn [fst] in *; rewrite map_id in *; exact Hb.
    + split; intros (r & [=] & _).
  - intros a b. unfold coef. cbn [sm_rows]. rewrite zget_map. destruct (zget adj a) as [row |]; cbn [option_map]; [| reflexivity].
    destruct (row_find _ b) as [v |] eqn:E; [| reflexivity]. clear - E. induction row as [| k t IH]; cbn in E; [discriminate |]. destruct (k =? b); [congruence | exact (IH E)].
Qed.

(* ---- the loops over stored entries *)
Definition targets (pos : Z -> Z -> list (Z * Z)) (m : smat) : list (Z * Z) := flat_map (fun e => pos (fst (fst e)) (snd (fst e))) (entries m).
Lemma In_targets pos m p : In p (targets pos m) <-> exists i j, stored m i j /\ In p (pos i j).
Proof.
  unfold targets. rewrite in_flat_map. split.
  - intros ([[i j] v] & H & Hp). exists i, j. split; [apply entries_stored; eauto | exact Hp].
  - intros (i & j & S & Hp). apply entries_stored in S as (v & S). exists (i, j, v). split; assumption.
Qed.
Lemma insert_all_ok pos m adj n : wf_adj adj n -> (forall i j p, stored m i j -> In p (pos i j) -> 0 <= fst p < n) ->
  exists adj', insert_all pos m adj = Ok adj' /\ wf_adj adj' n /\ forall a b, padj adj' a b <-> padj adj a b \/ exists i j, stored m i j /\ In (a, b) (pos i j).
Proof.
  intros W H.
  assert (E : insert_all pos m adj = foldM adj_insert (targets pos m) adj).
  { unfold insert_all, targets. rewrite <- foldM_flat_map. apply foldM_ext. intros s [[i j] v] _. reflexivity. }
  rewrite E. destruct (adj_inserts_ok (targets pos m) adj n W) as (adj' & E' & W' & P).
  { intros p Hp. apply In_targets in Hp as (i & j & S & Hp). exact (H i j p S Hp). }
  exists adj'. split; [exact E' |]. split; [exact W' |]. intros a b. rewrite P, In_targets. reflexivity.
Qed.
Definition updates (pos : Z -> Z -> list (Z * Z)) (upd : R -> R -> R) (m : smat) : list ((Z * Z) * (R -> R)) :=
  flat_map (fun e => map (fun p => (p, upd (snd e))) (pos (fst (fst e)) (snd (fst e)))) (entries m).
Lemma In_updates pos upd m p f : In (p, f) (updates pos upd m) <-> exists i j v, In (i, j, v) (entries m) /\ In p (pos i j) /\ f = upd v.
Proof.
  unfold updates. rewrite in_flat_map. split.
  - intros ([[i j] v] & H & Hp). apply in_map_iff in Hp as (q & [= -> <-] & Hp). exists i, j, v. tauto.
  - intros (i & j & v & H & Hp & ->). exists (i, j, v). split; [exact H |]. apply in_map_iff. exists p. split; [reflexivity | exact Hp].
Qed.
Lemma assign_all_eq pos upd m r : assign_all pos upd m r = foldM (fun m e => sm_upd m (fst (fst e)) (snd (fst e)) (snd e)) (updates pos upd m) r.
Proof.
  unfold assign_all, updates. rewrite <- foldM_flat_map. apply foldM_ext. intros s [[i j] v] _. cbn [fst snd].
  generalize (pos i j). intros l. revert s. induction l as [| p l IH]; intros s; cbn [foldM map fst snd]; [reflexivity |].
  destruct (sm_upd s (fst p) (snd p) (upd v)); cbn [bind]; [apply IH | reflexivity | reflexivity].
Qed.
Lemma assign_all_ok pos upd m r : wf_smat r -> (forall i j p, stored m i j -> In p (pos i j) -> stored r (fst p) (snd p)) ->
  exists r', assign_all pos upd m r = Ok r' /\ wf_smat r' /\ dims r' (sm_n r) (sm_m r) /\ (forall a b, stored r' a b <-> stored r a b) /\
  forall a b, coef r' a b = fold_left (fun x e => if at_pos (fst e) a b then (snd e) x else x) (updates pos upd m) (coef r a b).
Proof.
  intros W H. rewrite assign_all_eq. apply sm_upds_ok; [exact W |]. intros [p f] Hp. apply In_updates in Hp as (i & j & v & Hin & Hp & _).
  cbn [fst snd]. apply (H i j p); [apply entries_stored; eauto | exact Hp].
Qed.
(* assignment of values: a place that is a target of exactly one value *)
Lemma assigned pos m a b i j x : wf_smat m -> stored m i j -> In (a, b) (pos i j) ->
  (forall i' j', stored m i' j' -> In (a, b) (pos i' j') -> coef m i' j' = coef m i j) ->
  fold_left (fun x e => if at_pos (fst e) a b then (snd e) x else x) (updates pos (fun v _ => v) m) x = coef m i j.
Proof.
  intros W S Hp U. apply fold_const.
  - intros [p f] He Q. cbn [fst snd] in *. subst p. apply In_updates in He as (i' & j' & v & He & Hp' & ->). intros _.
    rewrite <- (entries_coef m i' j' v W He). apply U; [apply entries_stored; eauto | exact Hp'].
  - pose proof S as S'. apply entries_stored in S' as (v & S'). exists ((a, b), fun _ => v). split; [| reflexivity]. apply In_updates. exists i, j, v. tauto.
Qed.
Lemma not_assigned pos upd m a b x : (forall i j, stored m i j -> ~ In (a, b) (pos i j)) ->
  fold_left (fun x e => if at_pos (fst e) a b then (snd e) x else x) (updates pos upd m) x = x.
Proof.
  intros H. apply fold_none. intros [p f] He Q. cbn [fst] in Q. subst p. apply In_updates in He as (i & j & v & He & Hp & _).
  apply (H i j); [apply entries_stored; eauto | exact Hp].
Qed.
