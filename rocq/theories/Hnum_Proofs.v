From Verif Require Import BaseFacts RBaseFacts Impl_Proofs Impl_Proofs5 Mim_Proofs Hnum_Spec.
Open Scope Z_scope.

(* ---- lists ---- *)
Lemma list_loop {A S} (step : S -> A -> res S) (P : Z -> S -> Prop) (l : list A) s : P 0 s ->
  (forall i a s, zget l i = Some a -> P i s -> exists s', step s a = Ok s' /\ P (i + 1) s') ->
  exists s', foldM step l s = Ok s' /\ P (zlen l) s'.
Proof.
  intros H0 Hs.
  assert (G : forall l2 l1, l = l1 ++ l2 -> forall s, P (zlen l1) s -> exists s', foldM step l2 s = Ok s' /\ P (zlen l) s').
  { induction l2 as [|a l2 IH]; intros l1 E t Ht.
    - rewrite app_nil_r in E. subst l1. exists t. auto.
    - pose proof (zlen_nonneg l1). cbn [foldM].
      destruct (Hs (zlen l1) a t) as (t' & Et & Pt); [rewrite E, zget_app_r by lia; rewrite Z.sub_diag; reflexivity|exact Ht|]. rewrite Et. cbn [bind].
      destruct (IH (l1 ++ [a])) with (s := t') as (s' & Es & Ps); [rewrite E, <- app_assoc; reflexivity|rewrite zlen_app, zlen_cons; change (zlen (@nil A)) with 0; rewrite Z.add_0_r; exact Pt|].
      exists s'. split; assumption. }
  apply (G l []); [reflexivity|exact H0].
Qed.
Lemma zget_nth_def {A} (l : list A) d i : 0 <= i < zlen l -> zget l i = Some (nth (Z.to_nat i) l d).
Proof. intros H. rewrite zget_nth by lia. apply nth_error_nth'. unfold zlen in H. lia. Qed.
Lemma list_nth_map {A} (l : list A) d : l = map (fun i => nth (Z.to_nat i) l d) (zrange 0 (zlen l)).
Proof.
  assert (L : zlen l = zlen (map (fun i => nth (Z.to_nat i) l d) (zrange 0 (zlen l)))) by (rewrite zlen_map, zlen_zrange by apply zlen_nonneg; lia).
  apply zlist_ext; [exact L|]. intros i Hi. rewrite zget_map, zget_zrange by lia. cbn [option_map]. rewrite Z.add_0_l. apply zget_nth_def. exact Hi.
Qed.
Lemma find_pos_In v l : In v l -> 0 <= find_pos v l < zlen l /\ zget l (find_pos v l) = Some v.
Proof.
  induction l as [|x t IH]; intros H; [destruct H|]. cbn [find_pos]. rewrite zlen_cons. pose proof (zlen_nonneg t).
  destruct (Z.eqb_spec x v) as [->|N]; [split; [lia|reflexivity]|]. destruct H as [->|H]; [contradiction|]. destruct (IH H) as (B & G). split; [lia|].
  rewrite zget_nth by lia. rewrite zget_nth in G by lia. replace (Z.to_nat (1 + find_pos v t)) with (S (Z.to_nat (find_pos v t))) by lia. exact G.
Qed.
Lemma zget_NoDup {A} (l : list A) i j x : NoDup l -> zget l i = Some x -> zget l j = Some x -> i = j.
Proof.
  intros N Hi Hj. pose proof (zget_Some_range _ _ _ Hi). pose proof (zget_Some_range _ _ _ Hj). rewrite zget_nth in Hi, Hj by lia.
  assert (E : Z.to_nat i = Z.to_nat j); [|lia]. apply (proj1 (NoDup_nth_error l) N); [unfold zlen in *; lia|congruence].
Qed.
Lemma find_pos_at v l i : NoDup l -> zget l i = Some v -> find_pos v l = i.
Proof. intros N H. destruct (find_pos_In v l) as (_ & G); [eapply zget_In; eassumption|]. eapply zget_NoDup; eassumption. Qed.
Lemma find_pos_app v a b : ~ In v a -> find_pos v (a ++ v :: b) = zlen a.
Proof.
  induction a as [|x a IH]; intros H; cbn [find_pos app]; [rewrite Z.eqb_refl; reflexivity|]. destruct (Z.eqb_spec x v) as [->|N]; [exfalso; apply H; left; reflexivity|].
  rewrite IH by (intros Q; apply H; right; exact Q). rewrite zlen_cons. lia.
Qed.
Lemma NoDup_flat_map {A B} (f : A -> list B) l : NoDup l -> (forall x, In x l -> NoDup (f x)) ->
  (forall x y b, In x l -> In y l -> In b (f x) -> In b (f y) -> x = y) -> NoDup (flat_map f l).
Proof.
  induction l as [|a l IH]; intros N F D; cbn [flat_map]; [constructor|]. inversion N as [|? ? Ha Nl]; subst.
  apply NoDup_app'; [apply F; left; reflexivity|apply IH; [exact Nl|intros; apply F; right; assumption|intros; eapply D; [right; eassumption|right; eassumption| |]; eassumption]|].
  intros b H1 H2. apply in_flat_map in H2. destruct H2 as (y & Hy & Hb). assert (a = y); [|subst; contradiction]. eapply D; [left; reflexivity|right; exact Hy|eassumption|eassumption].
Qed.

(* ---- tables of rows flattened one after the other ---- *)
Definition off {A} (L : Z -> list A) (k : Z) : Z := zlen (flat_map L (zrange 0 k)).
Lemma off_0 {A} (L : Z -> list A) : off L 0 = 0. Proof. reflexivity. Qed.
Lemma off_S {A} (L : Z -> list A) k : 0 <= k -> off L (k + 1) = off L k + zlen (L k).
Proof. intros. unfold off. rewrite (zrange_app 0 k (k+1)) by lia. rewrite flat_map_app, zlen_app, (zrange_cons k (k+1)), (zrange_empty (k+1)) by lia. cbn [flat_map]. rewrite app_nil_r. reflexivity. Qed.
Lemma off_mono {A} (L : Z -> list A) a b : 0 <= a <= b -> off L a <= off L b.
Proof. intros H. unfold off. rewrite (zrange_app 0 a b) by lia. rewrite flat_map_app, zlen_app. pose proof (zlen_nonneg (flat_map L (zrange a b))). lia. Qed.
Lemma off_nonneg {A} (L : Z -> list A) a : 0 <= off L a. Proof. apply zlen_nonneg. Qed.
Lemma flat_split {A} (L : Z -> list A) n p : 0 <= p < n -> flat_map L (zrange 0 n) = flat_map L (zrange 0 p) ++ L p ++ flat_map L (zrange (p + 1) n).
Proof. intros H. rewrite (zrange_app 0 p n), (zrange_cons p n) by lia. rewrite flat_map_app. reflexivity. Qed.
Lemma slot_slice {A} (L : Z -> list A) n p : 0 <= p < n -> zslice (flat_map L (zrange 0 n)) (off L p) (off L (p + 1)) = L p.
Proof.
  intros H. rewrite off_S by lia. unfold zslice, off. rewrite (flat_split L n p H). set (a := flat_map L (zrange 0 p)).
  replace (Z.to_nat (zlen a + zlen (L p) - zlen a)) with (length (L p)) by (unfold zlen; lia). replace (Z.to_nat (zlen a)) with (length a) by (unfold zlen; lia).
  rewrite skipn_app, skipn_all, Nat.sub_diag. cbn [skipn app]. rewrite firstn_app, Nat.sub_diag, firstn_all. cbn [firstn]. apply app_nil_r.
Qed.
Lemma slot_get {A} (L : Z -> list A) n p q : 0 <= p < n -> 0 <= q < zlen (L p) -> zget (flat_map L (zrange 0 n)) (off L p + q) = zget (L p) q.
Proof.
  intros H Hq. rewrite (flat_split L n p H). unfold off. rewrite zget_app_r by lia. rewrite zget_app_l by lia. f_equal. lia.
Qed.
Lemma slot_bound {A} (L : Z -> list A) n p q : 0 <= p < n -> 0 <= q < zlen (L p) -> 0 <= off L p + q < off L n.
Proof. intros H Hq. pose proof (off_nonneg L p). pose proof (off_mono L (p + 1) n ltac:(lia)) as M. rewrite off_S in M by lia. lia. Qed.
Lemma slot_inv {A} (L : Z -> list A) n i : 0 <= n -> 0 <= i < off L n -> exists p q, 0 <= p < n /\ 0 <= q < zlen (L p) /\ i = off L p + q.
Proof.
  intros Hn. revert i. pattern n. apply natlike_ind; [rewrite off_0; intros; lia| |exact Hn]. clear n Hn. intros n Hn IH i Hi. replace (Z.succ n) with (n + 1) in * by lia. rewrite off_S in Hi by lia.
  destruct (Z_lt_ge_dec i (off L n)).
  - destruct (IH i ltac:(lia)) as (p & q & Hp & Hq & E). exists p, q. split; [lia|]. split; [exact Hq|exact E].
  - exists n, (i - off L n). split; [lia|]. split; lia.
Qed.
Lemma slot_uniq {A} (L : Z -> list A) p q p' q' : 0 <= p -> 0 <= p' -> 0 <= q < zlen (L p) -> 0 <= q' < zlen (L p') -> off L p + q = off L p' + q' -> p = p' /\ q = q'.
Proof.
  intros Hp Hp' Hq Hq' E. assert (p = p'); [|subst; lia]. destruct (Z.lt_trichotomy p p') as [H|[H|H]]; [|exact H|]; exfalso.
  - pose proof (off_mono L (p + 1) p' ltac:(lia)) as M. rewrite off_S in M by lia. lia.
  - pose proof (off_mono L (p' + 1) p ltac:(lia)) as M. rewrite off_S in M by lia. lia.
Qed.

Section Num.
Variable g : list hcell.
Hypothesis W : conforming g.
Let nc := zlen g.
Local Lemma nc_nonneg : 0 <= nc. Proof. apply zlen_nonneg. Qed.
Lemma cell_get k : 0 <= k < nc -> zget g k = Some (cell_at g k). Proof. apply zget_nth_def. Qed.
Lemma hface_get k r : half g k r -> zget (hc_faces (cell_at g k)) r = Some (face_at g k r). Proof. intros (_ & H). apply zget_nth_def. exact H. Qed.
Lemma idx_get k : 0 <= k < nc -> zget (map hc_idx g) k = Some (idx g k).
Proof. intros H. rewrite zget_map, cell_get by exact H. reflexivity. Qed.
Lemma idx_inj k k' : 0 <= k < nc -> 0 <= k' < nc -> idx g k = idx g k' -> k = k'.
Proof. intros H H' E. destruct W as (N & _). eapply zget_NoDup; [exact N|apply idx_get; exact H|rewrite E; apply idx_get; exact H']. Qed.
Lemma idx_range k : 0 <= k < nc -> 0 <= idx g k < nc. Proof. apply W. Qed.
Lemma idx_onto c : 0 <= c < nc -> exists k, 0 <= k < nc /\ idx g k = c.
Proof.
  intros H. destruct W as (N & Rg & _).
  assert (I : incl (zrange 0 nc) (map hc_idx g)).
  { apply NoDup_length_incl; [exact N|rewrite zrange_length, map_length; unfold nc, zlen; lia|]. intros x Hx. apply In_zget in Hx. destruct Hx as (k & Hk & G). rewrite zlen_map in Hk.
    rewrite idx_get in G by exact Hk. injection G as <-. apply In_zrange. apply Rg. exact Hk. }
  assert (Hin : In c (zrange 0 nc)) by (apply In_zrange; exact H). apply I in Hin. apply In_zget in Hin. destruct Hin as (k & Hk & G). rewrite zlen_map in Hk.
  rewrite idx_get in G by exact Hk. exists k. split; [exact Hk|congruence].
Qed.
Definition posof (c : Z) : Z := find_pos c (map hc_idx g).
Lemma posof_idx k : 0 <= k < nc -> posof (idx g k) = k.
Proof. intros H. apply find_pos_at; [apply W|apply idx_get; exact H]. Qed.
Lemma posof_range c : 0 <= c < nc -> 0 <= posof c < nc /\ idx g (posof c) = c.
Proof. intros H. destruct (idx_onto c H) as (k & Hk & <-). rewrite posof_idx by exact Hk. auto. Qed.
Lemma nbr_spec k r c : half g k r -> nbr g k r = Some c -> 0 <= c < nc /\ 0 <= posof c < nc /\ posof c <> k /\ idx g (posof c) = c /\ exists r', half g (posof c) r' /\ nbr g (posof c) r' = Some (idx g k).
Proof.
  intros H E. destruct W as (_ & Rg & Sy & _). destruct (Sy k r c H E) as (Nc & k' & r' & H' & Ek & En). pose proof (proj1 H') as Hk'. assert (Hc : 0 <= c < nc) by (rewrite <- Ek; apply Rg; exact Hk').
  destruct (posof_range c Hc) as (P1 & P2). assert (posof c = k') by (rewrite <- Ek; apply posof_idx; exact Hk'). split; [exact Hc|]. split; [exact P1|]. split; [intros Q; rewrite Q in P2; congruence|]. split; [exact P2|].
  exists r'. subst k'. split; assumption.
Qed.
Definition dsel (k : Z) (f : hface) : list Z := match hf_nb f with Some c => if k <? posof c then [c] else [] | None => [] end.
Definition dscv (k : Z) : list Z := flat_map (dsel k) (hc_faces (cell_at g k)).
Definition isb (k r : Z) : bool := match nbr g k r with None => true | Some _ => false end.
Definition bf (k : Z) : list Z := filter (isb k) (zrange 0 (nfaces g k)).
Let ni := off dscv nc.
Lemma disc_flat k : dscv k = flat_map (fun r => match nbr g k r with Some c => if k <? posof c then [c] else [] | None => [] end) (zrange 0 (nfaces g k)).
Proof.
  unfold dscv, nfaces. rewrite (list_nth_map (hc_faces (cell_at g k)) (mkHFace None 0)) at 1. rewrite flat_map_concat_map, map_map, <- flat_map_concat_map. reflexivity.
Qed.
Lemma In_disc k c : 0 <= k < nc -> (In c (dscv k) <-> exists r, half g k r /\ nbr g k r = Some c /\ k < posof c).
Proof.
  intros Hk. rewrite disc_flat. rewrite in_flat_map. split.
  - intros (r & Hr & H). apply In_zrange in Hr. destruct (nbr g k r) as [c'|] eqn:E; [|destruct H]. destruct (Z.ltb_spec k (posof c')); [|destruct H]. destruct H as [<-|[]]. exists r. split; [split; assumption|]. auto.
  - intros (r & (_ & Hr) & E & H). exists r. split; [apply In_zrange; exact Hr|]. rewrite E. destruct (Z.ltb_spec k (posof c)); [left; reflexivity|lia].
Qed.
Lemma disc_NoDup k : 0 <= k < nc -> NoDup (dscv k).
Proof.
  intros Hk. rewrite disc_flat. apply NoDup_flat_map; [apply zrange_NoDup| |].
  - intros r _. destruct (nbr g k r) as [c|]; [|constructor]. destruct (k <? posof c); [|constructor]. constructor; [intros []|constructor].
  - intros r r' c Hr Hr' H H'. apply In_zrange in Hr, Hr'. destruct W as (_ & _ & _ & U).
    destruct (nbr g k r) as [c1|] eqn:E1; [|destruct H]. destruct (k <? posof c1); [|destruct H]. destruct H as [<-|[]].
    destruct (nbr g k r') as [c2|] eqn:E2; [|destruct H']. destruct (k <? posof c2); [|destruct H']. destruct H' as [<-|[]].
    apply (U k r r' c2); try assumption; split; assumption.
Qed.
Lemma In_bf k r : In r (bf k) <-> 0 <= r < nfaces g k /\ nbr g k r = None.
Proof. unfold bf. rewrite filter_In, In_zrange. unfold isb. destruct (nbr g k r); intuition congruence. Qed.
Lemma bf_NoDup k : NoDup (bf k). Proof. apply NoDup_filter, zrange_NoDup. Qed.

(* ---- first pass ---- *)
Lemma discover_ok cell fs : (forall f c, In f fs -> hf_nb f = Some c -> exists x, zget cell c = Some x) -> forall faces n,
  foldM (discover cell) fs (faces, n) = Ok (faces ++ flat_map (fun f => match hf_nb f with Some c => match zget cell c with Some x => if x =? -1 then [c] else [] | None => [] end | None => [] end) fs, n + zlen fs).
Proof.
  induction fs as [|f fs IH]; intros H faces n; cbn [foldM flat_map].
  - rewrite app_nil_r. change (zlen (@nil hface)) with 0. rewrite Z.add_0_r. reflexivity.
  - assert (Hr : forall f0 c, In f0 fs -> hf_nb f0 = Some c -> exists x, zget cell c = Some x) by (intros; eapply H; [right|]; eassumption).
    rewrite zlen_cons. unfold discover at 1. destruct (hf_nb f) as [c|] eqn:E.
    + destruct (H f c (or_introl eq_refl) E) as (x & Gx). unfold rget. rewrite Gx. cbn [bind]. rewrite (IH Hr). f_equal. f_equal; [|lia]. destruct (x =? -1); [rewrite <- app_assoc; reflexivity|reflexivity].
    + cbn [bind]. rewrite (IH Hr). f_equal. f_equal. lia.
Qed.
Definition maxof (m0 k m : Z) : Prop := m0 <= m /\ (forall j, 0 <= j < k -> nfaces g j <= m) /\ (m = m0 \/ exists j, 0 <= j < k /\ m = nfaces g j).
Definition p1inv (m0 k : Z) (s : pass1) : Prop :=
  zlen (p1_cell s) = nc /\ zlen (p1_byidx s) = nc /\
  (forall j, 0 <= j < nc -> zget (p1_cell s) (idx g j) = Some (if j <? k then j else -1)) /\
  (forall j, 0 <= j < nc -> zget (p1_byidx s) (idx g j) = Some (if j <? k then nfaces g j else 0)) /\
  zlen (p1_iter s) = k /\ (forall j, 0 <= j < k -> zget (p1_iter s) j = Some (nfaces g j)) /\
  zlen (p1_fpos s) = k + 1 /\ (forall j, 0 <= j <= k -> zget (p1_fpos s) j = Some (off dscv j)) /\
  p1_faces s = flat_map dscv (zrange 0 k) /\ maxof m0 k (p1_max s).
Lemma first_pass_ok m0 : exists s, first_pass m0 g = Ok s /\ p1inv m0 nc s.
Proof.
  unfold first_pass. apply combine_loop.
  - repeat split; cbn [p1_cell p1_byidx p1_iter p1_fpos p1_faces p1_max].
    + apply zlen_zrepeat. apply nc_nonneg.
    + apply zlen_zrepeat. apply nc_nonneg.
    + intros j Hj. rewrite zget_zrepeat by (apply idx_range; exact Hj). destruct (Z.ltb_spec j 0); [lia|reflexivity].
    + intros j Hj. rewrite zget_zrepeat by (apply idx_range; exact Hj). destruct (Z.ltb_spec j 0); [lia|reflexivity].
    + intros; lia.
    + intros j Hj. assert (j = 0) by lia. subst. reflexivity.
    + lia.
    + intros; lia.
    + left; reflexivity.
  - intros k c s Gc (L1 & L2 & C & B & L3 & I & L4 & F & Fa & (M1 & M2 & M3)). pose proof (zget_Some_range _ _ _ Gc) as Hk. fold nc in Hk. rewrite cell_get in Gc by exact Hk. injection Gc as <-.
    pose proof (idx_range k Hk) as Hi. unfold pass1_cell. change (hc_idx (cell_at g k)) with (idx g k).
    destruct (rset_exists (p1_cell s) (idx g k) k ltac:(lia)) as (cell' & E & Lc & Gk & Go). rewrite E. cbn [bind].
    pose proof (B k Hk) as Bk. destruct (Z.ltb_spec k k); [lia|]. apply rget_Ok in Bk. rewrite Bk. cbn [bind].
    assert (Cell : forall j, 0 <= j < nc -> zget cell' (idx g j) = Some (if j <? k + 1 then j else -1)).
    { intros j Hj. destruct (Z.eq_dec j k) as [->|N].
      - rewrite Gk. destruct (Z.ltb_spec k (k+1)); [reflexivity|lia].
      - rewrite Go by (intros Q; apply N, idx_inj; assumption). rewrite C by exact Hj. destruct (Z.ltb_spec j k), (Z.ltb_spec j (k+1)); try lia; reflexivity. }
    assert (Nb : forall f c, In f (hc_faces (cell_at g k)) -> hf_nb f = Some c -> zget cell' c = Some (if posof c <? k + 1 then posof c else -1)).
    { intros f c Hf Hn. apply In_zget in Hf. destruct Hf as (r & Hr & Gr). assert (Hh : half g k r) by (split; assumption). rewrite hface_get in Gr by exact Hh. injection Gr as <-.
      destruct (nbr_spec k r c Hh Hn) as (_ & Hp & _ & Ep & _). rewrite <- Ep at 1. apply Cell. exact Hp. }
    rewrite discover_ok by (intros f c Hf Hn; eexists; apply (Nb f c Hf Hn)). cbn [bind]. rewrite Z.add_0_l.
    destruct (rset_exists (p1_byidx s) (idx g k) (nfaces g k) ltac:(lia)) as (by' & E' & Lb & Bg & Bo). unfold nfaces at 1 in E'. rewrite E'. cbn [bind].
    eexists. split; [reflexivity|]. unfold p1inv. cbn [p1_cell p1_byidx p1_iter p1_fpos p1_faces p1_max].
    assert (Faces : p1_faces s ++ flat_map (fun f => match hf_nb f with Some c => match zget cell' c with Some x => if x =? -1 then [c] else [] | None => [] end | None => [] end) (hc_faces (cell_at g k)) = flat_map dscv (zrange 0 (k + 1))).
    { rewrite Fa, (zrange_app 0 k (k+1)), (zrange_cons k (k+1)), (zrange_empty (k+1)) by lia. rewrite flat_map_app. f_equal. cbn [flat_map]. rewrite app_nil_r. unfold dscv.
      rewrite !flat_map_concat_map. f_equal. apply map_ext_in. intros f Hf. unfold dsel. destruct (hf_nb f) as [c|] eqn:En; [|reflexivity]. rewrite (Nb f c Hf En).
      apply In_zget in Hf. destruct Hf as (r & Hr & Gr). assert (Hh : half g k r) by (split; assumption). rewrite hface_get in Gr by exact Hh. injection Gr as <-.
      destruct (nbr_spec k r c Hh En) as (_ & Hp & Np & _). destruct (Z.ltb_spec (posof c) (k+1)), (Z.ltb_spec k (posof c)); try lia; [destruct (Z.eqb_spec (posof c) (-1)); [lia|reflexivity]|reflexivity]. }
    split; [lia|]. split; [lia|]. split; [exact Cell|]. split; [|split; [|split; [|split; [|split; [|split]]]]].
    + intros j Hj. destruct (Z.eq_dec j k) as [->|N].
      * rewrite Bg. destruct (Z.ltb_spec k (k+1)); [reflexivity|lia].
      * rewrite Bo by (intros Q; apply N, idx_inj; assumption). rewrite B by exact Hj. destruct (Z.ltb_spec j k), (Z.ltb_spec j (k+1)); try lia; reflexivity.
    + rewrite zlen_app, zlen_cons. change (zlen (@nil Z)) with 0. lia.
    + intros j Hj. destruct (Z.eq_dec j k) as [->|N]; [rewrite zget_app_r by lia; rewrite L3, Z.sub_diag; reflexivity|]. rewrite zget_app_l by lia. apply I. lia.
    + rewrite zlen_app, zlen_cons. change (zlen (@nil Z)) with 0. lia.
    + intros j Hj. destruct (Z.eq_dec j (k+1)) as [->|N]; [|rewrite zget_app_l by lia; apply F; lia]. rewrite zget_app_r by lia. rewrite L4, Z.sub_diag, Faces. reflexivity.
    + exact Faces.
    + change (zlen (hc_faces (cell_at g k))) with (nfaces g k). split; [lia|]. split.
      * intros j Hj. destruct (Z.eq_dec j k) as [->|N]; [lia|]. specialize (M2 j ltac:(lia)). lia.
      * destruct (Z.max_spec (p1_max s) (nfaces g k)) as [(_ & ->)|(_ & ->)]; [right; exists k; split; [lia|reflexivity]|]. destruct M3 as [->|(j & Hj & ->)]; [left; reflexivity|right; exists j; split; [lia|reflexivity]].
Qed.

(* ---- second pass ---- *)
Definition fnum (k r : Z) : Z :=
  match nbr g k r with
  | None => ni + (off bf k + find_pos r (bf k))
  | Some c => if posof c <? k then off dscv (posof c) + find_pos (idx g k) (dscv (posof c)) else off dscv k + find_pos c (dscv k)
  end.
Lemma bf_upto k r : half g k r -> nbr g k r = None -> find_pos r (bf k) = zlen (filter (isb k) (zrange 0 r)).
Proof.
  intros (_ & Hr) E. unfold bf. rewrite (zrange_app 0 r (nfaces g k)), (zrange_cons r (nfaces g k)) by lia. rewrite filter_app. cbn [filter]. unfold isb at 2. rewrite E.
  apply find_pos_app. rewrite filter_In, In_zrange. lia.
Qed.
Lemma number_faces_ok s m0 k l2g : p1inv m0 nc s -> 0 <= k < nc -> zlen l2g = nfaces g k ->
  number_faces s (cell_at g k) (ni + off bf k, l2g) = Ok (ni + off bf (k + 1), map (fnum k) (zrange 0 (nfaces g k))).
Proof.
  intros (L1 & L2 & C & B & L3 & I & L4 & F & Fa & _) Hk Ll. unfold number_faces.
  destruct (combine_loop (number_face s (hc_idx (cell_at g k))) (fun r (st : Z * list Z) => fst st = ni + (off bf k + zlen (filter (isb k) (zrange 0 r))) /\ zlen (snd st) = nfaces g k /\ forall r', 0 <= r' < r -> zget (snd st) r' = Some (fnum k r'))
    (hc_faces (cell_at g k)) (ni + off bf k, l2g)) as ((t & l) & E & Et & Lt & Gt).
  - cbn [fst snd]. change (zlen (filter (isb k) (zrange 0 0))) with 0. split; [lia|]. split; [exact Ll|]. intros; lia.
  - intros r f (t & l) Gf (Et & Lt & Gt). cbn [fst snd] in *. pose proof (zget_Some_range _ _ _ Gf) as Hr. assert (Hh : half g k r) by (split; assumption). change (zlen (hc_faces (cell_at g k))) with (nfaces g k) in Hr.
    rewrite hface_get in Gf by exact Hh. injection Gf as <-.
    assert (Fl : zlen (filter (isb k) (zrange 0 (r + 1))) = zlen (filter (isb k) (zrange 0 r)) + (if isb k r then 1 else 0)).
    { rewrite (zrange_app 0 r (r+1)), (zrange_cons r (r+1)), (zrange_empty (r+1)) by lia. rewrite filter_app, zlen_app. cbn [filter]. destruct (isb k r); reflexivity. }
    assert (Put : forall v, v = fnum k r -> exists l', rset l r v = Ok l' /\ zlen l' = nfaces g k /\ forall r', 0 <= r' < r + 1 -> zget l' r' = Some (fnum k r')).
    { intros v ->. destruct (rset_exists l r (fnum k r) ltac:(lia)) as (l' & E & L' & G & O). exists l'. split; [exact E|]. split; [lia|]. intros r' Hr'. destruct (Z.eq_dec r' r) as [->|N]; [exact G|]. rewrite O by exact N. apply Gt. lia. }
    unfold number_face. fold (nbr g k r). unfold isb in Fl at 3. destruct (nbr g k r) as [c|] eqn:En.
    + destruct (nbr_spec k r c Hh En) as (Hc & Hp & Np & Ep & (r' & Hr' & En')). change (hc_idx (cell_at g k)) with (idx g k).
      pose proof (C k Hk) as Ck. destruct (Z.ltb_spec k nc); [|lia]. apply rget_Ok in Ck. rewrite Ck. cbn [bind].
      pose proof (C (posof c) Hp) as Cp. destruct (Z.ltb_spec (posof c) nc); [|lia]. rewrite Ep in Cp. pose proof Cp as Cp'. apply rget_Ok in Cp'. rewrite Cp'. cbn [bind].
      destruct (Z.ltb_spec (posof c) k).
      * rewrite Cp'. cbn [bind]. pose proof (F (posof c) ltac:(lia)) as F1. apply rget_Ok in F1. rewrite F1. cbn [bind]. pose proof (F (posof c + 1) ltac:(lia)) as F2. apply rget_Ok in F2. rewrite F2. cbn [bind].
        rewrite Fa, slot_slice by lia. destruct (Put (off dscv (posof c) + find_pos (idx g k) (dscv (posof c)))) as (l' & E & P1 & P2).
        { unfold fnum. rewrite En. destruct (Z.ltb_spec (posof c) k); [reflexivity|lia]. }
        rewrite E. cbn [bind]. eexists. split; [reflexivity|]. cbn [fst snd]. split; [lia|]. split; assumption.
      * rewrite Ck. cbn [bind]. pose proof (F k ltac:(lia)) as F1. apply rget_Ok in F1. rewrite F1. cbn [bind]. pose proof (F (k + 1) ltac:(lia)) as F2. apply rget_Ok in F2. rewrite F2. cbn [bind].
        rewrite Fa, slot_slice by lia. destruct (Put (off dscv k + find_pos c (dscv k))) as (l' & E & P1 & P2).
        { unfold fnum. rewrite En. destruct (Z.ltb_spec (posof c) k); [lia|reflexivity]. }
        rewrite E. cbn [bind]. eexists. split; [reflexivity|]. cbn [fst snd]. split; [lia|]. split; assumption.
    + destruct (Put t) as (l' & E & P1 & P2).
      { unfold fnum. rewrite En, bf_upto by assumption. exact Et. }
      rewrite E. cbn [bind]. eexists. split; [reflexivity|]. cbn [fst snd]. split; [lia|]. split; assumption.
  - cbn [fst snd] in *. rewrite E. f_equal. f_equal.
    + rewrite Et, off_S by lia. reflexivity.
    + assert (Nf : 0 <= nfaces g k) by apply zlen_nonneg. apply zlist_ext; [rewrite zlen_map, zlen_zrange; lia|]. intros r Hr. rewrite Gt by (unfold nfaces in *; lia). rewrite zget_map, zget_zrange by lia. cbn [option_map]. f_equal.
Qed.
Lemma vfit_len n l : 0 <= n -> zlen (vfit n l) = n.
Proof. intros H. unfold vfit. rewrite zlen_app. unfold zlen, zrepeat. rewrite firstn_length, repeat_length. lia. Qed.
Lemma enumerate_ok : counts_agree g -> exists nm, enumerate_grid g = Ok nm /\
  zlen (nm_cell nm) = nc /\ (forall k, 0 <= k < nc -> zget (nm_cell nm) (idx g k) = Some k) /\
  nm_cf nm = map (fun k => map (fnum k) (zrange 0 (nfaces g k))) (zrange 0 nc) /\ nm_internal nm = ni /\ nm_total nm = ni + off bf nc /\ maxof (-1) nc (nm_max nm).
Proof.
  intros CA. unfold enumerate_grid. destruct (first_pass_ok (-1)) as (p & Ep & Ip). rewrite Ep. cbn [bind].
  pose proof Ip as (L1 & L2 & C & B & L3 & I & L4 & F & Fa & Mx).
  assert (Nf : zlen (p1_faces p) = ni) by (rewrite Fa; reflexivity). rewrite Nf.
  match goal with |- context[foldM ?st g ?s0] => destruct (list_loop st (fun k (s : Z * list Z * list (list Z)) => let '(t, _, cf) := s in t = ni + off bf k /\ cf = map (fun k => map (fnum k) (zrange 0 (nfaces g k))) (zrange 0 k)) g s0) as (((t & l) & cf) & E & Et & Ec) end.
  - rewrite off_0. split; [lia|reflexivity].
  - intros k c ((t & l) & cf) Gc (Et & Ec). pose proof (zget_Some_range _ _ _ Gc) as Hk. fold nc in Hk. rewrite cell_get in Gc by exact Hk. injection Gc as <-. change (hc_idx (cell_at g k)) with (idx g k).
    pose proof (C k Hk) as Ck. destruct (Z.ltb_spec k nc); [|lia]. apply rget_Ok in Ck. rewrite Ck. cbn [bind].
    destruct (idx_onto k Hk) as (j & Hj & Ej). pose proof (B j Hj) as Bj. destruct (Z.ltb_spec j nc); [|lia]. rewrite Ej in Bj. apply rget_Ok in Bj. rewrite Bj. cbn [bind].
    rewrite (CA k j Hk Hj Ej). rewrite Et. rewrite (number_faces_ok p (-1)); [|exact Ip|exact Hk|apply vfit_len; apply zlen_nonneg]. cbn [bind]. eexists. split; [reflexivity|]. cbn beta zeta iota. split; [reflexivity|].
    rewrite Ec, (zrange_app 0 k (k+1)), (zrange_cons k (k+1)), (zrange_empty (k+1)) by lia. rewrite map_app. reflexivity.
  - rewrite E. cbn [bind]. eexists. split; [reflexivity|]. cbn [nm_cell nm_cf nm_internal nm_total nm_max]. split; [exact L1|]. split; [|auto].
    intros k Hk. rewrite C by exact Hk. destruct (Z.ltb_spec k nc); [reflexivity|lia].
Qed.
Lemma build_ok : exists tbl mx, build_face_indices g = Ok (tbl, ni + off bf nc, mx) /\ zlen tbl = nc /\
  (forall k, 0 <= k < nc -> zget tbl (idx g k) = Some (map (fnum k) (zrange 0 (nfaces g k)))) /\ maxof 0 nc mx.
Proof.
  unfold build_face_indices. destruct (first_pass_ok 0) as (p & Ep & Ip). rewrite Ep. cbn [bind].
  pose proof Ip as (L1 & L2 & C & B & L3 & I & L4 & F & Fa & Mx).
  assert (Nf : zlen (p1_faces p) = ni) by (rewrite Fa; reflexivity). rewrite Nf.
  match goal with |- context[foldM ?st g ?s0] => destruct (list_loop st (fun k (s : Z * list Z * list (list Z)) => let '(t, _, tbl) := s in t = ni + off bf k /\ zlen tbl = nc /\ forall j, 0 <= j < k -> zget tbl (idx g j) = Some (map (fnum j) (zrange 0 (nfaces g j)))) g s0) as (((t & l) & tbl) & E & Et & Lt & Gt) end.
  - rewrite off_0. split; [lia|]. split; [apply zlen_zrepeat; apply zlen_nonneg|intros; lia].
  - intros k c ((t & l) & tbl) Gc (Et & Lt & Gt). pose proof (zget_Some_range _ _ _ Gc) as Hk. fold nc in Hk. rewrite cell_get in Gc by exact Hk. injection Gc as <-. change (hc_idx (cell_at g k)) with (idx g k).
    pose proof (C k Hk) as Ck. destruct (Z.ltb_spec k nc); [|lia]. apply rget_Ok in Ck. rewrite Ck. cbn [bind].
    pose proof (I k ltac:(lia)) as Ik. apply rget_Ok in Ik. rewrite Ik. cbn [bind].
    rewrite Et. rewrite (number_faces_ok p 0); [|exact Ip|exact Hk|apply vfit_len; apply zlen_nonneg]. cbn [bind].
    pose proof (B k Hk) as Bk. destruct (Z.ltb_spec k nc); [|lia]. apply rget_Ok in Bk. rewrite Bk. cbn [bind].
    assert (Nk : 0 <= nfaces g k) by apply zlen_nonneg. rewrite zlen_map, zlen_zrange, Z.sub_0_r, Z.eqb_refl by lia.
    pose proof (idx_range k Hk) as Hi. destruct (rset_exists tbl (idx g k) (map (fnum k) (zrange 0 (nfaces g k))) ltac:(lia)) as (t' & E' & L' & Gk & Go). rewrite E'. cbn [bind].
    eexists. split; [reflexivity|]. cbn beta zeta iota. split; [reflexivity|]. split; [lia|]. intros j Hj. destruct (Z.eq_dec j k) as [->|N]; [exact Gk|]. rewrite Go by (intros Q; apply N, idx_inj; [lia|exact Hk|exact Q]). apply Gt. lia.
  - rewrite E. cbn [bind]. exists tbl, (p1_max p). rewrite Et. split; [reflexivity|]. split; [exact Lt|]. split; [exact Gt|exact Mx].
Qed.

(* ---- the numbering is a bijection ---- *)
Lemma fnum_interior k r c : half g k r -> nbr g k r = Some c -> exists p q, 0 <= p < nc /\ 0 <= q < zlen (dscv p) /\ fnum k r = off dscv p + q /\
  ((p = k /\ k < posof c /\ zget (dscv p) q = Some c) \/ (p = posof c /\ p < k /\ zget (dscv p) q = Some (idx g k))).
Proof.
  intros H E. pose proof (proj1 H) as Hk. destruct (nbr_spec k r c H E) as (Hc & Hp & Np & Ep & (r' & H' & E')). unfold fnum. rewrite E. destruct (Z.ltb_spec (posof c) k).
  - assert (Hin : In (idx g k) (dscv (posof c))). { apply In_disc; [exact Hp|]. exists r'. split; [exact H'|]. split; [exact E'|]. rewrite posof_idx by exact Hk. lia. }
    destruct (find_pos_In _ _ Hin) as (B & G). exists (posof c), (find_pos (idx g k) (dscv (posof c))). split; [exact Hp|]. split; [exact B|]. split; [reflexivity|]. right. auto.
  - assert (Hin : In c (dscv k)). { apply In_disc; [exact Hk|]. exists r. split; [exact H|]. split; [exact E|lia]. }
    destruct (find_pos_In _ _ Hin) as (B & G). exists k, (find_pos c (dscv k)). split; [exact Hk|]. split; [exact B|]. split; [reflexivity|]. left. split; [reflexivity|]. split; [lia|exact G].
Qed.
Lemma fnum_boundary k r : half g k r -> nbr g k r = None -> exists q, 0 <= q < zlen (bf k) /\ fnum k r = ni + (off bf k + q) /\ zget (bf k) q = Some r.
Proof.
  intros H E. unfold fnum. rewrite E. destruct (find_pos_In r (bf k)) as (B & G); [apply In_bf; split; [apply H|exact E]|]. eexists. split; [exact B|]. split; [reflexivity|exact G].
Qed.
Lemma fnum_numbers : numbers g fnum ni (ni + off bf nc).
Proof.
  pose proof nc_nonneg as Hnc. assert (Hni : 0 <= ni) by apply off_nonneg. assert (Hb : 0 <= off bf nc) by apply off_nonneg.
  assert (Int : forall k r c, half g k r -> nbr g k r = Some c -> 0 <= fnum k r < ni).
  { intros k r c H E. destruct (fnum_interior k r c H E) as (p & q & Hp & Hq & -> & _). apply slot_bound; assumption. }
  assert (Bnd : forall k r, half g k r -> nbr g k r = None -> ni <= fnum k r < ni + off bf nc).
  { intros k r H E. destruct (fnum_boundary k r H E) as (q & Hq & -> & _). pose proof (slot_bound bf nc k q (proj1 H) Hq). lia. }
  split; [|split; [|split]].
  - intros k r H. destruct (nbr g k r) as [c|] eqn:E; [specialize (Int k r c H E); lia|specialize (Bnd k r H E); lia].
  - intros n Hn. destruct (Z_lt_ge_dec n ni) as [L|G].
    + destruct (slot_inv dscv nc n Hnc) as (p & q & Hp & Hq & ->); [unfold ni in L; lia|]. destruct (zget_in_range (dscv p) q Hq) as (c & Gc).
      assert (Hin : In c (dscv p)) by (eapply zget_In; exact Gc). apply In_disc in Hin; [|exact Hp]. destruct Hin as (r & Hr & E & Lt). exists p, r. split; [exact Hr|]. unfold fnum. rewrite E. destruct (Z.ltb_spec (posof c) p); [lia|].
      f_equal. apply find_pos_at; [apply disc_NoDup; exact Hp|exact Gc].
    + destruct (slot_inv bf nc (n - ni) Hnc) as (p & q & Hp & Hq & E); [lia|]. destruct (zget_in_range (bf p) q Hq) as (r & Gr).
      assert (Hin : In r (bf p)) by (eapply zget_In; exact Gr). apply In_bf in Hin. destruct Hin as (Hr & En). exists p, r. split; [split; assumption|]. unfold fnum. rewrite En.
      rewrite (find_pos_at r (bf p) q (bf_NoDup p) Gr). lia.
  - intros k r k' r' H H'. pose proof (proj1 H) as Hk. pose proof (proj1 H') as Hk'. split.
    + intros Eq. destruct (nbr g k r) as [c|] eqn:E, (nbr g k' r') as [c'|] eqn:E'.
      * destruct (fnum_interior k r c H E) as (p & q & Hp & Hq & Ef & D). destruct (fnum_interior k' r' c' H' E') as (p' & q' & Hp' & Hq' & Ef' & D').
        rewrite Ef, Ef' in Eq. destruct (slot_uniq dscv p q p' q' ltac:(lia) ltac:(lia) Hq Hq' Eq) as (-> & ->).
        destruct (nbr_spec k r c H E) as (_ & _ & _ & Ep & _). destruct (nbr_spec k' r' c' H' E') as (_ & _ & _ & Ep' & _).
        destruct W as (_ & _ & _ & U). destruct D as [(Q1 & Q2 & Q3)|(Q1 & Q2 & Q3)], D' as [(Q1' & Q2' & Q3')|(Q1' & Q2' & Q3')].
        -- left. assert (EK : k = k') by congruence. destruct EK. split; [reflexivity|]. apply (U k r r' c); try assumption. congruence.
        -- right. assert (c = idx g k') by congruence. assert (idx g k = c') by congruence. split; congruence.
        -- right. assert (c' = idx g k) by congruence. assert (idx g k' = c) by congruence. split; congruence.
        -- left. assert (EK : k = k') by (apply idx_inj; try assumption; congruence). destruct EK. split; [reflexivity|]. apply (U k r r' c); try assumption. congruence.
      * pose proof (Int k r c H E). pose proof (Bnd k' r' H' E'). lia.
      * pose proof (Int k' r' c' H' E'). pose proof (Bnd k r H E). lia.
      * destruct (fnum_boundary k r H E) as (q & Hq & Ef & G). destruct (fnum_boundary k' r' H' E') as (q' & Hq' & Ef' & G').
        destruct (slot_uniq bf k q k' q' ltac:(lia) ltac:(lia) Hq Hq' ltac:(lia)) as (-> & ->). left. split; congruence.
    + intros [(-> & ->)|(T & T')]; [reflexivity|].
      destruct (nbr_spec k r _ H T) as (_ & _ & Np & _). rewrite posof_idx in Np by exact Hk'. unfold fnum. rewrite T, T'. rewrite !posof_idx by assumption.
      destruct (Z.ltb_spec k' k), (Z.ltb_spec k k'); try lia; reflexivity.
  - intros k r H. destruct (nbr g k r) as [c|] eqn:E.
    + pose proof (Int k r c H E). split; [congruence|lia].
    + pose proof (Bnd k r H E). split; [lia|congruence].
Qed.
End Num.
