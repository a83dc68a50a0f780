From Verif Require Import BaseFacts RBaseFacts Lin_Facts Steady_Proofs Euler_Proofs2 Impl_Proofs Impl_Proofs5 Matx_Proofs Mim_Proofs Hnum_Proofs Rprop_Spec Rprop_Proofs.
Open Scope Z_scope.

(* ---- which keyword sets are accepted *)
Lemma given_has d k : given d k <-> has (dk_perm d k) = true.
Proof. unfold given, has. destruct (dk_perm d k); split; congruence. Qed.
Lemma complete_b d : complete d <->
  ((has (dk_perm d KXY) = true -> has (dk_perm d KX) = true /\ has (dk_perm d KY) = true) /\ (has (dk_perm d KYX) = true -> has (dk_perm d KX) = true /\ has (dk_perm d KY) = true) /\
   (has (dk_perm d KXZ) = true -> has (dk_perm d KX) = true /\ has (dk_perm d KZ) = true) /\ (has (dk_perm d KZX) = true -> has (dk_perm d KX) = true /\ has (dk_perm d KZ) = true) /\
   (has (dk_perm d KYZ) = true -> has (dk_perm d KY) = true /\ has (dk_perm d KZ) = true) /\ (has (dk_perm d KZY) = true -> has (dk_perm d KY) = true /\ has (dk_perm d KZ) = true)).
Proof.
  rewrite <- !given_has. split.
  - intros H. assert (X : forall k, given d k -> crossing k -> given d (diag (fst (dirs k))) /\ given d (diag (snd (dirs k)))) by exact H.
    repeat split; intros; match goal with G : given d ?k |- _ => specialize (X k G); cbn in X; unfold crossing in X; cbn in X; destruct X as (X1 & X2); [lia|]; assumption end.
  - intros (A & B & C & D & E & F) k G Cr. destruct k; cbn in *; unfold crossing in Cr; cbn in Cr; try (exfalso; apply Cr; reflexivity); auto; try (split; [apply B|apply B]; assumption); try (split; [apply D|apply D]; assumption); try (split; [apply F|apply F]; assumption).
Qed.
Lemma classify_invalid d : classify d = InvalidPerm <-> ~ complete d.
Proof.
  rewrite complete_b. unfold classify. generalize (has (dk_perm d KX)) (has (dk_perm d KXY)) (has (dk_perm d KXZ)) (has (dk_perm d KYX)) (has (dk_perm d KY)) (has (dk_perm d KYZ)) (has (dk_perm d KZX)) (has (dk_perm d KZY)) (has (dk_perm d KZ)).
  intros b1 b2 b3 b4 b5 b6 b7 b8 b9. destruct b1, b5, b9, b2, b3, b4, b6, b7, b8; cbn; intuition congruence.
Qed.
Lemma complete_dec d : complete d \/ ~ complete d.
Proof.
  rewrite complete_b. generalize (has (dk_perm d KX)) (has (dk_perm d KXY)) (has (dk_perm d KXZ)) (has (dk_perm d KYX)) (has (dk_perm d KY)) (has (dk_perm d KYZ)) (has (dk_perm d KZX)) (has (dk_perm d KZY)) (has (dk_perm d KZ)).
  intros b1 b2 b3 b4 b5 b6 b7 b8 b9. destruct b1, b5, b9; try (left; intuition congruence); destruct b2, b3, b4, b6, b7, b8; try (left; intuition congruence); right; intuition congruence.
Qed.
Lemma kinds d : complete d ->
  ((exists k, given d k /\ crossing k) -> classify d = TensorPerm) /\
  ((forall k, ~ given d k) -> classify d = NonePerm) /\
  ((exists i, given d (diag i) /\ forall k, given d k -> k = diag i) -> classify d = ScalarPerm) /\
  ((forall k, given d k -> ~ crossing k) -> (exists k k', k <> k' /\ given d k /\ given d k') -> classify d = DiagonalPerm).
Proof.
  intros C. assert (N : classify d <> InvalidPerm) by (rewrite classify_invalid; auto).
  split; [|split; [|split]].
  - intros (k & G & X). rewrite given_has in G. unfold classify in *. unfold crossing in X. destruct k; cbn in X; try (exfalso; apply X; reflexivity); rewrite G in *; clear - N;
      repeat match goal with |- context [has (dk_perm d ?k)] => generalize dependent (has (dk_perm d k)); intros ? end;
      repeat match goal with b : bool |- _ => destruct b end; cbn in *; congruence.
  - intros H. assert (Z0 : forall k, has (dk_perm d k) = false) by (intros k; specialize (H k); rewrite given_has in H; destruct (has (dk_perm d k)); congruence). unfold classify. rewrite !Z0. reflexivity.
  - intros (i & G & U). assert (Z0 : forall k, k <> diag i -> has (dk_perm d k) = false) by (intros k Hk; specialize (U k); rewrite given_has in U; destruct (has (dk_perm d k)); [exfalso; apply Hk; auto|reflexivity]).
    rewrite given_has in G. unfold diag in *. unfold classify. destruct (i =? 0); [|destruct (i =? 1)]; rewrite G; rewrite !Z0 by discriminate; reflexivity.
  - intros X (k & k' & Hd & G & G'). assert (Z0 : forall k, crossing k -> has (dk_perm d k) = false) by (intros q Hq; destruct (has (dk_perm d q)) eqn:E; [exfalso; apply (X q); [apply given_has; exact E|exact Hq]|reflexivity]).
    pose proof (X k G) as Xk. pose proof (X k' G') as Xk'. unfold crossing in Xk, Xk', Z0. rewrite given_has in G, G'. unfold classify. rewrite (Z0 KXY), (Z0 KXZ), (Z0 KYX), (Z0 KYZ), (Z0 KZX), (Z0 KZY) by (cbn; lia). clear - Hd G G' Xk Xk'.
    destruct k, k'; cbn in Xk, Xk'; try congruence; try (exfalso; apply Xk; lia); try (exfalso; apply Xk'; lia); rewrite G, G';
      repeat match goal with |- context [has (dk_perm d ?k)] => generalize dependent (has (dk_perm d k)); intros ? end; repeat match goal with b : bool |- _ => destruct b end; cbn; reflexivity.
Qed.

(* ---- fields *)
Lemma rset_at {A} (l : list A) i x : 0 <= i < zlen l -> exists l', rset l i x = Ok l' /\ zlen l' = zlen l /\ forall c, zget l' c = if c =? i then Some x else zget l c.
Proof. intros H. destruct (rset_exists l i x H) as (l' & E & L & V1 & V2). exists l'. split; [exact E|]. split; [exact L|]. intros c. destruct (Z.eqb_spec c i) as [->|]; auto. Qed.
Lemma taken_loop {A} (l : list A) (h : A -> A) gc init : (forall c g, zget gc c = Some g -> 0 <= g < zlen l) -> zlen init = zlen gc ->
  exists v, foldM (fun v c => let* g := rget gc c in let* x := rget l g in rset v c (h x)) (zrange 0 (zlen gc)) init = Ok v /\ taken_from gc (map h l) v.
Proof.
  intros Hg L. pose proof (zlen_nonneg gc) as H0.
  destruct (zloop (fun v c => let* g := rget gc c in let* x := rget l g in rset v c (h x))
    (fun n v => zlen v = zlen gc /\ forall c, 0 <= c < n -> zget v c = at_cell gc (map h l) c) 0 (zlen gc) init H0) as (v & E & V1 & V2).
  - split; [exact L|]. intros c Hc. lia.
  - intros i v Hi (V1 & V2). destruct (rget_range gc i Hi) as (g & -> & G). cbn [bind]. destruct (rget_range l g (Hg _ _ G)) as (x & -> & X). cbn [bind].
    destruct (rset_at v i (h x) ltac:(lia)) as (v' & E & L' & V'). exists v'. split; [exact E|]. split; [lia|]. intros c Hc. rewrite V'. destruct (Z.eqb_spec c i) as [->|Hne].
    + unfold at_cell. rewrite G, zget_map, X. reflexivity.
    + apply V2. lia.
  - exists v. split; [exact E|]. split; [exact V1|exact V2].
Qed.
Lemma taken_map_id {A} gc (l v : list A) : taken_from gc (map (fun x => x) l) v -> taken_from gc l v.
Proof. rewrite map_id. auto. Qed.
Lemma field_run d o def gc : cells_in d gc ->
  (sized_o (dk_size d) o /\ exists v, assign_field (dk_size d) o def gc = Ok v /\ field_ok o def gc v) \/ (~ sized_o (dk_size d) o /\ assign_field (dk_size d) o def gc = Throw).
Proof.
  intros Hc. unfold assign_field, field_ok, sized_o. destruct o as [l|].
  - destruct (Z.eqb_spec (zlen l) (dk_size d)) as [E|E]; cbn [negb].
    + left. split; [intros l' Q; congruence|]. destruct (taken_loop l (fun x => x) gc (zrepeat def (zlen gc))) as (v & Ev & T).
      * intros c g G. rewrite E. apply (Hc c g G).
      * apply zlen_zrepeat. apply zlen_nonneg.
      * exists v. rewrite (zlen_zrepeat def (zlen gc)) by apply zlen_nonneg. split; [exact Ev|apply taken_map_id; exact T].
    + right. split; [intros H; apply E; apply H; reflexivity|reflexivity].
  - left. split; [intros l' Q; discriminate|]. eexists. split; reflexivity.
Qed.
Lemma rock_run d gc : cells_in d gc ->
  let o := match dk_satnum d with Some l => Some l | None => dk_rocktype d end in
  (sized_o (dk_size d) o /\ exists v, assign_rock_table d gc = Ok v /\ match o with Some l => taken_from gc (map (fun x => x - 1) l) v | None => v = zrepeat 0 (zlen gc) end) \/
  (~ sized_o (dk_size d) o /\ assign_rock_table d gc = Throw).
Proof.
  intros Hc o. assert (Q : forall l, (zlen l = dk_size d /\ exists v, (if negb (zlen l =? dk_size d) then Throw else foldM (fun v c => let* g := rget gc c in let* x := rget l g in rset v c (x - 1)) (zrange 0 (zlen gc)) (zrepeat 0 (zlen gc))) = Ok v /\ taken_from gc (map (fun x => x - 1) l) v) \/
    (zlen l <> dk_size d /\ (if negb (zlen l =? dk_size d) then Throw else foldM (fun v c => let* g := rget gc c in let* x := rget l g in rset v c (x - 1)) (zrange 0 (zlen gc)) (zrepeat 0 (zlen gc))) = Throw)).
  { intros l. destruct (Z.eqb_spec (zlen l) (dk_size d)) as [E|E]; cbn [negb]; [left|right; auto]. split; [exact E|].
    apply (taken_loop l (fun x => x - 1) gc (zrepeat 0 (zlen gc))); [|apply zlen_zrepeat; apply zlen_nonneg]. intros c g G. rewrite E. apply (Hc c g G). }
  unfold assign_rock_table. subst o. destruct (dk_satnum d) as [l|]; [|destruct (dk_rocktype d) as [l|]].
  1, 2: (destruct (Q l) as [(E & v & Ev & T)|(E & Ev)]; [left; split; [intros l' X; congruence|exists v; auto]|right; split; [intros X; apply E; apply X; reflexivity|exact Ev]]).
  left. split; [intros l' X; discriminate|]. eexists. split; reflexivity.
Qed.

(* ---- permeability *)
Lemma zget_zslice {A} (l : list A) a b k : 0 <= a -> 0 <= k < b - a -> zget (zslice l a b) k = zget l (a + k).
Proof.
  intros Ha Hk. unfold zslice, zget. destruct (Z.ltb_spec k 0); [lia|]. destruct (Z.ltb_spec (a + k) 0); [lia|].
  rewrite (Z2Nat.inj_add a k) by lia. generalize (Z.to_nat a) as n. assert (Hk' : (Z.to_nat k < Z.to_nat (b - a))%nat) by lia. generalize dependent (Z.to_nat (b - a)). generalize (Z.to_nat k) as m. clear. intros m q Hm n.
  revert l. induction n as [|n IH]; intros l; [|destruct l as [|x l]; [rewrite skipn_nil, firstn_nil; cbn; destruct m; reflexivity|cbn; apply IH]]. cbn.
  revert q Hm l. induction m as [|m IH]; intros q Hm l; (destruct q as [|q]; [lia|]); destruct l as [|x l]; cbn; try reflexivity. apply IH. lia.
Qed.
Lemma zlen_zslice {A} (l : list A) a b : 0 <= a <= b -> b <= zlen l -> zlen (zslice l a b) = b - a.
Proof. intros H1 H2. unfold zslice, zlen in *. rewrite firstn_length, skipn_length. lia. Qed.
Lemma given_in d l : In l (given_fields d) <-> exists k, dk_perm d k = Some l.
Proof.
  unfold given_fields. rewrite in_flat_map. split.
  - intros (k & _ & H). exists k. destruct (dk_perm d k) as [x|]; cbn in H; [destruct H as [->|[]]; reflexivity|destruct H].
  - intros (k & E). exists k. split; [destruct k; cbn; tauto|rewrite E; left; reflexivity].
Qed.
Lemma sized_tl d : existsb (fun f => negb (zlen f =? dk_size d)) (given_fields d) = false <-> sized d.
Proof.
  split.
  - intros H k l E. destruct (Z.eqb_spec (zlen l) (dk_size d)) as [|N]; [auto|exfalso]. assert (X : existsb (fun f => negb (zlen f =? dk_size d)) (given_fields d) = true); [|congruence].
    apply existsb_exists. exists l. split; [apply given_in; exists k; exact E|]. apply Z.eqb_neq in N. rewrite N. reflexivity.
  - intros H. destruct (existsb _ _) eqn:E; [|reflexivity]. apply existsb_exists in E. destruct E as (l & I & N). apply given_in in I. destruct I as (k & K). rewrite (H k l K), Z.eqb_refl in N. discriminate.
Qed.
Lemma three i : 0 <= i < 3 -> i = 0 \/ i = 1 \/ i = 2. Proof. lia. Qed.
Section Perm.
Variables (d : deck) (gc : list Z) (th : R) (kmap : list Z).
Let zero := zrepeat 0%R (dk_size d).
Let t := zero :: given_fields d.
Hypothesis HK : forall i j, 0 <= i < 3 -> 0 <= j < 3 -> points kmap t (i * 3 + j) (supplied d zero i j).
Hypothesis HS : sized d.
Lemma first_given_sized ks l : first_given d ks = Some l -> zlen l = dk_size d.
Proof. induction ks as [|k ks IH]; cbn; [discriminate|]. destruct (dk_perm d k) eqn:E; [intros [= <-]; apply (HS k _ E)|exact IH]. Qed.
Lemma supplied_val g i j : 0 <= g < dk_size d -> zget (supplied d zero i j) g = Some (input_perm d g i j).
Proof.
  intros Hg. unfold supplied, input_perm. destruct (first_given d (suppliers i j)) as [l|] eqn:E.
  - apply zget_nthR. rewrite (first_given_sized _ _ E). exact Hg.
  - unfold zero. apply zget_zrepeat. exact Hg.
Qed.
Lemma row_ok g off p i : 0 <= g < dk_size d -> 0 <= i < 3 -> 0 <= off -> off + 9 <= zlen p -> exists p', assign_row t kmap g off th p i = Ok p' /\ zlen p' = zlen p /\
  forall n, nthR p' n = if (off + i * 3 <=? n) && (n <? off + i * 3 + 3) then cell_perm d th g i (n - off - i * 3) else nthR p n.
Proof.
  intros Hg Hi Ho Hp. unfold assign_row.
  destruct (zloop (fun p j => let* m := rget kmap (i * 3 + j) in let* f := rget t m in let* v := rget f g in rset p (off + i * 3 + j) v)
    (fun j q => zlen q = zlen p /\ forall n, nthR q n = if (off + i * 3 <=? n) && (n <? off + i * 3 + j) then input_perm d g i (n - off - i * 3) else nthR p n) 0 3 p ltac:(lia)) as (q & E & L & V).
  - split; [reflexivity|]. intros n. destruct (Z.leb_spec (off + i * 3) n), (Z.ltb_spec n (off + i * 3 + 0)); cbn; try reflexivity; lia.
  - intros j q Hj (L & V). pose proof (HK i j Hi Hj) as P. unfold points in P. destruct (zget kmap (i * 3 + j)) as [m|] eqn:Em; [|destruct P]. assert (Em' : rget kmap (i * 3 + j) = Ok m) by (apply rget_Ok; exact Em). rewrite Em'. cbn [bind].
    assert (P' : rget t m = Ok (supplied d zero i j)) by (apply rget_Ok; exact P). rewrite P'. cbn [bind]. pose proof (supplied_val g i j Hg) as S. apply rget_Ok in S. rewrite S. cbn [bind].
    destruct (rset_exists q (off + i * 3 + j) (input_perm d g i j) ltac:(lia)) as (q' & Eq & _). exists q'. split; [exact Eq|]. destruct (rset_nthR _ _ _ _ Eq) as (L' & _ & V' & _). split; [lia|]. intros n. rewrite V', V.
    destruct (Z.eqb_spec n (off + i * 3 + j)) as [->|Hne].
    + destruct (Z.leb_spec (off + i * 3) (off + i * 3 + j)); [|lia]. destruct (Z.ltb_spec (off + i * 3 + j) (off + i * 3 + (j + 1))); [|lia]. cbn. f_equal. lia.
    + destruct (Z.leb_spec (off + i * 3) n), (Z.ltb_spec n (off + i * 3 + j)), (Z.ltb_spec n (off + i * 3 + (j + 1))); cbn; try reflexivity; lia.
  - rewrite E. cbn [bind]. assert (G : zget q (off + i * 3 + i) = Some (nthR q (off + i * 3 + i))) by (apply zget_nthR; lia). apply rget_Ok in G. rewrite G. cbn [bind].
    destruct (rset_exists q (off + i * 3 + i) (smax (nthR q (off + i * 3 + i)) th) ltac:(lia)) as (q' & Eq & _). exists q'. split; [exact Eq|]. destruct (rset_nthR _ _ _ _ Eq) as (L' & _ & V' & _). split; [lia|]. intros n. rewrite V', !V. unfold cell_perm.
    destruct (Z.eqb_spec n (off + i * 3 + i)) as [->|Hne].
    + destruct (Z.leb_spec (off + i * 3) (off + i * 3 + i)); [|lia]. destruct (Z.ltb_spec (off + i * 3 + i) (off + i * 3 + 3)); [|lia]. cbn [andb]. replace (off + i * 3 + i - off - i * 3) with i by lia. rewrite Z.eqb_refl. apply smax_Rmax.
    + destruct (Z.leb_spec (off + i * 3) n), (Z.ltb_spec n (off + i * 3 + 3)); cbn; try reflexivity. destruct (Z.eqb_spec i (n - off - i * 3)); [lia|reflexivity].
Qed.
Lemma cell_ok pv c g nc : zget gc c = Some g -> 0 <= g < dk_size d -> 0 <= c < nc -> zlen (fst pv) = 9 * nc -> zlen (snd pv) = nc ->
  exists pv', assign_cell t kmap gc th pv c = Ok pv' /\ zlen (fst pv') = 9 * nc /\ zlen (snd pv') = nc /\
  (forall i j, 0 <= i < 3 -> 0 <= j < 3 -> nthR (fst pv') (9 * c + i * 3 + j) = cell_perm d th g i j) /\
  (forall n, n < 9 * c \/ 9 * c + 9 <= n -> nthR (fst pv') n = nthR (fst pv) n) /\ (forall e, zget (snd pv') e = if e =? c then Some true else zget (snd pv) e).
Proof.
  intros G Hg Hc L1 L2. unfold assign_cell. apply rget_Ok in G. rewrite G. cbn [bind].
  destruct (zloop (assign_row t kmap g (9 * c) th) (fun i q => zlen q = 9 * nc /\ (forall i' j, 0 <= i' < i -> 0 <= j < 3 -> nthR q (9 * c + i' * 3 + j) = cell_perm d th g i' j) /\
    (forall n, n < 9 * c \/ 9 * c + 9 <= n -> nthR q n = nthR (fst pv) n)) 0 3 (fst pv) ltac:(lia)) as (q & E & Lq & V1 & V2).
  - split; [exact L1|]. split; [lia|reflexivity].
  - intros i q Hi (Lq & V1 & V2). destruct (row_ok g (9 * c) q i Hg Hi ltac:(lia) ltac:(lia)) as (q' & E & L' & V). exists q'. split; [exact E|]. split; [lia|]. split.
    + intros i' j Hi' Hj. rewrite V. destruct (Z.leb_spec (9 * c + i * 3) (9 * c + i' * 3 + j)), (Z.ltb_spec (9 * c + i' * 3 + j) (9 * c + i * 3 + 3)); cbn [andb]; try (apply V1; lia); try lia. assert (i' = i) by lia. subst i'. f_equal. lia.
    + intros n Hn. rewrite V. destruct (Z.leb_spec (9 * c + i * 3) n), (Z.ltb_spec n (9 * c + i * 3 + 3)); cbn [andb]; try (apply V2; lia). lia.
  - rewrite E. cbn [bind]. destruct (rset_at (snd pv) c true ltac:(lia)) as (v & -> & Lv & Vv). cbn [bind]. eexists. split; [reflexivity|]. cbn [fst snd]. split; [exact Lq|]. split; [lia|]. split; [exact V1|]. split; [exact V2|exact Vv].
Qed.
Lemma cells_ok valid : cells_in d gc -> zlen valid = zlen gc -> exists p v, foldM (assign_cell t kmap gc th) (zrange 0 (zlen gc)) (zrepeat 0%R (9 * zlen gc), valid) = Ok (p, v) /\
  zlen p = 9 * zlen gc /\ zlen v = zlen gc /\ forall c g, zget gc c = Some g -> zget v c = Some true /\ forall i j, 0 <= i < 3 -> 0 <= j < 3 -> nthR p (9 * c + i * 3 + j) = cell_perm d th g i j.
Proof.
  intros HC LV. pose proof (zlen_nonneg gc) as H0.
  destruct (zloop (assign_cell t kmap gc th) (fun n pv => zlen (fst pv) = 9 * zlen gc /\ zlen (snd pv) = zlen gc /\ forall c g, 0 <= c < n -> zget gc c = Some g -> zget (snd pv) c = Some true /\ forall i j, 0 <= i < 3 -> 0 <= j < 3 -> nthR (fst pv) (9 * c + i * 3 + j) = cell_perm d th g i j)
    0 (zlen gc) (zrepeat 0%R (9 * zlen gc), valid) H0) as ((p & v) & E & L1 & L2 & V).
  - cbn [fst snd]. split; [apply zlen_zrepeat; lia|]. split; [exact LV|]. lia.
  - intros c pv Hc (L1 & L2 & V). destruct (zget_in_range gc c Hc) as (g & G). destruct (cell_ok pv c g (zlen gc) G (HC c g G) Hc L1 L2) as (pv' & E & L1' & L2' & A & B & C). exists pv'. split; [exact E|]. split; [exact L1'|]. split; [exact L2'|].
    intros e ge He Ge. rewrite C. destruct (Z.eqb_spec e c) as [->|Hne].
    + split; [reflexivity|]. assert (ge = g) by congruence. subst ge. exact A.
    + destruct (V e ge ltac:(lia) Ge) as (Ve & Ke). split; [exact Ve|]. intros i j Hi Hj. rewrite B by lia. apply Ke; assumption.
  - exists p, v. cbn [fst snd] in *. split; [exact E|]. split; [exact L1|]. split; [exact L2|]. intros c g G. pose proof (zget_Some_range _ _ _ G). apply V; assumption.
Qed.
End Perm.
Lemma given_fields_any d : given_fields d <> [] <-> any_given d.
Proof.
  split.
  - intros H. destruct (given_fields d) as [|l r] eqn:E; [congruence|]. assert (I : In l (given_fields d)) by (rewrite E; left; reflexivity). apply given_in in I. destruct I as (k & K). exists k. unfold given. congruence.
  - intros (k & G) E. unfold given in G. destruct (dk_perm d k) as [l|] eqn:K; [|congruence]. assert (I : In l (given_fields d)) by (apply given_in; exists k; exact K). rewrite E in I. exact I.
Qed.
Lemma perm_run d gc th : cells_in d gc ->
  (complete d /\ sized d /\ exists p v, assign_permeability d gc th (zrepeat false (zlen gc)) = Ok (classify d, p, v) /\ zlen p = 9 * zlen gc /\ zlen v = zlen gc /\
     (any_given d -> forall c g, zget gc c = Some g -> zget v c = Some true /\ forall i j, 0 <= i < 3 -> 0 <= j < 3 -> nthR p (9 * c + i * 3 + j) = cell_perm d th g i j) /\
     (~ any_given d -> p = zrepeat 0%R (9 * zlen gc) /\ v = zrepeat false (zlen gc))) \/
  (~ (complete d /\ sized d) /\ assign_permeability d gc th (zrepeat false (zlen gc)) = Throw).
Proof.
  intros HC. pose proof (zlen_nonneg gc) as H0. unfold assign_permeability. destruct (fill_raw d (zrepeat 0%R (dk_size d))) as [Inv|(kmap & E & P0 & P1 & P2 & P3 & P4 & P5 & P6 & P7 & P8)].
  - right. split; [apply classify_invalid in Inv; tauto|]. unfold fill_tensor. rewrite Inv. reflexivity.
  - assert (C : complete d) by (destruct (complete_dec d) as [C|C]; [exact C|apply classify_invalid in C; exfalso; unfold fill_tensor in E; rewrite C in E; discriminate]).
    rewrite E. cbn [bind tl]. destruct (existsb _ (given_fields d)) eqn:X.
    + right. split; [|reflexivity]. intros (_ & S). apply sized_tl in S. congruence.
    + left. apply sized_tl in X. split; [exact C|]. split; [exact X|].
      assert (HK : forall i j, 0 <= i < 3 -> 0 <= j < 3 -> points kmap (zrepeat 0%R (dk_size d) :: given_fields d) (i * 3 + j) (supplied d (zrepeat 0%R (dk_size d)) i j)) by (intros i j Hi Hj; destruct (three i Hi) as [->|[->| ->]], (three j Hj) as [->|[->| ->]]; assumption).
      destruct (given_fields d) as [|l0 r0] eqn:EG.
      * change (1 <? zlen [zrepeat 0%R (dk_size d)]) with false. cbn [bind fst snd]. eexists _, _. split; [reflexivity|]. split; [apply zlen_zrepeat; lia|]. split; [apply zlen_zrepeat; lia|]. split; [|auto]. intros A. apply given_fields_any in A. congruence.
      * assert (L1 : 1 <? zlen (zrepeat 0%R (dk_size d) :: l0 :: r0) = true) by (rewrite !zlen_cons; pose proof (zlen_nonneg r0); lia). rewrite L1. rewrite <- EG in *.
        destruct (cells_ok d gc th kmap HK X (zrepeat false (zlen gc)) HC ltac:(apply zlen_zrepeat; lia)) as (p & v & Ep & Lp & Lv & V). rewrite Ep. cbn [bind fst snd]. exists p, v. split; [reflexivity|]. split; [exact Lp|]. split; [exact Lv|]. split; [intros _; exact V|]. intros A. exfalso. apply A. apply given_fields_any. congruence.
Qed.
