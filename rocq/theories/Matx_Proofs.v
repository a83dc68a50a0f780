From Coq Require Import Lra.
From Verif Require Import BaseFacts RBaseFacts Steady_Proofs Euler_Proofs2 Impl_Proofs5 Lin_Facts Matx_Spec.
Open Scope Z_scope.

Definition pos (o : ordering) (rows cols r c : Z) : Z := match o with COrd => r * cols + c | FOrd => r + c * rows end.
Lemma pos_range o rows cols r c : 0 <= r < rows -> 0 <= c < cols -> 0 <= pos o rows cols r c < rows * cols.
Proof. intros. unfold pos. destruct o; nia. Qed.
Lemma pos_inj o rows cols r c r' c' : 0 <= r < rows -> 0 <= c < cols -> 0 <= r' < rows -> 0 <= c' < cols ->
  pos o rows cols r c = pos o rows cols r' c' -> r = r' /\ c = c'.
Proof. intros. unfold pos in *. destruct o; assert (r = r' \/ r < r' \/ r' < r) by lia; assert (c = c' \/ c < c' \/ c' < c) by lia; nia. Qed.
Lemma pos_onto o rows cols k : 0 <= rows -> 0 <= cols -> 0 <= k < rows * cols -> exists r c, 0 <= r < rows /\ 0 <= c < cols /\ k = pos o rows cols r c.
Proof.
  intros H1 H2 H. unfold pos. destruct o.
  - destruct (mr_decomp k cols rows) as (a & b & A & B & E); [nia|lia|]. exists b, a. repeat split; try lia; nia.
  - destruct (mr_decomp k rows cols) as (a & b & A & B & E); [nia|lia|]. exists a, b. repeat split; try lia; nia.
Qed.
Lemma midx_pos m : midx m = pos (m_ord m) (m_rows m) (m_cols m).
Proof. reflexivity. Qed.

Lemma holds_get m o rows cols f r c : holds m o rows cols f -> 0 <= r < rows -> 0 <= c < cols -> mget m r c = Ok (f r c).
Proof.
  intros (E1 & E2 & E3 & P1 & P2 & L & G) Hr Hc. unfold mget. rewrite midx_pos, E1, E2, E3.
  pose proof (pos_range o rows cols r c Hr Hc). rewrite rget_at by (rewrite L; assumption). f_equal. apply G; assumption.
Qed.
Lemma holds_ext m o rows cols f g : holds m o rows cols f -> (forall r c, 0 <= r < rows -> 0 <= c < cols -> f r c = g r c) -> holds m o rows cols g.
Proof. intros (E1 & E2 & E3 & P1 & P2 & L & G) H. repeat split; try assumption. intros. rewrite G by assumption. apply H; assumption. Qed.
Lemma holds_set m o rows cols f r c v : holds m o rows cols f -> 0 <= r < rows -> 0 <= c < cols ->
  exists m', mset m r c v = Ok m' /\ holds m' o rows cols (fun i j => if (i =? r) && (j =? c) then v else f i j).
Proof.
  intros (E1 & E2 & E3 & P1 & P2 & L & G) Hr Hc. unfold mset. rewrite midx_pos, E1, E2, E3.
  pose proof (pos_range o rows cols r c Hr Hc) as HP. destruct (rset_exists (m_data m) (pos o rows cols r c) v) as (d & Ed & Ld & Gd & Go); [rewrite L; assumption|].
  rewrite Ed. cbn [bind]. eexists. split; [reflexivity|]. repeat split; try assumption; try reflexivity.
  - cbn. lia.
  - cbn [m_data]. intros i j Hi Hj. specialize (G i j Hi Hj). change (nthR (m_data m) (pos o rows cols i j) = f i j) in G.
    change (nthR d (pos o rows cols i j) = if (i =? r) && (j =? c) then v else f i j).
    destruct ((i =? r) && (j =? c)) eqn:X.
    + apply andb_prop in X. destruct X as [X1 X2]. apply Z.eqb_eq in X1, X2. rewrite X1, X2. unfold nthR. rewrite Gd. reflexivity.
    + rewrite <- G. unfold nthR. rewrite Go; [reflexivity|]. intros E. apply pos_inj in E; try assumption. destruct E as [-> ->]. rewrite !Z.eqb_refl in X. discriminate.
Qed.
Lemma holds_new o rows cols : 0 <= rows -> 0 <= cols -> holds (mnew o rows cols) o rows cols (fun _ _ => 0%R).
Proof.
  intros H1 H2. repeat split; try assumption; try reflexivity.
  - cbn [mnew m_data]. apply zlen_zrepeat. nia.
  - intros r c Hr Hc. change (nthR (zrepeat 0%R (rows * cols)) (pos o rows cols r c) = 0%R). apply nthR_zrepeat0.
Qed.
(* a loop that writes values f at listed positions *)
Lemma write_loop o rows cols f g (step : mat -> Z * Z -> res mat) l m :
  holds m o rows cols g -> (forall r c, In (r, c) l -> 0 <= r < rows /\ 0 <= c < cols) ->
  (forall m h r c, In (r, c) l -> holds m o rows cols h -> (forall i j, 0 <= i < rows -> 0 <= j < cols -> ~ In (i, j) l -> h i j = g i j) ->
     exists m', step m (r, c) = Ok m' /\ holds m' o rows cols (fun i j => if (i =? r) && (j =? c) then f r c else h i j)) ->
  exists m', foldM step l m = Ok m' /\ holds m' o rows cols (fun i j => if existsb (fun p => (i =? fst p) && (j =? snd p)) l then f i j else g i j).
Proof.
  intros Hm Hl Hs.
  assert (Gen : forall l1 l2, l = l1 ++ l2 -> forall m, holds m o rows cols (fun i j => if existsb (fun p => (i =? fst p) && (j =? snd p)) l1 then f i j else g i j) ->
    exists m', foldM step l2 m = Ok m' /\ holds m' o rows cols (fun i j => if existsb (fun p => (i =? fst p) && (j =? snd p)) l then f i j else g i j)).
  { intros l1 l2. revert l1. induction l2 as [|[r c] l2 IH]; intros l1 E m1 H1.
    - rewrite app_nil_r in E. subst. exists m1. split; [reflexivity|exact H1].
    - destruct (Hs m1 _ r c ltac:(rewrite E; apply in_or_app; right; left; reflexivity) H1) as (m2 & E2 & H2).
      { intros i j _ _ N. replace (existsb _ l1) with false; [reflexivity|]. symmetry. apply not_true_is_false. intros X. apply existsb_exists in X. destruct X as ([a b] & A & B).
        apply andb_prop in B. destruct B as [B1 B2]. apply Z.eqb_eq in B1, B2. cbn in B1, B2. subst. apply N. apply in_or_app. left. exact A. }
      cbn [foldM]. rewrite E2. cbn [bind]. apply (IH (l1 ++ [(r, c)])); [rewrite <- app_assoc; exact E|].
      eapply holds_ext; [exact H2|]. intros i j _ _. cbn beta. rewrite existsb_app. cbn [existsb fst snd]. rewrite orb_false_r.
      destruct (Z.eqb_spec i r), (Z.eqb_spec j c); cbn [andb]; subst; rewrite ?orb_true_r, ?orb_false_r; reflexivity. }
  apply (Gen [] l eq_refl). exact Hm.
Qed.
Lemma existsb_pair i j l : existsb (fun p => (i =? fst p) && (j =? snd p)) l = true <-> In (i, j) l.
Proof.
  rewrite existsb_exists. split.
  - intros ([a b] & A & B). apply andb_prop in B. destruct B as [B1 B2]. apply Z.eqb_eq in B1, B2. cbn in B1, B2. subst. exact A.
  - intros H. exists (i, j). split; [exact H|]. cbn. rewrite !Z.eqb_refl. reflexivity.
Qed.
Lemma In_pairs_range i j a b : In (i, j) (pairs (zrange 0 a) (zrange 0 b)) <-> 0 <= i < a /\ 0 <= j < b.
Proof. rewrite In_pairs, !In_zrange. tauto. Qed.
(* the accumulation loop into one entry *)
Lemma accumulate o rows cols r c (x : Z -> R) (step : mat -> Z -> res mat) n m h : 0 <= n ->
  holds m o rows cols h -> 0 <= r < rows -> 0 <= c < cols ->
  (forall m h k, 0 <= k < n -> holds m o rows cols h -> exists m', step m k = Ok m' /\ holds m' o rows cols (fun i j => if (i =? r) && (j =? c) then (h r c + x k)%R else h i j)) ->
  exists m', foldM step (zrange 0 n) m = Ok m' /\ holds m' o rows cols (fun i j => if (i =? r) && (j =? c) then (h r c + Sum n x)%R else h i j).
Proof.
  intros Hn Hm Hr Hc Hs. revert Hs. pattern n. apply Zlt_0_ind with (x := n); [|exact Hn]. clear n Hn. intros n IH Hn Hs.
  destruct (Z.eq_dec n 0) as [->|].
  - exists m. split; [reflexivity|]. eapply holds_ext; [exact Hm|]. intros i j _ _. cbn beta. rewrite Sum_0, Rplus_0_r.
    destruct (Z.eqb_spec i r), (Z.eqb_spec j c); cbn [andb]; subst; reflexivity.
  - destruct (IH (n - 1)) as (m1 & E1 & H1); [lia|intros; apply Hs; [lia|assumption]|].
    destruct (Hs m1 _ (n - 1) ltac:(lia) H1) as (m2 & E2 & H2). exists m2. split.
    + rewrite (zrange_app 0 (n - 1) n) by lia. rewrite foldM_app, E1. cbn [bind]. rewrite zrange_cons, zrange_empty by lia. cbn [foldM]. rewrite E2. reflexivity.
    + eapply holds_ext; [exact H2|]. intros i j _ _. cbn beta. rewrite (Sum_pred n) by lia.
      rewrite !Z.eqb_refl. cbn [andb]. destruct (Z.eqb_spec i r), (Z.eqb_spec j c); cbn [andb]; subst; ring.
Qed.

Lemma assign_ok dst src o o' rows cols g f : holds dst o rows cols g -> holds src o' rows cols f ->
  exists m', massign dst src = Ok m' /\ holds m' o rows cols f.
Proof.
  intros Hd Hs. unfold massign. pose proof Hd as (_ & Er & Ec & _). rewrite Er, Ec.
  destruct (write_loop o rows cols f g (fun m rc => let* v := mget src (fst rc) (snd rc) in mset m (fst rc) (snd rc) v) (pairs (zrange 0 rows) (zrange 0 cols)) dst) as (m' & E & H).
  - exact Hd.
  - intros r c Hin. apply In_pairs_range in Hin. exact Hin.
  - intros m h r c Hin Hm _. apply In_pairs_range in Hin. cbn [fst snd]. rewrite (holds_get src o' rows cols f) by (try assumption; lia). cbn [bind]. apply holds_set; [exact Hm|lia|lia].
  - exists m'. split; [exact E|]. eapply holds_ext; [exact H|]. intros r c Hr Hc. cbn beta.
    replace (existsb _ _) with true; [reflexivity|]. symmetry. apply existsb_pair. apply In_pairs_range. split; assumption.
Qed.
Lemma equal_ok a b o o' rows cols rows' cols' f g : holds a o rows cols f -> holds b o' rows' cols' g ->
  exists e, mequal a b = Ok e /\ (e = true <-> rows = rows' /\ cols = cols' /\ forall r c, 0 <= r < rows -> 0 <= c < cols -> f r c = g r c).
Proof.
  intros Ha Hb. unfold mequal. pose proof Ha as (_ & Ea & Ca & _). pose proof Hb as (_ & Eb & Cb & _). rewrite Ea, Ca, Eb, Cb.
  destruct (Z.eqb_spec rows rows') as [E|E]; cbn [andb negb].
  2:{ eexists. split; [reflexivity|]. split; [discriminate|]. intros (X & _). contradiction. }
  destruct (Z.eqb_spec cols cols') as [E'|E']; cbn [andb negb].
  2:{ eexists. split; [reflexivity|]. split; [discriminate|]. intros (_ & X & _). contradiction. }
  clear Eb Cb Ea Ca. subst rows' cols'.
  set (step := fun (eq : bool) rc => if eq then _ else _).
  assert (F : forall l e, (forall r c, In (r, c) l -> 0 <= r < rows /\ 0 <= c < cols) ->
    exists e', foldM step l e = Ok e' /\ (e' = true <-> e = true /\ forall r c, In (r, c) l -> f r c = g r c)).
  { induction l as [|[r c] l IH]; intros e Hl.
    - exists e. split; [reflexivity|]. split; [intros H; split; [exact H|intros ? ? []]|tauto].
    - cbn [foldM]. unfold step at 1. destruct e.
      + cbn [fst snd]. destruct (Hl r c (or_introl eq_refl)) as [Hr Hc]. rewrite (holds_get a o rows cols f) by assumption. rewrite (holds_get b o' rows cols g) by assumption. cbn [bind].
        destruct (IH (if Req_EM_T (f r c) (g r c) then true else false)) as (e' & X' & I').
        { intros. apply Hl. right. assumption. }
        exists e'. split; [exact X'|]. rewrite I'. destruct (Req_EM_T (f r c) (g r c)) as [X|X].
        * split; [intros [_ H]; split; [reflexivity|]; intros r0 c0 [Y|Y]; [congruence|auto]|intros [_ H]; split; [reflexivity|]; intros; apply H; right; assumption].
        * split; [intros [Y _]; discriminate|]. intros [_ H]. exfalso. apply X. apply H. left. reflexivity.
      + cbn [bind]. destruct (IH false) as (e' & X' & I'); [intros; apply Hl; right; assumption|]. exists e'. split; [exact X'|]. rewrite I'. split; intros [Y _]; discriminate. }
  destruct (F (pairs (zrange 0 rows) (zrange 0 cols)) true) as (e & E & I); [intros r c Hin; apply In_pairs_range in Hin; exact Hin|].
  exists e. split; [exact E|]. rewrite I. split.
  - intros [_ H]. split; [reflexivity|]. split; [reflexivity|]. intros. apply H. apply In_pairs_range. split; assumption.
  - intros (_ & _ & H). split; [reflexivity|]. intros r c Hin. apply In_pairs_range in Hin. apply H; apply Hin.
Qed.
Lemma nthR_map_combine l l' k : 0 <= k < zlen l -> zlen l = zlen l' -> nthR (map (fun p => (fst p + snd p)%R) (combine l l')) k = (nthR l k + nthR l' k)%R.
Proof.
  intros H L. unfold nthR. rewrite zget_map. destruct (zget_in_range l k H) as (x & Ex). destruct (zget_in_range l' k) as (y & Ey); [lia|].
  rewrite (zget_combine l l' k x y Ex Ey), Ex, Ey. reflexivity.
Qed.
Lemma add_ok a b o rows cols f g : holds a o rows cols f -> holds b o rows cols g ->
  exists m, madd a b = Ok m /\ holds m o rows cols (fun r c => f r c + g r c)%R.
Proof.
  intros (A1 & A2 & A3 & P1 & P2 & LA & GA) (B1 & B2 & B3 & _ & _ & LB & GB). unfold madd. rewrite LA, LB, Z.ltb_irrefl. eexists. split; [reflexivity|].
  repeat split; cbn [m_ord m_rows m_cols m_data]; try assumption.
  - rewrite zlen_map. unfold zlen in *. rewrite combine_length. lia.
  - intros r c Hr Hc. rewrite nthR_map_combine; [rewrite GA, GB by assumption; reflexivity| |lia].
    rewrite LA. exact (pos_range o rows cols r c Hr Hc).
Qed.
Lemma scale_ok a o rows cols f s : holds a o rows cols f -> holds (mscale a s) o rows cols (fun r c => f r c * s)%R.
Proof.
  intros (A1 & A2 & A3 & P1 & P2 & LA & GA). repeat split; cbn [mscale m_ord m_rows m_cols m_data]; try assumption.
  - rewrite zlen_map. exact LA.
  - intros r c Hr Hc. rewrite <- (GA r c Hr Hc). unfold nthR. rewrite zget_map. destruct (zget_in_range (m_data a) (pos o rows cols r c)) as (x & Ex); [rewrite LA; apply pos_range; assumption|].
    unfold pos in Ex. rewrite Ex. reflexivity.
Qed.
Lemma copy_ok a o rows cols f : holds a o rows cols f -> holds (mcopy a) o rows cols f.
Proof. intros H. exact H. Qed.
Lemma fill_zero d n : 0 <= n -> n = zlen d -> exists d', foldM (fun d k => rset d k 0%R) (zrange 0 n) d = Ok d' /\ zlen d' = zlen d /\ forall k, 0 <= k < n -> nthR d' k = 0%R.
Proof.
  intros Hn L. assert (G : forall k, 0 <= k <= n -> exists d', foldM (fun d k => rset d k 0%R) (zrange 0 k) d = Ok d' /\ zlen d' = zlen d /\ forall i, 0 <= i < k -> nthR d' i = 0%R).
  { intros k [Hk0 Hk]. revert Hk. pattern k. apply Zlt_0_ind with (x := k); [|exact Hk0]. clear k Hk0. intros k IH Hk0 Hk.
    destruct (Z.eq_dec k 0) as [->|]; [exists d; split; [reflexivity|]; split; [reflexivity|]; intros; lia|].
    destruct (IH (k - 1)) as (d1 & E1 & L1 & G1); [lia|lia|]. destruct (rset_exists d1 (k - 1) 0%R) as (d2 & E2 & L2 & G2 & O2); [lia|].
    exists d2. split; [|split; [lia|]].
    - rewrite (zrange_app 0 (k - 1) k) by lia. rewrite foldM_app, E1. cbn [bind]. rewrite zrange_cons, zrange_empty by lia. cbn [foldM]. rewrite E2. reflexivity.
    - intros i Hi. unfold nthR. destruct (Z.eq_dec i (k - 1)) as [->|]; [rewrite G2; reflexivity|]. rewrite O2 by assumption. apply G1. lia. }
  apply G. lia.
Qed.
Lemma zero_ok a o rows cols f : holds a o rows cols f -> exists m, mzero a = Ok m /\ holds m o rows cols (fun _ _ => 0%R).
Proof.
  intros (A1 & A2 & A3 & P1 & P2 & LA & GA). unfold mzero. rewrite A2, A3. destruct (fill_zero (m_data a) (rows * cols)) as (d & E & L & G); [nia|lia|].
  rewrite E. cbn [bind]. eexists. split; [reflexivity|]. repeat split; cbn [m_ord m_rows m_cols m_data]; try assumption; try lia.
  intros r c Hr Hc. apply G. exact (pos_range o rows cols r c Hr Hc).
Qed.
Lemma eye_ok a o rows cols f : holds a o rows cols f -> exists m, meye a = Ok m /\ holds m o rows cols ident.
Proof.
  intros H. unfold meye. destruct (zero_ok a o rows cols f H) as (z & Ez & Hz). rewrite Ez. cbn [bind]. pose proof H as (_ & Er & Ec & P1 & P2 & _). rewrite Er, Ec.
  assert (G : forall k, 0 <= k <= Z.min rows cols -> exists m, foldM (fun m i => mset m i i 1%R) (zrange 0 k) z = Ok m /\ holds m o rows cols (fun i j => if (i =? j) && (i <? k) then 1%R else 0%R)).
  { intros k [Hk0 Hk]. revert Hk. pattern k. apply Zlt_0_ind with (x := k); [|exact Hk0]. clear k Hk0. intros k IH Hk0 Hk.
    destruct (Z.eq_dec k 0) as [->|].
    - exists z. split; [reflexivity|]. eapply holds_ext; [exact Hz|]. intros r c Hr _. cbn beta. rewrite (proj2 (Z.ltb_ge r 0)) by lia. rewrite andb_false_r. reflexivity.
    - destruct (IH (k - 1)) as (m1 & E1 & H1); [lia|lia|]. destruct (holds_set m1 o rows cols _ (k - 1) (k - 1) 1%R H1) as (m2 & E2 & H2); [lia|lia|].
      exists m2. split.
      + rewrite (zrange_app 0 (k - 1) k) by lia. rewrite foldM_app, E1. cbn [bind]. rewrite zrange_cons, zrange_empty by lia. cbn [foldM]. rewrite E2. reflexivity.
      + eapply holds_ext; [exact H2|]. intros r c Hr Hc. cbn beta.
        destruct (Z.eqb_spec r (k - 1)), (Z.eqb_spec c (k - 1)), (Z.eqb_spec r c), (Z.ltb_spec r (k - 1)), (Z.ltb_spec r k); cbn [andb]; try lia; reflexivity. }
  destruct (G (Z.min rows cols)) as (m & E & Hm); [lia|]. exists m. split; [exact E|]. eapply holds_ext; [exact Hm|]. intros r c Hr Hc. cbn beta. unfold ident.
  destruct (Z.eqb_spec r c), (Z.ltb_spec r (Z.min rows cols)); cbn [andb]; try lia; reflexivity.
Qed.
Lemma sum_loop (f : Z -> res R) (x : Z -> R) lo hi : (forall i, lo <= i < hi -> f i = Ok (x i)) -> sumM lo hi f = Ok (Rsum (map x (zrange lo hi))).
Proof.
  intros H. unfold sumM. assert (G : forall l s, (forall i, In i l -> f i = Ok (x i)) -> foldM (fun s l => let* x := f l in Ok (s + x)%R) l s = Ok (s + Rsum (map x l))%R).
  { induction l as [|a l IH]; intros s Hl; [cbn [foldM map]; rewrite Rsum_nil, Rplus_0_r; reflexivity|]. cbn [foldM map]. rewrite Hl by (left; reflexivity). cbn [bind].
    rewrite IH by (intros; apply Hl; right; assumption). rewrite Rsum_cons. f_equal. ring. }
  rewrite G; [f_equal; ring|]. intros i Hi. apply H. apply In_zrange in Hi. lia.
Qed.
Lemma trace_ok a o rows cols f : holds a o rows cols f -> mtrace a = Ok (Sum (Z.min rows cols) (fun i => f i i)).
Proof.
  intros H. unfold mtrace. pose proof H as (_ & Er & Ec & P1 & P2 & _). rewrite Er, Ec. change (sumM 0 (Z.min rows cols) (fun i => mget a i i) = Ok (Sum (Z.min rows cols) (fun i => f i i))).
  rewrite (sum_loop _ (fun i => f i i)); [reflexivity|]. intros i Hi. apply (holds_get a o rows cols); [exact H|lia|lia].
Qed.
Lemma prodv_ok a o n f x : holds a o n n f -> zlen x = n -> exists y, mprodv a n x = Ok y /\ zlen y = n /\ forall r, 0 <= r < n -> nthR y r = mvec n f (nthR x) r.
Proof.
  intros H L. pose proof H as (_ & _ & _ & P & _). unfold mprodv.
  set (step := fun (y : list R) (cr : Z * Z) => _).
  assert (In1 : forall c l y, 0 <= c < n -> (forall r, In r l -> 0 <= r < n) -> NoDup l -> zlen y = n ->
    exists y', foldM step (map (fun i => (c, i)) l) y = Ok y' /\ zlen y' = n /\ forall r, 0 <= r < n -> nthR y' r = (nthR y r + if existsb (Z.eqb r) l then f r c * nthR x c else 0)%R).
  { intros c. induction l as [|r l IH]; intros y Hc Hl ND Ly.
    - exists y. split; [reflexivity|]. split; [exact Ly|]. intros. cbn. ring.
    - cbn [map foldM]. unfold step at 1. cbn [fst snd]. assert (Hr : 0 <= r < n) by (apply Hl; left; reflexivity).
      rewrite rget_at by lia. cbn [bind]. rewrite (holds_get a o n n f) by (try assumption; lia). cbn [bind]. rewrite rget_at by lia. cbn [bind].
      destruct (rset_exists y r (nthR y r + f r c * nthR x c)%R) as (y1 & E1 & L1 & G1 & O1); [lia|]. rewrite E1. cbn [bind].
      inversion ND; subst. destruct (IH y1) as (y2 & E2 & L2 & G2); [assumption|intros; apply Hl; right; assumption|assumption|lia|].
      exists y2. split; [exact E2|]. split; [exact L2|]. intros i Hi. rewrite G2 by assumption. cbn [existsb]. destruct (Z.eqb_spec i r) as [->|N]; cbn [orb].
      + replace (existsb (Z.eqb r) l) with false. { unfold nthR at 1. rewrite G1. ring. }
        symmetry. apply not_true_is_false. intros X. apply existsb_exists in X. destruct X as (q & Q1 & Q2). apply Z.eqb_eq in Q2. subst. contradiction.
      + f_equal. unfold nthR. rewrite O1 by assumption. reflexivity. }
  assert (G : forall k, 0 <= k <= n -> exists y, foldM step (pairs (zrange 0 k) (zrange 0 n)) (zrepeat 0%R n) = Ok y /\ zlen y = n /\ forall r, 0 <= r < n -> nthR y r = Sum k (fun c => f r c * nthR x c)%R).
  { intros k [Hk0 Hk]. revert Hk. pattern k. apply Zlt_0_ind with (x := k); [|exact Hk0]. clear k Hk0. intros k IH Hk0 Hk.
    destruct (Z.eq_dec k 0) as [->|].
    - exists (zrepeat 0%R n). split; [reflexivity|]. split; [apply zlen_zrepeat; lia|]. intros. rewrite Sum_0. apply nthR_zrepeat0.
    - destruct (IH (k - 1)) as (y1 & E1 & L1 & G1); [lia|lia|].
      destruct (In1 (k - 1) (zrange 0 n) y1) as (y2 & E2 & L2 & G2); [lia|intros r Hr; apply In_zrange in Hr; lia|apply zrange_NoDup|exact L1|].
      exists y2. split; [|split; [exact L2|]].
      + rewrite (zrange_app 0 (k - 1) k) by lia. unfold pairs. rewrite flat_map_app. fold (pairs (zrange 0 (k - 1)) (zrange 0 n)). rewrite foldM_app, E1. cbn [bind].
        rewrite (zrange_cons (k - 1) k), (zrange_empty (k - 1 + 1) k) by lia. cbn [flat_map]. rewrite app_nil_r. exact E2.
      + intros r Hr. rewrite G2, G1 by assumption. rewrite (Sum_pred k) by lia. f_equal.
        replace (existsb (Z.eqb r) (zrange 0 n)) with true; [reflexivity|]. symmetry. apply existsb_exists. exists r. split; [apply In_zrange; lia|apply Z.eqb_refl]. }
  destruct (G n) as (y & E & Ly & Gy); [lia|]. exists y. split; [exact E|]. split; [exact Ly|]. exact Gy.
Qed.
Lemma prod_entry a b oa ob o n k p rows cols f g r c m h : holds a oa n k f -> holds b ob k p g -> holds m o rows cols h ->
  0 <= r < rows -> 0 <= c < cols -> r < n -> c < p ->
  exists m', (let* m0 := mset m r c 0%R in
              foldM (fun m i => let* z := mget m r c in let* x := mget a r i in let* y := mget b i c in mset m r c (z + x * y)%R) (zrange 0 k) m0) = Ok m' /\
    holds m' o rows cols (fun i j => if (i =? r) && (j =? c) then mmul k f g r c else h i j).
Proof.
  intros Ha Hb Hm Hr Hc Hrn Hcp. pose proof Ha as (_ & _ & _ & _ & Pk & _). destruct (holds_set m o rows cols h r c 0%R Hm Hr Hc) as (m0 & E0 & H0). rewrite E0. cbn [bind].
  destruct (accumulate o rows cols r c (fun i => f r i * g i c)%R (fun m i => let* z := mget m r c in let* x := mget a r i in let* y := mget b i c in mset m r c (z + x * y)%R) k m0 _ Pk H0 Hr Hc) as (m1 & E1 & H1).
  - intros m2 h2 i Hi H2. rewrite (holds_get m2 o rows cols h2) by assumption. cbn [bind]. rewrite (holds_get a oa n k f) by (try assumption; lia). cbn [bind].
    rewrite (holds_get b ob k p g) by (try assumption; lia). cbn [bind]. apply holds_set; assumption.
  - exists m1. split; [exact E1|]. eapply holds_ext; [exact H1|]. intros i j _ _. cbn beta. rewrite !Z.eqb_refl. cbn [andb].
    destruct (Z.eqb_spec i r), (Z.eqb_spec j c); cbn [andb]; try reflexivity. unfold mmul. ring.
Qed.
Lemma prod_ok a b dst oa ob o n k p f g h : holds a oa n k f -> holds b ob k p g -> holds dst o n p h ->
  exists m, mprod a b dst = Ok m /\ holds m o n p (mmul k f g).
Proof.
  intros Ha Hb Hd. unfold mprod. pose proof Ha as (_ & Ea & Ca & _). pose proof Hb as (_ & Eb & Cb & _). rewrite Ea, Ca, Cb.
  set (step := fun (m : mat) (cr : Z * Z) => _).
  assert (Q : foldM step (pairs (zrange 0 p) (zrange 0 n)) dst = foldM (fun m rc => step m (snd rc, fst rc)) (map (fun cr => (snd cr, fst cr)) (pairs (zrange 0 p) (zrange 0 n))) dst).
  { generalize (pairs (zrange 0 p) (zrange 0 n)) as l. intros l. revert dst Hd. generalize (fun dst : mat => True). intros _ dst _. revert dst. induction l as [|[u v] l IH]; intros dst; [reflexivity|].
    cbn [map foldM fst snd]. destruct (step dst (u, v)); cbn [bind]; [apply IH|reflexivity|reflexivity]. }
  rewrite Q.
  destruct (write_loop o n p (mmul k f g) h (fun m rc => step m (snd rc, fst rc)) (map (fun cr => (snd cr, fst cr)) (pairs (zrange 0 p) (zrange 0 n))) dst Hd) as (m & E & H).
  - intros r c Hin. apply in_map_iff in Hin. destruct Hin as ([u v] & X & Y). injection X as <- <-. apply In_pairs_range in Y. cbn. lia.
  - intros m h' r c Hin Hm _. apply in_map_iff in Hin. destruct Hin as ([u v] & X & Y). injection X as <- <-. apply In_pairs_range in Y. cbn [fst snd] in *.
    unfold step. cbn [fst snd]. apply (prod_entry a b oa ob o n k p); try assumption; lia.
  - exists m. split; [exact E|]. eapply holds_ext; [exact H|]. intros r c Hr Hc. cbn beta. replace (existsb _ _) with true; [reflexivity|].
    symmetry. apply existsb_pair. apply in_map_iff. exists (c, r). split; [reflexivity|]. apply In_pairs_range. lia.
Qed.
Lemma matprod_ok a b oa ob n k p f g : holds a oa n k f -> holds b ob k p g ->
  exists m, matprod a b = Ok m /\ holds m oa n p (mmul k f g).
Proof.
  intros Ha Hb. unfold matprod. pose proof Ha as (Oa & Ea & Ca & Pn & Pk & _). pose proof Hb as (_ & Eb & Cb & _ & Pp & _). rewrite Ea, Ca, Cb, Oa.
  destruct (write_loop oa n p (mmul k f g) (fun _ _ => 0%R) (fun m rc =>
      let r := fst rc in let c := snd rc in
      let* m0 := mset m r c 0%R in
      foldM (fun m k => let* z := mget m r c in let* x := mget a r k in let* y := mget b k c in
                        mset m r c (z + x * y)%R) (zrange 0 k) m0) (pairs (zrange 0 n) (zrange 0 p)) (mnew oa n p) (holds_new oa n p Pn Pp)) as (m & E & H).
  - intros r c Hin. apply In_pairs_range in Hin. exact Hin.
  - intros m h' r c Hin Hm _. apply In_pairs_range in Hin. cbn [fst snd]. apply (prod_entry a b oa ob oa n k p); try assumption; lia.
  - exists m. split; [exact E|]. eapply holds_ext; [exact H|]. intros r c Hr Hc. cbn beta. replace (existsb _ _) with true; [reflexivity|].
    symmetry. apply existsb_pair. apply In_pairs_range. lia.
Qed.
