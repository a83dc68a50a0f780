From Coq Require Import Lra.
From Verif Require Import BaseFacts RBaseFacts Steady_Proofs Euler_Proofs2 Impl_Proofs5 Lin_Facts Matx_Spec Matx_Proofs.
Open Scope Z_scope.

Lemma fset rows cols d g r c v : holds (mkMat rows cols FOrd d) FOrd rows cols g -> 0 <= r < rows -> 0 <= c < cols ->
  exists d', rset d (r + c * rows) v = Ok d' /\ holds (mkMat rows cols FOrd d') FOrd rows cols (fun i j => if (i =? r) && (j =? c) then v else g i j).
Proof.
  intros H Hr Hc. destruct (holds_set _ _ _ _ _ r c v H Hr Hc) as (m' & E & H'). unfold mset in E. cbn [m_data m_rows m_cols m_ord midx] in E.
  destruct (rset d (r + c * rows) v) as [d'| |]; cbn [bind] in E; try discriminate. injection E as <-. exists d'. split; [reflexivity|exact H'].
Qed.
Lemma fstore_ok rows cols ws v f d g : holds (mkMat rows cols FOrd d) FOrd rows cols g ->
  (forall i j, In (j, i) ws -> 0 <= i < rows /\ 0 <= j < cols /\ v i j = Ok (f i j)) ->
  exists d', fstore ws rows v d = Ok d' /\
    holds (mkMat rows cols FOrd d') FOrd rows cols (fun i j => if existsb (fun p => (j =? fst p) && (i =? snd p)) ws then f i j else g i j).
Proof.
  unfold fstore. revert d g. induction ws as [|[j i] ws IH]; intros d g H Hw.
  - exists d. split; [reflexivity|exact H].
  - destruct (Hw i j (or_introl eq_refl)) as (Hi & Hj & Ev). cbn [foldM fst snd]. rewrite Ev. cbn [bind].
    destruct (fset rows cols d g i j (f i j) H Hi Hj) as (d1 & E1 & H1). rewrite E1. cbn [bind].
    destruct (IH d1 _ H1) as (d2 & E2 & H2); [intros; apply Hw; right; assumption|]. exists d2. split; [exact E2|].
    eapply holds_ext; [exact H2|]. intros r c Hr Hc. cbn beta. cbn [existsb fst snd]. destruct (Z.eqb_spec c j), (Z.eqb_spec r i); cbn [andb orb]; subst; try reflexivity.
    destruct (existsb _ ws); reflexivity.
Qed.
Lemma fget_ok A rows cols f i j : holds A FOrd rows cols f -> 0 <= i < rows -> 0 <= j < cols -> fget (m_data A) (ldim A) i j = Ok (f i j).
Proof. intros H Hi Hj. rewrite <- (holds_get A FOrd rows cols f i j H Hi Hj). destruct H as (E1 & _). unfold fget, mget, midx, ldim. rewrite E1. reflexivity. Qed.
Lemma ldim_rows A rows cols f : holds A FOrd rows cols f -> ldim A = rows.
Proof. intros (E1 & E2 & _). unfold ldim. rewrite E1. exact E2. Qed.
Lemma holds_eta A o rows cols f : holds A o rows cols f -> A = mkMat rows cols o (m_data A).
Proof. intros (E1 & E2 & E3 & _). destruct A; cbn in *. congruence. Qed.
Lemma holds_mk A rows cols f : holds A FOrd rows cols f -> holds (mkMat rows cols FOrd (m_data A)) FOrd rows cols f.
Proof. intros H. rewrite <- (holds_eta _ _ _ _ _ H). exact H. Qed.
Lemma with_data_ok C rows cols h r f : holds C FOrd rows cols h ->
  (exists d, r = Ok d /\ holds (mkMat rows cols FOrd d) FOrd rows cols f) -> exists m, with_data C r = Ok m /\ holds m FOrd rows cols f.
Proof. intros (E1 & E2 & E3 & _) (d & -> & H). unfold with_data. cbn [bind]. rewrite E1, E2, E3. eauto. Qed.
Lemma Sum_zr n x : Rsum (map x (zrange 0 n)) = Sum n x.
Proof. reflexivity. Qed.

Section Gemm.
Variables (ta tb : bool) (A B C : mat) (m n k : Z) (f g h : Z -> Z -> R) (a1 a2 : R).
Hypothesis HA : if ta then holds A FOrd k m f else holds A FOrd m k f.
Hypothesis HB : if tb then holds B FOrd n k g else holds B FOrd k n g.
Hypothesis HC : holds C FOrd m n h.
Lemma gemm_ok : exists C', with_data C (gemm ta tb m n k a1 (m_data A) (ldim A) (m_data B) (ldim B) a2 (m_data C) (ldim C)) = Ok C' /\
  holds C' FOrd m n (fun i j => a1 * mmul k (fun i l => if ta then f l i else f i l) (fun l j => if tb then g j l else g l j) i j + a2 * h i j)%R.
Proof.
  apply (with_data_ok C m n h _ _ HC). unfold gemm. rewrite (ldim_rows C m n h HC).
  set (F := fun i j => (a1 * mmul k (fun i l => if ta then f l i else f i l) (fun l j => if tb then g j l else g l j) i j + a2 * h i j)%R).
  match goal with |- exists d, fstore ?ws _ ?v _ = _ /\ _ => destruct (fstore_ok m n ws v F (m_data C) h (holds_mk C m n h HC)) as (d & E & H) end.
  - intros i j Hin. apply In_pairs_range in Hin. destruct Hin as [Hj Hi]. split; [exact Hi|]. split; [exact Hj|].
    rewrite (sum_loop _ (fun l => ((if ta then f l i else f i l) * (if tb then g j l else g l j))%R)).
    + cbn [bind]. rewrite <- (ldim_rows C m n h HC). rewrite (fget_ok C m n h i j HC Hi Hj). cbn [bind]. unfold F, mmul. rewrite Sum_zr. reflexivity.
    + intros l Hl. unfold opget. destruct ta, tb; cbn [bind];
        rewrite ?(fget_ok A k m f l i HA), ?(fget_ok A m k f i l HA) by lia; cbn [bind];
        rewrite ?(fget_ok B n k g j l HB), ?(fget_ok B k n g l j HB) by lia; reflexivity.
  - exists d. split; [exact E|]. eapply holds_ext; [exact H|]. intros r c Hr Hc. cbn beta. replace (existsb _ _) with true; [reflexivity|].
    symmetry. apply existsb_pair. apply In_pairs_range. split; assumption.
Qed.
End Gemm.
Lemma NN_ok A B C m n k f g h a1 a2 : holds A FOrd m k f -> holds B FOrd k n g -> holds C FOrd m n h ->
  exists C', mat_mul_add_NN a1 A B a2 C = Ok C' /\ holds C' FOrd m n (fun i j => a1 * mmul k f g i j + a2 * h i j)%R.
Proof.
  intros HA HB HC. unfold mat_mul_add_NN. pose proof HA as (_ & Ra & Ca & _). pose proof HB as (_ & Rb & Cb & _). rewrite Ra, Ca, Cb.
  exact (gemm_ok false false A B C m n k f g h a1 a2 HA HB HC).
Qed.
Lemma NT_ok A B C m n k f g h a1 a2 : holds A FOrd m k f -> holds B FOrd n k g -> holds C FOrd m n h ->
  exists C', mat_mul_add_NT a1 A B a2 C = Ok C' /\ holds C' FOrd m n (fun i j => a1 * mmul k f (fun l j => g j l) i j + a2 * h i j)%R.
Proof.
  intros HA HB HC. unfold mat_mul_add_NT. pose proof HA as (_ & Ra & Ca & _). pose proof HB as (_ & Rb & Cb & _). rewrite Ra, Ca, Rb.
  exact (gemm_ok false true A B C m n k f g h a1 a2 HA HB HC).
Qed.
Lemma TN_ok A B C m n k f g h a1 a2 : holds A FOrd k m f -> holds B FOrd k n g -> holds C FOrd m n h ->
  exists C', mat_mul_add_TN a1 A B a2 C = Ok C' /\ holds C' FOrd m n (fun i j => a1 * mmul k (fun i l => f l i) g i j + a2 * h i j)%R.
Proof.
  intros HA HB HC. unfold mat_mul_add_TN. pose proof HA as (_ & Ra & Ca & _). pose proof HB as (_ & Rb & Cb & _). rewrite Ra, Ca, Cb.
  exact (gemm_ok true false A B C m n k f g h a1 a2 HA HB HC).
Qed.
Lemma transposed_view B rows cols g : holds B COrd rows cols g -> holds (mkMat (m_cols B) (m_rows B) FOrd (m_data B)) FOrd cols rows (fun i j => g j i).
Proof.
  intros (E1 & E2 & E3 & P1 & P2 & L & G). repeat split; cbn; try assumption; [lia|]. intros r c Hr Hc. rewrite <- (G c r Hc Hr). f_equal. ring.
Qed.
Lemma NNc_ok A B C m n k f g h a1 a2 : holds A FOrd m k f -> holds B COrd k n g -> holds C FOrd m n h ->
  exists C', mat_mul_add_NNc a1 A B a2 C = Ok C' /\ holds C' FOrd m n (fun i j => a1 * mmul k f g i j + a2 * h i j)%R.
Proof. intros HA HB HC. exact (NT_ok A _ C m n k f _ h a1 a2 HA (transposed_view B k n g HB) HC). Qed.

(* vectors as one-column matrices *)
Lemma vec_holds (y : list R) n : zlen y = n -> holds (mkMat n 1 FOrd y) FOrd n 1 (fun i (_ : Z) => nthR y i).
Proof. intros L. pose proof (zlen_nonneg y). repeat split; cbn; try lia. intros r c _ Hc. f_equal. nia. Qed.
Lemma gemv_ok (tr : bool) A m n f a1 a2 (x y : list R) : holds A FOrd m n f -> zlen x = (if tr then m else n) -> zlen y = (if tr then n else m) ->
  exists z, vec_mul_add tr a1 A x a2 y = Ok z /\ zlen z = zlen y /\
    forall i, 0 <= i < zlen y -> nthR z i = (a1 * mvec (zlen x) (fun i l => if tr then f l i else f i l) (nthR x) i + a2 * nthR y i)%R.
Proof.
  intros HA Lx Ly. unfold vec_mul_add, gemv. pose proof HA as (_ & Ra & Ca & _). rewrite Ra, Ca.
  set (rows := if tr then n else m) in *. set (cols := if tr then m else n) in *.
  match goal with |- exists z, fstore ?ws _ ?v _ = _ /\ _ => destruct (fstore_ok rows 1 ws v (fun i (_ : Z) => (a1 * mvec cols (fun i l => if tr then f l i else f i l) (nthR x) i + a2 * nthR y i)%R) y _ (vec_holds y rows Ly)) as (d & E & H) end.
  - intros i j Hin. apply In_pairs in Hin. destruct Hin as [[<-|[]] Hi]. apply In_zrange in Hi. split; [exact Hi|]. split; [lia|].
    rewrite (sum_loop _ (fun l => (if tr then f l i else f i l) * nthR x l)%R).
    + cbn [bind]. rewrite rget_at by lia. cbn [bind]. reflexivity.
    + intros l Hl. unfold opget. destruct tr; cbn [bind] in *; subst rows cols; cbn iota in *.
      * rewrite (fget_ok A m n f l i HA) by lia. cbn [bind]. rewrite rget_at by lia. reflexivity.
      * rewrite (fget_ok A m n f i l HA) by lia. cbn [bind]. rewrite rget_at by lia. reflexivity.
  - exists d. split; [exact E|]. destruct H as (_ & _ & _ & _ & _ & L & G). cbn [m_data] in *. split; [lia|]. intros i Hi. rewrite Lx.
    specialize (G i 0). rewrite Z.mul_0_l, Z.add_0_r in G. rewrite G by lia. replace (existsb _ _) with true; [reflexivity|].
    symmetry. apply existsb_pair. apply In_pairs. split; [left; reflexivity|]. apply In_zrange. lia.
Qed.
Lemma gemv_c_ok A m n f a1 a2 (x y : list R) : holds A COrd m n f -> zlen x = n -> zlen y = m ->
  exists z, vec_mul_add_c a1 A x a2 y = Ok z /\ zlen z = m /\ forall i, 0 <= i < m -> nthR z i = (a1 * mvec n f (nthR x) i + a2 * nthR y i)%R.
Proof.
  intros HA Lx Ly. destruct (gemv_ok true _ n m _ a1 a2 x y (transposed_view A m n f HA) Lx Ly) as (z & E & L & G).
  exists z. split; [exact E|]. split; [lia|]. intros i Hi. rewrite G by lia. rewrite Lx. reflexivity.
Qed.

Lemma nested_fold {S} (F : Z -> S -> Z -> res S) (l : Z -> list Z) js s :
  foldM (fun s j => foldM (F j) (l j) s) js s = foldM (fun s p => F (snd p) s (fst p)) (flat_map (fun j => map (fun i => (i, j)) (l j)) js) s.
Proof.
  revert s. induction js as [|j js IH]; intros s; [reflexivity|]. cbn [foldM flat_map]. rewrite foldM_app.
  assert (E : forall l s, foldM (fun s p => F (snd p) s (fst p)) (map (fun i => (i, j)) l) s = foldM (F j) l s).
  { induction l0 as [|i l0 IH0]; intros s0; [reflexivity|]. cbn [map foldM fst snd]. destruct (F j s0 i); cbn [bind]; [apply IH0|reflexivity|reflexivity]. }
  rewrite E. destruct (foldM (F j) (l j) s); cbn [bind]; [apply IH|reflexivity|reflexivity].
Qed.
Lemma mirror_ok m n h : holds m FOrd n n h -> exists m', mirror m = Ok m' /\ holds m' FOrd n n (fun i j => if j <? i then h j i else h i j).
Proof.
  intros H. unfold mirror. pose proof H as (_ & Er & Ec & _). rewrite Er, Ec.
  rewrite (nested_fold (fun j m i => let* v := mget m j i in mset m i j v) (fun j => zrange (j + 1) n)).
  set (l := flat_map _ _).
  assert (Hl : forall i j, In (i, j) l <-> 0 <= j < i /\ i < n).
  { intros i j. unfold l. rewrite in_flat_map. split.
    - intros (j' & A & B). apply in_map_iff in B. destruct B as (i' & E & B). injection E as -> ->. apply In_zrange in A, B. lia.
    - intros A. exists j. split; [apply In_zrange; lia|]. apply in_map_iff. exists i. split; [reflexivity|]. apply In_zrange. lia. }
  destruct (write_loop FOrd n n (fun i j => h j i) h (fun s p => let* v := mget s (snd p) (fst p) in mset s (fst p) (snd p) v) l m H) as (m' & E & H').
  - intros r c Hin. apply Hl in Hin. lia.
  - intros m1 h1 r c Hin H1 G. apply Hl in Hin. cbn [fst snd]. rewrite (holds_get m1 FOrd n n h1 c r H1) by lia. cbn [bind].
    rewrite (G c r) by (try lia; rewrite Hl; lia). apply holds_set; [exact H1|lia|lia].
  - exists m'. split; [exact E|]. eapply holds_ext; [exact H'|]. intros r c Hr Hc. cbn beta. destruct (Z.ltb_spec c r).
    + replace (existsb _ l) with true; [reflexivity|]. symmetry. apply existsb_pair. apply Hl. lia.
    + replace (existsb _ l) with false; [reflexivity|]. symmetry. apply not_true_is_false. rewrite existsb_pair, Hl. lia.
Qed.
(* without symmetry of C the strict lower triangle of the result mirrors the upper one *)
Lemma sym_update_gen A C n k f h a1 a2 : holds A FOrd n k f -> holds C FOrd n n h ->
  exists C', sym_update a1 A a2 C = Ok C' /\ holds C' FOrd n n (fun i j => if j <? i then a1 * mmul k f (fun l j => f j l) j i + a2 * h j i else a1 * mmul k f (fun l j => f j l) i j + a2 * h i j)%R.
Proof.
  intros HA HC. unfold sym_update. pose proof HA as (_ & Ra & Ca & _). pose proof HC as (_ & Rc & Cc & _). rewrite Rc, Ca.
  set (F := fun i j => (a1 * mmul k f (fun l j => f j l) i j + a2 * h i j)%R).
  destruct (with_data_ok C n n h (syrk n k a1 (m_data A) (ldim A) a2 (m_data C) (ldim C)) (fun i j => if i <=? j then F i j else h i j) HC) as (C1 & E1 & H1).
  - unfold syrk. rewrite (ldim_rows C n n h HC).
    match goal with |- exists d, fstore ?ws _ ?v _ = _ /\ _ => destruct (fstore_ok n n ws v F (m_data C) h (holds_mk C n n h HC)) as (d & E & H) end.
    + intros i j Hin. apply filter_In in Hin. destruct Hin as [Hin _]. apply In_pairs_range in Hin. destruct Hin as [Hj Hi]. split; [exact Hi|]. split; [exact Hj|].
      rewrite (sum_loop _ (fun l => f i l * f j l)%R).
      * cbn [bind]. rewrite <- (ldim_rows C n n h HC). rewrite (fget_ok C n n h i j HC Hi Hj). cbn [bind]. reflexivity.
      * intros l Hl. rewrite (fget_ok A n k f i l HA), (fget_ok A n k f j l HA) by lia. reflexivity.
    + exists d. split; [exact E|]. eapply holds_ext; [exact H|]. intros r c Hr Hc. cbn beta. destruct (Z.leb_spec r c).
      * replace (existsb _ _) with true; [reflexivity|]. symmetry. apply existsb_pair. apply filter_In. split; [apply In_pairs_range; lia|]. cbn. lia.
      * replace (existsb _ _) with false; [reflexivity|]. symmetry. apply not_true_is_false. rewrite existsb_pair, filter_In. cbn. lia.
  - rewrite E1. cbn [bind]. destruct (mirror_ok C1 n _ H1) as (C2 & E2 & H2). exists C2. split; [exact E2|]. eapply holds_ext; [exact H2|].
    intros r c Hr Hc. cbn beta. destruct (Z.ltb_spec c r).
    + rewrite (proj2 (Z.leb_le c r)) by lia. reflexivity.
    + rewrite (proj2 (Z.leb_le r c)) by lia. reflexivity.
Qed.
Lemma sym_update_ok A C n k f h a1 a2 : holds A FOrd n k f -> holds C FOrd n n h -> (forall i j, 0 <= i < n -> 0 <= j < n -> h i j = h j i) ->
  exists C', sym_update a1 A a2 C = Ok C' /\ holds C' FOrd n n (fun i j => a1 * mmul k f (fun l j => f j l) i j + a2 * h i j)%R.
Proof.
  intros HA HC Hs. destruct (sym_update_gen A C n k f h a1 a2 HA HC) as (C' & E & H). exists C'. split; [exact E|]. eapply holds_ext; [exact H|].
  intros i j Hi Hj. cbn beta. destruct (Z.ltb_spec j i); [|reflexivity]. rewrite (Hs i j Hi Hj). f_equal. f_equal. unfold mmul. apply Sum_ext. intros. ring.
Qed.
Lemma trmm_ok A B n f h : holds A FOrd n n f -> holds B FOrd n n h ->
  (exists B', with_data B (trmm_left (m_rows B) (m_cols B) (m_data A) (ldim A) (m_data B) (ldim B)) = Ok B' /\
     holds B' FOrd n n (fun i j => Sum n (fun l => if i <=? l then f i l * h l j else 0))%R) /\
  (exists B', with_data B (trmm_right (m_rows B) (m_cols B) (m_data A) (ldim A) (m_data B) (ldim B)) = Ok B' /\
     holds B' FOrd n n (fun i j => Sum n (fun l => if l <=? j then h i l * f l j else 0))%R).
Proof.
  intros HA HB. pose proof HB as (_ & Rb & Cb & _). rewrite Rb, Cb. split; apply (with_data_ok B n n h _ _ HB).
  - unfold trmm_left. rewrite (ldim_rows B n n h HB).
    set (F := fun i j => Sum n (fun l => if i <=? l then f i l * h l j else 0)%R).
    match goal with |- exists d, fstore ?ws _ ?v _ = _ /\ _ => destruct (fstore_ok n n ws v F (m_data B) h (holds_mk B n n h HB)) as (d & E & H) end.
    + intros i j Hin. apply In_pairs_range in Hin. destruct Hin as [Hj Hi]. split; [exact Hi|]. split; [exact Hj|].
      rewrite (sum_loop _ (fun l => f i l * h l j)%R).
      * f_equal. unfold F, Sum. rewrite (zrange_app 0 i n) by lia. rewrite map_app, Rsum_app.
        rewrite (Rsum_map_zero _ (zrange 0 i)), Rplus_0_l.
        { apply Rsum_map_ext. intros l Hl. apply In_zrange in Hl. rewrite (proj2 (Z.leb_le i l)) by lia. reflexivity. }
        intros l Hl. apply In_zrange in Hl. rewrite (proj2 (Z.leb_gt i l)) by lia. reflexivity.
      * intros l Hl. rewrite (fget_ok A n n f i l HA) by lia. cbn [bind]. rewrite <- (ldim_rows B n n h HB). rewrite (fget_ok B n n h l j HB) by lia. reflexivity.
    + exists d. split; [exact E|]. eapply holds_ext; [exact H|]. intros r c Hr Hc. cbn beta. replace (existsb _ _) with true; [reflexivity|].
      symmetry. apply existsb_pair. apply In_pairs_range. split; assumption.
  - unfold trmm_right. rewrite (ldim_rows B n n h HB).
    set (F := fun i j => Sum n (fun l => if l <=? j then h i l * f l j else 0)%R).
    match goal with |- exists d, fstore ?ws _ ?v _ = _ /\ _ => destruct (fstore_ok n n ws v F (m_data B) h (holds_mk B n n h HB)) as (d & E & H) end.
    + intros i j Hin. apply In_pairs_range in Hin. destruct Hin as [Hj Hi]. split; [exact Hi|]. split; [exact Hj|].
      rewrite (sum_loop _ (fun l => h i l * f l j)%R).
      * f_equal. unfold F, Sum. rewrite (zrange_app 0 (j + 1) n) by lia. rewrite map_app, Rsum_app.
        rewrite (Rsum_map_zero _ (zrange (j + 1) n)), Rplus_0_r.
        { apply Rsum_map_ext. intros l Hl. apply In_zrange in Hl. rewrite (proj2 (Z.leb_le l j)) by lia. reflexivity. }
        intros l Hl. apply In_zrange in Hl. rewrite (proj2 (Z.leb_gt l j)) by lia. reflexivity.
      * intros l Hl. rewrite <- (ldim_rows B n n h HB). rewrite (fget_ok B n n h i l HB) by lia. cbn [bind]. rewrite (fget_ok A n n f l j HA) by lia. reflexivity.
    + exists d. split; [exact E|]. eapply holds_ext; [exact H|]. intros r c Hr Hc. cbn beta. replace (existsb _ _) with true; [reflexivity|].
      symmetry. apply existsb_pair. apply In_pairs_range. split; assumption.
Qed.
Lemma sym_update2_ok A B n f h : holds A FOrd n n f -> holds B FOrd n n h ->
  (forall i j, 0 <= i < n -> 0 <= j < n -> h i j = h j i) -> (forall i j, 0 <= i < n -> 0 <= j < n -> i <> j -> f i j = 0%R) ->
  exists B', sym_update2 A B = Ok B' /\ holds B' FOrd n n (fun i j => f i i * h i j * f j j)%R.
Proof.
  intros HA HB Hs Hd. unfold sym_update2. destruct (trmm_ok A B n f h HA HB) as [(B1 & E1 & H1) _]. rewrite E1. cbn [bind].
  destruct (trmm_ok A B1 n f _ HA H1) as [_ (B2 & E2 & H2)]. rewrite E2. cbn [bind].
  destruct (mirror_ok B2 n _ H2) as (B3 & E3 & H3). exists B3. split; [exact E3|]. eapply holds_ext; [exact H3|].
  assert (V : forall i j, 0 <= i < n -> 0 <= j < n -> Sum n (fun l => if l <=? j then Sum n (fun l0 => if i <=? l0 then f i l0 * h l0 l else 0) * f l j else 0)%R = (f i i * h i j * f j j)%R).
  { intros i j Hi Hj. rewrite (Sum_pick n j); [|exact Hj|intros l Hl N; destruct (l <=? j); [rewrite (Hd l j Hl Hj N); ring|reflexivity]].
    rewrite (proj2 (Z.leb_le j j)) by lia. f_equal. rewrite (Sum_pick n i); [|exact Hi|intros l Hl N; destruct (i <=? l); [rewrite (Hd i l Hi Hl) by lia; ring|reflexivity]].
    rewrite (proj2 (Z.leb_le i i)) by lia. reflexivity. }
  intros r c Hr Hc. cbn beta. destruct (c <? r).
  - rewrite V by assumption. rewrite (Hs c r Hc Hr). ring.
  - apply V; assumption.
Qed.
(* the comment in the code only asks for a symmetric first matrix *)
Lemma sym_update2_refuted : exists A B B' f h h', holds A FOrd 2 2 f /\ holds B FOrd 2 2 h /\ (forall i j, f i j = f j i) /\ (forall i j, h i j = h j i) /\
  sym_update2 A B = Ok B' /\ holds B' FOrd 2 2 h' /\ h' 1 1 <> mmul 2 (mmul 2 f h) f 1 1.
Proof.
  set (f := fun i j : Z => if i + j =? 1 then 1%R else 0%R). set (h := fun i j : Z => if (i =? 0) && (j =? 0) then 1%R else 0%R).
  assert (C2 : forall i, 0 <= i < 2 -> i = 0 \/ i = 1) by (intros; lia).
  assert (HA : holds (mkMat 2 2 FOrd [0; 1; 1; 0]%R) FOrd 2 2 f).
  { repeat split; try (cbn; lia). intros r c Hr Hc. destruct (C2 r Hr) as [-> | ->], (C2 c Hc) as [-> | ->]; reflexivity. }
  assert (HB : holds (mkMat 2 2 FOrd [1; 0; 0; 0]%R) FOrd 2 2 h).
  { repeat split; try (cbn; lia). intros r c Hr Hc. destruct (C2 r Hr) as [-> | ->], (C2 c Hc) as [-> | ->]; reflexivity. }
  destruct (trmm_ok _ _ 2 f h HA HB) as [(B1 & E1 & H1) _]. destruct (trmm_ok _ B1 2 f _ HA H1) as [_ (B2 & E2 & H2)]. destruct (mirror_ok B2 2 _ H2) as (B3 & E3 & H3).
  exists (mkMat 2 2 FOrd [0; 1; 1; 0]%R), (mkMat 2 2 FOrd [1; 0; 0; 0]%R), B3, f, h. eexists. split; [exact HA|]. split; [exact HB|].
  split; [intros i j; unfold f; rewrite Z.add_comm; reflexivity|]. split; [intros i j; unfold h; rewrite andb_comm; reflexivity|].
  split; [unfold sym_update2; rewrite E1; cbn [bind]; rewrite E2; cbn [bind]; exact E3|]. split; [exact H3|].
  unfold mmul, Sum, f, h. change (zrange 0 2) with [0; 1]. cbn. rewrite !Rsum_cons, !Rsum_nil. lra.
Qed.
