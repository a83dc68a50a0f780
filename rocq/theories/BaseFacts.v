From Verif Require Import Base.
From Coq Require FinFun.

Lemma zget_None_neg {A} (l : list A) i : i < 0 -> zget l i = None.
Proof. unfold zget; intros; destruct (Z.ltb_spec i 0); [reflexivity|lia]. Qed.

Lemma zget_nth {A} (l : list A) i : 0 <= i -> zget l i = nth_error l (Z.to_nat i).
Proof. unfold zget; intros; destruct (Z.ltb_spec i 0); [lia|reflexivity]. Qed.

Lemma zget_Some_iff {A} (l : list A) i : (exists x, zget l i = Some x) <-> 0 <= i < zlen l.
Proof.
  unfold zlen. destruct (Z.ltb_spec i 0) as [H|H].
  - rewrite zget_None_neg by lia. split; [intros [x Hx]; discriminate|lia].
  - rewrite zget_nth by lia. split.
    + intros [x Hx]. assert (nth_error l (Z.to_nat i) <> None) as Hn by congruence.
      apply nth_error_Some in Hn. lia.
    + intros Hr. destruct (nth_error l (Z.to_nat i)) eqn:E; [eauto|].
      apply nth_error_None in E. lia.
Qed.

Lemma zget_in_range {A} (l : list A) i : 0 <= i < zlen l -> exists x, zget l i = Some x.
Proof. apply zget_Some_iff. Qed.

Lemma zget_Some_range {A} (l : list A) i x : zget l i = Some x -> 0 <= i < zlen l.
Proof. intros H. apply zget_Some_iff. eauto. Qed.

Lemma zget_None_iff {A} (l : list A) i : zget l i = None <-> ~ (0 <= i < zlen l).
Proof.
  rewrite <- zget_Some_iff. destruct (zget l i) as [x|].
  - split; [discriminate|intros H; exfalso; apply H; eauto].
  - split; [intros _ [x Hx]; discriminate|reflexivity].
Qed.

Lemma zget_In {A} (l : list A) i x : zget l i = Some x -> In x l.
Proof.
  intros H. pose proof (zget_Some_range _ _ _ H). rewrite zget_nth in H by lia.
  eapply nth_error_In; eauto.
Qed.

Lemma In_zget {A} (l : list A) x : In x l -> exists i, 0 <= i < zlen l /\ zget l i = Some x.
Proof.
  intros H. apply In_nth_error in H. destruct H as [n Hn].
  exists (Z.of_nat n). assert (n < length l)%nat by (apply nth_error_Some; congruence).
  split; [unfold zlen; lia|]. rewrite zget_nth by lia. rewrite Nat2Z.id. exact Hn.
Qed.

Lemma zlist_ext {A} (l l' : list A) :
  zlen l = zlen l' -> (forall i, 0 <= i < zlen l -> zget l i = zget l' i) -> l = l'.
Proof.
  revert l'; induction l as [|h t IH]; intros [|h' t'] Hlen H; unfold zlen in *; cbn [length] in *; try lia.
  - reflexivity.
  - pose proof (H 0) as H0. rewrite !zget_nth in H0 by lia. cbn in H0.
    f_equal. { assert (Some h = Some h') as E by (apply H0; lia). congruence. }
    apply IH. { lia. }
    intros i Hi. pose proof (H (i+1)) as H1. rewrite !zget_nth in H1 by lia.
    replace (Z.to_nat (i+1)) with (S (Z.to_nat i)) in H1 by lia. cbn in H1.
    rewrite !zget_nth by lia. apply H1. lia.
Qed.

Lemma nset_length {A} (l : list A) n x : length (nset l n x) = length l.
Proof. revert n; induction l as [|h t IH]; intros [|n]; cbn; auto. Qed.

Lemma nth_error_nset {A} (l : list A) n m x :
  nth_error (nset l n x) m =
  if Nat.eqb n m then (if Nat.ltb n (length l) then Some x else None) else nth_error l m.
Proof.
  revert n m; induction l as [|h t IH]; intros n m.
  - assert (nset (@nil A) n x = []) as -> by (destruct n; reflexivity).
    assert (nth_error (@nil A) m = None) as -> by (destruct m; reflexivity).
    destruct (Nat.eqb n m); [|reflexivity]. cbn [length].
    destruct (Nat.ltb_spec n 0); [lia|reflexivity].
  - destruct n as [|n], m as [|m]; cbn [nset nth_error length]; try reflexivity.
    rewrite IH. destruct (Nat.eqb_spec n m), (Nat.eqb_spec (S n) (S m)); try lia; try reflexivity.
Qed.

Lemma rset_Ok {A} (l : list A) i x : 0 <= i < zlen l -> rset l i x = Ok (nset l (Z.to_nat i) x).
Proof. intros H. unfold rset. destruct (Z.leb_spec 0 i), (Z.ltb_spec i (zlen l)); cbn; try lia; reflexivity. Qed.

Lemma rset_inv {A} (l l' : list A) i x : rset l i x = Ok l' ->
  0 <= i < zlen l /\ zlen l' = zlen l /\ zget l' i = Some x /\
  (forall j, j <> i -> zget l' j = zget l j).
Proof.
  unfold rset. destruct (Z.leb_spec 0 i), (Z.ltb_spec i (zlen l)); cbn; try discriminate.
  intros E; injection E as <-. unfold zlen in *. rewrite nset_length. repeat split; try lia.
  - rewrite zget_nth by lia. rewrite nth_error_nset, Nat.eqb_refl.
    destruct (Nat.ltb_spec (Z.to_nat i) (length l)); [reflexivity|lia].
  - intros j Hj. unfold zget. destruct (Z.ltb_spec j 0); [reflexivity|].
    rewrite nth_error_nset. destruct (Nat.eqb_spec (Z.to_nat i) (Z.to_nat j)); [lia|reflexivity].
Qed.

Lemma rget_Ok {A} (l : list A) i x : rget l i = Ok x <-> zget l i = Some x.
Proof. unfold rget. destruct (zget l i); split; congruence. Qed.

Lemma rget_range {A} (l : list A) i : 0 <= i < zlen l -> exists x, rget l i = Ok x /\ zget l i = Some x.
Proof. intros H. destruct (zget_in_range l i H) as [x Hx]. exists x. rewrite rget_Ok. auto. Qed.

Lemma In_zrange lo hi x : In x (zrange lo hi) <-> lo <= x < hi.
Proof.
  unfold zrange. rewrite in_map_iff. split.
  - intros [n [<- Hn]]. apply in_seq in Hn. lia.
  - intros H. exists (Z.to_nat (x - lo)). rewrite in_seq. lia.
Qed.

Lemma zrange_NoDup lo hi : NoDup (zrange lo hi).
Proof.
  unfold zrange. apply FinFun.Injective_map_NoDup; [|apply seq_NoDup].
  intros a b H. lia.
Qed.

Lemma zrange_length lo hi : length (zrange lo hi) = Z.to_nat (hi - lo).
Proof. unfold zrange. rewrite map_length, seq_length. reflexivity. Qed.

Lemma zrange_empty lo hi : hi <= lo -> zrange lo hi = [].
Proof. intros H. unfold zrange. replace (Z.to_nat (hi-lo)) with O by lia. reflexivity. Qed.

Lemma zrange_cons lo hi : lo < hi -> zrange lo hi = lo :: zrange (lo+1) hi.
Proof.
  intros H. unfold zrange. replace (Z.to_nat (hi - lo)) with (S (Z.to_nat (hi - (lo+1)))) by lia.
  cbn [seq map]. f_equal; [lia|]. rewrite <- seq_shift, map_map. apply map_ext. intros; lia.
Qed.

Lemma zrange_app a b c : a <= b <= c -> zrange a c = zrange a b ++ zrange b c.
Proof.
  intros H. remember (Z.to_nat (b - a)) as n eqn:E. revert a H E.
  induction n as [|n IH]; intros a H E.
  - replace a with b by lia. rewrite (zrange_empty b b) by lia. reflexivity.
  - rewrite (zrange_cons a c) by lia. rewrite (zrange_cons a b) by lia. cbn.
    f_equal. apply IH; lia.
Qed.

Lemma zget_zrange lo hi i : 0 <= i < hi - lo -> zget (zrange lo hi) i = Some (lo + i).
Proof.
  intros H. rewrite zget_nth by lia. unfold zrange. rewrite nth_error_map.
  assert (nth_error (seq 0 (Z.to_nat (hi - lo))) (Z.to_nat i) = Some (Z.to_nat i)) as ->.
  { rewrite nth_error_nth' with (d:=0%nat) by (rewrite seq_length; lia).
    rewrite seq_nth by lia. reflexivity. }
  cbn. f_equal. lia.
Qed.

Lemma foldM_app {A S} (f : S -> A -> res S) l1 l2 s :
  foldM f (l1 ++ l2) s = let* s' := foldM f l1 s in foldM f l2 s'.
Proof.
  revert s; induction l1 as [|a t IH]; intros s; cbn; [reflexivity|].
  destruct (f s a); cbn; auto.
Qed.

Lemma foldM_inv {A S} (f : S -> A -> res S) (P : list A -> S -> Prop) l s :
  P [] s ->
  (forall done a s, In a l -> P done s -> exists s', f s a = Ok s' /\ P (done ++ [a]) s') ->
  exists s', foldM f l s = Ok s' /\ P l s'.
Proof.
  intros H0 Hstep.
  assert (forall todo done s, (forall a, In a todo -> In a l) -> P done s ->
            exists s', foldM f todo s = Ok s' /\ P (done ++ todo) s') as G.
  { induction todo as [|a t IH]; intros done s1 Hin HP; cbn.
    - exists s1. rewrite app_nil_r. auto.
    - destruct (Hstep done a s1) as [s2 [E HP2]]; [apply Hin; left; reflexivity|exact HP|].
      rewrite E. cbn. destruct (IH (done ++ [a]) s2) as [s3 [E3 HP3]].
      + intros; apply Hin; right; assumption.
      + exact HP2.
      + exists s3. split; [exact E3|]. rewrite <- app_assoc in HP3. exact HP3. }
  apply (G l [] s); auto.
Qed.

Lemma mapM_Ok {A B} (f : A -> res B) l bs :
  mapM f l = Ok bs <-> Forall2 (fun a b => f a = Ok b) l bs.
Proof.
  revert bs; induction l as [|a t IH]; intros bs; cbn.
  - split; [intros E; injection E as <-; constructor|intros H; inversion H; reflexivity].
  - split.
    + destruct (f a) eqn:E; cbn; try discriminate.
      destruct (mapM f t) eqn:E2; cbn; try discriminate.
      intros E3; injection E3 as <-. constructor; [exact E|]. apply IH. reflexivity.
    + intros H; inversion H as [|x y l1 l2 Hxy Hr]; subst. rewrite Hxy. cbn.
      apply IH in Hr. rewrite Hr. reflexivity.
Qed.

Lemma mapM_all_Ok {A B} (f : A -> res B) (g : A -> B) l :
  (forall a, In a l -> f a = Ok (g a)) -> mapM f l = Ok (map g l).
Proof.
  induction l as [|a t IH]; intros H; cbn; [reflexivity|].
  rewrite H by (left; reflexivity). cbn. rewrite IH by (intros; apply H; right; assumption). reflexivity.
Qed.

Lemma mapM_exists {A B} (f : A -> res B) l :
  (forall a, In a l -> exists b, f a = Ok b) -> exists bs, mapM f l = Ok bs.
Proof.
  induction l as [|a t IH]; intros H; cbn; [eauto|].
  destruct (H a) as [b Hb]; [left; reflexivity|]. rewrite Hb. cbn.
  destruct IH as [bs Hbs]; [intros; apply H; right; assumption|]. rewrite Hbs. cbn. eauto.
Qed.

Lemma Forall2_length' {A B} (R : A -> B -> Prop) l l' : Forall2 R l l' -> length l = length l'.
Proof. induction 1; cbn; auto. Qed.

Lemma Forall2_zget {A B} (R : A -> B -> Prop) l l' : Forall2 R l l' ->
  forall i a, zget l i = Some a -> exists b, zget l' i = Some b /\ R a b.
Proof.
  intros H i a E. pose proof (zget_Some_range _ _ _ E). rewrite zget_nth in E by lia.
  rewrite zget_nth by lia. generalize dependent (Z.to_nat i). clear H0.
  induction H as [|x y l l' Hxy Hr IH]; intros n E; destruct n; cbn in *; try discriminate.
  - injection E as <-. eauto.
  - apply IH; assumption.
Qed.

(* ---- sequences of writes *)
Lemma writes_Ok {A} (ws : list (Z * A)) (l : list A) :
  (forall w, In w ws -> 0 <= fst w < zlen l) ->
  exists l', writes ws l = Ok l' /\ zlen l' = zlen l /\
    (forall p, (forall w, In w ws -> fst w <> p) -> zget l' p = zget l p) /\
    (forall p F, (exists w, In w ws /\ fst w = p) ->
                 (forall w, In w ws -> fst w = p -> snd w = F) -> zget l' p = Some F).
Proof.
  revert l; induction ws as [|w ws IH]; intros l Hr; unfold writes; cbn [foldM].
  - exists l. repeat split; auto. intros p F [w [[] _]].
  - assert (0 <= fst w < zlen l) as Hw by (apply Hr; left; reflexivity).
    destruct (rset l (fst w) (snd w)) as [l1| |] eqn:E; try (rewrite rset_Ok in E by lia; discriminate).
    cbn. apply rset_inv in E. destruct E as [_ [Hlen [Hg Ho]]].
    destruct (IH l1) as [l2 [E2 [Hlen2 [Hun Hwr]]]].
    { intros w' Hin. rewrite Hlen. apply Hr. right; assumption. }
    exists l2. unfold writes in E2. split; [exact E2|]. split; [lia|]. split.
    + intros p Hp. rewrite Hun.
      * apply Ho. intros E. apply (Hp w); [left; reflexivity|auto].
      * intros w' Hin. apply Hp. right; assumption.
    + intros p F Hex Hall.
      destruct (in_dec Z.eq_dec p (map fst ws)) as [Hin|Hnin].
      * apply in_map_iff in Hin. destruct Hin as [w' [Hf Hin]].
        apply Hwr. { exists w'; auto. }
        intros w'' Hi He. apply Hall; [right; assumption|assumption].
      * assert (forall w', In w' ws -> fst w' <> p) as Hn.
        { intros w' Hin He. apply Hnin. rewrite <- He. apply in_map. assumption. }
        rewrite Hun by exact Hn. destruct Hex as [w' [[<-|Hin] He]].
        -- rewrite <- He. rewrite Hg. f_equal. apply Hall; [left; reflexivity|exact He].
        -- exfalso. apply (Hn w'); assumption.
Qed.

Lemma zlen_zrepeat {A} (x : A) n : 0 <= n -> zlen (zrepeat x n) = n.
Proof. intros. unfold zlen, zrepeat. rewrite repeat_length. lia. Qed.

Lemma zget_zrepeat {A} (x : A) n i : 0 <= i < n -> zget (zrepeat x n) i = Some x.
Proof.
  intros. rewrite zget_nth by lia. unfold zrepeat.
  apply nth_error_repeat. lia.
Qed.

Lemma zlen_map {A B} (f : A -> B) l : zlen (map f l) = zlen l.
Proof. unfold zlen. rewrite map_length. reflexivity. Qed.

Lemma zlen_app {A} (l l' : list A) : zlen (l ++ l') = zlen l + zlen l'.
Proof. unfold zlen. rewrite app_length. lia. Qed.

Lemma zlen_nonneg {A} (l : list A) : 0 <= zlen l.
Proof. unfold zlen. lia. Qed.

Lemma zget_map {A B} (f : A -> B) l i : zget (map f l) i = option_map f (zget l i).
Proof.
  unfold zget. destruct (i <? 0); [reflexivity|]. apply nth_error_map.
Qed.

Lemma zget_app_l {A} (l l' : list A) i : i < zlen l -> zget (l ++ l') i = zget l i.
Proof.
  unfold zget, zlen. intros. destruct (Z.ltb_spec i 0); [reflexivity|].
  apply nth_error_app1. lia.
Qed.

Lemma zget_app_r {A} (l l' : list A) i : zlen l <= i -> zget (l ++ l') i = zget l' (i - zlen l).
Proof.
  unfold zget, zlen. intros. destruct (Z.ltb_spec i 0); [lia|].
  destruct (Z.ltb_spec (i - Z.of_nat (length l)) 0); [lia|].
  rewrite nth_error_app2 by lia. f_equal. lia.
Qed.

Lemma zlen_zrange a b : a <= b -> zlen (zrange a b) = b - a.
Proof. intros. unfold zlen. rewrite zrange_length. lia. Qed.

(* ---------- mixed radix arithmetic *)
Lemma mr_range a A b B : 0 <= a < A -> 0 <= b < B -> 0 <= a + A * b < A * B.
Proof. intros. nia. Qed.
Lemma mr_inj a a' A b b' : 0 <= a < A -> 0 <= a' < A -> a + A * b = a' + A * b' -> a = a' /\ b = b'.
Proof. intros. assert (b = b') by nia. subst. split; nia. Qed.
Lemma mr_decomp p A B : 0 < A -> 0 <= p < A * B -> exists a b, 0 <= a < A /\ 0 <= b < B /\ p = a + A * b.
Proof.
  intros HA Hp. exists (p mod A), (p / A).
  pose proof (Z.mod_pos_bound p A HA). pose proof (Z.div_mod p A ltac:(lia)).
  split; [lia|]. split; [|lia]. split; [apply Z.div_pos; lia|].
  apply Z.div_lt_upper_bound; lia.
Qed.

(* ---------- loop nests *)
Ltac opt_eq := repeat match goal with
  | |- Some _ = Some _ => f_equal | |- (_, _) = (_, _) => f_equal end; lia.
Lemma In_pairs js is j i : In (j, i) (pairs js is) <-> In j js /\ In i is.
Proof.
  unfold pairs. rewrite in_flat_map. split.
  - intros [j' [Hj H]]. apply in_map_iff in H. destruct H as [i' [E Hi]]. inversion E; subst; clear E. auto.
  - intros [Hj Hi]. exists j. split; [exact Hj|]. apply in_map_iff. eauto.
Qed.
Lemma In_triples ks js is k j i : In (k, (j, i)) (triples ks js is) <-> In k ks /\ In j js /\ In i is.
Proof.
  unfold triples. rewrite in_flat_map. split.
  - intros [k' [Hk H]]. apply in_map_iff in H. destruct H as [ji [E Hi]]. inversion E; subst; clear E.
    apply In_pairs in Hi. tauto.
  - intros [Hk Hji]. exists k. split; [exact Hk|]. apply in_map_iff. exists (j, i). split; [reflexivity|].
    apply In_pairs. exact Hji.
Qed.

Lemma zget_pairs a b c d x y : 0 <= x < b - a -> 0 <= y < d - c ->
  zget (pairs (zrange c d) (zrange a b)) (x + (b - a) * y) = Some (c + y, a + x).
Proof.
  intros Hx Hy. remember (Z.to_nat y) as n eqn:En. revert c y Hy En.
  induction n as [|n IH]; intros c y Hy En.
  - assert (y = 0) by lia. subst y. rewrite (zrange_cons c d) by lia.
    unfold pairs. cbn [flat_map]. rewrite zget_app_l.
    + rewrite zget_map, zget_zrange by lia. cbn. opt_eq.
    + rewrite zlen_map, zlen_zrange by lia. lia.
  - rewrite (zrange_cons c d) by lia. unfold pairs. cbn [flat_map]. fold (pairs (zrange (c+1) d) (zrange a b)).
    rewrite zget_app_r by (rewrite zlen_map, zlen_zrange by lia; nia).
    rewrite zlen_map, zlen_zrange by lia.
    replace (x + (b - a) * y - (b - a)) with (x + (b - a) * (y - 1)) by ring.
    rewrite IH by lia. opt_eq.
Qed.

Lemma pairs_len a b c d : a <= b -> c <= d -> zlen (pairs (zrange c d) (zrange a b)) = (b - a) * (d - c).
Proof.
  intros Hab. remember (Z.to_nat (d - c)) as n eqn:En. revert c En.
  induction n as [|n IH]; intros c En Hcd.
  - rewrite (zrange_empty c d) by lia. cbn. replace (d - c) with 0 by lia. unfold zlen; cbn; lia.
  - rewrite (zrange_cons c d) by lia. unfold pairs. cbn [flat_map]. fold (pairs (zrange (c+1) d) (zrange a b)).
    rewrite zlen_app, IH by lia. rewrite zlen_map, zlen_zrange by lia. nia.
Qed.

Lemma zget_triples a b c d e f x y z : 0 <= x < b - a -> 0 <= y < d - c -> 0 <= z < f - e ->
  zget (triples (zrange e f) (zrange c d) (zrange a b)) (x + (b - a) * (y + (d - c) * z)) = Some (e + z, (c + y, a + x)).
Proof.
  intros Hx Hy Hz. remember (Z.to_nat z) as n eqn:En. revert e z Hz En.
  induction n as [|n IH]; intros e z Hz En.
  - assert (z = 0) by lia. subst z. rewrite (zrange_cons e f) by lia.
    unfold triples. cbn [flat_map]. rewrite zget_app_l.
    + rewrite zget_map. replace (y + (d - c) * 0) with y by lia.
      rewrite zget_pairs by lia. cbn. opt_eq.
    + rewrite zlen_map, pairs_len by lia. nia.
  - rewrite (zrange_cons e f) by lia. unfold triples. cbn [flat_map]. fold (triples (zrange (e+1) f) (zrange c d) (zrange a b)).
    assert (0 <= (b - a) * (d - c) * (z - 1)) by (apply Z.mul_nonneg_nonneg; nia).
    assert (0 <= (b - a) * y) by (apply Z.mul_nonneg_nonneg; lia).
    rewrite zget_app_r by (rewrite zlen_map, pairs_len by lia; nia).
    rewrite zlen_map, pairs_len by lia.
    replace (x + (b - a) * (y + (d - c) * z) - (b - a) * (d - c)) with (x + (b - a) * (y + (d - c) * (z - 1)))
      by (ring).
    rewrite IH by lia. opt_eq.
Qed.

Lemma triples_len a b c d e f : a <= b -> c <= d -> e <= f ->
  zlen (triples (zrange e f) (zrange c d) (zrange a b)) = (b - a) * (d - c) * (f - e).
Proof.
  intros Hab Hcd. remember (Z.to_nat (f - e)) as n eqn:En. revert e En.
  induction n as [|n IH]; intros e En Hef.
  - rewrite (zrange_empty e f) by lia. cbn. replace (f - e) with 0 by lia. unfold zlen; cbn; lia.
  - rewrite (zrange_cons e f) by lia. unfold triples. cbn [flat_map]. fold (triples (zrange (e+1) f) (zrange c d) (zrange a b)).
    rewrite zlen_app, IH by lia. rewrite zlen_map, pairs_len by lia. nia.
Qed.

(* sequential fill v[cnt++] = x *)
Lemma fill_writes {A} (l : list A) (d : A) :
  writes (combine (zrange 0 (zlen l)) l) (zrepeat d (zlen l)) = Ok l.
Proof.
  destruct (writes_Ok (combine (zrange 0 (zlen l)) l) (zrepeat d (zlen l))) as [l' [E [Hlen [_ Hw]]]].
  { intros [p v] Hin. apply in_combine_l in Hin. apply In_zrange in Hin. cbn.
    rewrite zlen_zrepeat by apply zlen_nonneg. exact Hin. }
  rewrite E. f_equal. rewrite zlen_zrepeat in Hlen by apply zlen_nonneg.
  apply zlist_ext; [exact Hlen|]. intros p Hp. rewrite Hlen in Hp.
  destruct (zget_in_range l p Hp) as [x Hx]. rewrite Hx.
  assert (nth_error (combine (zrange 0 (zlen l)) l) (Z.to_nat p) = Some (p, x)) as Hc.
  { pose proof (zget_zrange 0 (zlen l) p ltac:(lia)) as Hr. rewrite zget_nth in Hr by lia.
    rewrite zget_nth in Hx by lia. cbn in Hr. clear - Hr Hx.
    revert Hr Hx. generalize (zrange 0 (zlen l)) as r. generalize (Z.to_nat p) as n. intros n. revert l p.
    induction n as [|n IH]; intros [|y l] p [|q r] Hr Hx; cbn in *; try discriminate.
    - congruence.
    - eapply IH; eassumption. }
  apply Hw.
  - exists (p, x). split; [eapply nth_error_In; exact Hc|reflexivity].
  - intros [q v] Hin Hq. cbn in *. subst q.
    apply In_nth_error in Hin. destruct Hin as [n Hn].
    assert (forall n (r : list Z) (l : list A) q v, nth_error (combine r l) n = Some (q, v) ->
       nth_error r n = Some q /\ nth_error l n = Some v) as Hcomb.
    { clear. induction n; intros [|q0 r] [|v0 l] q v H; cbn in *; try discriminate; [split; congruence|apply IHn; exact H]. }
    apply Hcomb in Hn. destruct Hn as [H1 H2].
    assert (n < length (zrange 0 (zlen l)))%nat by (apply nth_error_Some; congruence).
    rewrite zrange_length in H.
    pose proof (zget_zrange 0 (zlen l) (Z.of_nat n) ltac:(lia)) as Hr. rewrite zget_nth in Hr by lia.
    rewrite Nat2Z.id in Hr. rewrite H1 in Hr. injection Hr as Hr.
    rewrite zget_nth in Hx by lia. subst p. rewrite Nat2Z.id in Hx. congruence.
Qed.

Lemma In_concat_mapM {A B} (f : A -> res (list B)) l ws w :
  mapM f l = Ok ws -> In w (concat ws) -> exists a l', In a l /\ f a = Ok l' /\ In w l'.
Proof.
  intros H Hin. apply mapM_Ok in H. induction H as [|a b l ws Hab Hr IH]; cbn in *; [contradiction|].
  apply in_app_or in Hin. destruct Hin as [Hin|Hin].
  - exists a, b. auto.
  - destruct (IH Hin) as [a' [l' [H1 [H2 H3]]]]. exists a', l'. auto.
Qed.
Lemma concat_mapM_In {A B} (f : A -> res (list B)) l ws a l' w :
  mapM f l = Ok ws -> In a l -> f a = Ok l' -> In w l' -> In w (concat ws).
Proof.
  intros H Ha Hf Hw. apply mapM_Ok in H. induction H as [|a0 b l ws Hab Hr IH]; cbn in *; [contradiction|].
  apply in_or_app. destruct Ha as [->|Ha].
  - left. congruence.
  - right. auto.
Qed.


Lemma Forall2_impl' {A B} (R S : A -> B -> Prop) l l' :
  (forall a b, R a b -> S a b) -> Forall2 R l l' -> Forall2 S l l'.
Proof. intros H. induction 1; constructor; auto. Qed.

Lemma NoDup_app' {A} (l1 l2 : list A) : NoDup l1 -> NoDup l2 -> (forall b, In b l1 -> In b l2 -> False) -> NoDup (l1 ++ l2).
Proof.
  revert l2. induction l1 as [|b l1 IH]; intros l2 N1 N2 Hd; cbn; [exact N2|]. inversion N1; subst. constructor.
  - rewrite in_app_iff. intros [|]; [contradiction|]. apply (Hd b); [left; reflexivity|assumption].
  - apply IH; auto. intros b' Hb Hb'. apply (Hd b'); [right; assumption|assumption].
Qed.

Lemma foldM_split_inv {A S} (f : S -> A -> res S) (P : list A -> S -> Prop) l s :
  P [] s ->
  (forall done a rest s, l = done ++ a :: rest -> P done s -> exists s', f s a = Ok s' /\ P (done ++ [a]) s') ->
  exists s', foldM f l s = Ok s' /\ P l s'.
Proof.
  intros H0 Hstep.
  assert (forall todo done s, l = done ++ todo -> P done s ->
            exists s', foldM f todo s = Ok s' /\ P (done ++ todo) s') as G.
  { induction todo as [|a t IH]; intros done s1 Hin HP; cbn.
    - exists s1. rewrite app_nil_r. auto.
    - destruct (Hstep done a t s1) as [s2 [E HP2]]; [exact Hin|exact HP|].
      rewrite E. cbn. destruct (IH (done ++ [a]) s2) as [s3 [E3 HP3]].
      + rewrite <- app_assoc. exact Hin.
      + exact HP2.
      + exists s3. split; [exact E3|]. rewrite <- app_assoc in HP3. exact HP3. }
  apply (G l [] s); auto.
Qed.

(* every step returns or throws *)
Lemma foldM_no_UB {A S} (f : S -> A -> res S) (P : list A -> S -> Prop) l s :
  P [] s ->
  (forall done a rest s, l = done ++ a :: rest -> P done s ->
     f s a = Throw \/ exists s', f s a = Ok s' /\ P (done ++ [a]) s') ->
  foldM f l s = Throw \/ exists s', foldM f l s = Ok s' /\ P l s'.
Proof.
  intros H0 Hstep.
  assert (forall todo done s, l = done ++ todo -> P done s ->
            foldM f todo s = Throw \/ exists s', foldM f todo s = Ok s' /\ P (done ++ todo) s') as G.
  { induction todo as [|a t IH]; intros done s1 Hin HP; cbn.
    - right. exists s1. rewrite app_nil_r. auto.
    - destruct (Hstep done a t s1) as [->|[s2 [E HP2]]]; [exact Hin|exact HP|left; reflexivity|].
      rewrite E. cbn. destruct (IH (done ++ [a]) s2) as [->|[s3 [E3 HP3]]].
      + rewrite <- app_assoc. exact Hin.
      + exact HP2.
      + left; reflexivity.
      + right. exists s3. split; [exact E3|]. rewrite <- app_assoc in HP3. exact HP3. }
  apply (G l [] s); auto.
Qed.

Lemma rset_exists {A} (l : list A) i x : 0 <= i < zlen l -> exists l', rset l i x = Ok l' /\
  zlen l' = zlen l /\ zget l' i = Some x /\ (forall j, j <> i -> zget l' j = zget l j).
Proof.
  intros H. exists (nset l (Z.to_nat i) x). pose proof (rset_Ok l i x H) as E. split; [exact E|].
  apply rset_inv in E. tauto.
Qed.

Lemma zget_combine {A B} (l : list A) (l' : list B) i a b :
  zget l i = Some a -> zget l' i = Some b -> zget (combine l l') i = Some (a, b).
Proof.
  intros Ha Hb. pose proof (zget_Some_range _ _ _ Ha). rewrite !zget_nth in * by lia.
  revert Ha Hb. generalize (Z.to_nat i). revert l'. clear.
  induction l as [|x l IH]; intros [|y l'] [|n]; cbn; intros; try discriminate; try congruence.
  apply IH; assumption.
Qed.
Lemma zget_combine_inv {A B} (l : list A) (l' : list B) i a b :
  zget (combine l l') i = Some (a, b) -> zget l i = Some a /\ zget l' i = Some b.
Proof.
  intros H. pose proof (zget_Some_range _ _ _ H) as R0. rewrite !zget_nth in * by lia. clear R0.
  revert H. generalize (Z.to_nat i). revert l'. clear.
  induction l as [|x l IH]; intros [|y l'] [|n]; cbn; intros; try discriminate.
  - inversion H; auto.
  - apply IH; assumption.
Qed.
