From Coq Require Import Permutation.
From Verif Require Import BaseFacts Color_Model Color_Spec.
Open Scope Z_scope.

(* ---------- while loop *)
Lemma strip_loop_spec fuel els threads :
  1 <= threads -> 0 <= els -> (Z.to_nat threads <= fuel)%nat ->
  exists th, strip_loop fuel els threads (2 * threads) = Some (th, 2 * th) /\
    1 <= th <= threads /\ (1 < th -> 2 <= els / (2 * th)) /\
    (th = threads \/ els / (2 * (th + 1)) < 2).
Proof.
  revert threads; induction fuel as [|f IH]; intros threads Ht He Hf; [lia|].
  cbn [strip_loop].
  rewrite Z.quot_div_nonneg by lia.
  destruct (Z.ltb_spec 1 threads); cbn [andb].
  - destruct (Z.ltb_spec (els / (2 * threads)) 2).
    + replace (2 * threads - 2) with (2 * (threads - 1)) by ring.
      destruct (IH (threads - 1)) as [th [E [Hr [Hs Hm]]]]; [lia|lia|lia|].
      exists th. split; [exact E|]. split; [lia|]. split; [exact Hs|].
      destruct Hm as [->|Hm]; [right|right; exact Hm].
      replace (threads - 1 + 1) with threads by ring. assumption.
    + exists threads. split; [reflexivity|]. split; [lia|]. split; [auto|auto].
  - exists threads. split; [reflexivity|]. split; [lia|]. split; [lia|auto].
Qed.

(* ---------- strip sizes *)
Definition size0 (th ss r t : Z) := ss + (if 2 * (th - t) <=? r then 1 else 0).
Definition size1 (th ss r t : Z) := ss + (if 2 * (th - t) - 1 <=? r then 1 else 0).

Lemma strip_sizes_spec th ss r : 1 <= th -> 0 <= r < 2 * th ->
  strip_sizes th ss r = Ok (map (size0 th ss r) (zrange 0 th), map (size1 th ss r) (zrange 0 th)).
Proof.
  intros Ht Hr. unfold strip_sizes.
  assert (forall n, 0 <= n <= r ->
    foldM (bump th) (zrange 1 (n + 1)) (zrepeat ss th, zrepeat ss th)
    = Ok (map (size0 th ss n) (zrange 0 th), map (size1 th ss n) (zrange 0 th))) as H; [|apply H; lia].
  intros n Hn. remember (Z.to_nat n) as m eqn:Em. revert n Hn Em.
  induction m as [|m IH]; intros n Hn Em.
  - assert (n = 0) by lia. subst n. rewrite zrange_empty by lia. cbn [foldM].
    assert (forall f, (forall t, 0 <= t < th -> f t = ss) -> zrepeat ss th = map f (zrange 0 th)) as K.
    { intros f Hf. apply zlist_ext.
      - rewrite zlen_zrepeat, zlen_map, zlen_zrange; lia.
      - intros i Hi. rewrite zlen_zrepeat in Hi by lia. rewrite zget_zrepeat, zget_map, zget_zrange by lia.
        cbn. rewrite Hf by lia. reflexivity. }
    f_equal; f_equal; apply K; intros t Htr; unfold size0, size1.
    + destruct (Z.leb_spec (2 * (th - t)) 0); lia.
    + destruct (Z.leb_spec (2 * (th - t) - 1) 0); lia.
  - rewrite (zrange_app 1 n (n + 1)) by lia.
    rewrite (zrange_cons n (n + 1)) by lia. rewrite (zrange_empty (n+1) (n + 1)) by lia.
    rewrite foldM_app. replace n with (n - 1 + 1) at 1 by lia. rewrite IH by lia. cbn [bind foldM].
    unfold bump. cbn [fst snd].
    rewrite Z.quot_div_nonneg by lia. rewrite Z.rem_mod_nonneg by lia.
    set (k := th - (n + 1) / 2). assert (0 <= k < th) as Hk by (unfold k; lia).
    assert (forall f : Z -> Z, rget (map f (zrange 0 th)) k = Ok (f k)) as Hget.
    { intros f. apply rget_Ok. rewrite zget_map, zget_zrange by lia. reflexivity. }
    assert (forall f g : Z -> Z, g k = f k + 1 -> (forall t, t <> k -> 0 <= t < th -> g t = f t) ->
       rset (map f (zrange 0 th)) k (f k + 1) = Ok (map g (zrange 0 th))) as Hset.
    { intros f g Hgk Hgo. destruct (rset (map f (zrange 0 th)) k (f k + 1)) as [l| |] eqn:E;
        try (rewrite rset_Ok in E by (rewrite zlen_map, zlen_zrange; lia); discriminate).
      apply rset_inv in E. destruct E as [_ [Hl [G Go]]]. rewrite zlen_map, zlen_zrange in Hl by lia.
      f_equal. apply zlist_ext. { rewrite Hl, zlen_map, zlen_zrange; lia. }
      intros i Hi. rewrite Hl in Hi. rewrite zget_map, zget_zrange by lia. cbn.
      destruct (Z.eq_dec i k) as [->|Hne].
      - rewrite G. f_equal. replace (0 + k) with k by lia. lia.
      - rewrite Go by assumption. rewrite zget_map, zget_zrange by lia. cbn. f_equal.
        symmetry. apply Hgo; lia. }
    destruct (Z.eqb_spec (n mod 2) 0) as [Hev|Hodd].
    + rewrite Hget. cbn [bind]. rewrite (Hset _ (size0 th ss n)).
      * cbn [bind]. f_equal. f_equal. apply map_ext_in. intros t Htr. apply In_zrange in Htr.
        unfold size1. destruct (Z.leb_spec (2 * (th - t) - 1) (n - 1)), (Z.leb_spec (2 * (th - t) - 1) n); lia.
      * unfold size0, k. destruct (Z.leb_spec (2 * (th - (th - (n + 1) / 2))) n), (Z.leb_spec (2 * (th - (th - (n + 1) / 2))) (n - 1)); lia.
      * intros t Hne Htr. unfold size0, k in *. destruct (Z.leb_spec (2 * (th - t)) n), (Z.leb_spec (2 * (th - t)) (n - 1)); lia.
    + rewrite Hget. cbn [bind]. rewrite (Hset _ (size1 th ss n)).
      * cbn [bind]. f_equal. f_equal. apply map_ext_in. intros t Htr. apply In_zrange in Htr.
        unfold size0. destruct (Z.leb_spec (2 * (th - t)) (n - 1)), (Z.leb_spec (2 * (th - t)) n); lia.
      * unfold size1, k. destruct (Z.leb_spec (2 * (th - (th - (n + 1) / 2)) - 1) n), (Z.leb_spec (2 * (th - (th - (n + 1) / 2)) - 1) (n - 1)); lia.
      * intros t Hne Htr. unfold size1, k in *. destruct (Z.leb_spec (2 * (th - t) - 1) n), (Z.leb_spec (2 * (th - t) - 1) (n - 1)); lia.
Qed.

Definition zsum (l : list Z) := fold_right Z.add 0 l.

Lemma sizes_sum th ss r lo : 1 <= th -> 0 <= r < 2 * th -> 0 <= lo <= th ->
  zsum (map (size0 th ss r) (zrange lo th)) + zsum (map (size1 th ss r) (zrange lo th))
  = 2 * (th - lo) * ss + Z.min r (2 * (th - lo)).
Proof.
  intros Ht Hr Hlo. remember (Z.to_nat (th - lo)) as m eqn:Em. revert lo Hlo Em.
  induction m as [|m IH]; intros lo Hlo Em.
  - rewrite zrange_empty by lia. assert (lo = th) by lia; subst lo. rewrite Z.sub_diag. cbn [map zsum fold_right]. lia.
  - rewrite zrange_cons by lia. cbn [map zsum fold_right].
    specialize (IH (lo + 1) ltac:(lia) ltac:(lia)). unfold zsum in IH.
    unfold size0 at 1. unfold size1 at 1.
    destruct (Z.leb_spec (2 * (th - lo)) r), (Z.leb_spec (2 * (th - lo) - 1) r); nia.
Qed.

(* ---------- intervals *)
Definition ivs (st sz : list Z) : list (Z * Z) := combine st sz.   (* (start, size) *)
Definition inside (x : Z) (p : Z * Z) := fst p <= x < fst p + snd p.
Definition disj (p q : Z * Z) := forall x, inside x p -> inside x q -> False.
Definition gap (p q : Z * Z) := fst p + snd p + 2 <= fst q.

Lemma start_elms_scale offs mul s0 s1 : 
  start_elms offs mul s0 s1 = (map (fun o => o * mul) (fst (start_elms offs 1 s0 s1)), map (fun o => o * mul) (snd (start_elms offs 1 s0 s1))).
Proof.
  revert offs s1; induction s0 as [|a s0 IH]; intros offs [|b s1]; cbn [start_elms]; try reflexivity.
  rewrite IH. cbn [fst snd map]. f_equal; f_equal; ring.
Qed.

Section Iv.
Variable m : Z. Hypothesis Hm : 0 <= m.

Lemma iv_facts s0 : forall s1 offs, length s0 = length s1 ->
  (forall s, In s s0 -> m <= s) -> (forall s, In s s1 -> m <= s) ->
  let st := start_elms offs 1 s0 s1 in
  let I0 := ivs (fst st) s0 in let I1 := ivs (snd st) s1 in
  let tot := offs + zsum s0 + zsum s1 in
  length (fst st) = length s0 /\ length (snd st) = length s1 /\ offs <= tot /\
  (forall p, In p I0 -> offs <= fst p /\ fst p + snd p + m <= tot /\ m <= snd p) /\
  (forall p, In p I1 -> offs + m <= fst p /\ fst p + snd p <= tot /\ m <= snd p) /\
  (forall x, offs <= x < tot -> exists p, In p (I0 ++ I1) /\ inside x p) /\
  ForallOrdPairs (fun p q => fst p + snd p + m <= fst q) I0 /\
  ForallOrdPairs (fun p q => fst p + snd p + m <= fst q) I1 /\
  (forall p q, In p I0 -> In q I1 -> disj p q).
Proof.
  induction s0 as [|a s0 IH]; intros [|b s1] offs Hl H0 H1; cbn [length] in Hl; try lia.
  - cbn. repeat split; try lia; try constructor; try contradiction.
  - cbn [start_elms]. specialize (IH s1 (offs + a + b) ltac:(lia)
      (fun s Hs => H0 s (or_intror Hs)) (fun s Hs => H1 s (or_intror Hs))).
    assert (m <= a) as Ha by (apply H0; left; reflexivity).
    assert (m <= b) as Hb by (apply H1; left; reflexivity).
    cbn zeta in IH. destruct IH as (L0 & L1 & T & P0 & P1 & C & F0 & F1 & D).
    set (st := start_elms (offs + a + b) 1 s0 s1) in *.
    cbn [fst snd ivs combine length zsum fold_right]. fold (ivs (fst st) s0) (ivs (snd st) s1).
    fold (zsum s0) (zsum s1).
    split; [lia|]. split; [lia|]. split; [lia|].
    split. { intros p [<-|Hp]; cbn [fst snd]; [lia|]. specialize (P0 p Hp). lia. }
    split. { intros p [<-|Hp]; cbn [fst snd]; [lia|]. specialize (P1 p Hp). lia. }
    split. { intros x Hx.
      destruct (Z.lt_ge_cases x (offs + a)) as [Hxa|Hxa].
      { exists (offs * 1, a). split; [left; reflexivity|]. unfold inside; cbn; lia. }
      destruct (Z.lt_ge_cases x (offs + a + b)) as [Hxb|Hxb].
      { exists ((offs + a) * 1, b). split; [apply in_or_app; right; left; reflexivity|]. unfold inside; cbn; lia. }
      destruct (C x ltac:(lia)) as [p [Hp Hin]]. exists p. split; [|exact Hin].
      apply in_app_or in Hp. cbn [app]. destruct Hp as [Hp|Hp].
      - right. apply in_or_app. left; exact Hp.
      - right. apply in_or_app. right; right; exact Hp. }
    split. { constructor; [|exact F0]. apply Forall_forall. intros p Hp. cbn [fst snd]. specialize (P0 p Hp). lia. }
    split. { constructor; [|exact F1]. apply Forall_forall. intros p Hp. cbn [fst snd]. specialize (P1 p Hp). lia. }
    intros p q [<-|Hp] [<-|Hq] x; unfold inside; cbn [fst snd].
    + lia.
    + specialize (P1 q Hq). lia.
    + specialize (P0 p Hp). lia.
    + intros Hxp Hxq. exact (D p q Hp Hq x Hxp Hxq).
Qed.
End Iv.

(* ---------- inverse cell table *)
Lemma invert_spec n gc : 0 <= n -> wf_cells n gc ->
  exists ga, invert_cells n gc = Ok ga /\ zlen ga = n /\
    (forall v e, zget gc v = Some e -> zget ga e = Some v) /\
    (forall e v, zget ga e = Some v -> -1 < v -> zget gc v = Some e).
Proof.
  intros Hn [ND HR]. unfold invert_cells.
  assert (forall (l : list Z) lo p v, In (p, v) (combine l (zrange lo (lo + zlen l))) <-> exists i, 0 <= i /\ zget l i = Some p /\ v = lo + i) as HC.
  { induction l as [|x l IH]; intros lo p v.
    - cbn. split; [contradiction|]. intros [i [Hi [E _]]]. rewrite zget_nth in E by lia. destruct (Z.to_nat i); discriminate.
    - unfold zlen. cbn [length]. rewrite zrange_cons by lia. cbn [combine].
      replace (lo + Z.of_nat (S (length l))) with (lo + 1 + zlen l) by (unfold zlen; lia).
      split.
      + intros [E|Hin].
        * injection E as -> ->. exists 0. repeat split; try lia.
        * apply IH in Hin. destruct Hin as [i [Hi [E ->]]]. exists (i + 1). split; [lia|]. split; [|lia].
          rewrite zget_nth in * by lia. replace (Z.to_nat (i + 1)) with (S (Z.to_nat i)) by lia. exact E.
      + intros [i [Hi [E ->]]]. rewrite zget_nth in E by lia. destruct (Z.to_nat i) eqn:En.
        * left. cbn in E. injection E as ->. f_equal. lia.
        * right. apply IH. exists (i - 1). split; [lia|]. split; [|lia].
          rewrite zget_nth by lia. replace (Z.to_nat (i - 1)) with n0 by lia. exact E. }
  specialize (HC gc 0). cbn [Z.add] in HC.
  destruct (writes_Ok (combine gc (zrange 0 (zlen gc))) (zrepeat (-1) n)) as [ga [E [Hl [Hun Hw]]]].
  { intros [p v] Hin. rewrite zlen_zrepeat by lia. cbn. apply HR. eapply in_combine_l; eauto. }
  rewrite zlen_zrepeat in Hl by lia.
  assert (forall i j e, zget gc i = Some e -> zget gc j = Some e -> i = j) as Hinj.
  { intros i j e Hi Hj. pose proof (zget_Some_range _ _ _ Hi). pose proof (zget_Some_range _ _ _ Hj).
    rewrite zget_nth in Hi, Hj by lia. unfold zlen in *.
    assert (Z.to_nat i = Z.to_nat j); [|lia].
    eapply NoDup_nth_error; [exact ND|lia|congruence]. }
  exists ga. split; [exact E|]. split; [exact Hl|]. split.
  - intros v e Hv. pose proof (zget_Some_range _ _ _ Hv). apply Hw.
    + exists (e, v). split; [|reflexivity]. apply HC. exists v. repeat split; try lia; assumption.
    + intros [p w] Hin Hp. cbn in *. subst p. apply HC in Hin. destruct Hin as [i [Hi [Ei ->]]]. eapply Hinj; eauto.
  - intros e v Hv Hpos. destruct (in_dec Z.eq_dec e gc) as [Hin|Hnin].
    + apply In_zget in Hin. destruct Hin as [i [Hi Ei]].
      assert (zget ga e = Some i) as Hei.
      { apply Hw.
        + exists (e, i). split; [|reflexivity]. apply HC. exists i. repeat split; try lia; assumption.
        + intros [p w] Hin Hp. cbn in *. subst p. apply HC in Hin. destruct Hin as [j [Hj [Ej ->]]]. eapply Hinj; eauto. }
      congruence.
    + rewrite Hun in Hv.
      * rewrite zget_zrepeat in Hv by (pose proof (zget_Some_range _ _ _ Hv) as Q; rewrite zlen_zrepeat in Q; lia).
        injection Hv as <-. lia.
      * intros [p w] Hin Hp. cbn in *. subst p. apply Hnin. eapply in_combine_l; eauto.
Qed.

(* ---------- coordinates *)
Definition coord (nx ny d e : Z) : Z :=
  if d =? 0 then e mod nx else if d =? 1 then (e / nx) mod ny else e / (nx * ny).

Lemma coord_cell nx ny i j k d : 0 <= i < nx -> 0 <= j < ny -> 0 <= k ->
  coord nx ny d (i + nx * (j + ny * k)) = if d =? 0 then i else if d =? 1 then j else k.
Proof.
  intros Hi Hj Hk. unfold coord.
  assert ((i + nx * (j + ny * k)) / nx = j + ny * k) as E1.
  { rewrite Z.mul_comm, Z.div_add by lia. rewrite Z.div_small by lia. lia. }
  destruct (d =? 0).
  - rewrite Z.mul_comm, Z.mod_add by lia. apply Z.mod_small. lia.
  - destruct (d =? 1).
    + rewrite E1. rewrite Z.mul_comm, Z.mod_add by lia. apply Z.mod_small. lia.
    + rewrite <- Z.div_div by lia. rewrite E1. rewrite Z.mul_comm, Z.div_add by lia. rewrite Z.div_small by lia. lia.
Qed.

Lemma decomp3 nel1 nel2 nel3 e : 1 <= nel1 -> 1 <= nel2 -> 0 <= e < nel1 * nel2 * nel3 ->
  exists i j k, 0 <= i < nel1 /\ 0 <= j < nel2 /\ 0 <= k < nel3 /\ e = i + nel1 * (j + nel2 * k).
Proof.
  intros H1 H2 He.
  destruct (mr_decomp e nel1 (nel2 * nel3)) as [i [q [Hi [Hq ->]]]]; [lia|lia|].
  destruct (mr_decomp q nel2 nel3) as [j [k [Hj [Hk ->]]]]; [lia|lia|]. exists i, j, k. auto.
Qed.
Lemma comp3 nel1 nel2 nel3 i j k : 0 <= i < nel1 -> 0 <= j < nel2 -> 0 <= k < nel3 ->
  0 <= i + nel1 * (j + nel2 * k) < nel1 * nel2 * nel3.
Proof.
  intros. pose proof (mr_range j nel2 k nel3). pose proof (mr_range i nel1 (j + nel2*k) (nel2*nel3)).
  assert (nel1 * (nel2 * nel3) = nel1*nel2*nel3) by ring. lia.
Qed.

Section Strip.
Variables nel1 nel2 nel3 dir : Z.
Hypothesis Hn : 1 <= nel1 /\ 1 <= nel2 /\ 1 <= nel3.
Hypothesis Hdir : dir = 0 \/ dir = 1 \/ dir = 2.
Let mul := if dir =? 0 then 1 else nel1 * (if dir =? 1 then 1 else nel2).
Let els := if dir =? 0 then nel1 else if dir =? 1 then nel2 else nel3.
Let n := nel1 * nel2 * nel3.
Variables gc ga : list Z.
Hypothesis Hga : zlen ga = n.
Hypothesis Hgc : wf_cells n gc.
Hypothesis Inv1 : forall v e, zget gc v = Some e -> zget ga e = Some v.
Hypothesis Inv2 : forall e v, zget ga e = Some v -> -1 < v -> zget gc v = Some e.

Lemma strip_cells_spec offs size : 0 <= offs -> 0 <= size -> offs + size <= els ->
  exists l, strip_cells nel1 nel2 nel3 dir ga (offs * mul) size = Ok l /\ NoDup l /\
    forall v, In v l <-> exists e, zget gc v = Some e /\ inside (coord nel1 nel2 dir e) (offs, size).
Proof.
  intros Ho Hs Hle. unfold strip_cells.
  set (maxx := if dir =? 0 then size else nel1). set (maxy := if dir =? 1 then size else nel2).
  set (maxz := if dir =? 2 then size else nel3).
  set (f := fun t : Z * (Z * Z) => rget ga (offs * mul + snd (snd t) + nel1 * (fst (snd t) + nel2 * fst t))).
  set (el := fun t : Z * (Z * Z) => offs * mul + snd (snd t) + nel1 * (fst (snd t) + nel2 * fst t)).
  set (T := triples (zrange 0 maxz) (zrange 0 maxy) (zrange 0 maxx)).
  (* elements of the strip *)
  assert (forall t, In t T -> 0 <= el t < n /\ inside (coord nel1 nel2 dir (el t)) (offs, size)) as Hel.
  { intros [k [j i]] Ht. apply In_triples in Ht. rewrite !In_zrange in Ht. unfold el. cbn [fst snd].
    unfold mul, els, maxx, maxy, maxz, inside in *. cbn [fst snd].
    destruct Hdir as [->|[->| ->]]; cbn [Z.eqb Pos.eqb] in *.
    - replace (offs * 1 + i + nel1 * (j + nel2 * k)) with ((offs + i) + nel1 * (j + nel2 * k)) by ring.
      split; [apply comp3; lia|]. rewrite coord_cell by lia. cbn [Z.eqb Pos.eqb]. lia.
    - replace (offs * (nel1 * 1) + i + nel1 * (j + nel2 * k)) with (i + nel1 * ((offs + j) + nel2 * k)) by ring.
      split; [apply comp3; lia|]. rewrite coord_cell by lia. cbn [Z.eqb Pos.eqb]. lia.
    - replace (offs * (nel1 * nel2) + i + nel1 * (j + nel2 * k)) with (i + nel1 * (j + nel2 * (offs + k))) by ring.
      split; [apply comp3; lia|]. rewrite coord_cell by lia. cbn [Z.eqb Pos.eqb]. lia. }
  assert (forall e, 0 <= e < n -> inside (coord nel1 nel2 dir e) (offs, size) -> exists t, In t T /\ el t = e) as Hsur.
  { intros e He Hin. destruct (decomp3 nel1 nel2 nel3 e (proj1 Hn) (proj1 (proj2 Hn)) He) as [i [j [k [Hi [Hj [Hk ->]]]]]].
    rewrite coord_cell in Hin by lia. unfold inside in Hin. cbn [fst snd] in Hin. unfold el, T, mul, maxx, maxy, maxz.
    destruct Hdir as [->|[->| ->]]; cbn [Z.eqb Pos.eqb] in *.
    - exists (k, (j, i - offs)). rewrite In_triples, !In_zrange. cbn [fst snd]. split; [lia|ring].
    - exists (k, (j - offs, i)). rewrite In_triples, !In_zrange. cbn [fst snd]. split; [lia|ring].
    - exists (k - offs, (j, i)). rewrite In_triples, !In_zrange. cbn [fst snd]. split; [lia|ring]. }
  assert (forall t t', In t T -> In t' T -> el t = el t' -> t = t') as Hinj.
  { intros [k [j i]] [k' [j' i']] Ht Ht'. apply In_triples in Ht, Ht'. rewrite !In_zrange in Ht, Ht'. unfold el. cbn [fst snd].
    intros E.
    assert (i + nel1 * (j + nel2 * k) = i' + nel1 * (j' + nel2 * k')) as E' by lia.
    assert (0 <= i < nel1 /\ 0 <= i' < nel1 /\ 0 <= j < nel2 /\ 0 <= j' < nel2) as R.
    { unfold maxx, maxy, els in *. destruct Hdir as [->|[->| ->]]; cbn [Z.eqb Pos.eqb] in *; lia. }
    apply mr_inj in E'; [|lia|lia]. destruct E' as [-> E'].
    apply mr_inj in E'; [|lia|lia]. destruct E' as [-> ->]. reflexivity. }
  assert (NoDup T) as NDT.
  { unfold T, triples.
    assert (forall A B (f : Z -> list B) (g : B -> A) l, NoDup l -> (forall x, In x l -> NoDup (f x)) ->
       (forall x y b, In x l -> In y l -> In b (f x) -> In b (f y) -> x = y) -> NoDup (flat_map f l)) as NF.
    { clear. intros A B f g l H. induction H as [|x l Hx H IH]; intros H1 H2; cbn; [constructor|].
      assert (forall (l1 l2 : list B), NoDup l1 -> NoDup l2 -> (forall b, In b l1 -> In b l2 -> False) -> NoDup (l1 ++ l2)) as NA.
      { clear. induction l1 as [|b l1 IH]; intros l2 N1 N2 Hd; cbn; [exact N2|]. inversion N1; subst. constructor.
        - rewrite in_app_iff. intros [|]; [contradiction|]. apply (Hd b); [left; reflexivity|assumption].
        - apply IH; auto. intros b' Hb Hb'. apply (Hd b'); [right; assumption|assumption]. }
      apply NA.
      - apply H1. left; reflexivity.
      - apply IH; intros; [apply H1; right; assumption|eapply H2; eauto; right; assumption].
      - intros b Hb Hb'. apply in_flat_map in Hb'. destruct Hb' as [y [Hy Hby]].
        assert (x = y) by (eapply H2; eauto; [left; reflexivity|right; assumption]). subst y. contradiction. }
    apply (NF Z (Z * (Z * Z))%type _ (fun t => fst t)); [apply zrange_NoDup| |].
    - intros k _. apply FinFun.Injective_map_NoDup. { intros a b E; injection E; auto. }
      unfold pairs. apply (NF Z (Z * Z)%type _ (fun t => fst t)); [apply zrange_NoDup| |].
      + intros j _. apply FinFun.Injective_map_NoDup. { intros a b E; injection E; auto. } apply zrange_NoDup.
      + intros x y b _ _ Hx Hy. apply in_map_iff in Hx, Hy. destruct Hx as [? [<- _]]. destruct Hy as [? [E _]]. congruence.
    - intros x y b _ _ Hx Hy. apply in_map_iff in Hx, Hy. destruct Hx as [? [<- _]]. destruct Hy as [? [E _]]. congruence. }
  destruct (mapM_exists f T) as [vs Evs].
  { intros t Ht. destruct (Hel t Ht) as [Hr _]. destruct (rget_range ga (el t)) as [x [Ex _]]; [lia|]. exists x. exact Ex. }
  fold f. rewrite Evs. cbn [bind]. eexists. split; [reflexivity|].
  apply mapM_Ok in Evs. split.
  - (* NoDup *)
    clear Hsur. revert Hel Hinj NDT. induction Evs as [|t v T' vs' Htv Hr IH]; intros Hel' Hinj' NDT'; cbn [filter]; [constructor|].
    inversion NDT'; subst.
    assert (NoDup (filter (fun v => -1 <? v) vs')) as IH'.
    { apply IH; [intros; apply Hel'; right; assumption|intros; apply Hinj'; [right|right|]; assumption|assumption]. }
    destruct (Z.ltb_spec (-1) v); [|exact IH']. constructor; [|exact IH'].
    rewrite filter_In. intros [Hin _].
    apply In_zget in Hin. destruct Hin as [q [Hq Eq]].
    assert (exists t', In t' T' /\ f t' = Ok v) as [t' [Ht' Ef]].
    { clear - Hr Hq Eq. revert q Hq Eq. induction Hr as [|a b la lb Hab Hr IH]; intros q Hq Eq.
      - unfold zlen in Hq; cbn in Hq; lia.
      - rewrite zget_nth in Eq by lia. destruct (Z.to_nat q) eqn:En.
        + cbn in Eq. injection Eq as ->. exists a. split; [left; reflexivity|exact Hab].
        + cbn in Eq. destruct (IH (q - 1)) as [t' [H1 H2]].
          * unfold zlen in *. cbn [length] in Hq. lia.
          * rewrite zget_nth by lia. replace (Z.to_nat (q - 1)) with n by lia. exact Eq.
          * exists t'. split; [right; exact H1|exact H2]. }
    unfold f in Htv, Ef. apply rget_Ok in Htv, Ef.
    pose proof (Inv2 _ _ Htv ltac:(lia)) as G1. pose proof (Inv2 _ _ Ef ltac:(lia)) as G2.
    assert (el t = el t') as Eel by (unfold el; congruence).
    assert (t = t') by (apply Hinj'; [left; reflexivity|right; exact Ht'|exact Eel]). subst t'. contradiction.
  - intros v. rewrite filter_In. split.
    + intros [Hin Hpos]. apply In_zget in Hin. destruct Hin as [q [Hq Eq]].
      assert (exists t, zget T q = Some t) as [t Et].
      { apply zget_in_range. unfold zlen in *. rewrite (Forall2_length' _ _ _ Evs). exact Hq. }
      destruct (Forall2_zget _ _ _ Evs q t Et) as [v' [Ev' Hf]]. assert (v' = v) by congruence. subst v'.
      unfold f in Hf. apply rget_Ok in Hf. apply zget_In in Et.
      exists (el t). split; [apply Inv2; [exact Hf|lia]|]. apply Hel. exact Et.
    + intros [e [He Hin]]. assert (0 <= e < n) as Her by (apply Hgc; eapply zget_In; eauto).
      destruct (Hsur e Her Hin) as [t [Ht Et]]. pose proof (zget_Some_range _ _ _ He).
      split; [|lia].
      apply In_zget in Ht. destruct Ht as [q [Hq Eq]].
      destruct (Forall2_zget _ _ _ Evs q t Eq) as [v' [Ev' Hf]].
      unfold f in Hf. apply rget_Ok in Hf. fold (el t) in Hf. rewrite Et in Hf.
      rewrite (Inv1 _ _ He) in Hf. injection Hf as ->. eapply zget_In; eauto.
Qed.
End Strip.

(* ---------- the two colours *)
Lemma FOP_app {A} (R : A -> A -> Prop) l1 l2 :
  ForallOrdPairs R l1 -> ForallOrdPairs R l2 -> (forall x y, In x l1 -> In y l2 -> R x y) ->
  ForallOrdPairs R (l1 ++ l2).
Proof.
  induction 1 as [|a l Ha Hl IH]; intros H2 Hc; cbn; [exact H2|].
  constructor.
  - apply Forall_app. split; [exact Ha|]. apply Forall_forall. intros y Hy. apply Hc; [left; reflexivity|exact Hy].
  - apply IH; [exact H2|]. intros; apply Hc; [right; assumption|assumption].
Qed.
Lemma FOP_impl {A} (R S : A -> A -> Prop) l : (forall x y, In x l -> In y l -> R x y -> S x y) -> ForallOrdPairs R l -> ForallOrdPairs S l.
Proof.
  intros H F. induction F as [|a l Ha Hl IH]; constructor.
  - apply Forall_forall. intros y Hy. rewrite Forall_forall in Ha. apply H; [left; reflexivity|right; exact Hy|auto].
  - apply IH. intros; apply H; [right; assumption|right; assumption|assumption].
Qed.
Lemma FOP_zget {A} (R : A -> A -> Prop) l i j x y : ForallOrdPairs R l -> i < j ->
  zget l i = Some x -> zget l j = Some y -> R x y.
Proof.
  intros F. revert i j. induction F as [|a l Ha Hl IH]; intros i j Hij Hi Hj.
  - pose proof (zget_Some_range _ _ _ Hi). unfold zlen in *; cbn in *; lia.
  - pose proof (zget_Some_range _ _ _ Hi) as Ri. rewrite zget_nth in Hi, Hj by lia.
    destruct (Z.to_nat j) eqn:Ej; [lia|]. cbn in Hj. destruct (Z.to_nat i) eqn:Ei.
    + cbn in Hi. injection Hi as ->. rewrite Forall_forall in Ha. apply Ha. eapply nth_error_In; eauto.
    + cbn in Hi. apply (IH (Z.of_nat n0) (Z.of_nat n)); [lia| |]; rewrite zget_nth by lia; rewrite Nat2Z.id; assumption.
Qed.

Lemma NoDup_concat_iv (X : Z -> option Z) I G :
  Forall2 (fun p g => NoDup g /\ forall v, In v g -> exists x, X v = Some x /\ inside x p) I G ->
  ForallOrdPairs disj I -> NoDup (concat G).
Proof.
  intros F. induction F as [|p g I G [Hg Hv] F IH]; intros D; cbn; [constructor|].
  inversion D; subst.
  assert (forall (l1 l2 : list Z), NoDup l1 -> NoDup l2 -> (forall b, In b l1 -> In b l2 -> False) -> NoDup (l1 ++ l2)) as NA.
  { clear. induction l1 as [|b l1 IH]; intros l2 N1 N2 Hd; cbn; [exact N2|]. inversion N1; subst. constructor.
    - rewrite in_app_iff. intros [|]; [contradiction|]. apply (Hd b); [left; reflexivity|assumption].
    - apply IH; auto. intros b' Hb Hb'. apply (Hd b'); [right; assumption|assumption]. }
  apply NA; [exact Hg|apply IH; assumption|].
  intros b Hb Hb'. destruct (Hv b Hb) as [x [Ex Hx]].
  apply in_concat in Hb'. destruct Hb' as [g' [Hg' Hbg']].
  assert (exists q, In q I /\ exists x', X b = Some x' /\ inside x' q) as [q [Hq [x' [Ex' Hx']]]].
  { clear - F Hg' Hbg'. induction F as [|p g0 I G [_ Hv] F IH]; [contradiction|]. destruct Hg' as [->|Hg'].
    - destruct (Hv b Hbg') as [x' H]. exists p. split; [left; reflexivity|]. exists x'. exact H.
    - destruct (IH Hg') as [q [Hq H]]. exists q. split; [right; exact Hq|exact H]. }
  rewrite Forall_forall in H1. apply (H1 q Hq x); [exact Hx|]. congruence.
Qed.

Definition cyc_apart (els x x' : Z) : Prop := 2 <= x' - x /\ 2 <= els - (x' - x).

(* what calc_groups guarantees when it really uses several threads *)
Record colouring (nx ny els dir : Z) (gc : list Z) (g0 g1 : list (list Z)) : Prop := {
  col_len : length g0 = length g1;
  col_nodup : NoDup (concat g0 ++ concat g1);
  col_in : forall v, In v (concat g0 ++ concat g1) <-> 0 <= v < zlen gc;
  col_sep : forall g, g = g0 \/ g = g1 -> forall t t' l l' v v' e e',
     t < t' -> zget g t = Some l -> zget g t' = Some l' -> In v l -> In v' l' ->
     zget gc v = Some e -> zget gc v' = Some e' ->
     cyc_apart els (coord nx ny dir e) (coord nx ny dir e')
}.

Lemma strip_direction_range n1 n2 n3 p : strip_direction n1 n2 n3 p = 0 \/ strip_direction n1 n2 n3 p = 1 \/ strip_direction n1 n2 n3 p = 2.
Proof.
  unfold strip_direction. cbv zeta.
  repeat match goal with |- context [if ?b then _ else _] => destruct b end; auto.
Qed.

Lemma coord_range nel1 nel2 nel3 dir e : 1 <= nel1 -> 1 <= nel2 -> 1 <= nel3 -> dir = 0 \/ dir = 1 \/ dir = 2 ->
  0 <= e < nel1 * nel2 * nel3 ->
  0 <= coord nel1 nel2 dir e < (if dir =? 0 then nel1 else if dir =? 1 then nel2 else nel3).
Proof.
  intros H1 H2 H3 Hd He.
  destruct (mr_decomp e nel1 (nel2 * nel3)) as [i [q [Hi [Hq ->]]]]; [lia|lia|].
  destruct (mr_decomp q nel2 nel3) as [j [k [Hj [Hk ->]]]]; [lia|lia|].
  rewrite coord_cell by lia. destruct Hd as [->|[->| ->]]; cbn [Z.eqb Pos.eqb]; lia.
Qed.

Lemma combine_map_l {A B C} (f : A -> C) (l : list A) (r : list B) :
  combine (map f l) r = map (fun p => (f (fst p), snd p)) (combine l r).
Proof. revert r; induction l as [|a l IH]; intros [|b r]; cbn; [reflexivity..|]. rewrite IH. reflexivity. Qed.

Lemma calc_groups_spec omp nel1 nel2 nel3 gc :
  1 <= omp -> 1 <= nel1 -> 1 <= nel2 -> 1 <= nel3 -> wf_cells (nel1 * nel2 * nel3) gc ->
  exists g0 g1, calc_groups omp nel1 nel2 nel3 gc = Some (Ok (g0, g1)) /\
    ((g0 = [zrange 0 (zlen gc)] /\ g1 = []) \/
     exists dir, (dir = 0 \/ dir = 1 \/ dir = 2) /\
       zlen g0 <= omp /\
       colouring nel1 nel2 (if dir =? 0 then nel1 else if dir =? 1 then nel2 else nel3) dir gc g0 g1).
Proof.
  intros Ho H1 H2 H3 W. unfold calc_groups.
  set (parts := if 1 <? omp then 2 * omp else 1).
  set (dir := strip_direction nel1 nel2 nel3 parts).
  set (mul := if dir =? 0 then 1 else nel1 * (if dir =? 1 then 1 else nel2)).
  set (els := if dir =? 0 then nel1 else if dir =? 1 then nel2 else nel3).
  assert (1 <= els) as Hels by (unfold els; destruct (dir =? 0); [lia|]; destruct (dir =? 1); lia).
  assert (exists th, strip_loop (Z.to_nat omp + 1) els omp parts = Some (th, if 1 <? omp then 2 * th else 1) /\
    1 <= th <= omp /\ (1 < th -> 2 <= els / (2 * th))) as [th [Eth [Hth Hss]]].
  { unfold parts. destruct (Z.ltb_spec 1 omp).
    - destruct (strip_loop_spec (Z.to_nat omp + 1) els omp) as [th [E [A [B _]]]]; [lia|lia|lia|]. exists th. auto.
    - exists omp. replace (Z.to_nat omp + 1)%nat with (S (Z.to_nat omp)) by lia. cbn [strip_loop].
      destruct (Z.ltb_spec 1 omp); [lia|]. cbn [andb]. split; [reflexivity|]. lia. }
  rewrite Eth. destruct (Z.eqb_spec th 1) as [->|Hne].
  { eexists. eexists. split; [reflexivity|]. left. split; reflexivity. }
  destruct (Z.ltb_spec 1 omp) as [Hgt|]; [|lia].
  specialize (Hss ltac:(lia)). rewrite Z.quot_div_nonneg by lia.
  set (ss := els / (2 * th)) in *. set (r := els - ss * (2 * th)).
  assert (0 <= r < 2 * th) as Hr.
  { unfold r, ss. pose proof (Z.mod_pos_bound els (2*th) ltac:(lia)). pose proof (Z.div_mod els (2*th) ltac:(lia)). nia. }
  assert (0 <= nel1 * nel2 * nel3) as Hpos by (repeat apply Z.mul_nonneg_nonneg; lia).
  destruct (invert_spec _ gc Hpos W) as [ga [Ega [Lga [I1 I2]]]]. rewrite Ega. cbn [bind].
  rewrite strip_sizes_spec by lia. cbn [bind fst snd].
  set (s0 := map (size0 th ss r) (zrange 0 th)). set (s1 := map (size1 th ss r) (zrange 0 th)).
  rewrite start_elms_scale. cbn [fst snd].
  assert (forall s, In s s0 -> 2 <= s) as G0.
  { intros s Hs. apply in_map_iff in Hs. destruct Hs as [t [<- _]]. unfold size0. destruct (_ <=? _); lia. }
  assert (forall s, In s s1 -> 2 <= s) as G1.
  { intros s Hs. apply in_map_iff in Hs. destruct Hs as [t [<- _]]. unfold size1. destruct (_ <=? _); lia. }
  assert (length s0 = length s1) as LL by (unfold s0, s1; rewrite !map_length; reflexivity).
  pose proof (iv_facts 2 ltac:(lia) s0 s1 0 LL G0 G1) as F. cbv zeta in F.
  destruct F as (L0 & L1 & T & P0 & P1 & C & F0 & F1 & D).
  assert (0 + zsum s0 + zsum s1 = els) as Htot.
  { unfold s0, s1. rewrite Z.add_0_l. rewrite sizes_sum by lia. replace (th - 0) with th by lia.
    rewrite Z.min_l by lia. unfold r. ring. }
  rewrite Htot in *. set (st := start_elms 0 1 s0 s1) in *.
  pose proof (strip_direction_range nel1 nel2 nel3 parts) as Hd. fold dir in Hd.
  assert (forall sts szs, (forall p, In p (ivs sts szs) -> 0 <= fst p /\ fst p + snd p <= els /\ 0 <= snd p) ->
    exists g, mapM (fun p => strip_cells nel1 nel2 nel3 dir ga (fst p) (snd p)) (combine (map (fun o => o * mul) sts) szs) = Ok g /\
      Forall2 (fun p l => NoDup l /\ forall v, In v l <-> exists e, zget gc v = Some e /\ inside (coord nel1 nel2 dir e) p) (ivs sts szs) g) as HG.
  { intros sts szs HP. rewrite combine_map_l. fold (ivs sts szs).
    induction (ivs sts szs) as [|p I IH]; cbn [map mapM].
    - exists []. split; [reflexivity|constructor].
    - cbn [fst snd]. destruct (HP p (or_introl eq_refl)) as [Q1 [Q2 Q3]].
      destruct (strip_cells_spec nel1 nel2 nel3 dir (conj H1 (conj H2 H3)) Hd gc ga Lga W I1 I2 (fst p) (snd p) Q1 Q3 Q2) as [l [El [ND Hl]]].
      fold mul in El. rewrite El. cbn [bind].
      destruct IH as [g [Eg Fg]]. { intros q Hq. apply HP. right; exact Hq. }
      rewrite Eg. cbn [bind]. exists (l :: g). split; [reflexivity|]. constructor; [|exact Fg].
      split; [exact ND|]. intros v. rewrite Hl. destruct p; reflexivity. }
  destruct (HG (fst st) s0) as [g0 [Eg0 Fg0]]. { intros p Hp. specialize (P0 p Hp). lia. }
  destruct (HG (snd st) s1) as [g1 [Eg1 Fg1]]. { intros p Hp. specialize (P1 p Hp). lia. }
  rewrite Eg0. cbn [bind]. rewrite Eg1. cbn [bind].
  exists g0, g1. split; [reflexivity|]. right. exists dir. split; [exact Hd|].
  pose proof (Forall2_length' _ _ _ Fg0) as Lg0. pose proof (Forall2_length' _ _ _ Fg1) as Lg1.
  unfold ivs in Lg0, Lg1. rewrite combine_length in Lg0, Lg1. rewrite L0 in Lg0. rewrite L1 in Lg1.
  split. { unfold zlen. rewrite <- Lg0. unfold s0. rewrite map_length, zrange_length. lia. }
  fold els.
  assert (Forall2 (fun p l => NoDup l /\ forall v, In v l <-> exists e, zget gc v = Some e /\ inside (coord nel1 nel2 dir e) p)
             (ivs (fst st) s0 ++ ivs (snd st) s1) (g0 ++ g1)) as FF by (apply Forall2_app; assumption).
  constructor.
  - lia.
  - rewrite <- concat_app. apply NoDup_concat_iv with (X := fun v => option_map (coord nel1 nel2 dir) (zget gc v)) (I := ivs (fst st) s0 ++ ivs (snd st) s1).
    + eapply Forall2_impl'; [|exact FF]. intros p l [N Hl]. split; [exact N|]. intros v Hv. apply Hl in Hv.
      destruct Hv as [e [He Hin]]. exists (coord nel1 nel2 dir e). rewrite He. auto.
    + apply FOP_app; [| |exact D].
      * eapply FOP_impl; [|exact F0]. intros p q Hp Hq Hpq x Hx Hy. unfold inside in Hx, Hy. cbv beta in Hpq. lia.
      * eapply FOP_impl; [|exact F1]. intros p q Hp Hq Hpq x Hx Hy. unfold inside in Hx, Hy. cbv beta in Hpq. lia.
  - intros v. rewrite <- concat_app. rewrite in_concat. split.
    + intros [l [Hl Hv]]. apply In_zget in Hl. destruct Hl as [q [Hq Eq]].
      assert (exists p, zget (ivs (fst st) s0 ++ ivs (snd st) s1) q = Some p) as [p Ep].
      { apply zget_in_range. unfold zlen. rewrite (Forall2_length' _ _ _ FF). exact Hq. }
      destruct (Forall2_zget _ _ _ FF q p Ep) as [l' [El' [_ Hl']]]. assert (l' = l) by congruence. subst l'.
      apply Hl' in Hv. destruct Hv as [e [He _]]. eapply zget_Some_range; eauto.
    + intros Hv. destruct (zget_in_range gc v Hv) as [e He].
      assert (0 <= e < nel1 * nel2 * nel3) as Her by (apply W; eapply zget_In; eauto).
      destruct (C (coord nel1 nel2 dir e)) as [p [Hp Hin]].
      { apply coord_range; assumption. }
      apply In_zget in Hp. destruct Hp as [q [Hq Eq]].
      destruct (Forall2_zget _ _ _ FF q p Eq) as [l [El [_ Hl]]].
      exists l. split; [eapply zget_In; eauto|]. apply Hl. eauto.
  - intros g [->| ->] t t' l l' v v' e e' Htt Hl Hl' Hv Hv' He He'.
    + assert (exists p, zget (ivs (fst st) s0) t = Some p) as [p Ep].
      { apply zget_in_range. unfold zlen. rewrite (Forall2_length' _ _ _ Fg0). eapply zget_Some_range; eauto. }
      assert (exists p, zget (ivs (fst st) s0) t' = Some p) as [p' Ep'].
      { apply zget_in_range. unfold zlen. rewrite (Forall2_length' _ _ _ Fg0). eapply zget_Some_range; eauto. }
      destruct (Forall2_zget _ _ _ Fg0 t p Ep) as [? [X1 [_ X2]]]. destruct (Forall2_zget _ _ _ Fg0 t' p' Ep') as [? [Y1 [_ Y2]]].
      assert (x = l) by congruence. assert (x0 = l') by congruence. subst x x0.
      apply X2 in Hv. apply Y2 in Hv'. destruct Hv as [a [Ea Ha]]. destruct Hv' as [b [Eb Hb]].
      assert (a = e) by congruence. assert (b = e') by congruence. subst a b.
      pose proof (FOP_zget _ _ _ _ _ _ F0 Htt Ep Ep') as Hgap. cbv beta in Hgap.
      pose proof (P0 p (zget_In _ _ _ Ep)). pose proof (P0 p' (zget_In _ _ _ Ep')).
      unfold inside in *. unfold cyc_apart. lia.
    + assert (exists p, zget (ivs (snd st) s1) t = Some p) as [p Ep].
      { apply zget_in_range. unfold zlen. rewrite (Forall2_length' _ _ _ Fg1). eapply zget_Some_range; eauto. }
      assert (exists p, zget (ivs (snd st) s1) t' = Some p) as [p' Ep'].
      { apply zget_in_range. unfold zlen. rewrite (Forall2_length' _ _ _ Fg1). eapply zget_Some_range; eauto. }
      destruct (Forall2_zget _ _ _ Fg1 t p Ep) as [? [X1 [_ X2]]]. destruct (Forall2_zget _ _ _ Fg1 t' p' Ep') as [? [Y1 [_ Y2]]].
      assert (x = l) by congruence. assert (x0 = l') by congruence. subst x x0.
      apply X2 in Hv. apply Y2 in Hv'. destruct Hv as [a [Ea Ha]]. destruct Hv' as [b [Eb Hb]].
      assert (a = e) by congruence. assert (b = e') by congruence. subst a b.
      pose proof (FOP_zget _ _ _ _ _ _ F1 Htt Ep Ep') as Hgap. cbv beta in Hgap.
      pose proof (P1 p (zget_In _ _ _ Ep)). pose proof (P1 p' (zget_In _ _ _ Ep')).
      unfold inside in *. unfold cyc_apart. lia.
Qed.

(* ---------- property lemmas *)
Lemma groups_partition omp nel1 nel2 nel3 gc :
  1 <= omp -> 1 <= nel1 -> 1 <= nel2 -> 1 <= nel3 -> wf_cells (nel1 * nel2 * nel3) gc ->
  exists red black, calc_groups omp nel1 nel2 nel3 gc = Some (Ok (red, black)) /\
    zlen red <= omp /\ zlen black <= omp /\
    Permutation (concat red ++ concat black) (zrange 0 (zlen gc)).
Proof.
  intros Ho H1 H2 H3 W. destruct (calc_groups_spec omp nel1 nel2 nel3 gc Ho H1 H2 H3 W) as [g0 [g1 [E [[-> ->]|[dir [Hd [Ht Hc]]]]]]].
  - exists [zrange 0 (zlen gc)], []. split; [exact E|]. cbn [concat]. rewrite !app_nil_r.
    split; [unfold zlen; cbn; lia|]. split; [unfold zlen; cbn; lia|]. apply Permutation_refl.
  - exists g0, g1. split; [exact E|]. split; [exact Ht|]. split; [unfold zlen in *; rewrite <- (col_len _ _ _ _ _ _ _ Hc); exact Ht|].
    apply NoDup_Permutation; [apply Hc|apply zrange_NoDup|]. intros v. rewrite In_zrange. apply Hc.
Qed.

Lemma cyc_apart_no_node n x x' d d' : cyc_apart n x x' -> 0 <= d <= 1 -> 0 <= d' <= 1 -> 1 <= n ->
  (x + d) mod n = (x' + d') mod n -> False.
Proof.
  intros [A B] Hd Hd' Hn E.
  assert (exists k, x' + d' - (x + d) = n * k) as [k Hk].
  { exists ((x' + d') / n - (x + d) / n).
    pose proof (Z.div_mod (x' + d') n ltac:(lia)). pose proof (Z.div_mod (x + d) n ltac:(lia)). nia. }
  assert (0 < n * k < n) by lia. assert (0 < k) by nia. nia.
Qed.

Lemma groups_race_free omp nel1 nel2 nel3 gc red black :
  1 <= omp -> 1 <= nel1 -> 1 <= nel2 -> 1 <= nel3 -> wf_cells (nel1 * nel2 * nel3) gc ->
  calc_groups omp nel1 nel2 nel3 gc = Some (Ok (red, black)) ->
  forall colour, colour = red \/ colour = black ->
  forall t t' l l' v v' e e', t <> t' ->
    zget colour t = Some l -> zget colour t' = Some l' -> In v l -> In v' l' ->
    zget gc v = Some e -> zget gc v' = Some e' ->
    ~ exists node, cell_node nel1 nel2 nel3 e node /\ cell_node nel1 nel2 nel3 e' node.
Proof.
  intros Ho H1 H2 H3 W E colour Hcol t t' l l' v v' e e' Hne Hl Hl' Hv Hv' He He' [node [N N']].
  destruct (calc_groups_spec omp nel1 nel2 nel3 gc Ho H1 H2 H3 W) as [g0 [g1 [E' HC]]].
  rewrite E in E'. injection E' as <- <-.
  destruct HC as [[-> ->]|[dir [Hd [_ Hc]]]].
  - destruct Hcol as [->| ->]; pose proof (zget_Some_range _ _ _ Hl); pose proof (zget_Some_range _ _ _ Hl');
    unfold zlen in *; cbn [length] in *; lia.
  - destruct N as (i & j & k & di & dj & dk & A1 & A2 & A3 & A4 & A5 & A6 & -> & ->).
    destruct N' as (i' & j' & k' & di' & dj' & dk' & B1 & B2 & B3 & B4 & B5 & B6 & -> & Enode).
    injection Enode as E1 E2 E3.
    pose proof (col_sep _ _ _ _ _ _ _ Hc colour Hcol) as S.
    destruct (Z.lt_ge_cases t t') as [Hlt|Hge].
    + specialize (S t t' l l' v v' _ _ Hlt Hl Hl' Hv Hv' He He').
      rewrite !coord_cell in S by lia.
      destruct Hd as [->|[->| ->]]; cbn [Z.eqb Pos.eqb] in S.
      * eapply cyc_apart_no_node with (d := di) (d' := di'); eauto; lia.
      * eapply cyc_apart_no_node with (d := dj) (d' := dj'); eauto; lia.
      * eapply cyc_apart_no_node with (d := dk) (d' := dk'); eauto; lia.
    + specialize (S t' t l' l v' v _ _ ltac:(lia) Hl' Hl Hv' Hv He' He).
      rewrite !coord_cell in S by lia.
      destruct Hd as [->|[->| ->]]; cbn [Z.eqb Pos.eqb] in S.
      * eapply cyc_apart_no_node with (d := di') (d' := di); eauto; lia.
      * eapply cyc_apart_no_node with (d := dj') (d' := dj); eauto; lia.
      * eapply cyc_apart_no_node with (d := dk') (d' := dk); eauto; lia.
Qed.

Lemma starts_contiguous mul s0 : forall s1 offs t x y, length s0 = length s1 -> 
  nth_error s0 t = Some x -> nth_error s1 t = Some y ->
  exists a, nth_error (fst (start_elms offs mul s0 s1)) t = Some (a * mul) /\
    nth_error (snd (start_elms offs mul s0 s1)) t = Some ((a + x) * mul) /\
    (t = O -> a = offs) /\
    ((S t < length s0)%nat -> nth_error (fst (start_elms offs mul s0 s1)) (S t) = Some ((a + x + y) * mul)) /\
    (S t = length s0 -> a + x + y = offs + zsum s0 + zsum s1).
Proof.
  induction s0 as [|a s0 IH]; intros [|b s1] offs t x y Hl Hx Hy; cbn [length] in Hl; try lia.
  - destruct t; discriminate.
  - cbn [start_elms fst snd]. destruct t as [|t]; cbn [nth_error] in *.
    + injection Hx as <-. injection Hy as <-. exists offs. repeat split.
      * destruct s0, s1; cbn [length] in *; try lia. reflexivity.
      * destruct s0, s1; cbn [length zsum fold_right] in *; lia.
    + destruct (IH s1 (offs + a + b) t x y ltac:(lia) Hx Hy) as [o [A1 [A2 [A3 [A4 A5]]]]].
      exists o. split; [exact A1|]. split; [exact A2|]. split; [lia|]. split.
      * cbn [length]. intros. apply A4. lia.
      * cbn [length zsum fold_right]. intros. unfold zsum in A5. rewrite A5 by lia. lia.
Qed.

Lemma strips_legal els threads : 1 <= threads -> 1 <= els ->
  exists th, strip_loop (Z.to_nat threads + 1) els threads (2 * threads) = Some (th, 2 * th) /\
   1 <= th <= threads /\
   (th = threads \/ els < 4 * (th + 1)) /\
   (1 < th -> 4 * th <= els /\
     let ss := Z.quot els (2 * th) in
     exists s0 s1, strip_sizes th ss (els - ss * (2 * th)) = Ok (s0, s1) /\
       zlen s0 = th /\ zlen s1 = th /\
       fold_right Z.add 0 s0 + fold_right Z.add 0 s1 = els /\
       (forall s, In s (s0 ++ s1) -> 2 <= s /\ ss <= s <= ss + 1) /\
       forall mul t, 0 <= t < th ->
         exists a x y, zget s0 t = Some x /\ zget s1 t = Some y /\
           zget (fst (start_elms 0 mul s0 s1)) t = Some (a * mul) /\
           zget (snd (start_elms 0 mul s0 s1)) t = Some ((a + x) * mul) /\
           (t = 0 -> a = 0) /\
           (t + 1 < th -> zget (fst (start_elms 0 mul s0 s1)) (t + 1) = Some ((a + x + y) * mul)) /\
           (t + 1 = th -> a + x + y = els)).
Proof.
  intros Ht He. destruct (strip_loop_spec (Z.to_nat threads + 1) els threads) as [th [E [Hr [Hs Hm]]]]; [lia|lia|lia|].
  exists th. split; [exact E|]. split; [exact Hr|]. split.
  { destruct Hm as [->|Hm]; [left; reflexivity|right].
    pose proof (Z.div_mod els (2*(th+1)) ltac:(lia)). pose proof (Z.mod_pos_bound els (2*(th+1)) ltac:(lia)). nia. }
  intros Hth. specialize (Hs Hth).
  assert (4 * th <= els). { pose proof (Z.div_mod els (2*th) ltac:(lia)). pose proof (Z.mod_pos_bound els (2*th) ltac:(lia)). nia. }
  split; [assumption|]. rewrite Z.quot_div_nonneg by lia. cbv zeta.
  set (ss := els / (2 * th)) in *.
  assert (0 <= els - ss * (2 * th) < 2 * th) as Hrm.
  { unfold ss. pose proof (Z.mod_pos_bound els (2*th) ltac:(lia)). pose proof (Z.div_mod els (2*th) ltac:(lia)). nia. }
  clearbody ss. clear Hm.
  eexists. eexists. split; [apply strip_sizes_spec; lia|].
  split; [rewrite zlen_map, zlen_zrange; lia|]. split; [rewrite zlen_map, zlen_zrange; lia|]. split.
  - pose proof (sizes_sum th ss (els - ss * (2 * th)) 0 ltac:(lia) Hrm ltac:(lia)) as Sm. unfold zsum in Sm.
    rewrite Sm. replace (th - 0) with th by lia. rewrite Z.min_l by lia. ring.
  - split.
    { intros s Hin. apply in_app_or in Hin. destruct Hin as [Hin|Hin]; apply in_map_iff in Hin; destruct Hin as [t [<- _]];
      unfold size0, size1; destruct (_ <=? _); lia. }
    intros mul t Htr.
    set (s0 := map (size0 th ss _) _). set (s1 := map (size1 th ss _) _).
    assert (zlen s0 = th) as Z0 by (unfold s0; rewrite zlen_map, zlen_zrange; lia).
    assert (zlen s1 = th) as Z1 by (unfold s1; rewrite zlen_map, zlen_zrange; lia).
    destruct (zget_in_range s0 t ltac:(lia)) as [x Ex]. destruct (zget_in_range s1 t ltac:(lia)) as [y Ey].
    rewrite zget_nth in Ex, Ey by lia. unfold zlen in Z0, Z1.
    destruct (starts_contiguous mul s0 s1 0 (Z.to_nat t) x y ltac:(lia) Ex Ey) as [a [A1 [A2 [A3 [A4 A5]]]]].
    exists a, x, y. rewrite !zget_nth by lia. repeat (split; [assumption|]). split; [lia|]. split.
    + intros. replace (Z.to_nat (t + 1)) with (S (Z.to_nat t)) by lia. apply A4. lia.
    + intros. rewrite A5 by lia. unfold s0, s1. rewrite Z.add_0_l, sizes_sum by lia.
      replace (th - 0) with th by lia. rewrite Z.min_l by lia. ring.
Qed.

(* ---------- logger *)
Lemma prefix_offsets_get sizes : forall o i, 0 <= i < zlen sizes ->
  zget (prefix_offsets o sizes) i = Some (o + zsum (firstn (Z.to_nat i) sizes)).
Proof.
  induction sizes as [|s t IH]; intros o i Hi; unfold zlen in *; cbn [length] in *; [lia|].
  rewrite zget_nth by lia. destruct (Z.to_nat i) eqn:En.
  - cbn. f_equal. lia.
  - cbn [prefix_offsets nth_error firstn zsum fold_right]. specialize (IH (o + s) (i - 1) ltac:(lia)).
    rewrite zget_nth in IH by lia. replace (Z.to_nat (i - 1)) with n in IH by lia. rewrite IH. f_equal. unfold zsum. lia.
Qed.
Lemma prefix_offsets_len sizes : forall o, zlen (prefix_offsets o sizes) = zlen sizes.
Proof. unfold zlen. induction sizes as [|s t IH]; intros o; cbn; [reflexivity|]. specialize (IH (o + s)). lia. Qed.

Lemma zsum_app l l' : zsum (l ++ l') = zsum l + zsum l'.
Proof. induction l as [|x l IH]; cbn [app]; unfold zsum in *; cbn [fold_right]; lia. Qed.

Lemma firstn_map_zrange (f : Z -> Z) n i : 0 <= i <= n -> firstn (Z.to_nat i) (map f (zrange 0 n)) = map f (zrange 0 i).
Proof.
  intros H. rewrite (zrange_app 0 i n) by lia. rewrite map_app.
  rewrite firstn_app. rewrite map_length, zrange_length.
  replace (Z.to_nat i - Z.to_nat (i - 0))%nat with 0%nat by lia. cbn [firstn]. rewrite app_nil_r.
  apply firstn_all2. rewrite map_length, zrange_length. lia.
Qed.

Lemma log_sum q c r i : 0 <= r -> 0 <= i ->
  zsum (map (fun i => q + if c - r <=? i then 1 else 0) (zrange 0 i)) = i * q + Z.max 0 (i - Z.max 0 (c - r)).
Proof.
  intros Hr Hi. remember (Z.to_nat i) as n eqn:En. revert i Hi En. induction n as [|n IH]; intros i Hi En.
  - rewrite zrange_empty by lia. assert (i = 0) by lia; subst i. cbn [map zsum fold_right]. lia.
  - rewrite (zrange_app 0 (i - 1) i) by lia. rewrite map_app, zsum_app. rewrite IH by lia.
    rewrite (zrange_cons (i - 1) i) by lia. rewrite zrange_empty by lia. cbn [map zsum fold_right].
    destruct (Z.leb_spec (c - r) (i - 1)); nia.
Qed.

Lemma log_groups_get mx c i : 0 <= mx -> 1 <= c -> 0 <= i <= c ->
  zget (log_groups mx c) i = Some (i * (mx / c) + Z.max 0 (i - (c - mx mod c))).
Proof.
  intros Hm Hc Hi. unfold log_groups, log_sizes. rewrite Z.quot_div_nonneg, Z.rem_mod_nonneg by lia.
  pose proof (Z.mod_pos_bound mx c ltac:(lia)) as Hmod. pose proof (Z.div_mod mx c ltac:(lia)) as Hdm.
  set (szs := map _ _). assert (zlen szs = c) as Ls by (unfold szs; rewrite zlen_map, zlen_zrange; lia).
  destruct (Z.lt_ge_cases i c) as [Hlt|Hge].
  - rewrite zget_app_l by (rewrite prefix_offsets_len; lia).
    rewrite prefix_offsets_get by lia. f_equal. unfold szs. rewrite firstn_map_zrange by lia.
    rewrite log_sum by lia. lia.
  - assert (i = c) by lia. subst i. rewrite zget_app_r by (rewrite prefix_offsets_len; lia).
    rewrite prefix_offsets_len, Ls. replace (c - c) with 0 by lia. cbn. f_equal. nia.
Qed.

Lemma log_group_spec mx c : 0 <= mx -> 1 <= c ->
  exists b : Z -> Z, b 0 = 0 /\ b c = mx /\
    (forall g, 0 <= g < c -> log_group mx c g = Ok (b g, b (g + 1)) /\
       mx / c <= b (g + 1) - b g <= mx / c + 1).
Proof.
  intros Hm Hc. exists (fun i => i * (mx / c) + Z.max 0 (i - (c - mx mod c))).
  pose proof (Z.mod_pos_bound mx c ltac:(lia)) as Hmod. pose proof (Z.div_mod mx c ltac:(lia)) as Hdm.
  split; [lia|]. split; [nia|]. intros g Hg. split.
  - unfold log_group. rewrite (proj2 (rget_Ok _ _ _) (log_groups_get mx c g Hm Hc ltac:(lia))). cbn [bind].
    rewrite (proj2 (rget_Ok _ _ _) (log_groups_get mx c (g + 1) Hm Hc ltac:(lia))). reflexivity.
  - nia.
Qed.
