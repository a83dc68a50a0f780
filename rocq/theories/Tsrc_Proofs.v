From Verif Require Import BaseFacts Tsrc_Model Tsrc_Spec.
Open Scope Z_scope.

Lemma Forall2_imp {A B} (R S : A -> B -> Prop) l l' : (forall a b, In a l -> In b l' -> R a b -> S a b) -> Forall2 R l l' -> Forall2 S l l'.
Proof. intros H F. revert H. induction F as [|x y l l1 Hxy F IH]; intros H; constructor; [apply H; auto; left; auto|]. apply IH. intros; apply H; auto; right; auto. Qed.
Lemma Forall2_In_r {A B} (R : A -> B -> Prop) l l' b : Forall2 R l l' -> In b l' -> exists a, In a l /\ R a b.
Proof. induction 1 as [|x y l l' H F IH]; intros Hb; [destruct Hb|]. destruct Hb as [<-|Hb]; [exists x; split; auto; left; auto|]. destruct (IH Hb) as (a & A1 & A2). exists a. split; auto. right; auto. Qed.
Definition somes (l : list (option Z)) : list Z := flat_map (fun p => match p with Some b => [b] | None => [] end) l.
Lemma In_somes l b : In b (somes l) <-> In (Some b) l.
Proof.
  unfold somes. rewrite in_flat_map. split.
  - intros ([x|] & H & I); [destruct I as [->|[]]; auto|destruct I].
  - intros H. exists (Some b). split; auto. left; auto.
Qed.
Lemma somes_rev l : somes (rev l) = rev (somes l).
Proof. induction l as [|[b|] l IH]; cbn [rev]; auto; unfold somes in *; rewrite flat_map_app, IH; cbn; auto using app_nil_r. Qed.
Lemma somes_map ids : somes (map Some ids) = ids.
Proof. induction ids as [|b l IH]; cbn; auto. f_equal. exact IH. Qed.

Lemma hput_eq h b c : h_blk (hput h b c) b = c.
Proof. cbn. now rewrite Z.eqb_refl. Qed.
Lemma hput_ne h b c x : x <> b -> h_blk (hput h b c) x = h_blk h x.
Proof. intros H. cbn. destruct (Z.eqb_spec x b); [contradiction|auto]. Qed.

(* ---- reallocation of all tables *)
Definition new_contents (h : heap) (n : Z) (p : option Z) (c : list (option tval)) : Prop :=
  match p with
  | None => c = zrepeat None n
  | Some b => exists c0, h_blk h b = Some c0 /\ c = firstn (Z.to_nat n) c0 ++ zrepeat None (n - zlen c0)
  end.
Lemma realloc_gen alloc : forall (l : list (option Z * (Z * bool))) h, fresh_heap h -> NoDup (somes (map fst l)) ->
  (forall b, In (Some b) (map fst l) -> h_blk h b <> None) ->
  exists h' qs, realloc_all h alloc l = Ok (h', qs) /\ fresh_heap h' /\ h_next h <= h_next h' /\
    Forall2 (fun x q => match q with
       | None => snd (snd x) = false
       | Some b => snd (snd x) = true /\ h_next h <= b < h_next h' /\ exists c, h_blk h' b = Some c /\ new_contents h (alloc * fst (snd x)) (fst x) c
       end) l qs /\
    NoDup (somes qs) /\
    (forall b w, In (Some b, (w, true)) l -> h_blk h' b = None) /\
    (forall b, b < h_next h -> (forall w, ~ In (Some b, (w, true)) l) -> h_blk h' b = h_blk h b) /\
    (forall b, h_next h <= b -> h_blk h' b <> None -> In (Some b) qs).
Proof.
  induction l as [|[p [w ok]] l IH]; intros h F ND LV.
  - exists h, []. cbn [realloc_all]. split; auto. split; auto. split; [lia|]. split; [constructor|]. split; [constructor|]. split; [intros b w []|]. split; auto. intros b Hb X. exfalso. apply X. now apply F.
  - assert (Lt : forall b, In (Some b) (map fst ((p, (w, ok)) :: l)) -> b < h_next h).
    { intros b Hb. destruct (Z_lt_le_dec b (h_next h)) as [|Hge]; auto. exfalso. apply (LV b Hb). apply F. lia. }
    assert (NDl : NoDup (somes (map fst l))) by (cbn in ND; destruct p; cbn in ND; [inversion ND; auto|auto]).
    assert (PN : forall b, p = Some b -> ~ In (Some b) (map fst l)).
    { intros b ->. cbn in ND. inversion ND as [|? ? NI _]. rewrite <- In_somes. exact NI. }
    cbn [realloc_all].
    (* heap after the first call *)
    assert (H1 : exists h1 q, hrealloc h p (alloc * w) ok = Ok (h1, q) /\ fresh_heap h1 /\ h_next h <= h_next h1 /\
      (match q with None => ok = false | Some b => ok = true /\ h_next h <= b < h_next h1 /\ exists c, h_blk h1 b = Some c /\ new_contents h (alloc * w) p c end) /\
      (forall b, p = Some b -> ok = true -> h_blk h1 b = None) /\
      (forall b, b < h_next h -> (ok = true -> p <> Some b) -> h_blk h1 b = h_blk h b) /\ (forall b, h_next h <= b -> h_blk h1 b <> None -> q = Some b)).
    { unfold hrealloc. destruct p as [b0|].
      - destruct (h_blk h b0) as [c|] eqn:E0; [|exfalso; apply (LV b0); [left; auto|auto]].
        assert (b0 < h_next h) by (apply Lt; left; auto).
        destruct ok.
        + eexists _, _. split; [reflexivity|]. cbn [h_next h_blk hput]. split; [intros b Hb; cbn in *; destruct (Z.eqb_spec b (h_next h)); [lia|]; destruct (b =? b0); auto; apply F; lia|].
          split; [lia|]. split; [split; auto; split; [lia|]; eexists; split; [now rewrite Z.eqb_refl|]; cbn; exists c; auto|].
          split; [|split].
          * intros b E _. injection E as <-. destruct (Z.eqb_spec b0 (h_next h)); [lia|]. now rewrite Z.eqb_refl.
          * intros b Hb Hn. destruct (Z.eqb_spec b (h_next h)); [lia|]. destruct (Z.eqb_spec b b0) as [->|]; auto. exfalso. now apply Hn.
          * intros b Hb X. destruct (Z.eqb_spec b (h_next h)) as [->|]; auto. destruct (Z.eqb_spec b b0); [contradiction|]. exfalso. apply X. apply F. lia.
        + eexists _, _. split; [reflexivity|]. split; auto. split; [lia|]. split; auto. split; [discriminate|]. split; auto. intros b Hb X. exfalso. apply X. now apply F.
      - destruct ok.
        + eexists _, _. split; [reflexivity|]. cbn [h_next h_blk]. split; [intros b Hb; cbn in *; destruct (Z.eqb_spec b (h_next h)); [lia|]; apply F; lia|].
          split; [lia|]. split; [split; auto; split; [lia|]; eexists; split; [now rewrite Z.eqb_refl|]; reflexivity|].
          split; [discriminate|]. split; [intros b Hb _; destruct (Z.eqb_spec b (h_next h)); [lia|auto]|]. intros b Hb X. destruct (Z.eqb_spec b (h_next h)) as [->|]; auto. exfalso. apply X. apply F. lia.
        + eexists _, _. split; [reflexivity|]. split; auto. split; [lia|]. split; auto. split; [discriminate|]. split; auto. intros b Hb X. exfalso. apply X. now apply F. }
    destruct H1 as (h1 & q & E1 & F1 & N1 & Q1 & D1 & S1 & W1). rewrite E1. cbn [bind fst snd].
    assert (SM : forall b, In (Some b) (map fst l) -> h_blk h1 b = h_blk h b).
    { intros b Hb. apply S1; [apply Lt; right; auto|]. intros _ Hp. now apply (PN b Hp). }
    destruct (IH h1 F1 NDl) as (h2 & qs & E2 & F2 & N2 & Q2 & U2 & D2 & S2 & W2).
    { intros b Hb. rewrite SM by auto. apply LV. right; auto. }
    rewrite E2. cbn [bind fst snd]. exists h2, (q :: qs). split; auto. split; auto. split; [lia|].
    assert (NQ : forall b, In b (somes qs) -> h_next h1 <= b).
    { intros b Hb. apply In_somes in Hb. destruct (Forall2_In_r _ _ _ _ Q2 Hb) as (x & _ & G2). cbn in G2. lia. }
    split; [|split; [|split; [|split]]].
    + constructor.
      * cbn [fst snd]. destruct q as [b|]; auto. destruct Q1 as (A & B & c & C & D). split; auto. split; [lia|]. exists c. split; auto.
        rewrite S2; auto; [lia|]. intros w' Hin. assert (b < h_next h) by (apply Lt; right; apply in_map_iff; exists (Some b, (w', true)); auto). lia.
      * eapply Forall2_imp; [|exact Q2]. intros x q' Hx _. cbn beta. destruct q' as [b|]; auto. intros (A & B & c & C & D). split; auto. split; [lia|]. exists c. split; auto.
        unfold new_contents in *. destruct (fst x) as [b0|] eqn:Ex; auto. destruct D as (c0 & D1' & D2'). exists c0. split; auto. rewrite <- SM; auto. rewrite <- Ex. now apply in_map.
    + cbn. destruct q as [b|]; auto. cbn. constructor; auto. intros Hb. apply NQ in Hb. lia.
    + intros b w' [E|Hin]; [|eauto]. injection E as -> -> ->. assert (b < h_next h) by (apply Lt; left; auto).
      rewrite S2; [apply D1; auto|lia|]. intros w'' Hin. apply (PN b eq_refl). apply in_map_iff. exists (Some b, (w'', true)); auto.
    + intros b Hb Hn. rewrite S2; [apply S1; auto|lia|].
      * intros -> ->. apply (Hn w). left; auto.
      * intros w' Hin. apply (Hn w'). right; auto.
    + intros b Hb X. destruct (Z_lt_le_dec b (h_next h1)); [|right; apply W2; auto]. left. apply W1; auto.
      rewrite S2 in X; auto. intros w' Hin. assert (b < h_next h) by (apply Lt; right; apply in_map_iff; exists (Some b, (w', true)); auto). lia.
Qed.

(* ---- release of all tables *)
Lemma free_ok : forall qs h, NoDup (somes qs) -> (forall b, In (Some b) qs -> h_blk h b <> None) ->
  exists h', free_all h qs = Ok h' /\ h_next h' = h_next h /\ (forall b, In (Some b) qs -> h_blk h' b = None) /\ (forall b, ~ In (Some b) qs -> h_blk h' b = h_blk h b).
Proof.
  induction qs as [|[b|] qs IH]; intros h ND LV; unfold free_all in *; cbn [foldM hfree].
  - exists h. repeat split; auto. intros b [].
  - destruct (h_blk h b) eqn:E; [|exfalso; apply (LV b); [left; auto|auto]]. cbn [bind]. cbn in ND. inversion ND as [|? ? NI ND'].
    assert (NI' : ~ In (Some b) qs) by (rewrite <- In_somes; exact NI).
    destruct (IH (hput h b None)) as (h' & E' & N & D & S); auto.
    { intros b' Hb. rewrite hput_ne by (intros ->; contradiction). apply LV. right; auto. }
    exists h'. split; auto. split; [rewrite N; reflexivity|]. split.
    + intros b' [X|Hb]; auto. injection X as <-. rewrite S by auto. apply hput_eq.
    + intros b' Hb. rewrite S by (intros X; apply Hb; right; auto). apply hput_ne. intros ->. apply Hb. left; auto.
  - destruct (IH h) as (h' & E' & N & D & S); auto. { intros b Hb. apply LV. right; auto. }
    cbn [bind]. exists h'. split; auto. split; auto. split; [intros b [X|Hb]; [discriminate|auto]|]. intros b Hb. apply S. intros X. apply Hb. right; auto.
Qed.
Lemma free_dead : forall qs h b, In (Some b) qs -> h_blk h b = None -> free_all h qs = UB.
Proof.
  induction qs as [|q qs IH]; intros h b Hin D; [destruct Hin|]. unfold free_all in *. cbn [foldM]. destruct Hin as [->|Hin].
  - cbn [hfree]. now rewrite D.
  - destruct q as [b'|]; cbn [hfree].
    + destruct (h_blk h b') as [c|] eqn:E; cbn [bind]; auto. apply (IH _ b); auto. cbn. now destruct (b =? b').
    + cbn [bind]. eapply IH; eauto.
Qed.

(* ---- stores *)
Lemma store_block_ok b : forall v h n vs, holds h n b vs -> zlen vs + zlen v <= n ->
  exists h', store_block h (Some b) (zlen vs) v = Ok h' /\ h_next h' = h_next h /\ holds h' n b (vs ++ v) /\ (forall x, x <> b -> h_blk h' x = h_blk h x).
Proof.
  induction v as [|x v IH]; intros h n vs H Hn; cbn [store_block].
  - exists h. rewrite app_nil_r. auto.
  - destruct H as (rest & E & L). unfold hstore. rewrite E. unfold zlen in Hn, L. rewrite app_length, map_length in L. cbn [length] in Hn.
    destruct rest as [|r rest]; [cbn in L; lia|]. cbn [length] in L.
    destruct (rset_exists (map Some vs ++ r :: rest) (zlen vs) (Some x)) as (c & Ec & Lc & Gc & Oc).
    { unfold zlen. rewrite app_length, map_length. cbn [length]. lia. }
    rewrite Ec. cbn [bind].
    assert (c = map Some (vs ++ [x]) ++ rest) as ->.
    { apply rset_inv in Ec. apply zlist_ext.
      - destruct Ec as (_ & -> & _). unfold zlen. rewrite !app_length, !map_length, app_length. cbn [length]. lia.
      - intros i Hi. rewrite map_app, <- app_assoc. cbn [map app]. destruct Ec as (_ & _ & G & O). destruct (Z.eq_dec i (zlen vs)) as [->|Ne].
        + rewrite G, zget_app_r by (rewrite zlen_map; lia). rewrite zlen_map. replace (zlen vs - zlen vs) with 0 by lia. reflexivity.
        + rewrite O by auto. destruct (Z_lt_le_dec i (zlen vs)); [rewrite !zget_app_l by (rewrite zlen_map; lia); auto|].
          rewrite !zget_app_r by (rewrite zlen_map; lia). rewrite !zget_nth by (rewrite zlen_map; lia). rewrite zlen_map. replace (Z.to_nat (i - zlen vs)) with (S (Z.to_nat (i - zlen vs - 1))) by lia. reflexivity. }
    destruct (IH (hput h b (Some (map Some (vs ++ [x]) ++ rest))) n (vs ++ [x])) as (h' & E' & N' & H' & O').
    + exists rest. split; [apply hput_eq|]. unfold zlen. rewrite app_length, map_length, app_length. cbn [length]. lia.
    + rewrite zlen_app. unfold zlen in *. cbn [length]. lia.
    + rewrite zlen_app in E'. change (zlen [x]) with 1 in E'. rewrite E'. exists h'. split; auto. split; auto. rewrite <- app_assoc in H'. split; auto.
      intros y Hy. rewrite O' by auto. now apply hput_ne.
Qed.
Lemma store_all_ok cpty n : 0 <= n < cpty -> forall ids ws (vss news : list (list tval)) h, NoDup ids -> length ws = length ids -> length news = length ids ->
  Forall2 (fun b wv => holds h (cpty * fst wv) b (snd wv)) ids (combine ws vss) -> Forall2 (fun w v => zlen v = n * w /\ 0 <= w) ws vss -> Forall2 (fun w v => zlen v = w) ws news ->
  exists h', store_all h n (combine (map Some ids) (combine ws news)) = Ok h' /\ h_next h' = h_next h /\
    Forall2 (fun b wv => holds h' (cpty * fst wv) b (snd wv)) ids (combine ws (map (fun p => fst p ++ snd p) (combine vss news))) /\
    (forall x, ~ In x ids -> h_blk h' x = h_blk h x).
Proof.
  intros Hn. induction ids as [|b ids IH]; intros ws vss news h ND L1 L2 HF HL HN.
  - destruct ws, news; try discriminate. exists h. cbn. split; auto.
  - destruct ws as [|w ws], news as [|v news]; try discriminate. inversion HL as [|? vs ? vss' (Lv & Hw) HL' A B]. subst. inversion HN as [|? ? ? ? Lw HN']. subst. cbn [combine] in HF. inversion HF as [|? ? ? ? H1 HF']. subst. cbn [fst snd] in H1.
    cbn [map combine store_all]. inversion ND as [|? ? NI ND']. subst.
    destruct (store_block_ok b v h _ vs H1) as (h1 & E1 & N1 & O1 & S1); [rewrite Lv; nia|]. rewrite <- Lv, E1. cbn [bind].
    destruct (IH ws vss' news h1 ND') as (h2 & E2 & N2 & O2 & S2); auto.
    { eapply Forall2_imp; [|exact HF']. intros x wv Hx _ (rest & A & B). exists rest. split; auto. rewrite S1; auto. intros ->. contradiction. }
    exists h2. split; auto. split; [congruence|]. split.
    + cbn [map combine fst snd]. constructor; auto. cbn [fst snd]. destruct O1 as (rest & A & B). exists rest. split; auto. rewrite S2 by auto. exact A.
    + intros x Hx. rewrite S2 by (intros X; apply Hx; right; auto). apply S1. intros ->. apply Hx. left; auto.
Qed.

(* ---- the whole structure *)
Lemma contents_some h alloc n0 w b vs c : holds h (n0 * w) b vs -> new_contents h (alloc * w) (Some b) c -> n0 <= alloc -> 0 <= w ->
  exists rest, c = map Some vs ++ rest /\ zlen (map Some vs ++ rest) = alloc * w.
Proof.
  intros (rest & E & L) (c0 & E0 & ->) H1 H2. rewrite E in E0. injection E0 as <-.
  assert (n0 * w <= alloc * w) by nia. rewrite firstn_all2 by (unfold zlen in L; lia). rewrite L. rewrite <- app_assoc.
  eexists. split; [reflexivity|]. rewrite app_assoc, zlen_app, L, zlen_zrepeat by lia. lia.
Qed.
Lemma contents_none h alloc w c : new_contents h (alloc * w) None c -> 0 <= alloc * w -> exists rest, c = map Some [] ++ rest /\ zlen (map Some ([] : list tval) ++ rest) = alloc * w.
Proof. intros -> H. eexists. split; [reflexivity|]. cbn [map app]. now apply zlen_zrepeat. Qed.

Lemma tables_len np L : 0 < np -> Forall (wf_source np) L -> Forall2 (fun w v => zlen v = zlen L * w /\ 0 <= w) (widths np) (tables L).
Proof.
  intros Hp F. assert (H : forall k w, (forall x, wf_source np x -> zlen (table k x) = w) -> zlen (flat_map (table k) L) = zlen L * w).
  { intros k w Hk. induction F as [|x L Hx F IH]; [reflexivity|]. cbn [flat_map]. rewrite zlen_app, IH, (Hk x Hx). unfold zlen. cbn [length]. lia. }
  unfold widths, tables. cbn [map]. repeat constructor; try lia; apply H; intros x (A & B); cbn [table]; rewrite ?zlen_map; auto.
Qed.
Definition src_rows (x : source) : list (list tval) := rows (x_cell x) (x_press x) (x_flux x) (x_sat x) (x_surf x).
Lemma tables_snoc L x : tables (L ++ [x]) = map (fun p => fst p ++ snd p) (combine (tables L) (src_rows x)).
Proof. unfold tables, src_rows, rows. cbn [map combine]. rewrite !flat_map_app. cbn [flat_map fst snd]. rewrite !app_nil_r. reflexivity. Qed.
Lemma five {A B} (R : A -> B -> Prop) ids a b c d e : Forall2 R ids [a; b; c; d; e] -> exists i j k l m, ids = [i; j; k; l; m] /\ R i a /\ R j b /\ R k c /\ R l d /\ R m e.
Proof.
  intros H. inversion H as [|i ? ? ? Ha H1]; subst. inversion H1 as [|j ? ? ? Hb H2]; subst. inversion H2 as [|k ? ? ? Hc H3]; subst. inversion H3 as [|u ? ? ? Hd H4]; subst. inversion H4 as [|m ? ? ? He H5]; subst. inversion H5; subst.
  exists i, j, k, u, m. auto 10.
Qed.
Lemma five_l {A B} (R : A -> B -> Prop) qs a b c d e : Forall2 R [a; b; c; d; e] qs -> exists i j k l m, qs = [i; j; k; l; m] /\ R a i /\ R b j /\ R c k /\ R d l /\ R e m.
Proof.
  intros H. inversion H as [|? i ? ? Ha H1]; subst. inversion H1 as [|? j ? ? Hb H2]; subst. inversion H2 as [|? k ? ? Hc H3]; subst. inversion H3 as [|? u ? ? Hd H4]; subst. inversion H4 as [|? m ? ? He H5]; subst. inversion H5; subst.
  exists i, j, k, u, m. auto 10.
Qed.
Lemma len5 {A} (l : list A) : zlen l = 5 -> exists a b c d e, l = [a; b; c; d; e].
Proof.
  intros H. destruct l as [|a [|b [|c [|d [|e [|f l]]]]]]; unfold zlen in H; cbn [length] in H; try lia. now exists a, b, c, d, e.
Qed.
Lemma rep_ptrs h s L : represents h s L -> zlen (ts_ptr s) = 5 /\ NoDup (somes (ts_ptr s)) /\ (forall b, In (Some b) (ts_ptr s) -> h_blk h b <> None).
Proof.
  intros (_ & Hp & _ & _ & _ & [(_ & ->)|(_ & ids & -> & ND & F)]).
  - split; [reflexivity|]. split; [constructor|]. intros b H. cbn in H. intuition discriminate.
  - split; [|split; [now rewrite somes_map|]].
    + rewrite zlen_map. apply Forall2_length' in F. unfold zlen. rewrite F. reflexivity.
    + intros b Hb. apply in_map_iff in Hb. destruct Hb as (b' & E & Hb). injection E as ->. destruct (In_zget _ _ Hb) as (i & _ & Gi).
      destruct (Forall2_zget _ _ _ F i b Gi) as (wv & _ & rest & E & _). rewrite E. discriminate.
Qed.
Lemma expand_gen h s L alloc oks : represents h s L -> zlen oks = 5 -> ts_cpty s < alloc ->
  exists h' s' st, expand oks alloc h s = Ok (h', s', st) /\
    (~ In false oks -> st = alloc /\ ts_n s' = ts_n s /\ ts_np s' = ts_np s /\ ts_cpty s' = alloc /\ represents h' s' L /\
       (forall b, b < h_next h -> foreign s b -> h_blk h' b = h_blk h b) /\ (forall b, In (Some b) (ts_ptr s') -> h_next h <= b)) /\
    (In false oks -> st = 0 /\ s' = s /\ fresh_heap h' /\
       (forall b, foreign s b -> h_blk h' b = h_blk h b) /\
       ((ts_cpty s = 0 \/ ~ In true oks) -> represents h' s L /\ forall b, h_blk h' b = h_blk h b) /\
       (0 < ts_cpty s -> In true oks -> exists b, In (Some b) (ts_ptr s) /\ h_blk h' b = None)).
Proof.
  intros Rp L5 HA. destruct (rep_ptrs _ _ _ Rp) as (P5 & ND & LV). pose proof Rp as (Fr & Hp & Hn & Hc & HW & Cs). unfold expand.
  set (l := combine (ts_ptr s) (combine (widths (ts_np s)) oks)).
  assert (Ml : map fst l = ts_ptr s).
  { unfold l. destruct (len5 _ P5) as (p0 & p1 & p2 & p3 & p4 & EP). rewrite EP. destruct (len5 _ L5) as (o0 & o1 & o2 & o3 & o4 & ->). reflexivity. }
  assert (In_l : forall b w ok, In (Some b, (w, ok)) l -> In (Some b) (ts_ptr s)) by (intros b w ok Hin; rewrite <- Ml; apply in_map_iff; exists (Some b, (w, ok)); auto).
  destruct (realloc_gen alloc l h) as (h1 & qs & E & F1 & N1 & Q & U & D & S & NEW); auto; [rewrite Ml; auto|rewrite Ml; auto|]. rewrite E. cbn [bind fst snd].
  pose proof (zlen_nonneg L) as HL.
  assert (NB : In false oks <-> existsb is_null qs = true).
  { destruct (len5 _ L5) as (o0 & o1 & o2 & o3 & o4 & ->).
    destruct (len5 _ P5) as (p0 & p1 & p2 & p3 & p4 & EP). unfold l, widths in Q. rewrite EP in Q. cbn [combine] in Q. apply five_l in Q. destruct Q as (q0 & q1 & q2 & q3 & q4 & -> & A0 & A1 & A2 & A3 & A4). cbn [fst snd] in *. cbn [existsb In].
    assert (X : forall (q : option Z) (o : bool) (P : Z -> Prop), match q with None => o = false | Some b => o = true /\ P b end -> (o = false <-> is_null q = true)).
    { intros [b|] o P; cbn; [intros (-> & _)|intros ->]; split; auto; discriminate. }
    apply X in A0, A1, A2, A3, A4. rewrite !orb_true_iff. rewrite <- A0, <- A1, <- A2, <- A3, <- A4. intuition discriminate. }
  destruct (existsb is_null qs) eqn:EB.
  - (* some allocation failed *)
    assert (LQ : forall b, In (Some b) qs -> h_blk h1 b <> None /\ h_next h <= b).
    { intros b Hb. destruct (Forall2_In_r _ _ _ _ Q Hb) as (x & _ & _ & R & c & C & _). rewrite C. split; [discriminate|lia]. }
    destruct (free_ok (rev qs) h1) as (h2 & E2 & N2 & D2 & S2).
    { rewrite somes_rev. now apply NoDup_rev. }
    { intros b Hb. apply in_rev in Hb. apply LQ. auto. }
    rewrite E2. cbn [bind]. exists h2, s, 0. split; auto. split; [intros X; exfalso; apply X; now apply NB|]. intros _. split; auto. split; auto.
    assert (FB : forall b, h_blk h2 b = if in_dec Z.eq_dec b (somes qs) then None else h_blk h1 b).
    { intros b. destruct (in_dec Z.eq_dec b (somes qs)) as [I|I]; rewrite In_somes in I; [apply D2|apply S2]; rewrite <- in_rev; auto. }
    assert (Sm : forall b, (forall w, ~ In (Some b, (w, true)) l) -> h_blk h2 b = h_blk h b).
    { intros b Hb. rewrite FB. destruct (in_dec Z.eq_dec b (somes qs)) as [I|I].
      - rewrite In_somes in I. destruct (LQ b I). symmetry. apply Fr. lia.
      - destruct (Z_lt_le_dec b (h_next h)); [now apply S|]. rewrite (Fr b) by lia. destruct (Z_lt_le_dec b (h_next h1)); [|apply F1; lia].
        destruct (h_blk h1 b) eqn:X; auto. exfalso. apply I. rewrite In_somes. apply NEW; [lia|congruence]. }
    split. { intros b Hb. rewrite FB. destruct (in_dec Z.eq_dec b (somes qs)); auto. apply F1. congruence. }
    split. { intros b Hb. apply Sm. intros w Hin. apply Hb. eauto. }
    split.
    + intros H.
      assert (SA : forall b, h_blk h2 b = h_blk h b).
      { intros b. apply Sm. intros w Hin. destruct H as [H|H].
        - destruct Cs as [(_ & P)|(X & _)]; [|lia]. apply In_l in Hin. rewrite P in Hin. cbn in Hin. intuition discriminate.
        - apply H. unfold l in Hin. apply in_combine_r in Hin. now apply in_combine_r in Hin. }
      split; auto. split; [intros b Hb; rewrite SA; apply Fr; lia|].
      destruct Rp as (_ & R1). split; [exact Hp|]. split; auto. split; auto. split; auto. destruct Cs as [C|(C1 & ids & C2 & C3 & C4)]; [left; auto|right]. split; auto. exists ids. split; auto. split; auto.
      eapply Forall2_imp; [|exact C4]. intros b wv _ _ (rest & A & B). exists rest. split; auto. now rewrite SA.
    + intros Hpos HT. destruct Cs as [(X & _)|(_ & ids & C2 & _)]; [lia|].
      destruct (len5 _ L5) as (o0 & o1 & o2 & o3 & o4 & ->).
      destruct (In_zget _ _ HT) as (i & Hi & Gi). change (zlen [o0; o1; o2; o3; o4]) with 5 in Hi. rewrite C2 in P5. rewrite zlen_map in P5.
      destruct (zget_in_range ids i ltac:(lia)) as (b & Gb). exists b. split; [rewrite C2; apply in_map; eapply zget_In; eauto|].
      destruct (zget_in_range (widths (ts_np s)) i ltac:(unfold widths, zlen; cbn; lia)) as (w & Gw).
      assert (In (Some b, (w, true)) l) as Hin.
      { unfold l. apply zget_In with (i := i). apply zget_combine; [rewrite C2, zget_map, Gb; reflexivity|]. apply zget_combine; auto. }
      rewrite FB. destruct (in_dec Z.eq_dec b (somes qs)); auto. eapply D; eauto.
  - (* all allocations succeeded *)
    eexists h1, _, alloc. split; [reflexivity|]. split; [|intros X; apply NB in X; discriminate]. intros HT. split; auto. cbn [ts_n ts_np ts_cpty]. split; auto. split; auto. split; auto.
    split.
    2:{ split; [intros b Hb Hf; apply S; auto; intros w Hin; apply Hf; eauto|]. cbn [ts_ptr]. intros b Hb. destruct (Forall2_In_r _ _ _ _ Q Hb) as (x & _ & _ & R & _). lia. }
    pose proof (tables_len _ _ Hp HW) as TL. unfold widths, tables in TL. cbn [map] in TL.
    destruct (len5 _ L5) as (o0 & o1 & o2 & o3 & o4 & ->).
    assert (o0 = true /\ o1 = true /\ o2 = true /\ o3 = true /\ o4 = true) as (-> & -> & -> & -> & ->).
    { destruct o0, o1, o2, o3, o4; cbn in HT; intuition. }
    assert (HQ : exists ids', qs = map Some ids' /\ Forall2 (fun b wv => holds h1 (alloc * fst wv) b (snd wv)) ids' (combine (widths (ts_np s)) (tables L))).
    { unfold widths, tables in *. cbn [map combine] in *. 
      assert (HX : forall (p : option Z) w q vs, 0 <= w -> (match q with None => true = false | Some b => true = true /\ h_next h <= b < h_next h1 /\ exists c, h_blk h1 b = Some c /\ new_contents h (alloc * w) p c end) ->
         ((p = None /\ vs = []) \/ exists b0, p = Some b0 /\ holds h (ts_cpty s * w) b0 vs) -> exists b, q = Some b /\ holds h1 (alloc * w) b vs).
      { intros p w [b|] vs Hw A Bp; [|discriminate]. exists b. split; auto. destruct A as (_ & _ & c & C1 & C2). destruct Bp as [(-> & ->)|(b0 & -> & B)].
        - destruct (contents_none _ _ _ _ C2) as (rest & -> & Lr); [nia|]. exists rest. auto.
        - destruct (contents_some _ _ _ _ _ _ _ B C2) as (rest & -> & Lr); [lia|lia|]. exists rest. auto. }
      destruct Cs as [(C0 & C1)|(C0 & ids & C1 & _ & C2)].
      - assert (L = []) as -> by (destruct L; auto; unfold zlen in *; cbn [length] in *; lia).
        unfold l, widths in Q. rewrite C1 in Q. cbn [combine] in Q. apply five_l in Q. destruct Q as (q0 & q1 & q2 & q3 & q4 & -> & A0 & A1 & A2 & A3 & A4). cbn [fst snd flat_map] in *.
        destruct (HX None 1 q0 [] ltac:(lia) A0 ltac:(auto)) as (b0 & -> & B0). destruct (HX None 1 q1 [] ltac:(lia) A1 ltac:(auto)) as (b1 & -> & B1). destruct (HX None 1 q2 [] ltac:(lia) A2 ltac:(auto)) as (b2 & -> & B2).
        destruct (HX None (ts_np s) q3 [] ltac:(lia) A3 ltac:(auto)) as (b3 & -> & B3). destruct (HX None (ts_np s) q4 [] ltac:(lia) A4 ltac:(auto)) as (b4 & -> & B4).
        exists [b0; b1; b2; b3; b4]. split; auto. repeat constructor; auto.
      - apply five in C2. destruct C2 as (i0 & i1 & i2 & i3 & i4 & -> & K0 & K1 & K2 & K3 & K4). cbn [fst snd] in *.
        unfold l, widths in Q. rewrite C1 in Q. cbn [map combine] in Q. apply five_l in Q. destruct Q as (q0 & q1 & q2 & q3 & q4 & -> & A0 & A1 & A2 & A3 & A4). cbn [fst snd] in *.
        destruct (HX (Some i0) 1 q0 (flat_map (table 0) L) ltac:(lia) A0 ltac:(eauto)) as (b0 & -> & B0). destruct (HX (Some i1) 1 q1 (flat_map (table 1) L) ltac:(lia) A1 ltac:(eauto)) as (b1 & -> & B1).
        destruct (HX (Some i2) 1 q2 (flat_map (table 2) L) ltac:(lia) A2 ltac:(eauto)) as (b2 & -> & B2). destruct (HX (Some i3) (ts_np s) q3 (flat_map (table 3) L) ltac:(lia) A3 ltac:(eauto)) as (b3 & -> & B3).
        destruct (HX (Some i4) (ts_np s) q4 (flat_map (table 4) L) ltac:(lia) A4 ltac:(eauto)) as (b4 & -> & B4).
        exists [b0; b1; b2; b3; b4]. split; auto. repeat constructor; auto. }
    destruct HQ as (ids' & -> & HF). split; [exact F1|]. cbn [ts_np ts_n ts_cpty ts_ptr]. split; auto. split; auto. split; [lia|]. split; auto. right. split; [lia|]. exists ids'. split; auto. split; auto. now rewrite somes_map in U.
Qed.

Lemma append_gen h s L oks x : represents h s L -> wf_source (ts_np s) x -> zlen oks = 5 ->
  (ts_n s < ts_cpty s \/ ~ In false oks) ->
  exists h' s', append oks (x_cell x) (ts_np s) (x_press x) (x_flux x) (x_sat x) (x_surf x) h s = Ok (h', s', 1) /\
    represents h' s' (L ++ [x]) /\ ts_np s' = ts_np s /\
    ts_cpty s' = (if ts_n s =? ts_cpty s then Z.max 1 (2 * ts_cpty s) else ts_cpty s) /\
    (forall b, b < h_next h -> foreign s b -> h_blk h' b = h_blk h b).
Proof.
  intros Rp Wx L5 HS. unfold append. rewrite Z.eqb_refl. cbn [negb]. pose proof Rp as (Fr & Hp & Hn & Hc & HW & Cs). pose proof (zlen_nonneg L) as HL.
  assert (HE : exists h1 s1 st, (if ts_n s =? ts_cpty s then expand oks (if 0 <? ts_cpty s then 2 * ts_cpty s else 1) h s else Ok (h, s, 1)) = Ok (h1, s1, st) /\ 0 < st /\
     ts_n s1 = ts_n s /\ ts_np s1 = ts_np s /\ represents h1 s1 L /\ ts_n s < ts_cpty s1 /\ ts_cpty s1 = (if ts_n s =? ts_cpty s then Z.max 1 (2 * ts_cpty s) else ts_cpty s) /\
     (forall b, b < h_next h -> foreign s b -> h_blk h1 b = h_blk h b) /\ (forall b, In (Some b) (ts_ptr s1) -> h_next h <= b \/ In (Some b) (ts_ptr s))).
  { destruct (Z.eqb_spec (ts_n s) (ts_cpty s)) as [En|Nn].
    - destruct HS as [HS|HS]; [lia|]. set (alloc := if 0 <? ts_cpty s then _ else _).
      assert (Ha : alloc = Z.max 1 (2 * ts_cpty s) /\ ts_cpty s < alloc) by (subst alloc; destruct (Z.ltb_spec 0 (ts_cpty s)); lia).
      destruct (expand_gen h s L alloc oks Rp L5 ltac:(lia)) as (h1 & s1 & st & E & G & _). destruct (G HS) as (-> & A & B & C & D & F & K). exists h1, s1, alloc. rewrite E. split; auto. split; [lia|]. split; auto. split; auto. split; auto. split; [lia|]. split; [lia|]. split; auto.
    - exists h, s, 1. split; auto. split; [lia|]. split; auto. split; auto. split; auto. split; [lia|]. split; auto. }
  destruct HE as (h1 & s1 & st & E & Hst & N1 & P1 & R1 & C1 & C2 & F1 & K1). rewrite E. cbn [bind fst snd]. destruct (Z.ltb_spec 0 st); [|lia].
  destruct Wx as (W1 & W2). destruct (Z.ltb_spec (zlen (x_sat x)) (ts_np s)); [lia|]. destruct (Z.ltb_spec (zlen (x_surf x)) (ts_np s)); [lia|]. cbn [orb].
  rewrite !firstn_all2 by (unfold zlen in *; lia). fold (src_rows x).
  pose proof R1 as (Fr1 & Hp1 & Hn1 & Hc1 & HW1 & [(X & _)|(Pc & ids & Ep & ND & HF)]); [lia|].
  rewrite Ep. rewrite <- P1 in *.
  assert (Li : length ids = 5%nat). { apply Forall2_length' in HF. exact HF. }
  destruct (store_all_ok (ts_cpty s1) (ts_n s1) ltac:(lia) ids (widths (ts_np s1)) (tables L) (src_rows x) h1 ND) as (h2 & E2 & N2 & HF2 & S2); auto.
  { rewrite Hn1. now apply tables_len. }
  { unfold widths, src_rows, rows. repeat constructor; rewrite ?zlen_map; auto. }
  rewrite E2. cbn [bind]. eexists h2, _. split; [reflexivity|]. cbn [ts_np ts_cpty]. split; [|split; [auto|split; [auto|]]].
  - split.
    { intros b Hb. destruct (in_dec Z.eq_dec b ids) as [I|I].
      - exfalso. destruct (In_zget _ _ I) as (i & _ & Gi). destruct (Forall2_zget _ _ _ HF i b Gi) as (wv & _ & rest & A & _). rewrite Fr1 in A; [discriminate|lia].
      - rewrite S2 by auto. apply Fr1. lia. }
    cbn [ts_np ts_n ts_cpty ts_ptr]. split; auto. rewrite zlen_app. change (zlen [x]) with 1. split; [lia|]. split; [lia|]. split.
    + apply Forall_app. split; auto. constructor; auto. split; auto.
    + right. split; auto. exists ids. split; auto. split; auto. now rewrite tables_snoc.
  - intros b Hb Hf. destruct (in_dec Z.eq_dec b ids) as [I|I].
    + exfalso. destruct (K1 b) as [K|K]; [rewrite Ep; now apply in_map|lia|contradiction].
    + rewrite S2 by auto. auto.
Qed.
Lemma append_fails h s L oks x : represents h s L -> zlen oks = 5 -> ts_n s = ts_cpty s -> In false oks ->
  exists h', append oks (x_cell x) (ts_np s) (x_press x) (x_flux x) (x_sat x) (x_surf x) h s = Ok (h', s, 0) /\
    (forall b, foreign s b -> h_blk h' b = h_blk h b) /\
    (ts_cpty s = 0 \/ ~ In true oks -> represents h' s L) /\
    (0 < ts_cpty s -> In true oks -> destroy h' s = UB).
Proof.
  intros Rp L5 En HF. unfold append. rewrite Z.eqb_refl. cbn [negb]. rewrite En, Z.eqb_refl.
  pose proof Rp as (_ & _ & Hn & _). pose proof (zlen_nonneg L). set (alloc := if 0 <? ts_cpty s then _ else _).
  assert (Ha : ts_cpty s < alloc) by (subst alloc; destruct (Z.ltb_spec 0 (ts_cpty s)); lia).
  destruct (expand_gen h s L alloc oks Rp L5 Ha) as (h1 & s1 & st & E & _ & G). destruct (G HF) as (-> & -> & A & B & C & D). rewrite E. cbn [bind fst snd Z.ltb Z.compare].
  exists h1. split; auto. split; auto. split; [intros X; apply C; auto|]. intros X Y. destruct (D X Y) as (b & Hb & Hd). unfold destroy. apply (free_dead _ _ b); auto. now apply in_rev in Hb.
Qed.
Lemma append_wrong oks c np p v sat z h s : np <> ts_np s -> append oks c np p v sat z h s = Ok (h, s, -1).
Proof. intros H. unfold append. destruct (Z.eqb_spec np (ts_np s)); [contradiction|reflexivity]. Qed.
Lemma destroy_ok h s L : represents h s L -> exists h', destroy h s = Ok h' /\ (forall b, In (Some b) (ts_ptr s) -> h_blk h' b = None) /\ (forall b, foreign s b -> h_blk h' b = h_blk h b).
Proof.
  intros Rp. destruct (rep_ptrs _ _ _ Rp) as (_ & ND & LV). destruct (free_ok (rev (ts_ptr s)) h) as (h' & E & _ & D & S).
  - rewrite somes_rev. now apply NoDup_rev.
  - intros b Hb. apply in_rev in Hb. auto.
  - exists h'. split; auto. split; intros b Hb; [apply D|apply S]; rewrite <- in_rev; auto.
Qed.
Lemma null_foreign np b : foreign (mkTsrc 0 0 np (zrepeat None 5)) b.
Proof. unfold foreign. change (ts_ptr _) with [@None Z; None; None; None; None]. intros X. repeat (destruct X as [X|X]; [discriminate|]). exact X. Qed.
Lemma empty_rep h np : fresh_heap h -> 0 < np -> represents h (mkTsrc 0 0 np (zrepeat None 5)) [].
Proof. intros F Hp. split; auto. cbn [ts_np ts_n ts_cpty ts_ptr]. split; auto. split; auto. split; [reflexivity|]. split; [constructor|]. left. auto. Qed.
Lemma create_ok malloc_ok oks nsrc np h : fresh_heap h -> zlen oks = 5 ->
  exists h' r, create malloc_ok oks nsrc np h = Ok (h', r) /\
    (forall b, b < h_next h -> h_blk h' b = h_blk h b) /\
    (forall s, r = Some s -> represents h' s [] /\ ts_np s = np /\ ts_cpty s = Z.max 0 nsrc) /\
    (r = None -> forall b, h_blk h' b = h_blk h b) /\
    (r = None <-> np <= 0 \/ malloc_ok = false \/ (0 < nsrc /\ In false oks)).
Proof.
  intros F L5. unfold create. destruct (Z.leb_spec np 0) as [Hp|Hp].
  { exists h, None. split; auto. split; auto. split; [discriminate|]. split; auto. split; auto. }
  destruct malloc_ok.
  2:{ exists h, None. split; auto. split; auto. split; [discriminate|]. split; auto. split; auto. }
  pose proof (empty_rep h np F Hp) as R0. destruct (Z.ltb_spec 0 nsrc) as [Hs|Hs].
  - destruct (expand_gen h _ [] nsrc oks R0 L5 ltac:(cbn; lia)) as (h1 & s1 & st & E & G1 & G2). rewrite E. cbn [bind fst snd].
    destruct (in_dec Bool.bool_dec false oks) as [I|I].
    + destruct (G2 I) as (-> & -> & A & B & C & _). cbn [Z.leb Z.compare]. destruct (C (or_introl eq_refl)) as (C1 & C2).
      destruct (destroy_ok _ _ _ C1) as (h2 & E2 & D & S). rewrite E2. cbn [bind].
      assert (SA : forall b, h_blk h2 b = h_blk h b). { intros b. rewrite S; auto. apply null_foreign. }
      exists h2, None. split; auto. split; auto. split; [discriminate|]. split; auto. split; auto.
    + destruct (G1 I) as (-> & A & B & C & D & S & _). destruct (Z.leb_spec nsrc 0); [lia|]. exists h1, (Some s1). split; auto. split.
      { intros b Hb. apply S; auto. apply null_foreign. }
      split; [intros s X; injection X as <-; split; auto; split; auto; lia|]. split; [discriminate|]. split; [discriminate|]. intros [X|[X|(_ & X)]]; [lia|discriminate|contradiction].
  - cbn [bind fst snd Z.leb Z.compare]. exists h, (Some (mkTsrc 0 0 np (zrepeat None 5))). split; auto. split; auto. split; [intros s X; injection X as <-; split; auto; split; auto; cbn; lia|]. split; [discriminate|].
    split; [discriminate|]. intros [X|[X|(X & _)]]; [lia|discriminate|lia].
Qed.
Lemma clear_ok h s L : represents h s L -> represents h (clear s) [].
Proof.
  intros (F & Hp & Hn & Hc & HW & Cs). pose proof (zlen_nonneg L). split; auto. unfold clear. cbn [ts_np ts_n ts_cpty ts_ptr]. split; auto. split; auto. split; [change (zlen (@nil source)) with 0; lia|]. split; [constructor|].
  destruct Cs as [C|(C & ids & A & B & D)]; [left; auto|right]. split; auto. exists ids. split; auto. split; auto.
  unfold widths, tables in *. cbn [map combine flat_map] in *. apply five in D. destruct D as (i0 & i1 & i2 & i3 & i4 & -> & K0 & K1 & K2 & K3 & K4). cbn [fst snd] in *.
  assert (HX : forall n b vs, holds h n b vs -> holds h n b []) by (intros n b vs (rest & X & Y); exists (map Some vs ++ rest); auto).
  repeat constructor; cbn [fst snd]; eapply HX; eauto.
Qed.
(* reading a table *)
Lemma read_back h s L j x k i w v : represents h s L -> zget L j = Some x -> zget (widths (ts_np s)) (Z.of_nat k) = Some w -> zget (table k x) i = Some v ->
  exists b c, zget (ts_ptr s) (Z.of_nat k) = Some (Some b) /\ h_blk h b = Some c /\ zget c (j * w + i) = Some (Some v).
Proof.
  intros (F & Hp & Hn & Hc & HW & Cs) Gj Gw Gv. pose proof (zget_Some_range _ _ _ Gj) as Hj. pose proof (zget_Some_range _ _ _ Gw) as Hk. change (zlen (widths (ts_np s))) with 5 in Hk.
  destruct Cs as [(C & _)|(C & ids & A & _ & D)]; [lia|]. rewrite A.
  pose proof (Forall2_length' _ _ _ D) as Li. change (length (combine (widths (ts_np s)) (tables L))) with 5%nat in Li.
  destruct (zget_in_range ids (Z.of_nat k) ltac:(unfold zlen; lia)) as (b & Gb). destruct (Forall2_zget _ _ _ D _ _ Gb) as (wv & Gwv & rest & E & _).
  assert (Ew : wv = (w, flat_map (table k) L)).
  { assert (zget (combine (widths (ts_np s)) (tables L)) (Z.of_nat k) = Some (w, flat_map (table k) L)) as X; [|congruence].
    apply zget_combine; auto. rewrite zget_nth in * by lia. rewrite Nat2Z.id in *. destruct k as [|[|[|[|[|k]]]]]; try reflexivity. exfalso. lia. }
  subst wv. cbn [snd] in *. exists b, (map Some (flat_map (table k) L) ++ rest). split; [rewrite zget_map, Gb; reflexivity|]. split; auto.
  assert (HT : forall y, wf_source (ts_np s) y -> zlen (table k y) = w).
  { intros y (Y1 & Y2). rewrite zget_nth in Gw by lia. rewrite Nat2Z.id in Gw. destruct k as [|[|[|[|[|k]]]]]; cbn in Gw; [| | | | |exfalso; lia]; injection Gw as <-; cbn [table]; rewrite ?zlen_map; auto. }
  assert (Hi : 0 <= i < w). { apply zget_Some_range in Gv. rewrite HT in Gv; auto. apply zget_In in Gj. rewrite Forall_forall in HW. auto. }
  assert (X : zget (flat_map (table k) L) (j * w + i) = Some v).
  { clear - HT HW Gj Gv Hi Hj. revert j Gj Hj. induction L as [|y L IH]; intros j Gj Hj; [change (zlen (@nil source)) with 0 in Hj; lia|]. inversion HW as [|? ? Wy HW']. cbn [flat_map].
    destruct (Z.eq_dec j 0) as [->|Nj].
    - injection Gj as ->. rewrite zget_app_l by (rewrite HT by auto; lia). exact Gv.
    - rewrite zget_app_r by (rewrite HT by auto; nia). rewrite HT by auto. replace (j * w + i - w) with ((j - 1) * w + i) by ring.
      assert (G1 : zget L (j - 1) = Some x). { rewrite zget_nth in * by lia. replace (Z.to_nat j) with (S (Z.to_nat (j - 1))) in Gj by lia. exact Gj. }
      apply IH; auto. now apply zget_Some_range in G1. }
  rewrite zget_app_l by (rewrite zlen_map; now apply zget_Some_range in X). rewrite zget_map, X. reflexivity.
Qed.

(* a whole history of appends, without and with failing allocations before any table is lost *)
Lemma history_ok np : forall xs h s L, represents h s L -> ts_np s = np -> Forall (wf_source np) xs ->
  exists h' s', foldM (fun st x => let* r := append [true; true; true; true; true] (x_cell x) np (x_press x) (x_flux x) (x_sat x) (x_surf x) (fst st) (snd st) in
                     Ok (fst (fst r), snd (fst r))) xs (h, s) = Ok (h', s') /\ represents h' s' (L ++ xs).
Proof.
  induction xs as [|x xs IH]; intros h s L Rp En HW; cbn [foldM].
  - exists h, s. now rewrite app_nil_r.
  - inversion HW as [|? ? Wx HW']. subst np. destruct (append_gen h s L [true; true; true; true; true] x Rp Wx eq_refl) as (h1 & s1 & E & R1 & N1 & _).
    { right. cbn. intuition discriminate. }
    cbn [fst snd]. rewrite E. cbn [bind fst snd]. destruct (IH h1 s1 (L ++ [x]) R1 N1 HW') as (h2 & s2 & E2 & R2). exists h2, s2. split; auto. now rewrite <- app_assoc in R2.
Qed.
