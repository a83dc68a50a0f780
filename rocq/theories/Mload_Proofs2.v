(* Proofs about the cells' materials and volumes. *)
From Coq Require Import Permutation.
From Verif Require Import BaseFacts RBaseFacts Mim_Proofs Rprop_Proofs3 Shape_Proofs2 Steady_Proofs Euler_Proofs2 Mload_Proofs Mload_Spec.
Open Scope Z_scope.

Lemma same_iff a b : same a b = true <-> a = b.
Proof.
  unfold same. destruct a as [x y], b as [x' y']. cbn [fst snd]. destruct (Req_EM_T x x'); [destruct (Req_EM_T y y')|]; split; intros H; try discriminate; try congruence.
Qed.
Lemma less_lex a b : pair_less a b = true <-> lex a b.
Proof.
  unfold pair_less, lex. rewrite orb_true_iff, andb_true_iff, negb_true_iff, !Rltb_true, Rltb_false. split; intros H; [destruct H as [H|[H H']]|destruct H as [H|[H H']]]; try (left; lra).
  - destruct (Rle_lt_or_eq_dec _ _ H) as [L|E]; [left; exact L|right; split; [exact E|exact H']].
  - right. split; [lra|exact H'].
Qed.
Lemma less_same a b : negb (pair_less a b) && negb (pair_less b a) = same a b.
Proof.
  apply eq_true_iff_eq. rewrite same_iff, andb_true_iff, !negb_true_iff. split.
  - intros [H1 H2]. assert (~ lex a b) by (rewrite <- less_lex; congruence). assert (~ lex b a) by (rewrite <- less_lex; congruence).
    destruct a as [x y], b as [x' y']. unfold lex in *. cbn [fst snd] in *. assert (x = x') by lra. subst. f_equal. lra.
  - intros ->. assert (N : pair_less b b = false) by (apply not_true_iff_false; rewrite less_lex; unfold lex; lra). rewrite N. split; reflexivity.
Qed.
Lemma lex_trans a b c : lex a b -> lex b c -> lex a c.
Proof.
  unfold lex. lra.
Qed.
Lemma cache_find_In c k j : cache_find c k = Some j -> In (k, j) c.
Proof.
  induction c as [|[k' j'] t IH]; cbn; [discriminate|]. rewrite less_same. destruct (same k k') eqn:E; [apply same_iff in E; subst; intros [= <-]; left; reflexivity|]. intros H. right. exact (IH H).
Qed.
Lemma cache_find_None c k : cache_find c k = None <-> ~ In k (map fst c).
Proof.
  induction c as [|[k' j'] t IH]; cbn; [tauto|]. rewrite less_same. destruct (same k k') eqn:E.
  - apply same_iff in E. subst. split; [discriminate|]. intros H. exfalso. apply H. left. reflexivity.
  - rewrite IH. split; intros H; [intros [<-|H']; [|tauto]|tauto]. assert (same k' k' = true) by (apply same_iff; reflexivity). congruence.
Qed.
Lemma insert_perm c k j : Permutation (cache_insert c k j) ((k, j) :: c).
Proof.
  induction c as [|[k' j'] t IH]; cbn; [reflexivity|]. destruct (pair_less k k'); [reflexivity|]. rewrite IH. apply perm_swap.
Qed.
Lemma insert_ascending c k j : ~ In k (map fst c) -> ascending (map fst c) -> ascending (map fst (cache_insert c k j)).
Proof.
  induction c as [|[k' j'] t IH]; intros N A; [cbn; split; [intros ? []|exact I]|]. cbn [cache_insert]. cbn [map fst] in N, A. destruct A as [A1 A2].
  destruct (pair_less k k') eqn:L.
  - apply less_lex in L. cbn [map fst ascending]. split; [|split; assumption]. intros b [<-|Hb]; [exact L|]. exact (lex_trans _ _ _ L (A1 b Hb)).
  - cbn [map fst ascending]. split; [|apply IH; [intros H; apply N; right; exact H|exact A2]].
    intros b Hb. apply (Permutation_in b (Permutation_map fst (insert_perm t k j))) in Hb. cbn in Hb. destruct Hb as [<-|Hb]; [|exact (A1 b Hb)].
    assert (NL : ~ lex k k') by (rewrite <- less_lex; congruence). assert (NE : k' <> k) by (intros ->; apply N; left; reflexivity).
    destruct (pair_less k' k) eqn:L'; [apply less_lex; exact L'|]. exfalso. apply NE. apply same_iff. rewrite <- less_same, L, L'. reflexivity.
Qed.
Lemma ascending_nodup l : ascending l -> NoDup l.
Proof.
  induction l as [|a l IH]; cbn; constructor; [|apply IH; tauto]. intros H'. destruct H as [H _]. specialize (H a H'). unfold lex in H. lra.
Qed.
Lemma nodup_in {A B} (f : A -> B) l a b : NoDup (map f l) -> In a l -> In b l -> f a = f b -> a = b.
Proof.
  induction l as [|x l IH]; [intros _ []|]. cbn [map]. intros N Ha Hb E. inversion N as [|y m Nx N' Ey]. subst.
  destruct Ha as [<-|Ha], Hb as [<-|Hb]; [reflexivity| | |exact (IH N' Ha Hb E)]; exfalso; apply Nx; apply in_map_iff; [exists b|exists a]; auto.
Qed.
Lemma keys_unique (c : mcache) k j j' : NoDup (map fst c) -> In (k, j) c -> In (k, j') c -> j = j'.
Proof.
  intros N H H'. pose proof (nodup_in fst c _ _ N H H' eq_refl) as E. congruence.
Qed.
Lemma nums_unique (c : mcache) k k' j : NoDup (map snd c) -> In (k, j) c -> In (k', j) c -> k = k'.
Proof.
  intros N H H'. pose proof (nodup_in snd c _ _ N H H' eq_refl) as E. congruence.
Qed.
Lemma volume_if_app P a c : volume_if P (a ++ [c]) = (volume_if P a + if P (fst c) then snd c else 0)%R.
Proof.
  unfold volume_if. rewrite map_app, Rsum_app. cbn [map]. rewrite Rsum_cons, Rsum_nil. ring.
Qed.
Lemma all_volume_app a c : all_volume (a ++ [c]) = (all_volume a + snd c)%R.
Proof.
  unfold all_volume. rewrite map_app, Rsum_app. cbn [map]. rewrite Rsum_cons, Rsum_nil. ring.
Qed.
Lemma volume_if_none P cells : (forall c, In c cells -> P (fst c) = false) -> volume_if P cells = 0%R.
Proof.
  intros H. apply Rsum_map_zero. intros c Hc. rewrite (H c Hc). reflexivity.
Qed.
Lemma nthR_app_l l l' i : i < zlen l -> nthR (l ++ l') i = nthR l i.
Proof.
  intros H. unfold nthR. destruct (Z_lt_dec i 0); [rewrite !zget_None_neg by lia; reflexivity|rewrite zget_app_l by lia; reflexivity].
Qed.
Lemma nthR_out l i : i < 0 \/ zlen l <= i -> nthR l i = 0%R.
Proof.
  intros H. unfold nthR. destruct (zget l i) eqn:E; [|reflexivity]. apply zget_Some_range in E. lia.
Qed.
Lemma nthR_zeros l n i : nthR (l ++ zrepeat 0%R n) i = nthR l i.
Proof.
  unfold nthR. destruct (zget (l ++ zrepeat 0%R n) i) as [x|] eqn:E.
  - pose proof (zget_Some_range _ _ _ E) as H. destruct (Z_lt_dec i (zlen l)); [rewrite zget_app_l in E by lia; rewrite E; reflexivity|].
    rewrite zget_app_r in E by lia. pose proof (zget_Some_range _ _ _ E) as H'. assert (x = 0%R) as ->.
    { apply zget_In in E. unfold zrepeat in E. apply repeat_spec in E. exact E. }
    destruct (zget l i) eqn:E2; [apply zget_Some_range in E2; lia|reflexivity].
  - destruct (zget l i) as [y|] eqn:E2; [|reflexivity]. pose proof (zget_Some_range _ _ _ E2) as H. rewrite zget_app_l in E by lia. congruence.
Qed.

Definition minv (key : Z -> R * R) (done : list (Z * R)) (cache : mcache) (mats : list Z) (vol : list R) : Prop :=
  ascending (map fst cache) /\ (forall k, In k (map fst cache) <-> exists c, In c done /\ key (fst c) = k) /\
  Permutation (map snd cache) (zrange 0 (zlen vol)) /\
  Forall2 (fun c j => In (key (fst c), j) cache) done mats /\
  (forall k j, In (k, j) cache -> nthR vol j = volume_if (fun i => same (key i) k) done) /\
  Rsum vol = all_volume done.
Lemma minv_range key done cache mats vol k j : minv key done cache mats vol -> In (k, j) cache -> 0 <= j < zlen vol.
Proof.
  intros (_ & _ & I3 & _) H. apply In_zrange. apply (Permutation_in j I3). apply in_map_iff. exists (k, j). split; [reflexivity|exact H].
Qed.
Lemma minv_old key done cache mats vol c j x vol' : minv key done cache mats vol -> cache_find cache (key (fst c)) = Some j ->
  rget vol j = Ok x -> rset vol j (x + snd c)%R = Ok vol' -> minv key (done ++ [c]) cache (mats ++ [j]) vol'.
Proof.
  intros I Ef Ex Es. pose proof I as (I1 & I2 & I3 & I4 & I5 & I6). apply cache_find_In in Ef. destruct (rset_nthR _ _ _ _ Es) as (L & Hj & N & Sm).
  apply rget_Ok in Ex. assert (Ej : nthR vol j = x) by (unfold nthR; rewrite Ex; reflexivity). repeat split.
  - exact I1.
  - intros H. apply I2 in H. destruct H as (c' & Hc & E). exists c'. split; [apply in_app_iff; left; exact Hc|exact E].
  - intros (c' & Hc & E). apply in_app_iff in Hc. destruct Hc as [Hc|[<-|[]]]; [apply I2; eauto|]. subst k. apply in_map_iff. exists (key (fst c), j). split; [reflexivity|exact Ef].
  - rewrite L. exact I3.
  - apply Forall2_app; [exact I4|]. constructor; [exact Ef|constructor].
  - intros k' j' H. rewrite N, volume_if_app. destruct (Z.eqb_spec j' j) as [->|Hn].
    + assert (k' = key (fst c)) as -> by (apply (nums_unique cache _ _ j); [apply (Permutation_NoDup (Permutation_sym I3)), zrange_NoDup|exact H|exact Ef]).
      rewrite (proj2 (same_iff _ _) eq_refl), <- (I5 _ _ Ef), Ej. reflexivity.
    + rewrite (I5 _ _ H). destruct (same (key (fst c)) k') eqn:E; [|ring]. apply same_iff in E. exfalso. apply Hn. subst k'. exact (keys_unique cache _ _ _ (ascending_nodup _ I1) H Ef).
  - rewrite Sm, Ej, I6, all_volume_app. ring.
Qed.
Lemma minv_new key done cache mats vol c : minv key done cache mats vol -> cache_find cache (key (fst c)) = None ->
  minv key (done ++ [c]) (cache_insert cache (key (fst c)) (zlen vol)) (mats ++ [zlen vol]) (vol ++ [snd c]).
Proof.
  intros I Ef. pose proof I as (I1 & I2 & I3 & I4 & I5 & I6). apply cache_find_None in Ef. pose proof (insert_perm cache (key (fst c)) (zlen vol)) as P. pose proof (zlen_nonneg vol) as V0.
  assert (Inn : forall x, In x (cache_insert cache (key (fst c)) (zlen vol)) <-> x = (key (fst c), zlen vol) \/ In x cache).
  { intros x. split; intros H; [apply (Permutation_in x P) in H; destruct H as [<-|H]; auto|apply (Permutation_in x (Permutation_sym P)); destruct H as [-> |H]; [left; reflexivity|right; exact H]]. }
  assert (Ik : forall k, In k (map fst (cache_insert cache (key (fst c)) (zlen vol))) <-> k = key (fst c) \/ In k (map fst cache)).
  { intros k. rewrite !in_map_iff. split.
    - intros (x & <- & Hx). apply Inn in Hx. destruct Hx as [-> |Hx]; [left; reflexivity|right; exists x; auto].
    - intros [-> |(x & <- & Hx)]; [exists (key (fst c), zlen vol); split; [reflexivity|apply Inn; left; reflexivity]|exists x; split; [reflexivity|apply Inn; right; exact Hx]]. }
  split; [apply insert_ascending; assumption|]. split; [|split; [|split; [|split]]].
  - intros k. rewrite Ik. split.
    + intros [-> |H]; [exists c; split; [apply in_app_iff; right; left; reflexivity|reflexivity]|]. apply I2 in H. destruct H as (c' & Hc & E). exists c'. split; [apply in_app_iff; left; exact Hc|exact E].
    + intros (c' & Hc & E). apply in_app_iff in Hc. destruct Hc as [Hc|[<-|[]]]; [right; apply I2; eauto|left; congruence].
  - rewrite (Permutation_map snd P). cbn [map snd]. assert (L : zlen (vol ++ [snd c]) = zlen vol + 1) by (unfold zlen; rewrite app_length; cbn [length]; lia).
    rewrite L, (zrange_app 0 (zlen vol) (zlen vol + 1)) by lia. rewrite (zrange_cons (zlen vol)) by lia. rewrite (zrange_empty (zlen vol + 1)) by lia. rewrite <- Permutation_cons_append. constructor. exact I3.
  - apply Forall2_app; [|constructor; [apply Inn; left; reflexivity|constructor]]. eapply Forall2_impl'; [|exact I4]. intros a b H. apply Inn. right. exact H.
  - intros k j H. apply Inn in H. rewrite volume_if_app. destruct H as [[= -> ->]|H].
    + rewrite (proj2 (same_iff _ _) eq_refl). rewrite volume_if_none.
      * unfold nthR. rewrite zget_app_r by lia. rewrite Z.sub_diag. cbn. ring.
      * intros c' Hc. apply not_true_iff_false. rewrite same_iff. intros E. apply Ef. apply I2. eauto.
    + assert (E : same (key (fst c)) k = false). { apply not_true_iff_false. rewrite same_iff. intros <-. apply Ef. apply in_map_iff. exists (key (fst c), j). auto. }
      rewrite E, nthR_app_l by exact (proj2 (minv_range _ _ _ _ _ _ _ I H)). rewrite (I5 _ _ H). ring.
  - rewrite Rsum_app, Rsum_cons, Rsum_nil, I6, all_volume_app. ring.
Qed.
(* the region volumes *)
Definition finv (sat : Z -> Z) (done : list (Z * R)) (frac : list R) : Prop :=
  (forall t, 1 <= t -> nthR frac (t - 1) = volume_if (fun i => sat i =? t) done) /\
  (forall c, In c done -> sat (fst c) <= zlen frac) /\ (done <> [] -> exists c, In c done /\ sat (fst c) = zlen frac) /\ Rsum frac = all_volume done /\
  (done = [] -> frac = []).
Lemma finv_step sat done frac c : 1 <= sat (fst c) -> finv sat done frac -> exists frac',
  (let fr := if zlen frac <? sat (fst c) then frac ++ zrepeat 0%R (sat (fst c) - zlen frac) else frac in
   let* x := rget fr (sat (fst c) - 1) in rset fr (sat (fst c) - 1) (x + snd c)%R) = Ok frac' /\ finv sat (done ++ [c]) frac'.
Proof.
  intros Hs (A & B & C & D & Em). set (fr := if zlen frac <? _ then _ else _). cbn zeta. pose proof (zlen_nonneg frac) as F0.
  assert (Lf : zlen fr = Z.max (zlen frac) (sat (fst c))).
  { unfold fr. destruct (Z.ltb_spec (zlen frac) (sat (fst c))); [|lia]. rewrite zlen_app, zlen_zrepeat by lia. lia. }
  assert (Nf : forall i, nthR fr i = nthR frac i) by (intros i; unfold fr; destruct (_ <? _); [apply nthR_zeros|reflexivity]).
  assert (Sf : Rsum fr = Rsum frac).
  { unfold fr. destruct (Z.ltb_spec (zlen frac) (sat (fst c))); [|reflexivity]. rewrite Rsum_app.
    assert (Z0 : forall m, Rsum (repeat 0%R m) = 0%R) by (induction m as [|m IH]; cbn [repeat]; rewrite ?Rsum_cons, ?Rsum_nil; lra). unfold zrepeat. rewrite Z0. ring. }
  rewrite (rget_nth fr (sat (fst c) - 1)) by lia. cbn [bind]. destruct (rset_exists fr (sat (fst c) - 1) (nthR fr (sat (fst c) - 1) + snd c)%R ltac:(lia)) as (fr' & E & _).
  exists fr'. split; [exact E|]. destruct (rset_nthR _ _ _ _ E) as (L & _ & N & Sm). repeat split.
  - intros t Ht. rewrite N, volume_if_app, !Nf, <- (A t Ht). destruct (Z.eqb_spec (t - 1) (sat (fst c) - 1)) as [Et|Et], (Z.eqb_spec (sat (fst c)) t) as [Es|Es]; try lia; [rewrite Et; reflexivity|ring].
  - intros c' Hc. apply in_app_iff in Hc. rewrite L, Lf. destruct Hc as [Hc|[<-|[]]]; [specialize (B c' Hc); lia|lia].
  - intros _. rewrite L, Lf. destruct (Z_le_dec (sat (fst c)) (zlen frac)) as [Hle|Hgt].
    + destruct done as [|c0 done].
      * exfalso. rewrite (Em eq_refl) in Hle. change (zlen (@nil R)) with 0 in Hle. lia.
      * destruct C as (c' & Hc & E'); [discriminate|]. exists c'. split; [apply in_app_iff; left; exact Hc|lia].
    + exists c. split; [apply in_app_iff; right; left; reflexivity|lia].
  - rewrite Sm, Sf, D, all_volume_app. ring.
  - intros H. destruct done; discriminate H.
Qed.
(* ---- all cells *)
Definition rinv (rho : list R) (done : list (Z * R)) : R := match rho with [] => (-1)%R | _ => (-1 + Rsum (map (fun c => snd c * nthR rho (fst c)) done))%R end.
Lemma load_all nd Emod Poiss satnum rho cells : (forall c, In c cells -> covered Emod Poiss satnum rho c /\ (0 < snd c)%R) ->
  exists s, foldM (load_cell nd Emod Poiss satnum rho) cells (mkMload [] [] [] [] (-1)%R) = Ok s /\
    minv (key_at Emod Poiss) cells (ml_cache s) (ml_mats s) (ml_vol s) /\ (satnum <> [] -> finv (sat_at satnum) cells (ml_frac s)) /\ ml_rho s = rinv rho cells.
Proof.
  intros H. apply (foldM_inv _ (fun done s => minv (key_at Emod Poiss) done (ml_cache s) (ml_mats s) (ml_vol s) /\ (satnum <> [] -> finv (sat_at satnum) done (ml_frac s)) /\ ml_rho s = rinv rho done)).
  - cbn [ml_cache ml_mats ml_vol ml_frac ml_rho]. split; [|split].
    + split; [exact I|]. split; [intros k; split; [intros []|intros (c & [] & _)]|]. split; [apply Permutation_refl|]. split; [constructor|]. split; [intros k j []|reflexivity].
    + intros _. split; [|split; [intros c []|split; [congruence|split; [reflexivity|reflexivity]]]].
      intros t Ht. rewrite nthR_out by (change (zlen (@nil R)) with 0; lia). symmetry. apply volume_if_none. intros c [].
    + unfold rinv. destruct rho; [reflexivity|]. cbn [map]. rewrite Rsum_nil. ring.
  - intros done [k v] s Hc (IM & IF & IR). destruct (H _ Hc) as [(HE & HP & HS & HR) Pos]. cbn [fst snd] in *. unfold load_cell.
    rewrite (rget_nth Emod k HE). cbn [bind]. rewrite (rget_nth Poiss k) by lia. cbn [bind]. rewrite (proj2 (Rltb_true _ _) Pos), orb_true_r. cbn [negb].
    change (nthR Emod k, nthR Poiss k) with (key_at Emod Poiss (fst (k, v))).
    assert (Mid : exists s1, match cache_find (ml_cache s) (key_at Emod Poiss (fst (k, v))) with
      | Some j => let* x := rget (ml_vol s) j in let* vol := rset (ml_vol s) j (x + v)%R in Ok (mkMload (ml_mats s ++ [j]) (ml_cache s) vol (ml_frac s) (ml_rho s))
      | None => let j := zlen (ml_vol s) in Ok (mkMload (ml_mats s ++ [j]) (cache_insert (ml_cache s) (key_at Emod Poiss (fst (k, v))) j) (ml_vol s ++ [v]) (ml_frac s) (ml_rho s)) end = Ok s1 /\
      ml_frac s1 = ml_frac s /\ ml_rho s1 = ml_rho s /\ minv (key_at Emod Poiss) (done ++ [(k, v)]) (ml_cache s1) (ml_mats s1) (ml_vol s1)).
    { destruct (cache_find (ml_cache s) _) as [j|] eqn:Ef.
      - pose proof (minv_range _ _ _ _ _ _ _ IM (cache_find_In _ _ _ Ef)) as Hj. rewrite (rget_nth (ml_vol s) j Hj). cbn [bind].
        destruct (rset_exists (ml_vol s) j (nthR (ml_vol s) j + v)%R Hj) as (vol' & Ev & _). rewrite Ev. cbn [bind]. eexists. split; [reflexivity|]. cbn [ml_cache ml_mats ml_vol ml_frac ml_rho].
        split; [reflexivity|]. split; [reflexivity|]. exact (minv_old _ _ _ _ _ (k, v) _ _ _ IM Ef (rget_nth _ _ Hj) Ev).
      - eexists. split; [reflexivity|]. cbn [ml_cache ml_mats ml_vol ml_frac ml_rho]. split; [reflexivity|]. split; [reflexivity|]. exact (minv_new _ _ _ _ _ (k, v) IM Ef). }
    destruct Mid as (s1 & E1 & F1 & R1 & M1). cbv zeta in E1. match goal with |- context[bind ?A _] => replace A with (Ok s1) by (symmetry; exact E1) end. cbn [bind]. rewrite F1, R1.
    assert (Fr : exists fr, match satnum with [] => Ok (ml_frac s) | _ => let* sn := rget satnum k in
           let fr := if zlen (ml_frac s) <? sn then ml_frac s ++ zrepeat 0%R (sn - zlen (ml_frac s)) else ml_frac s in let* x := rget fr (sn - 1) in rset fr (sn - 1) (x + v)%R end = Ok fr /\
      (satnum <> [] -> finv (sat_at satnum) (done ++ [(k, v)]) fr)).
    { destruct satnum as [|s0 st] eqn:Es; [eexists; split; [reflexivity|congruence]|]. rewrite <- Es in *. destruct HS as [HS|[HS Hs1]]; [congruence|].
      destruct (zget_in_range satnum k ltac:(lia)) as (sn & En). rewrite (proj2 (rget_Ok _ _ _) En). cbn [bind].
      assert (Esat : sat_at satnum (fst (k, v)) = sn) by (unfold sat_at; cbn [fst]; rewrite En; reflexivity). rewrite <- Esat.
      destruct (finv_step (sat_at satnum) done (ml_frac s) (k, v)) as (fr & Efr & Hfr); [exact Hs1|apply IF; congruence|]. exists fr. split; [exact Efr|]. intros _. exact Hfr. }
    destruct Fr as (fr & Efr & Hfr). match goal with |- context[bind ?A _] => replace A with (Ok fr) by (symmetry; exact Efr) end. cbn [bind].
    assert (Rh : (match rho with [] => Ok (ml_rho s) | _ => let* x := rget rho k in Ok (ml_rho s + v * x)%R end) = Ok (rinv rho (done ++ [(k, v)]))).
    { rewrite IR. unfold rinv. destruct rho as [|r0 rt] eqn:Er; [reflexivity|]. rewrite <- Er in *. destruct HR as [HR|HR]; [congruence|]. rewrite (rget_nth rho k) by lia. cbn [bind].
      rewrite map_app, Rsum_app. cbn [map fst snd]. rewrite Rsum_cons, Rsum_nil. f_equal. ring. }
    match goal with |- context[bind ?A _] => replace A with (Ok (rinv rho (done ++ [(k, v)]))) by (symmetry; exact Rh) end. cbn [bind]. eexists. split; [reflexivity|]. cbn [ml_cache ml_mats ml_vol ml_frac ml_rho]. split; [exact M1|]. split; [exact Hfr|reflexivity].
Qed.
Lemma Rsum_div l V : Rsum (map (fun x => x / V)%R l) = (Rsum l / V)%R.
Proof.
  unfold Rdiv. rewrite Rsum_map_scale_r, map_id. reflexivity.
Qed.
Lemma sum_range l : Rsum (map (nthR l) (zrange 0 (zlen l))) = Rsum l.
Proof.
  f_equal. apply zlist_ext; [unfold zlen; rewrite map_length, zrange_length; pose proof (zlen_nonneg l); unfold zlen in *; lia|].
  intros i Hi. rewrite zget_map, zget_zrange by (rewrite zlen_map, zlen_zrange in Hi by apply zlen_nonneg; lia). cbn [option_map].
  rewrite zlen_map, zlen_zrange in Hi by apply zlen_nonneg. destruct (zget_in_range l i ltac:(lia)) as (x & E). rewrite E. unfold nthR. rewrite Z.add_0_l, E. reflexivity.
Qed.
Lemma all_positive cells : cells <> [] -> (forall c, In c cells -> (0 < snd c)%R) -> (0 < all_volume cells)%R.
Proof.
  intros Ne H. destruct cells as [|c t]; [congruence|]. unfold all_volume. cbn [map]. rewrite Rsum_cons. pose proof (H c (or_introl eq_refl)).
  assert (0 <= Rsum (map snd t))%R by (apply Rsum_map_nonneg; intros x Hx; apply Rlt_le, H; right; exact Hx). lra.
Qed.
Lemma volume_if_nonneg P cells : (forall c, In c cells -> (0 < snd c)%R) -> (0 <= volume_if P cells)%R.
Proof.
  intros H. apply Rsum_map_nonneg. intros c Hc. destruct (P (fst c)); [apply Rlt_le, H, Hc|lra].
Qed.
Lemma load_grid_ok nd Escale d cells Emod Poiss Es emin : moduli d (zlen cells) = Ok (Emod, Poiss) -> scale_moduli Escale Emod = Ok (Es, emin) -> cells <> [] ->
  (forall c, In c cells -> covered Es Poiss (satnums d) (densities d) c /\ (0 < snd c)%R) ->
  exists L keys num, load_grid nd Escale d cells = Ok L /\ ld_emin L = emin /\
    ascending keys /\ (forall k, In k keys <-> exists c, In c cells /\ key_at Es Poiss (fst c) = k) /\
    ld_mats L = map (fun c => (num (key_at Es Poiss (fst c)), key_at Es Poiss (fst c))) cells /\
    (forall a b, In a keys -> In b keys -> num a = num b -> a = b) /\ (forall j, 0 <= j < zlen keys <-> exists k, In k keys /\ num k = j) /\
    fractions (ld_frac L) /\
    (satnums d = [] -> ld_bysat L = false /\ ld_frac L = map (fun k => volume_if (fun i => same (key_at Es Poiss i) k) cells / all_volume cells)%R keys) /\
    (satnums d <> [] -> ld_bysat L = true /\ (forall c, In c cells -> sat_at (satnums d) (fst c) <= zlen (ld_frac L)) /\
      (exists c, In c cells /\ sat_at (satnums d) (fst c) = zlen (ld_frac L)) /\
      forall s, 1 <= s <= zlen (ld_frac L) -> nthR (ld_frac L) (s - 1) = (volume_if (fun i => sat_at (satnums d) i =? s) cells / all_volume cells)%R) /\
    (densities d = [] -> ld_rho L = Some (-1)%R) /\
    (densities d <> [] -> let S := Rsum (map (fun c => snd c * nthR (densities d) (fst c))%R cells) in
      ((1 < S -> ld_rho L = Some ((S - 1) / all_volume cells)) /\ (S <= 1 -> ld_rho L = Some (S - 1)))%R).
Proof.
  intros Em Ee Ne H. unfold load_grid. rewrite Em. cbn [bind fst snd]. rewrite Ee. cbn [bind fst snd]. fold (satnums d) (densities d).
  destruct (load_all nd Es Poiss (satnums d) (densities d) cells H) as (s & Ef & M & Fr & Rh). rewrite Ef. cbn [bind]. pose proof M as (I1 & I2 & I3 & I4 & I5 & I6).
  rewrite racc_sum, map_id, I6. assert (PV : (0 < all_volume cells)%R) by (apply all_positive; [exact Ne|intros c Hc; apply H, Hc]). set (V := all_volume cells) in *.
  assert (ND : NoDup (map snd (ml_cache s))) by (apply (Permutation_NoDup (Permutation_sym I3)), zrange_NoDup).
  assert (NK : NoDup (map fst (ml_cache s))) by (apply ascending_nodup; exact I1).
  set (num := fun k => match cache_find (ml_cache s) k with Some j => j | None => -1 end).
  assert (Hnum : forall k j, In (k, j) (ml_cache s) -> num k = j).
  { intros k j Hin. unfold num. destruct (cache_find (ml_cache s) k) as [j'|] eqn:E; [apply cache_find_In in E; exact (keys_unique _ _ _ _ NK E Hin)|].
    exfalso. apply cache_find_None in E. apply E. apply in_map_iff. exists (k, j). auto. }
  set (frac := match satnums d with [] => map (fun k => volume_if (fun i => same (key_at Es Poiss i) k) cells / V)%R (map fst (ml_cache s)) | _ => map (fun x => x / V)%R (ml_frac s) end).
  assert (Efr : match satnums d with [] => mapM (fun c => let* x := rget (ml_vol s) (snd c) in mdiv x V) (ml_cache s) | _ => mapM (fun x => mdiv x V) (ml_frac s) end = Ok frac).
  { unfold frac. destruct (satnums d); [|apply mapM_all_Ok; intros x _; apply mdiv_ok; lra].
    rewrite map_map. apply mapM_all_Ok. intros [k j] Hin. cbn [fst snd]. rewrite (rget_nth (ml_vol s) j (minv_range _ _ _ _ _ _ _ M Hin)). cbn [bind]. rewrite mdiv_ok by lra. rewrite (I5 _ _ Hin). reflexivity. }
  rewrite Efr. cbn [bind].
  assert (Ert : (if Rltb 0 (ml_rho s) then mdiv (ml_rho s) V else Ok (ml_rho s)) = Ok (if Rltb 0 (ml_rho s) then ml_rho s / V else ml_rho s)%R).
  { destruct (Rltb 0 (ml_rho s)); [apply mdiv_ok; lra|reflexivity]. }
  rewrite Ert. cbn [bind].
  assert (Emt : mapM (mat_of (ml_cache s)) (ml_mats s) = Ok (map (fun c => (num (key_at Es Poiss (fst c)), key_at Es Poiss (fst c))) cells)).
  { apply mapM_Ok. clear - I4 Hnum ND. induction I4 as [|c j cs js Hc F IH]; cbn [map]; constructor; [|exact IH].
    unfold mat_of. rewrite (Hnum _ _ Hc). destruct (find (fun e => snd e =? j) (ml_cache s)) as [[k' j']|] eqn:E.
    - apply find_some in E. cbn [snd] in E. destruct E as [E1 E2]. apply Z.eqb_eq in E2. subst j'. cbn [fst]. rewrite (nums_unique _ _ _ _ ND E1 Hc). reflexivity.
    - exfalso. apply (find_none _ _ E) in Hc. cbn in Hc. apply Z.eqb_neq in Hc. congruence. }
  rewrite Emt. cbn [bind]. eexists _, (map fst (ml_cache s)), num. split; [reflexivity|]. cbn [ld_emin ld_mats ld_frac ld_bysat ld_rho].
  split; [reflexivity|]. split; [exact I1|]. split; [exact I2|]. split; [reflexivity|]. split; [|split; [|split; [|split; [|split; [|split]]]]].
  - intros a b Ha Hb E. apply in_map_iff in Ha, Hb. destruct Ha as ((a', ja) & <- & Ha), Hb as ((b', jb) & <- & Hb). cbn [fst] in *. rewrite (Hnum _ _ Ha), (Hnum _ _ Hb) in E. subst jb. exact (nums_unique _ _ _ _ ND Ha Hb).
  - assert (Lk : zlen (map fst (ml_cache s)) = zlen (ml_vol s)).
    { pose proof (Permutation_length I3) as L. unfold zlen in *. rewrite map_length in *. rewrite zrange_length in L. lia. }
    intros j. rewrite Lk, <- (In_zrange 0 (zlen (ml_vol s)) j). split.
    + intros Hj. apply (Permutation_in j (Permutation_sym I3)) in Hj. apply in_map_iff in Hj. destruct Hj as ((k, j') & E & Hin). cbn [snd] in E. subst j'. exists k. split; [apply in_map_iff; exists (k, j); auto|exact (Hnum _ _ Hin)].
    + intros (k & Hk & E). apply in_map_iff in Hk. destruct Hk as ((k', j') & Ek & Hin). cbn [fst] in Ek. subst k'. rewrite (Hnum _ _ Hin) in E. subst j'. apply (Permutation_in j I3). apply in_map_iff. exists (k, j). auto.
  - assert (PV' : (0 < / V)%R) by (apply Rinv_0_lt_compat; exact PV). unfold frac. destruct (satnums d) as [|s0 st] eqn:Es'.
    + split.
      * intros x Hx. apply in_map_iff in Hx. destruct Hx as (k & <- & _). apply Rmult_le_pos; [apply volume_if_nonneg; intros c Hc; apply H, Hc|lra].
      * assert (Eq : map (fun k => volume_if (fun i => same (key_at Es Poiss i) k) cells / V)%R (map fst (ml_cache s)) = map (fun x => x / V)%R (map (nthR (ml_vol s)) (map snd (ml_cache s)))).
        { rewrite !map_map. apply map_ext_in. intros [k j] Hin. cbn [fst snd]. rewrite (I5 _ _ Hin). reflexivity. }
        rewrite Eq, Rsum_div. rewrite (Rsum_perm _ _ (Permutation_map (nthR (ml_vol s)) I3)), sum_range, I6. fold V. field. lra.
    + destruct (Fr ltac:(discriminate)) as (A & B & C & D & _). split.
      * intros x Hx. apply in_map_iff in Hx. destruct Hx as (y & <- & Hy). apply Rmult_le_pos; [|lra]. apply In_nthR in Hy. destruct Hy as (i & Hi & <-).
        replace i with (i + 1 - 1) by lia. rewrite A by lia. apply volume_if_nonneg. intros c Hc. apply H, Hc.
      * rewrite Rsum_div, D. fold V. field. lra.
  - intros E. unfold frac. rewrite E. split; reflexivity.
  - intros E. destruct (Fr E) as (A & B & C & D & _). unfold frac. destruct (satnums d) as [|s0 st] eqn:Es'; [congruence|]. rewrite <- Es' in *. clear E.
    assert (L : zlen (map (fun x => x / V)%R (ml_frac s)) = zlen (ml_frac s)) by (apply zlen_map). rewrite L. split; [reflexivity|]. split; [exact B|]. split; [apply C; exact Ne|].
    intros t Ht. rewrite <- (A t) by lia. unfold nthR. rewrite zget_map. destruct (zget_in_range (ml_frac s) (t - 1) ltac:(lia)) as (x & Ex). rewrite Ex. reflexivity.
  - intros E. rewrite Rh. unfold rinv. rewrite E. rewrite (proj2 (Rltb_false _ _)) by lra. reflexivity.
  - intros E. rewrite Rh. unfold rinv. destruct (densities d) as [|r0 rt] eqn:Er; [congruence|]. rewrite <- Er in *. set (S := Rsum (map (fun c => snd c * nthR (densities d) (fst c))%R cells)). split; intros HS.
    + rewrite (proj2 (Rltb_true _ _)) by lra. f_equal. field. lra.
    + rewrite (proj2 (Rltb_false _ _)) by lra. f_equal. ring.
Qed.
