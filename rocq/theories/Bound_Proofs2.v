(* Boundary-condition tables and the setup functions. *)
From Coq Require Import Permutation.
From Verif Require Import BaseFacts RBaseFacts Bound_Model Bound_Spec Bound_Proofs.
Open Scope Z_scope.

Lemma firstn_zget {A} (l : list A) n i : 0 <= i < n -> zget (firstn (Z.to_nat n) l) i = zget l i.
Proof.
  intros H. rewrite !zget_nth by lia. assert (Z.to_nat i < Z.to_nat n)%nat by lia.
  generalize dependent (Z.to_nat n). generalize (Z.to_nat i). clear. intros k m. revert k l.
  induction m as [|m IH]; intros k l Hk; [lia|]. destruct l as [|x l]; [destruct k; reflexivity|].
  destruct k as [|k]; [reflexivity|]. cbn. apply IH. lia.
Qed.

Lemma vec_resize_len {A} n (x : A) l : 0 <= n -> zlen (vec_resize n x l) = n.
Proof.
  intros H. unfold vec_resize. rewrite zlen_app. unfold zlen, zrepeat. rewrite firstn_length, repeat_length. lia.
Qed.
Lemma vec_resize_get {A} n (x : A) l i : 0 <= i < n ->
  zget (vec_resize n x l) i = if i <? zlen l then zget l i else Some x.
Proof.
  intros H. unfold vec_resize.
  assert (zlen (firstn (Z.to_nat n) l) = Z.min n (zlen l)) as L by (unfold zlen; rewrite firstn_length; lia).
  destruct (Z.ltb_spec i (zlen l)).
  - rewrite zget_app_l by lia. apply firstn_zget. lia.
  - rewrite zget_app_r by lia. rewrite zget_zrepeat by lia. reflexivity.
Qed.

(* ---------- operation histories *)
Definition tables_ok (h : list op) (b : bcs) : Prop :=
  0 <= size_of h /\
  zlen (t_flow b) = size_of h /\ zlen (t_sat b) = size_of h /\ zlen (t_canon b) = size_of h /\ zlen (t_partner b) = size_of h /\
  (forall i, 0 <= i < size_of h ->
    zget (t_flow b) i = Some (last_flow h i) /\ zget (t_sat b) i = Some (last_sat h i) /\
    zget (t_canon b) i = Some (last_canon h i)) /\
  (forall i, size_of h <= i -> last_flow h i = mkCond Neumann 0%R /\ last_sat h i = mkCond Dirichlet 1%R /\ last_canon h i = 0).

Lemma get_after_set {A} (l l' : list A) i x k : rset l i x = Ok l' -> 0 <= k < zlen l ->
  zget l' k = if i =? k then Some x else zget l k.
Proof.
  intros E Hk. apply rset_inv in E. destruct E as [_ [_ [G1 G2]]].
  destruct (Z.eqb_spec i k) as [->|]; [exact G1|apply G2; congruence].
Qed.

Lemma apply_op_ok h b o b' : tables_ok h b -> apply_op b o = Ok b' -> tables_ok (o :: h) b'.
Proof.
  intros (Hp & Lf & Ls & Lc & Lp & G & D) E. destruct o; cbn [apply_op] in E.
  - inversion E; subst. unfold tables_ok. cbn. repeat split; try lia.
  - unfold bcs_resize in E. destruct (Z.ltb_spec n 0); [discriminate|]. inversion E; subst. clear E.
    unfold tables_ok; cbn [size_of t_flow t_sat t_canon t_partner last_flow last_sat last_canon].
    rewrite !vec_resize_len by lia. split; [lia|]. do 4 (split; [reflexivity|]). split.
    + intros i Hi. rewrite !vec_resize_get by lia. rewrite ?Lf, ?Ls, ?Lc.
      destruct (Z.leb_spec n i); try lia. destruct (Z.ltb_spec i (size_of h)); [apply G; lia|].
      destruct (D i ltac:(lia)) as [-> [-> ->]]. repeat split.
    + intros i Hi. destruct (Z.leb_spec n i); [|lia]. repeat split.
  - unfold set_flow in E. destruct (rset (t_flow b) i c) as [l| |] eqn:R; try discriminate. cbn in E. inversion E; subst. clear E.
    pose proof (rset_inv _ _ _ _ R) as [Ri [Rl _]].
    unfold tables_ok; cbn [size_of t_flow t_sat t_canon t_partner last_flow last_sat last_canon].
    split; [lia|]. do 4 (split; [lia|]). split.
    + intros k Hk. destruct (G k Hk) as [G1 [G2 G3]]. split; [|split; assumption].
      rewrite (get_after_set _ _ _ _ k R) by lia. destruct (i =? k); [reflexivity|exact G1].
    + intros k Hk. destruct (D k Hk) as [D1 D2]. split; [|exact D2]. destruct (Z.eqb_spec i k); [lia|exact D1].
  - unfold set_sat in E. destruct (rset (t_sat b) i c) as [l| |] eqn:R; try discriminate. cbn in E. inversion E; subst. clear E.
    pose proof (rset_inv _ _ _ _ R) as [Ri [Rl _]].
    unfold tables_ok; cbn [size_of t_flow t_sat t_canon t_partner last_flow last_sat last_canon].
    split; [lia|]. do 4 (split; [lia|]). split.
    + intros k Hk. destruct (G k Hk) as [G1 [G2 G3]]. split; [assumption|]. split; [|assumption].
      rewrite (get_after_set _ _ _ _ k R) by lia. destruct (i =? k); [reflexivity|exact G2].
    + intros k Hk. destruct (D k Hk) as [D1 [D2 D3]]. split; [exact D1|]. split; [|exact D3]. destruct (Z.eqb_spec i k); [lia|exact D2].
  - unfold set_canon in E. destruct (rset (t_canon b) i c) as [l| |] eqn:R; try discriminate. cbn in E. inversion E; subst. clear E.
    pose proof (rset_inv _ _ _ _ R) as [Ri [Rl _]].
    unfold tables_ok; cbn [size_of t_flow t_sat t_canon t_partner last_flow last_sat last_canon].
    split; [lia|]. do 4 (split; [lia|]). split.
    + intros k Hk. destruct (G k Hk) as [G1 [G2 G3]]. split; [assumption|]. split; [assumption|].
      rewrite (get_after_set _ _ _ _ k R) by lia. destruct (i =? k); [reflexivity|exact G3].
    + intros k Hk. destruct (D k Hk) as [D1 [D2 D3]]. split; [exact D1|]. split; [exact D2|]. destruct (Z.eqb_spec i k); [lia|exact D3].
  - unfold set_partners in E. destruct (rset (t_partner b) i j) as [l| |] eqn:R; try discriminate. cbn [bind] in E.
    destruct (rset l j i) as [l2| |] eqn:R2; try discriminate. cbn in E. inversion E; subst. clear E.
    pose proof (rset_inv _ _ _ _ R) as [Ri [Rl _]]. pose proof (rset_inv _ _ _ _ R2) as [Ri2 [Rl2 _]].
    unfold tables_ok; cbn [size_of t_flow t_sat t_canon t_partner last_flow last_sat last_canon].
    split; [lia|]. do 4 (split; [lia|]). split; assumption.
Qed.

Lemma history_tables ops b : foldM apply_op ops bcs_empty = Ok b -> tables_ok (rev ops) b.
Proof.
  assert (forall ops h b0 b, tables_ok h b0 -> foldM apply_op ops b0 = Ok b -> tables_ok (rev ops ++ h) b) as G.
  { clear. induction ops as [|o ops IH]; intros h b0 b H E; cbn [foldM] in E.
    - inversion E; subst. exact H.
    - destruct (apply_op b0 o) as [b1| |] eqn:E1; try discriminate. cbn [bind] in E.
      cbn [rev]. rewrite <- app_assoc. cbn. eapply IH; [|exact E]. eapply apply_op_ok; eauto. }
  intros E. rewrite <- (app_nil_r (rev ops)). eapply G; [|exact E].
  unfold tables_ok. cbn. repeat split; lia.
Qed.

Definition psym0 (p : list Z) : Prop := symmetric_partners p /\ (0 < zlen p -> zget p 0 = Some 0).
Lemma careful_step b o b' : psym0 (t_partner b) -> careful b [o] -> apply_op b o = Ok b' -> psym0 (t_partner b').
Proof.
  intros [S Z0] C E. destruct o; cbn [apply_op careful] in *.
  - inversion E; subst. cbn. split; [intros i j H; pose proof (zget_Some_range _ _ _ H); unfold zlen in *; cbn in *; lia|unfold zlen; cbn; lia].
  - unfold bcs_resize in E. destruct (Z.ltb_spec n 0); [discriminate|]. inversion E; subst. clear E. cbn [t_partner]. destruct C as [C _].
    split.
    + intros i j H1 Hj. pose proof (zget_Some_range _ _ _ H1) as Ri. rewrite vec_resize_len in Ri by lia.
      rewrite vec_resize_get in H1 by lia. destruct (Z.ltb_spec i (zlen (t_partner b))); [|congruence].
      specialize (S i j H1 Hj). pose proof (zget_Some_range _ _ _ S). rewrite vec_resize_get by lia.
      destruct (Z.ltb_spec j (zlen (t_partner b))); [exact S|lia].
    + rewrite vec_resize_len by lia. intros Hn. rewrite vec_resize_get by lia. destruct (Z.ltb_spec 0 (zlen (t_partner b))); [auto|reflexivity].
  - unfold set_flow in E. destruct (rset _ _ _); try discriminate. cbn in E. inversion E; subst. split; assumption.
  - unfold set_sat in E. destruct (rset _ _ _); try discriminate. cbn in E. inversion E; subst. split; assumption.
  - unfold set_canon in E. destruct (rset _ _ _); try discriminate. cbn in E. inversion E; subst. split; assumption.
  - destruct C as [[C1 [C2 [C3 C4]]] _].
    unfold set_partners in E. destruct (rset (t_partner b) i j) as [l| |] eqn:R; try discriminate. cbn [bind] in E.
    destruct (rset l j i) as [l2| |] eqn:R2; try discriminate. cbn in E. inversion E; subst. clear E. cbn [t_partner].
    apply rset_inv in R. destruct R as [Ri [Rl [G1 G2]]]. apply rset_inv in R2. destruct R2 as [Ri2 [Rl2 [G3 G4]]].
    assert (forall k, k <> i -> k <> j -> zget l2 k = zget (t_partner b) k) as Gk by (intros; rewrite G4, G2; auto).
    assert (zget l2 i = Some j) as Gi. { destruct (Z.eq_dec i j) as [->|]; [exact G3|rewrite G4 by assumption; exact G1]. }
    split.
    + intros k m Hk Hm. destruct (Z.eq_dec k j) as [->|Hkj]; [congruence|].
      destruct (Z.eq_dec k i) as [->|Hki]; [assert (m = j) by congruence; subst; exact G3|].
      rewrite Gk in Hk by assumption. pose proof (S k m Hk Hm) as Q.
      assert (k <> 0). { intros ->. rewrite Z0 in Hk by lia. congruence. }
      destruct (Z.eq_dec m i) as [->|]; [congruence|]. destruct (Z.eq_dec m j) as [->|]; [congruence|]. rewrite Gk by assumption. exact Q.
    + intros Hl. rewrite Gk by lia. apply Z0. lia.
Qed.

Lemma history_symmetric ops b : careful bcs_empty ops -> foldM apply_op ops bcs_empty = Ok b -> symmetric_partners (t_partner b).
Proof.
  assert (forall ops b0 b, psym0 (t_partner b0) -> careful b0 ops -> foldM apply_op ops b0 = Ok b -> psym0 (t_partner b)) as G.
  { clear. induction ops as [|o ops IH]; intros b0 b S C E; cbn [foldM] in E.
    - inversion E; subst. exact S.
    - destruct (apply_op b0 o) as [b1| |] eqn:E1; try discriminate. cbn [bind] in E.
      cbn [careful] in C. rewrite E1 in C. destruct C as [C1 C2].
      eapply IH; [|exact C2|exact E]. eapply careful_step; [exact S| |exact E1].
      cbn [careful]. rewrite E1. split; [exact C1|exact I]. }
  intros C E. eapply G in E; [apply E| |exact C].
  split; [intros i j H; pose proof (zget_Some_range _ _ _ H); unfold zlen in *; cbn in *; lia|unfold zlen; cbn; lia].
Qed.

(* ---------- storing conditions of a face list *)
Definition sized (n : Z) (b : bcs) : Prop :=
  zlen (t_flow b) = n /\ zlen (t_sat b) = n /\ zlen (t_canon b) = n /\ zlen (t_partner b) = n.

Lemma set_flow_ok n b i c : sized n b -> 0 <= i < n ->
  exists b', set_flow i c b = Ok b' /\ sized n b' /\ t_sat b' = t_sat b /\ t_canon b' = t_canon b /\ t_partner b' = t_partner b /\
    zget (t_flow b') i = Some c /\ forall k, k <> i -> zget (t_flow b') k = zget (t_flow b) k.
Proof.
  intros [L1 [L2 [L3 L4]]] Hi. unfold set_flow.
  destruct (rset_exists (t_flow b) i c ltac:(lia)) as [l [-> [L [G1 G2]]]]. cbn. eexists. split; [reflexivity|].
  unfold sized; cbn. repeat split; auto; lia.
Qed.
Lemma set_sat_ok n b i c : sized n b -> 0 <= i < n ->
  exists b', set_sat i c b = Ok b' /\ sized n b' /\ t_flow b' = t_flow b /\ t_canon b' = t_canon b /\ t_partner b' = t_partner b /\
    zget (t_sat b') i = Some c /\ forall k, k <> i -> zget (t_sat b') k = zget (t_sat b) k.
Proof.
  intros [L1 [L2 [L3 L4]]] Hi. unfold set_sat.
  destruct (rset_exists (t_sat b) i c ltac:(lia)) as [l [-> [L [G1 G2]]]]. cbn. eexists. split; [reflexivity|].
  unfold sized; cbn. repeat split; auto; lia.
Qed.
Lemma set_canon_ok n b i c : sized n b -> 0 <= i < n ->
  exists b', set_canon i c b = Ok b' /\ sized n b' /\ t_flow b' = t_flow b /\ t_sat b' = t_sat b /\ t_partner b' = t_partner b /\
    zget (t_canon b') i = Some c /\ forall k, k <> i -> zget (t_canon b') k = zget (t_canon b) k.
Proof.
  intros [L1 [L2 [L3 L4]]] Hi. unfold set_canon.
  destruct (rset_exists (t_canon b) i c ltac:(lia)) as [l [-> [L [G1 G2]]]]. cbn. eexists. split; [reflexivity|].
  unfold sized; cbn. repeat split; auto; lia.
Qed.
Lemma set_partners_ok n b i j : sized n b -> 0 <= i < n -> 0 <= j < n -> i <> j ->
  exists b', set_partners i j b = Ok b' /\ sized n b' /\ t_flow b' = t_flow b /\ t_sat b' = t_sat b /\ t_canon b' = t_canon b /\
    zget (t_partner b') i = Some j /\ zget (t_partner b') j = Some i /\
    forall k, k <> i -> k <> j -> zget (t_partner b') k = zget (t_partner b) k.
Proof.
  intros [L1 [L2 [L3 L4]]] Hi Hj Hij. unfold set_partners.
  destruct (rset_exists (t_partner b) i j ltac:(lia)) as [l [-> [L [G1 G2]]]]. cbn [bind].
  destruct (rset_exists l j i ltac:(lia)) as [l' [-> [L' [G1' G2']]]]. cbn. eexists. split; [reflexivity|].
  unfold sized; cbn. repeat split; auto; try lia.
  - rewrite G2' by congruence. exact G1.
  - intros. rewrite G2', G2 by congruence. reflexivity.
Qed.

Definition flow_for (conds : list cond) (areas : list R) (f : bface) (c : cond) : Prop :=
  exists c0, zget conds (b_canon f) = Some c0 /\
   if is_neumann c0 then exists a, zget areas (b_canon f) = Some a /\ c = mkCond Neumann (c_val c0 * b_area f / a)%R
   else c = c0.

Lemma NoDup_split_map {A} (k : A -> Z) l done a rest b :
  NoDup (map k l) -> l = done ++ a :: rest -> In b done -> k b <> k a.
Proof.
  intros ND -> Hb E. rewrite map_app in ND. cbn in ND. apply NoDup_remove_2 in ND. apply ND.
  apply in_or_app. left. rewrite <- E. apply in_map. exact Hb.
Qed.

Lemma store_flow_loop n conds areas l b :
  sized n b -> zlen conds = 6 -> zlen areas = 6 -> NoDup (map b_bid l) ->
  (forall f, In f l -> 0 <= b_bid f < n /\ 0 <= b_canon f < 6) ->
  exists b', foldM (store_flow conds areas) l b = Ok b' /\ sized n b' /\ t_sat b' = t_sat b /\ t_canon b' = t_canon b /\ t_partner b' = t_partner b /\
    forall f, In f l -> exists c, zget (t_flow b') (b_bid f) = Some c /\ flow_for conds areas f c.
Proof.
  intros Hs Lc La ND HR.
  destruct (foldM_split_inv (store_flow conds areas)
   (fun done b' => sized n b' /\ t_sat b' = t_sat b /\ t_canon b' = t_canon b /\ t_partner b' = t_partner b /\
      forall f, In f done -> exists c, zget (t_flow b') (b_bid f) = Some c /\ flow_for conds areas f c) l b) as [b' H].
  - split; [exact Hs|]. repeat split; try reflexivity. contradiction.
  - intros done f rest b1 El [S1 [E1 [E2 [E3 H]]]].
    assert (In f l) as Hf by (subst l; apply in_or_app; right; left; reflexivity).
    destruct (HR f Hf) as [Hb Hc].
    assert (forall c, flow_for conds areas f c -> exists s', set_flow (b_bid f) c b1 = Ok s' /\
       sized n s' /\ t_sat s' = t_sat b /\ t_canon s' = t_canon b /\ t_partner s' = t_partner b /\
       forall f0, In f0 (done ++ [f]) -> exists c, zget (t_flow s') (b_bid f0) = Some c /\ flow_for conds areas f0 c) as G.
    { intros c Hfc. destruct (set_flow_ok n b1 (b_bid f) c S1 Hb) as [b2 [E [S2 [Q1 [Q2 [Q3 [Q4 Q5]]]]]]].
      exists b2. split; [exact E|]. split; [exact S2|]. split; [congruence|]. split; [congruence|]. split; [congruence|].
      intros f0 Hf0. apply in_app_or in Hf0. destruct Hf0 as [Hf0|[<-|[]]].
      - rewrite Q5; [apply H; exact Hf0|]. eapply NoDup_split_map; eauto.
      - exists c. auto. }
    unfold store_flow. destruct (rget_range conds (b_canon f) ltac:(lia)) as [c0 [-> Ec0]]. cbn [bind].
    destruct (is_neumann c0) eqn:En.
    + destruct (rget_range areas (b_canon f) ltac:(lia)) as [a [-> Ea]]. cbn [bind]. apply G.
      exists c0. split; [exact Ec0|]. rewrite En. exists a. auto.
    + apply G. exists c0. split; [exact Ec0|]. rewrite En. reflexivity.
  - exists b'. exact H.
Qed.

Lemma store_sat_loop n conds l b :
  sized n b -> zlen conds = 6 -> NoDup (map b_bid l) ->
  (forall f, In f l -> 0 <= b_bid f < n /\ 0 <= b_canon f < 6) ->
  exists b', foldM (store_sat conds) l b = Ok b' /\ sized n b' /\ t_flow b' = t_flow b /\ t_canon b' = t_canon b /\ t_partner b' = t_partner b /\
    forall f, In f l -> zget (t_sat b') (b_bid f) = zget conds (b_canon f).
Proof.
  intros Hs Lc ND HR.
  destruct (foldM_split_inv (store_sat conds)
   (fun done b' => sized n b' /\ t_flow b' = t_flow b /\ t_canon b' = t_canon b /\ t_partner b' = t_partner b /\
      forall f, In f done -> zget (t_sat b') (b_bid f) = zget conds (b_canon f)) l b) as [b' H].
  - split; [exact Hs|]. repeat split; try reflexivity. contradiction.
  - intros done f rest b1 El [S1 [E1 [E2 [E3 H]]]].
    assert (In f l) as Hf by (subst l; apply in_or_app; right; left; reflexivity).
    destruct (HR f Hf) as [Hb Hc].
    unfold store_sat. destruct (rget_range conds (b_canon f) ltac:(lia)) as [c0 [-> Ec0]]. cbn [bind].
    destruct (set_sat_ok n b1 (b_bid f) c0 S1 Hb) as [b2 [E [S2 [Q1 [Q2 [Q3 [Q4 Q5]]]]]]].
    exists b2. split; [exact E|]. split; [exact S2|]. split; [congruence|]. split; [congruence|]. split; [congruence|].
    intros f0 Hf0. apply in_app_or in Hf0. destruct Hf0 as [Hf0|[<-|[]]].
    + rewrite Q5; [apply H; exact Hf0|]. eapply NoDup_split_map; eauto.
    + congruence.
  - exists b'. exact H.
Qed.

(* partner ids of the list point into the list, symmetrically *)
Definition pbid_sym (l : list bface) : Prop :=
  forall f, In f l -> b_pbid f = 0 \/ exists o, In o l /\ b_pbid f = b_bid o /\ b_pbid o = b_bid f /\ f <> o.

Lemma store_partner_loop n l b :
  sized n b -> NoDup (map b_bid l) ->
  (forall f, In f l -> 1 <= b_bid f < n) -> 
  (forall f, In f l -> b_pbid f = 0 \/ exists o, In o l /\ b_pbid f = b_bid o) ->
  exists b', foldM store_partner l b = Ok b' /\ sized n b' /\ t_flow b' = t_flow b /\ t_sat b' = t_sat b /\
    (forall f, In f l -> zget (t_canon b') (b_bid f) = Some (b_canon f + 1)) /\
    ((forall i, 0 <= i < n -> zget (t_partner b) i = Some 0) -> pbid_sym l ->
      forall f, In f l -> zget (t_partner b') (b_bid f) = Some (b_pbid f)).
Proof.
  intros Hs ND HR HO.
  assert (forall f o, In f l -> In o l -> b_bid f = b_bid o -> f = o) as Hinj.
  { intros f o Hf Ho E. apply In_zget in Hf. destruct Hf as [i [Ri Hi]]. apply In_zget in Ho. destruct Ho as [j [Rj Hj]].
    assert (i = j); [|congruence].
    assert (zget (map b_bid l) i = zget (map b_bid l) j) as EE by (rewrite !zget_map, Hi, Hj; cbn; congruence).
    rewrite !zget_nth in EE by lia. assert (Z.to_nat i = Z.to_nat j); [|lia].
    eapply NoDup_nth_error; [exact ND| |exact EE]. rewrite map_length. unfold zlen in *. lia. }
  destruct (foldM_split_inv store_partner
   (fun done b' => sized n b' /\ t_flow b' = t_flow b /\ t_sat b' = t_sat b /\
      (forall f, In f done -> zget (t_canon b') (b_bid f) = Some (b_canon f + 1)) /\
      ((forall i, 0 <= i < n -> zget (t_partner b) i = Some 0) -> pbid_sym l ->
         (forall f, In f l -> zget (t_partner b') (b_bid f) = Some 0 \/ zget (t_partner b') (b_bid f) = Some (b_pbid f)) /\
         (forall f o, In f done -> In o l -> b_pbid f = b_bid o -> b_bid f < b_pbid f ->
             zget (t_partner b') (b_bid f) = Some (b_pbid f) /\ zget (t_partner b') (b_bid o) = Some (b_bid f)))) l b) as [b' H].
  - split; [exact Hs|]. do 2 (split; [reflexivity|]). split; [contradiction|]. intros Hz _. split; [|contradiction].
    intros f Hf. left. apply Hz. specialize (HR f Hf). lia.
  - intros done f rest b1 El [S1 [E1 [E2 [HCn HP]]]].
    assert (In f l) as Hf by (subst l; apply in_or_app; right; left; reflexivity).
    pose proof (HR f Hf) as Hb. unfold store_partner.
    assert (exists b2, (if b_bid f <? b_pbid f then set_partners (b_bid f) (b_pbid f) b1 else Ok b1) = Ok b2 /\ sized n b2 /\
      t_flow b2 = t_flow b1 /\ t_sat b2 = t_sat b1 /\ t_canon b2 = t_canon b1 /\
      (if b_bid f <? b_pbid f then zget (t_partner b2) (b_bid f) = Some (b_pbid f) /\ zget (t_partner b2) (b_pbid f) = Some (b_bid f) /\
         forall k, k <> b_bid f -> k <> b_pbid f -> zget (t_partner b2) k = zget (t_partner b1) k
       else t_partner b2 = t_partner b1)) as [b2 [-> [S2 [F2 [T2 [C2 P2]]]]]].
    { destruct (Z.ltb_spec (b_bid f) (b_pbid f)) as [Hlt|Hge].
      - destruct (HO f Hf) as [Hz|[o [Ho Eo]]]; [lia|]. pose proof (HR o Ho).
        destruct (set_partners_ok n b1 (b_bid f) (b_pbid f) S1 ltac:(lia) ltac:(lia) ltac:(lia)) as [b2 [E [S2 [F2 [T2 [C2 [P1 [P2 P3]]]]]]]].
        exists b2. repeat split; try assumption; apply S2.
      - exists b1. repeat split; try reflexivity; apply S1. }
    cbn [bind].
    destruct (set_canon_ok n b2 (b_bid f) (b_canon f + 1) S2 ltac:(lia)) as [b3 [E3 [S3 [F3 [T3 [P3 [G3 G3']]]]]]].
    exists b3. split; [exact E3|]. split; [exact S3|]. split; [congruence|]. split; [congruence|]. split.
    { intros f0 Hf0. apply in_app_or in Hf0. destruct Hf0 as [Hf0|[<-|[]]]; [|exact G3].
      rewrite G3', C2; [apply HCn; exact Hf0|]. eapply NoDup_split_map; eauto. }
    intros Hz Hsym. destruct (HP Hz Hsym) as [HA HB]. rewrite P3.
    destruct (Z.ltb_spec (b_bid f) (b_pbid f)) as [Hlt|Hge].
    + destruct P2 as [X1 [X2 X3]]. destruct (Hsym f Hf) as [Hn|[o [Ho [Eo [Eo' _]]]]]; [lia|].
      split.
      * intros f0 Hf0. destruct (Z.eq_dec (b_bid f0) (b_bid f)) as [E0|N0].
        { assert (f0 = f) by auto. subst f0. right. exact X1. }
        destruct (Z.eq_dec (b_bid f0) (b_pbid f)) as [E1'|N1].
        { assert (f0 = o) by (apply Hinj; auto; congruence). subst f0. right. rewrite E1', X2. congruence. }
        rewrite X3 by assumption. apply HA. exact Hf0.
      * intros f0 o0 Hf0 Ho0 Ep Hlt0.
        apply in_app_or in Hf0. destruct Hf0 as [Hf0|[<-|[]]].
        -- assert (In f0 l) as Hf0l by (rewrite El; apply in_or_app; left; exact Hf0).
           assert (b_bid f0 <> b_bid f) as N0 by (eapply NoDup_split_map; eauto).
           pose proof (HR f0 Hf0l). destruct (Hsym f0 Hf0l) as [Hn|[o1 [Ho1 [Eo1 [Eo1' _]]]]]; [lia|].
           assert (o1 = o0) by (apply Hinj; auto; congruence). subst o1.
           destruct (HB f0 o0 Hf0 Ho0 Ep Hlt0) as [B1 B2].
           assert (b_bid f0 <> b_pbid f) as N1. { intros E0. assert (f0 = o) by (apply Hinj; auto; congruence). subst f0. assert (b_pbid o = b_bid f) by congruence. lia. }
           assert (b_bid o0 <> b_bid f) as N2. { intros E0. assert (o0 = f) by auto. subst o0. lia. }
           assert (b_bid o0 <> b_pbid f) as N3. { intros E0. assert (o0 = o) by (apply Hinj; auto; congruence). subst o0. congruence. }
           rewrite !X3 by assumption. auto.
        -- assert (o0 = o) by (apply Hinj; auto; congruence). subst o0. split; [exact X1|]. rewrite <- Ep. exact X2.
    + rewrite P2. split; [exact HA|]. intros f0 o0 Hf0 Ho0 Ep Hlt0. apply in_app_or in Hf0. destruct Hf0 as [Hf0|[<-|[]]]; [apply HB; assumption|lia].
  - destruct H as [E [S [F [T [C P]]]]]. exists b'. split; [exact E|]. split; [exact S|]. split; [exact F|]. split; [exact T|]. split; [exact C|].
    intros Hz Hsym f Hf. destruct (P Hz Hsym) as [HA HB]. destruct (Hsym f Hf) as [H0|[o [Ho [Eo [Eo' Hne]]]]].
    { destruct (HA f Hf) as [Q|Q]; congruence. }
    destruct (Z.lt_trichotomy (b_bid f) (b_pbid f)) as [Hlt|[He|Hgt]].
    + destruct (HB f o Hf Ho Eo Hlt). assumption.
    + exfalso. apply Hne. apply Hinj; auto. congruence.
    + destruct (HB o f Ho Hf Eo' ltac:(lia)) as [_ B2]. congruence.
Qed.
