From Verif Require Import BaseFacts RBaseFacts Lin_Facts Steady_Proofs Euler_Proofs2 Impl_Proofs Impl_Proofs5 Matx_Proofs Mim_Proofs Hnum_Proofs Rprop_Spec Rprop_Proofs Rprop_Proofs2.
Open Scope Z_scope.

Lemma perm_view r c : zlen (rp_perm r) = 9 * zlen (rp_valid r) -> zget (rp_valid r) c = Some true ->
  exists K, permeability r c = Ok K /\ shaped K COrd 3 3 /\ forall i j, 0 <= i < 3 -> 0 <= j < 3 -> entry K i j = nthR (rp_perm r) (9 * c + i * 3 + j).
Proof.
  intros L V. pose proof (zget_Some_range _ _ _ V) as Hc. unfold permeability. apply rget_Ok in V. rewrite V. cbn [bind negb]. destruct (rget_range (rp_perm r) (9 * c) ltac:(lia)) as (x & -> & _). cbn [bind]. eexists. split; [reflexivity|].
  assert (Z0 : forall k, 0 <= k < 9 -> zget (zslice (rp_perm r) (9 * c) (9 * c + 9)) k = zget (rp_perm r) (9 * c + k)) by (intros k Hk; apply zget_zslice; lia).
  split.
  - unfold shaped, holds, entry. cbn [m_ord m_rows m_cols m_data]. repeat match goal with |- _ /\ _ => split end; try reflexivity; try lia; try (rewrite zlen_zslice by lia; lia).
  - intros i j Hi Hj. unfold entry. cbn [m_ord m_cols m_data]. unfold nthR. rewrite Z0 by lia. replace (9 * c + (i * 3 + j)) with (9 * c + i * 3 + j) by lia. reflexivity.
Qed.
Lemma init_run d gc th : cells_in d gc ->
  (complete d /\ all_sized d /\ exists r, init_deck d gc th = Ok r /\
     field_ok (dk_poro d) 1 gc (rp_poro r) /\ field_ok (dk_ntg d) 1 gc (rp_ntg r) /\ field_ok (dk_swcr d) 0 gc (rp_swcr r) /\ field_ok (dk_sowcr d) 0 gc (rp_sowcr r) /\
     match regions d with Some l => taken_from gc (map (fun x => x - 1) l) (rp_rock r) | None => rp_rock r = zrepeat 0 (zlen gc) end /\
     rp_kind r = classify d /\ zlen (rp_perm r) = 9 * zlen gc /\ zlen (rp_valid r) = zlen gc /\
     (any_given d -> forall c g, zget gc c = Some g -> zget (rp_valid r) c = Some true /\ forall i j, 0 <= i < 3 -> 0 <= j < 3 -> nthR (rp_perm r) (9 * c + i * 3 + j) = cell_perm d th g i j) /\
     (~ any_given d -> rp_perm r = zrepeat 0%R (9 * zlen gc) /\ rp_valid r = zrepeat false (zlen gc))) \/
  (~ (complete d /\ all_sized d) /\ init_deck d gc th = Throw).
Proof.
  intros HC. unfold init_deck, all_sized.
  destruct (field_run d (dk_poro d) 1 gc HC) as [(S1 & v1 & E1 & F1)|(S1 & E1)]; rewrite E1; cbn [bind]; [|right; tauto].
  destruct (field_run d (dk_ntg d) 1 gc HC) as [(S2 & v2 & E2 & F2)|(S2 & E2)]; rewrite E2; cbn [bind]; [|right; tauto].
  destruct (field_run d (dk_swcr d) 0 gc HC) as [(S3 & v3 & E3 & F3)|(S3 & E3)]; rewrite E3; cbn [bind]; [|right; tauto].
  destruct (field_run d (dk_sowcr d) 0 gc HC) as [(S4 & v4 & E4 & F4)|(S4 & E4)]; rewrite E4; cbn [bind]; [|right; tauto].
  destruct (perm_run d gc th HC) as [(C & S5 & p & v & E5 & Lp & Lv & V1 & V2)|(S5 & E5)]; rewrite E5; cbn [bind]; [|right; tauto].
  destruct (rock_run d gc HC) as [(S6 & v6 & E6 & F6)|(S6 & E6)]; rewrite E6; cbn [bind]; [|right; tauto].
  left. split; [exact C|]. split; [tauto|]. eexists. split; [reflexivity|]. cbn. tauto.
Qed.
(* C73 *)
Lemma tensor_ok d gc th r : cells_in d gc -> init_deck d gc th = Ok r -> any_given d -> forall c g, zget gc c = Some g ->
  exists K, permeability r c = Ok K /\ shaped K COrd 3 3 /\ (forall i j, 0 <= i < 3 -> 0 <= j < 3 -> entry K i j = cell_perm d th g i j) /\ symmetric 3 (entry K) /\ (forall i, 0 <= i < 3 -> (th <= entry K i i)%R).
Proof.
  intros HC E A c g G. destruct (init_run d gc th HC) as [(C & S & r' & E' & H)|(_ & E')]; [|congruence]. assert (r' = r) by congruence. subst r'. destruct H as (_ & _ & _ & _ & _ & _ & Lp & Lv & V & _). destruct (V A c g G) as (Vc & Kc).
  destruct (perm_view r c ltac:(lia) Vc) as (K & EK & SK & VK). exists K. split; [exact EK|]. split; [exact SK|].
  assert (X : forall i j, 0 <= i < 3 -> 0 <= j < 3 -> entry K i j = cell_perm d th g i j) by (intros i j Hi Hj; rewrite VK by assumption; apply Kc; assumption).
  split; [exact X|]. split.
  - intros i j Hi Hj. rewrite !X by assumption. unfold cell_perm. rewrite (Z.eqb_sym j i). destruct (Z.eqb_spec i j) as [->|N]; [reflexivity|]. unfold input_perm, suppliers. rewrite (Z.eqb_sym j i), (Z.add_comm j i). apply Z.eqb_neq in N. rewrite N. reflexivity.
  - intros i Hi. rewrite X by assumption. unfold cell_perm. rewrite Z.eqb_refl. apply Rmax_r.
Qed.
Lemma Sum3 f : Sum 3 f = (f 0%Z + (f 1%Z + f 2%Z))%R.
Proof. unfold Sum. change (zrange 0 3) with [0; 1; 2]. cbn [map]. rewrite !Rsum_cons, Rsum_nil. ring. Qed.
Lemma tensor_pd d gc th r : cells_in d gc -> init_deck d gc th = Ok r -> any_given d -> (forall k, given d k -> ~ crossing k) -> (0 < th)%R -> forall c g, zget gc c = Some g ->
  exists K, permeability r c = Ok K /\ positive_form 3 (entry K).
Proof.
  intros HC E A NX Hth c g G. destruct (tensor_ok d gc th r HC E A c g G) as (K & EK & SK & VK & _ & DK). exists K. split; [exact EK|].
  assert (O : forall i j, 0 <= i < 3 -> 0 <= j < 3 -> i <> j -> entry K i j = 0%R).
  { intros i j Hi Hj N. rewrite VK by assumption. unfold cell_perm. destruct (Z.eqb_spec i j); [congruence|]. unfold input_perm.
    assert (Y : forall k, crossing k -> dk_perm d k = None) by (intros k X; destruct (dk_perm d k) eqn:Q; [exfalso; apply (NX k); [unfold given; congruence|exact X]|reflexivity]).
    assert (Z0 : first_given d (suppliers i j) = None); [|rewrite Z0; reflexivity]. unfold suppliers. destruct (Z.eqb_spec i j); [congruence|]. destruct (i + j =? 1); [|destruct (i + j =? 2)]; cbn; rewrite !Y by (unfold crossing; cbn; lia); reflexivity. }
  intros x (i & Hi & N). unfold quad, dot, mvec. rewrite !Sum3. rewrite (O 0 1), (O 0 2), (O 1 0), (O 1 2), (O 2 0), (O 2 1) by lia.
  pose proof (DK 0 ltac:(lia)) as D0. pose proof (DK 1 ltac:(lia)) as D1. pose proof (DK 2 ltac:(lia)) as D2.
  pose proof (Rle_0_sqr (x 0)) as P0; pose proof (Rle_0_sqr (x 1)) as P1; pose proof (Rle_0_sqr (x 2)) as P2; pose proof (Rsqr_pos_lt (x i) N) as P3; unfold Rsqr in *.
  assert (Q0 : (0 <= entry K 0 0 * (x 0%Z * x 0%Z))%R) by (apply Rmult_le_pos; lra). assert (Q1 : (0 <= entry K 1 1 * (x 1%Z * x 1%Z))%R) by (apply Rmult_le_pos; lra). assert (Q2 : (0 <= entry K 2 2 * (x 2%Z * x 2%Z))%R) by (apply Rmult_le_pos; lra).
  assert (Q3 : (0 < entry K i i * (x i * x i))%R) by (apply Rmult_lt_0_compat; [pose proof (DK i Hi); lra|exact P3]).
  destruct (three i Hi) as [->|[->| ->]]; nra.
Qed.
Lemma tensor_absent d gc th r : cells_in d gc -> init_deck d gc th = Ok r -> ~ any_given d -> forall c, 0 <= c < zlen gc -> permeability r c = UB.
Proof.
  intros HC E A c Hc. destruct (init_run d gc th HC) as [(C & S & r' & E' & H)|(_ & E')]; [|congruence]. assert (r' = r) by congruence. subst r'. destruct H as (_ & _ & _ & _ & _ & _ & _ & _ & _ & V). destruct (V A) as (_ & V2).
  unfold permeability. rewrite V2. unfold rget. rewrite zget_zrepeat by lia. reflexivity.
Qed.
(* C74 *)
Lemma accepts d gc th : cells_in d gc -> ((exists r, init_deck d gc th = Ok r) <-> complete d /\ all_sized d) /\ (~ (complete d /\ all_sized d) -> init_deck d gc th = Throw).
Proof.
  intros HC. destruct (init_run d gc th HC) as [(C & S & r & E & _)|(N & E)].
  - split; [split; [auto|exists r; exact E]|tauto].
  - split; [split; [intros (r & Q); congruence|tauto]|auto].
Qed.
Lemma kind_ok d gc th r : cells_in d gc -> init_deck d gc th = Ok r ->
  ((exists k, given d k /\ crossing k) -> rp_kind r = TensorPerm) /\ ((forall k, ~ given d k) -> rp_kind r = NonePerm) /\
  ((exists i, given d (diag i) /\ forall k, given d k -> k = diag i) -> rp_kind r = ScalarPerm) /\
  ((forall k, given d k -> ~ crossing k) -> (exists k k', k <> k' /\ given d k /\ given d k') -> rp_kind r = DiagonalPerm).
Proof.
  intros HC E. destruct (init_run d gc th HC) as [(C & S & r' & E' & H)|(_ & E')]; [|congruence]. assert (r' = r) by congruence. subst r'. destruct H as (_ & _ & _ & _ & _ & -> & _). apply kinds. exact C.
Qed.
(* C75 *)
Lemma fields_ok d gc th r : cells_in d gc -> init_deck d gc th = Ok r ->
  field_ok (dk_poro d) 1 gc (rp_poro r) /\ field_ok (dk_ntg d) 1 gc (rp_ntg r) /\ field_ok (dk_swcr d) 0 gc (rp_swcr r) /\ field_ok (dk_sowcr d) 0 gc (rp_sowcr r) /\
  match regions d with Some l => taken_from gc (map (fun x => x - 1) l) (rp_rock r) | None => rp_rock r = zrepeat 0 (zlen gc) end.
Proof. intros HC E. destruct (init_run d gc th HC) as [(C & S & r' & E' & H)|(_ & E')]; [|congruence]. assert (r' = r) by congruence. subst r'. tauto. Qed.

(* uniform reservoirs *)
Lemma uniform_ok n poro perm kind : 0 <= n -> exists r, init_uniform n poro perm kind = Ok r /\ rp_poro r = zrepeat poro n /\ rp_rock r = zrepeat 0 n /\
  forall c, 0 <= c < n -> exists K, permeability r c = Ok K /\ shaped K COrd 3 3 /\ forall i j, 0 <= i < 3 -> 0 <= j < 3 -> entry K i j = (perm * ident i j)%R.
Proof.
  intros Hn. unfold init_uniform.
  destruct (zloop (uniform_cell perm) (fun m pv => zlen (fst pv) = 9 * n /\ zlen (snd pv) = n /\ (forall c, 0 <= c < n -> zget (snd pv) c = Some true) /\
     forall c i j, 0 <= c < n -> 0 <= i < 3 -> 0 <= j < 3 -> nthR (fst pv) (9 * c + i * 3 + j) = if c <? m then (perm * ident i j)%R else 0%R) 0 n (zrepeat 0%R (9 * n), zrepeat true n) Hn) as ((p & v) & E & L1 & L2 & V1 & V2).
  - cbn [fst snd]. split; [apply zlen_zrepeat; lia|]. split; [apply zlen_zrepeat; lia|]. split; [intros c Hc; apply zget_zrepeat; lia|]. intros c i j Hc Hi Hj. destruct (Z.ltb_spec c 0); [lia|]. unfold nthR. rewrite zget_zrepeat by lia. reflexivity.
  - intros c pv Hc (L1 & L2 & V1 & V2). unfold uniform_cell. destruct (rset_at (snd pv) c true ltac:(lia)) as (v & -> & Lv & Vv). cbn [bind].
    destruct (zloop (fun p dd => rset p (9 * c + dd * 3 + dd) perm) (fun m q => zlen q = 9 * n /\ forall e, nthR q e = if existsb (fun dd => e =? 9 * c + dd * 4) (zrange 0 m) then perm else nthR (fst pv) e) 0 3 (fst pv) ltac:(lia)) as (q & E & Lq & Vq).
    + split; [exact L1|]. reflexivity.
    + intros dd q Hd (Lq & Vq). destruct (rset_exists q (9 * c + dd * 3 + dd) perm ltac:(lia)) as (q' & Eq & _). exists q'. split; [exact Eq|]. destruct (rset_nthR _ _ _ _ Eq) as (L' & _ & V' & _). split; [lia|]. intros e. rewrite V', Vq. rewrite (zrange_app 0 dd (dd + 1)) by lia. rewrite existsb_app, (zrange_cons dd (dd + 1)), (zrange_empty (dd + 1)) by lia. cbn [existsb]. replace (9 * c + dd * 3 + dd) with (9 * c + dd * 4) by lia. rewrite orb_false_r. destruct (e =? 9 * c + dd * 4), (existsb _ _); reflexivity.
    + rewrite E. cbn [bind]. eexists. split; [reflexivity|]. cbn [fst snd]. split; [exact Lq|]. split; [lia|]. split; [intros e He; rewrite Vv; destruct (e =? c); [reflexivity|apply V1; exact He]|].
      intros e i j He Hi Hj. rewrite Vq. change (zrange 0 3) with [0; 1; 2]. cbn [existsb]. rewrite V2 by assumption.
      destruct (Z.ltb_spec e (c + 1)), (Z.ltb_spec e c); try lia.
      * replace (_ || _) with false by (symmetry; rewrite !orb_false_iff, !Z.eqb_neq; lia). reflexivity.
      * assert (e = c) by lia. subst e. unfold ident. destruct (Z.eqb_spec i j) as [->|N].
        -- replace (_ || _) with true by (symmetry; rewrite !orb_true_iff, !Z.eqb_eq; lia). ring.
        -- replace (_ || _) with false by (symmetry; rewrite !orb_false_iff, !Z.eqb_neq; lia). ring.
      * replace (_ || _) with false by (symmetry; rewrite !orb_false_iff, !Z.eqb_neq; lia). reflexivity.
  - rewrite E. cbn [bind fst snd] in *. eexists. split; [reflexivity|]. cbn [rp_poro rp_rock]. split; [reflexivity|]. split; [reflexivity|]. intros c Hc.
    destruct (perm_view (mkRprop (zrepeat poro n) [] [] [] kind p v (zrepeat 0 n)) c) as (K & EK & SK & VK); cbn [rp_perm rp_valid]; [lia|apply V1; exact Hc|]. exists K. split; [exact EK|]. split; [exact SK|]. intros i j Hi Hj. rewrite VK by assumption. cbn [rp_perm]. rewrite V2 by assumption. destruct (Z.ltb_spec c n); [reflexivity|lia].
Qed.
Lemma no_cross d : classify d = DiagonalPerm \/ classify d = ScalarPerm -> forall k, given d k -> ~ crossing k.
Proof.
  intros H k G X. destruct (complete_dec d) as [C|C]; [|apply classify_invalid in C; destruct H; congruence]. destruct (kinds d C) as (T & _). rewrite T in H by (exists k; auto). destruct H; discriminate.
Qed.
Lemma cross_zero d th g i j : (forall k, given d k -> ~ crossing k) -> 0 <= i < 3 -> 0 <= j < 3 -> i <> j -> cell_perm d th g i j = 0%R.
Proof.
  intros NX Hi Hj N. unfold cell_perm. destruct (Z.eqb_spec i j); [congruence|]. unfold input_perm.
  assert (Y : forall k, crossing k -> dk_perm d k = None) by (intros k X; destruct (dk_perm d k) eqn:Q; [exfalso; apply (NX k); [unfold given; congruence|exact X]|reflexivity]).
  assert (Z0 : first_given d (suppliers i j) = None); [|rewrite Z0; reflexivity]. unfold suppliers. destruct (Z.eqb_spec i j); [congruence|]. destruct (i + j =? 1); [|destruct (i + j =? 2)]; cbn; rewrite !Y by (unfold crossing; cbn; lia); reflexivity.
Qed.
Lemma scalar_one d : classify d = ScalarPerm -> exists l, forall i, 0 <= i < 3 -> first_given d (suppliers i i) = Some l.
Proof.
  intros H. destruct (complete_dec d) as [C|C]; [|apply classify_invalid in C; congruence]. destruct (kinds d C) as (_ & Nn & _ & Dg). pose proof (no_cross d (or_intror H)) as NX.
  assert (U : forall k k', given d k -> given d k' -> k = k').
  { intros k k' G G'. assert (Dc : k = k' \/ k <> k') by (destruct k, k'; (left; reflexivity) || (right; discriminate)). destruct Dc as [|Dc]; [assumption|]. rewrite Dg in H; [discriminate|exact NX|]. exists k, k'. auto. }
  assert (E : exists i, given d (diag i) /\ (i = 0 \/ i = 1 \/ i = 2)).
  { destruct (dk_perm d KX) eqn:EX; [exists 0; split; [unfold given; cbn; congruence|auto]|]. destruct (dk_perm d KY) eqn:EY; [exists 1; split; [unfold given; cbn; congruence|auto]|]. destruct (dk_perm d KZ) eqn:EZ; [exists 2; split; [unfold given; cbn; congruence|auto]|].
    exfalso. rewrite Nn in H; [discriminate|]. intros k G. pose proof (NX k G) as X. unfold crossing in X. unfold given in G. destruct k; cbn in X; try congruence; apply X; lia. }
  destruct E as (i & G & Hi). unfold given in G. destruct (dk_perm d (diag i)) as [l|] eqn:El; [|congruence]. exists l.
  assert (O : forall k, k <> diag i -> dk_perm d k = None) by (intros k Hk; destruct (dk_perm d k) eqn:Q; [exfalso; apply Hk; apply U; unfold given; congruence|reflexivity]).
  intros j Hj. unfold suppliers. rewrite Z.eqb_refl. destruct Hi as [->|[->| ->]]; cbn in El, O; destruct (three j Hj) as [->|[->| ->]]; cbn; rewrite ?El, ?(O KX), ?(O KY), ?(O KZ) by discriminate; rewrite ?El; reflexivity.
Qed.
Lemma mapM_get {A B} (f : A -> res B) l bs i a : mapM f l = Ok bs -> zget l i = Some a -> exists b, f a = Ok b /\ zget bs i = Some b.
Proof. intros E G. apply mapM_Ok in E. destruct (Forall2_zget _ _ _ E i a G) as (b & Hb & Eb). exists b. auto. Qed.
Lemma legacy_ok d gc th r : cells_in d gc -> init_deck d gc th = Ok r ->
  exists lines, write_legacy r = Ok (rp_poro r, lines) /\ (any_given d -> forall c g, zget gc c = Some g -> legacy_lines (rp_kind r) lines c (cell_perm d th g)).
Proof.
  intros HC E. destruct (init_run d gc th HC) as [(C & S & r' & E' & H)|(_ & E')]; [|congruence]. assert (r' = r) by congruence. subst r'. destruct H as (F1 & _ & _ & _ & _ & EK & Lp & Lv & V & _).
  assert (Lr : zlen (rp_poro r) = zlen gc) by (unfold field_ok in F1; destruct (dk_poro d); [apply F1|rewrite F1; apply zlen_zrepeat; apply zlen_nonneg]). pose proof (zlen_nonneg gc) as H0.
  assert (NI : classify d <> InvalidPerm) by (rewrite classify_invalid; auto).
  assert (AN : any_given d -> classify d <> NonePerm).
  { intros (k & G) Q. rewrite given_has in G. revert G Q. clear. unfold classify. intros G. destruct k; rewrite G;
    repeat match goal with |- context [has (dk_perm d ?k)] => generalize (has (dk_perm d k)); intros ? end; repeat match goal with b : bool |- _ => destruct b end; cbn; discriminate. }
  unfold write_legacy. rewrite EK, Lr. unfold legacy_lines. destruct (classify d) eqn:K; [| | | |congruence].
  - destruct (mapM_exists (fun c => let* x := rget (rp_perm r) (c * 9) in Ok [x]) (zrange 0 (zlen gc))) as (ls & El).
    { intros c Hc. apply In_zrange in Hc. destruct (rget_range (rp_perm r) (c * 9) ltac:(lia)) as (x & -> & _). eexists. reflexivity. }
    rewrite El. cbn [bind]. exists ls. split; [reflexivity|]. intros A c g G. pose proof (zget_Some_range _ _ _ G) as Hc. destruct (V A c g G) as (_ & Vc).
    assert (K0 : cell_perm d th g 0 0 = nthR (rp_perm r) (c * 9)) by (rewrite <- (Vc 0 0) by lia; f_equal; lia).
    split.
    + destruct (mapM_get _ _ _ c c El) as (b & Eb & Gb); [rewrite zget_zrange by lia; f_equal; lia|]. rewrite Gb. assert (Q : zget (rp_perm r) (c * 9) = Some (nthR (rp_perm r) (c * 9))) by (apply zget_nthR; lia). apply rget_Ok in Q. rewrite Q in Eb. cbn [bind] in Eb. injection Eb as <-. rewrite K0. reflexivity.
    + intros i j Hi Hj. unfold ident. destruct (Z.eqb_spec i j) as [<-|N].
      * destruct (scalar_one d K) as (l & Sl). unfold cell_perm. rewrite !Z.eqb_refl. unfold input_perm. rewrite !Sl by lia. ring.
      * rewrite cross_zero; [ring|apply no_cross; auto|assumption..].
  - destruct (mapM_exists (fun c => mapM (fun dd => rget (rp_perm r) (c * 9 + 4 * dd)) (zrange 0 3)) (zrange 0 (zlen gc))) as (ls & El).
    { intros c Hc. apply In_zrange in Hc. apply mapM_exists. intros dd Hd. apply In_zrange in Hd. destruct (rget_range (rp_perm r) (c * 9 + 4 * dd) ltac:(lia)) as (x & -> & _). eexists. reflexivity. }
    rewrite El. cbn [bind]. exists ls. split; [reflexivity|]. intros A c g G. pose proof (zget_Some_range _ _ _ G) as Hc. destruct (V A c g G) as (_ & Vc). split; [|intros i j Hi Hj N; apply cross_zero; [apply no_cross; auto|assumption..]].
    destruct (mapM_get _ _ _ c c El) as (b & Eb & Gb); [rewrite zget_zrange by lia; f_equal; lia|]. rewrite Gb. change (zrange 0 3) with [0; 1; 2] in Eb. cbn [mapM] in Eb.
    assert (Q : forall dd, 0 <= dd < 3 -> rget (rp_perm r) (c * 9 + 4 * dd) = Ok (cell_perm d th g dd dd)).
    { intros dd Hd. apply rget_Ok. rewrite zget_nthR by lia. rewrite <- (Vc dd dd) by lia. do 2 f_equal. lia. }
    rewrite !Q in Eb by lia. cbn [bind] in Eb. injection Eb as <-. reflexivity.
  - cbn [bind]. eexists. split; [reflexivity|]. intros A c g G i j Hi Hj. pose proof (zget_Some_range _ _ _ G) as Hc. destruct (V A c g G) as (_ & Vc). rewrite zget_map, zget_nthR by lia. cbn [option_map]. rewrite Vc by assumption. reflexivity.
  - destruct (mapM_exists (fun c => let* x := rget (rp_perm r) (c * 9) in Ok [x]) (zrange 0 (zlen gc))) as (ls & El).
    { intros c Hc. apply In_zrange in Hc. destruct (rget_range (rp_perm r) (c * 9) ltac:(lia)) as (x & -> & _). eexists. reflexivity. }
    rewrite El. cbn [bind]. exists ls. split; [reflexivity|]. intros A. exfalso. apply (AN A). reflexivity.
Qed.
Lemma legacy_uniform n poro perm r : init_uniform n poro perm InvalidPerm = Ok r -> write_legacy r = Throw.
Proof. unfold init_uniform. destruct (foldM _ _ _) as [pv| |]; cbn [bind]; try discriminate. intros [= <-]. reflexivity. Qed.

(* ---- a deck with PERMX, PERMZ and an off-diagonal field: two of three cells are active *)
Definition ex_deck : deck := mkDeck 3 (fun k => match k with KX => Some [1; 2; 3]%R | KZ => Some [4; 5; 6]%R | KXZ => Some [7; 8; 9]%R | _ => None end)
  (Some [0.1; 0.2; 0.3]%R) None (Some [0; 0.5; 0]%R) None None (Some [1; 2; 2]).
Lemma ex_deck_ok : cells_in ex_deck [2; 0] /\ complete ex_deck /\ all_sized ex_deck /\ any_given ex_deck.
Proof.
  split; [|split; [|split]].
  - intros c g H. pose proof (zget_In _ _ _ H) as I. cbn in *. lia.
  - intros k G X. unfold given in G. destruct k; cbn in G; try congruence; unfold given; cbn; split; discriminate.
  - unfold all_sized, sized, sized_o. split; [intros k l E; destruct k; cbn in E; try discriminate; injection E as <-; reflexivity|]. repeat split; intros l E; cbn in E; try discriminate; injection E as <-; reflexivity.
  - exists KX. discriminate.
Qed.
Lemma ex_deck_incomplete : ~ complete (mkDeck 3 (fun k => match k with KXY => Some [1; 2; 3]%R | KX => Some [1; 1; 1]%R | _ => None end) None None None None None None).
Proof. intros H. destruct (H KXY) as (_ & X); [discriminate|unfold crossing; cbn; lia|]. apply X. reflexivity. Qed.
