From Verif Require Import BaseFacts RBaseFacts Mpi_Model Mpi_Spec Relp_Spec Relp_Proofs.
Open Scope Z_scope.

Lemma ctrunc_IZR z : 0 <= z -> ctrunc (IZR z) = z.
Proof.
  intros H. unfold ctrunc. destruct (Rltb_spec (IZR z) 0) as [Hl|Hl].
  - apply lt_IZR in Hl. lia.
  - unfold Int_part. rewrite <- (tech_up (IZR z) (z + 1)); [lia| |]; rewrite plus_IZR; lra.
Qed.

Lemma row_read {A} (l : list A) n : zlen l = n -> mapM (rget l) (zrange 0 n) = Ok l.
Proof.
  intros H. pose proof (zlen_nonneg l).
  destruct (mapM_exists (rget l) (zrange 0 n)) as [bs E].
  { intros i Hi. apply In_zrange in Hi. destruct (rget_range l i ltac:(lia)) as [x [Hx _]]. eauto. }
  rewrite E. f_equal. apply mapM_Ok in E. apply zlist_ext.
  - unfold zlen. apply Forall2_length' in E. rewrite zrange_length in E. unfold zlen in H. lia.
  - intros i. destruct (Z_lt_ge_dec i 0); [rewrite !zget_None_neg by lia; reflexivity|].
    destruct (Z_lt_ge_dec i n).
    + destruct (Forall2_zget _ _ _ E i i) as [b [Eb Hb]]; [rewrite zget_zrange by lia; f_equal; lia|].
      apply rget_Ok in Hb. congruence.
    + assert (zlen bs = n) as Lb by (unfold zlen; apply Forall2_length' in E; rewrite zrange_length in E; lia).
      rewrite (proj2 (zget_None_iff l i)) by lia; rewrite (proj2 (zget_None_iff bs i)) by lia. reflexivity.
Qed.
Lemma row_read_off {A} (l : list A) buf off n : zlen l = n -> 0 <= off ->
  (forall v, 0 <= v < n -> zget buf (off + v) = zget l v) -> mapM (fun v => rget buf (off + v)) (zrange 0 n) = Ok l.
Proof.
  intros H Ho Hb. rewrite <- (row_read l n H).
  assert (forall L, (forall v, In v L -> 0 <= v < n) -> mapM (fun v => rget buf (off + v)) L = mapM (rget l) L) as G.
  { induction L as [|v L IH]; intros HL; [reflexivity|]. cbn [mapM]. unfold rget at 1 3. rewrite Hb by (apply HL; left; reflexivity).
    rewrite IH by (intros; apply HL; right; assumption). reflexivity. }
  apply G. intros v Hv. apply In_zrange in Hv. exact Hv.
Qed.

Section S.
Variables (both : bool) (tec points n : Z) (a : Z -> arrays).
Hypothesis Hn : 0 < n.
Hypothesis Hp : 0 <= points.
Hypothesis Ha : forall r, 0 <= r < n -> arrays_ok both tec points (a r).
Let node := mpi_node n.

Definition msg (i : Z) (m : list R) : Prop := pack both tec (a (node i)) i = Ok m.

Lemma node_range i : 0 <= i < points -> 0 <= node i < n.
Proof. apply distribution_prop; lia. Qed.

(* the rows a rank holds for a point *)
Definition holds (x : arrays) (i : Z) (y : arrays) : Prop :=
  zget (ar_ws x) i = zget (ar_ws y) i /\ zget (ar_p0 x) i = zget (ar_p0 y) i /\ (both = true -> zget (ar_p1 x) i = zget (ar_p1 y) i).

Lemma pack_ok i r : 0 <= i < points -> 0 <= r < n -> exists m, pack both tec (a r) i = Ok m.
Proof.
  intros Hi Hr. destruct (Ha r Hr) as [L0 [L1 [R1 L2]]]. unfold pack.
  destruct (rget_range (ar_ws (a r)) i ltac:(lia)) as [s [Es _]]. rewrite Es. cbn [bind].
  destruct (rget_range (ar_p0 (a r)) i ltac:(lia)) as [r0 [E0 Z0]]. rewrite E0. cbn [bind].
  rewrite (row_read r0 tec) by (apply R1, (zget_In _ _ _ Z0)). cbn [bind]. destruct both; [|eauto].
  destruct (L2 eq_refl) as [L3 R3]. destruct (rget_range (ar_p1 (a r)) i ltac:(lia)) as [r1 [E1 Z1]]. rewrite E1. cbn [bind].
  rewrite (row_read r1 tec) by (apply R3, (zget_In _ _ _ Z1)). cbn [bind]. eauto.
Qed.

Lemma unpack_pack x i r m : 0 <= i < points -> 0 <= r < n -> arrays_ok both tec points x -> pack both tec (a r) i = Ok m ->
  exists x', unpack both tec x m = Ok x' /\ arrays_ok both tec points x' /\ holds x' i (a r) /\
    forall j, j <> i -> holds x' j x.
Proof.
  intros Hi Hr [X0 [X1 [XR X2]]] E. destruct (Ha r Hr) as [L0 [L1 [R1 L2]]]. unfold pack in E.
  destruct (rget_range (ar_ws (a r)) i ltac:(lia)) as [s [Es Zs]]. rewrite Es in E. cbn [bind] in E.
  destruct (rget_range (ar_p0 (a r)) i ltac:(lia)) as [r0 [E0 Z0]]. rewrite E0 in E. cbn [bind] in E.
  pose proof (R1 _ (zget_In _ _ _ Z0)) as Lr0. rewrite (row_read r0 tec Lr0) in E. cbn [bind] in E.
  unfold unpack.
  destruct (rset_exists (ar_ws x) i s ltac:(lia)) as [ws [Ew [Lw [Gw Ow]]]].
  destruct (rset_exists (ar_p0 x) i r0 ltac:(lia)) as [p0 [Ep [Lp [Gp Op]]]].
  assert (forall q, In q p0 -> zlen q = tec) as Hrow.
  { intros q Hq. apply In_zget in Hq. destruct Hq as [k [_ Hk]]. destruct (Z.eq_dec k i) as [->|Hne]; [congruence|].
    rewrite Op in Hk by assumption. apply XR, (zget_In _ _ _ Hk). }
  pose proof (zlen_nonneg r0).
  destruct both eqn:Bo.
  - destruct (L2 eq_refl) as [L3 R3]. destruct (rget_range (ar_p1 (a r)) i ltac:(lia)) as [r1 [E1 Z1]]. rewrite E1 in E. cbn [bind] in E.
    pose proof (R3 _ (zget_In _ _ _ Z1)) as Lr1. rewrite (row_read r1 tec Lr1) in E. cbn [bind] in E.
    assert (m = IZR i :: s :: r0 ++ r1) as -> by congruence.
    change (rget (IZR i :: s :: r0 ++ r1) 0) with (@Ok R (IZR i)). cbn [bind].
    rewrite ctrunc_IZR by lia. change (rget (IZR i :: s :: r0 ++ r1) 1) with (@Ok R s). cbn [bind]. rewrite Ew. cbn [bind].
    assert (forall v, 0 <= v -> zget (IZR i :: s :: r0 ++ r1) (2 + v) = zget (r0 ++ r1) v) as Sh.
    { intros v Hv. rewrite !zget_nth by lia. replace (Z.to_nat (2 + v)) with (S (S (Z.to_nat v))) by lia. reflexivity. }
    rewrite (row_read_off r0 _ 2 tec Lr0); [|lia|].
    2: { intros v Hv. rewrite Sh by lia. apply zget_app_l. lia. }
    cbn [bind]. rewrite Ep. cbn [bind].
    rewrite (row_read_off r1 _ (2 + tec) tec Lr1); [|lia|].
    2: { intros v Hv. replace (2 + tec + v) with (2 + (tec + v)) by lia. rewrite Sh by lia. rewrite zget_app_r by lia. f_equal. lia. }
    cbn [bind]. destruct (X2 eq_refl) as [X3 XR1].
    destruct (rset_exists (ar_p1 x) i r1 ltac:(lia)) as [p1 [Ep1 [Lp1 [Gp1 Op1]]]]. rewrite Ep1. cbn [bind].
    eexists. split; [reflexivity|]. split; [|split].
    + split; [cbn; lia|]. split; [cbn; lia|]. split; [exact Hrow|]. intros _. split; [cbn; lia|].
      cbn. intros q Hq. apply In_zget in Hq. destruct Hq as [k [_ Hk]]. destruct (Z.eq_dec k i) as [->|Hne]; [congruence|].
      rewrite Op1 in Hk by assumption. apply XR1, (zget_In _ _ _ Hk).
    + unfold holds. cbn. split; [congruence|]. split; [congruence|]. intros _. congruence.
    + intros j Hj. unfold holds. cbn. split; [auto|]. split; auto.
  - assert (m = IZR i :: s :: r0) as -> by congruence.
    change (rget (IZR i :: s :: r0) 0) with (@Ok R (IZR i)). cbn [bind].
    rewrite ctrunc_IZR by lia. change (rget (IZR i :: s :: r0) 1) with (@Ok R s). cbn [bind]. rewrite Ew. cbn [bind].
    rewrite (row_read_off r0 _ 2 tec Lr0); [|lia|].
    2: { intros v Hv. rewrite !zget_nth by lia. replace (Z.to_nat (2 + v)) with (S (S (Z.to_nat v))) by lia. reflexivity. }
    cbn [bind]. rewrite Ep. cbn [bind].
    eexists. split; [reflexivity|]. split; [|split].
    + split; [cbn; lia|]. split; [cbn; lia|]. split; [exact Hrow|]. intros Hc; congruence.
    + unfold holds. cbn. split; [congruence|]. split; [congruence|]. intros Hc; congruence.
    + intros j Hj. unfold holds. cbn. split; [auto|]. split; [auto|]. intros Hc; congruence.
Qed.

(* invariant: [rem] are the points still missing at the master *)
Definition inv (st : mpi) : Prop := exists rem,
  NoDup rem /\ (forall i, In i rem -> 0 <= i < points /\ node i <> 0) /\
  mp_recv st = map node rem /\
  (forall r, r = 0 \/ r < 0 \/ n <= r -> mp_chan st r = [] /\ mp_send st r = []) /\
  (forall r, 0 < r < n -> exists ci, filter (fun i => node i =? r) rem = ci ++ mp_send st r /\ Forall2 msg ci (mp_chan st r)) /\
  arrays_ok both tec points (mp_master st) /\
  (forall i, 0 <= i < points -> ~ In i rem -> holds (mp_master st) i (a (node i))).

Lemma inv_init : inv (mpi_init n points a).
Proof.
  exists (filter (fun i => negb (node i =? 0)) (zrange 0 points)). unfold mpi_init. cbn [mp_recv mp_chan mp_send mp_master].
  split; [apply NoDup_filter, zrange_NoDup|].
  split. { intros i Hi. apply filter_In in Hi. destruct Hi as [Hi Hq]. apply In_zrange in Hi. lia. }
  split; [reflexivity|]. split.
  { intros r Hr. split; [reflexivity|]. destruct (r =? 0) eqn:Q; [reflexivity|].
    assert (forall L, (forall i, In i L -> 0 <= i < points) -> filter (fun i => mpi_node n i =? r) L = []) as G.
    { induction L as [|i L IH]; intros HL; [reflexivity|]. cbn [filter]. pose proof (node_range i (HL i (or_introl eq_refl))). unfold node in H.
      destruct (mpi_node n i =? r) eqn:Q2; [lia|]. apply IH. intros; apply HL; right; assumption. }
    apply G. intros i Hi. apply In_zrange in Hi. exact Hi. }
  split.
  { intros r Hr. exists []. cbn [app]. split; [|constructor]. destruct (r =? 0) eqn:Q; [lia|]. unfold node.
    induction (zrange 0 points) as [|i L IH]; [reflexivity|]. cbn [filter].
    destruct (mpi_node n i =? 0) eqn:Q0; cbn [negb].
    - rewrite IH. destruct (mpi_node n i =? r) eqn:Q1; [lia|reflexivity].
    - cbn [filter]. rewrite IH. reflexivity. }
  split; [apply Ha; lia|]. intros i Hi Hni.
  assert (node i = 0) as ->.
  { destruct (Z.eq_dec (node i) 0); [assumption|]. exfalso. apply Hni. apply filter_In. split; [apply In_zrange; lia|]. lia. }
  unfold holds. auto.
Qed.

Lemma deliver st i rem m x' : 0 <= i < points -> node i <> 0 -> arrays_ok both tec points (mp_master st) -> msg i m ->
  unpack both tec (mp_master st) m = Ok x' ->
  (forall j, 0 <= j < points -> ~ In j (i :: rem) -> holds (mp_master st) j (a (node j))) ->
  arrays_ok both tec points x' /\ (forall j, 0 <= j < points -> ~ In j rem -> holds x' j (a (node j))).
Proof.
  intros Hi Hni Hok Hm E Hh.
  destruct (unpack_pack (mp_master st) i (node i) m Hi (node_range i Hi) Hok Hm) as [x2 [E2 [O2 [H2 K2]]]].
  rewrite E in E2. inversion E2. subst x2. split; [exact O2|]. intros j Hj Hnj.
  destruct (Z.eq_dec j i) as [->|Hne]; [exact H2|]. specialize (K2 j Hne).
  specialize (Hh j Hj). assert (~ In j (i :: rem)) as Hn' by (intros [?|?]; [congruence|contradiction]).
  specialize (Hh Hn'). unfold holds in *. destruct K2 as [A [B C]], Hh as [A' [B' C']].
  split; [congruence|]. split; [congruence|]. intros Hb. rewrite C, C' by assumption. reflexivity.
Qed.

Lemma inv_step st st' : inv st -> mpi_step both tec a st st' -> inv st'.
Proof.
  intros [rem [Hnd [Hin [Hrecv [Hidle [Hw [Hok Hh]]]]]]] Hs.
  destruct Hs as [st r i t m Esnd Epk | st r t m q x' Er Ec Eu | st r t i u m x' Er Ec Es Epk Eu].
  - assert (0 < r < n) as Hr.
    { destruct (Z_lt_le_dec 0 r) as [H1|H1]; [destruct (Z_lt_le_dec r n) as [H2|H2]; [lia|]|];
      destruct (Hidle r) as [_ Q]; try lia; congruence. }
    destruct (Hw r Hr) as [ci [Ef Fc]]. rewrite Esnd in Ef.
    assert (node i = r) as Hni.
    { assert (In i (filter (fun i => node i =? r) rem)) as Hi by (rewrite Ef; apply in_or_app; right; left; reflexivity).
      apply filter_In in Hi. lia. }
    exists rem. cbn [mp_recv mp_chan mp_send mp_master]. split; [exact Hnd|]. split; [exact Hin|]. split; [exact Hrecv|].
    split. { intros r' Hr'. unfold upd. destruct (r' =? r) eqn:Q; [lia|]. apply Hidle. exact Hr'. }
    split; [|auto]. intros r' Hr'. unfold upd. destruct (r' =? r) eqn:Q; [|apply Hw, Hr'].
    apply Z.eqb_eq in Q. subst r'. exists (ci ++ [i]). split; [rewrite <- app_assoc; exact Ef|].
    apply Forall2_app; [exact Fc|]. constructor; [|constructor]. unfold msg. rewrite Hni. exact Epk.
  - destruct rem as [|i rem]; [cbn in Hrecv; congruence|]. cbn [map] in Hrecv. rewrite Er in Hrecv. inversion Hrecv. subst r t. clear Hrecv.
    destruct (Hin i (or_introl eq_refl)) as [Hi Hni]. pose proof (node_range i Hi) as Hr.
    destruct (Hw (node i) ltac:(lia)) as [ci [Ef Fc]]. rewrite Ec in Fc. inversion Fc as [|i0 m0 ci' q' Hm Hq]; subst. clear Fc.
    cbn [filter] in Ef. rewrite Z.eqb_refl in Ef. cbn [app] in Ef. inversion Ef as [[Hi0 Ef']]. subst i0.
    destruct (deliver st i rem m x' Hi Hni Hok Hm Eu Hh) as [Ok' Hh'].
    exists rem. cbn [mp_recv mp_chan mp_send mp_master]. inversion Hnd; subst. split; [assumption|].
    split; [intros j Hj; apply Hin; right; exact Hj|]. split; [reflexivity|].
    split. { intros r' Hr'. unfold upd. destruct (r' =? node i) eqn:Q; [lia|]. apply Hidle. exact Hr'. }
    split; [|auto]. intros r' Hr'. unfold upd. destruct (r' =? node i) eqn:Q.
    + apply Z.eqb_eq in Q. subst r'. exists ci'. auto.
    + destruct (Hw r' Hr') as [c2 [E2 F2]]. exists c2. split; [|exact F2]. cbn [filter] in E2.
      destruct (node i =? r') eqn:Q2; [lia|exact E2].
  - destruct rem as [|j rem]; [cbn in Hrecv; congruence|]. cbn [map] in Hrecv. rewrite Er in Hrecv. inversion Hrecv. subst r t. clear Hrecv.
    destruct (Hin j (or_introl eq_refl)) as [Hj Hnj]. pose proof (node_range j Hj) as Hr.
    destruct (Hw (node j) ltac:(lia)) as [ci [Ef Fc]]. rewrite Ec in Fc. inversion Fc; subst. clear Fc.
    rewrite Es in Ef. cbn [filter] in Ef. rewrite Z.eqb_refl in Ef. cbn [app] in Ef. inversion Ef as [[Hi0 Ef']]. subst i.
    destruct (deliver st j rem m x' Hj Hnj Hok Epk Eu Hh) as [Ok' Hh'].
    exists rem. cbn [mp_recv mp_chan mp_send mp_master]. inversion Hnd; subst. split; [assumption|].
    split; [intros k Hk; apply Hin; right; exact Hk|]. split; [reflexivity|].
    split. { intros r' Hr'. unfold upd. destruct (r' =? node j) eqn:Q; [lia|]. apply Hidle. exact Hr'. }
    split; [|auto]. intros r' Hr'. unfold upd. destruct (r' =? node j) eqn:Q.
    + apply Z.eqb_eq in Q. subst r'. exists []. rewrite Ec. split; [reflexivity|constructor].
    + destruct (Hw r' Hr') as [c2 [E2 F2]]. exists c2. split; [|exact F2]. cbn [filter] in E2.
      destruct (node j =? r') eqn:Q2; [lia|exact E2].
Qed.

Lemma progress st : inv st -> ~ all_done st -> exists st', guaranteed both tec a st st'.
Proof.
  intros [rem [Hnd [Hin [Hrecv [Hidle [Hw [Hok Hh]]]]]]] Hnot.
  destruct rem as [|i rem].
  - exfalso. apply Hnot. split; [exact Hrecv|]. intros r.
    destruct (Z_lt_le_dec 0 r) as [H1|H1]; [destruct (Z_lt_le_dec r n) as [H2|H2]|]; try (apply Hidle; lia).
    destruct (Hw r ltac:(lia)) as [ci [Ef Fc]]. cbn [filter] in Ef. symmetry in Ef. apply app_eq_nil in Ef. destruct Ef as [-> ->].
    inversion Fc. auto.
  - destruct (Hin i (or_introl eq_refl)) as [Hi Hni]. pose proof (node_range i Hi) as Hr. cbn [map] in Hrecv.
    destruct (Hw (node i) ltac:(lia)) as [ci [Ef Fc]]. cbn [filter] in Ef. rewrite Z.eqb_refl in Ef.
    destruct ci as [|i0 ci].
    + inversion Fc as [Ec|]. symmetry in Ec. cbn [app] in Ef. destruct (mp_send st (node i)) as [|j u] eqn:Es; [discriminate|]. inversion Ef. subst j.
      destruct (pack_ok i (node i) Hi Hr) as [m Em].
      destruct (unpack_pack (mp_master st) i (node i) m Hi Hr Hok Em) as [x' [Eu _]].
      eexists. split; [eapply mpi_rdv; eauto|]. cbn [mp_recv]. eauto.
    + inversion Fc as [|i1 m ci' q Hm Hq Eci Ech]. subst. cbn [app] in Ef. inversion Ef. subst i0.
      destruct (unpack_pack (mp_master st) i (node i) m Hi Hr Hok Hm) as [x' [Eu _]].
      eexists. split; [eapply mpi_recv; eauto|]. cbn [mp_recv]. eauto.
Qed.

Lemma run_inv k st : mpi_run both tec a k (mpi_init n points a) st -> inv st.
Proof.
  remember (mpi_init n points a) as s0. intros H. revert Heqs0. induction H; intros E; [subst; apply inv_init|]. subst.
  eapply inv_step; [apply IHmpi_run; reflexivity|eassumption].
Qed.

(* termination measure *)
Definition rank_work (st : mpi) (r : Z) : Z := 2 * zlen (mp_send st r) + zlen (mp_chan st r).
Definition work (L : list Z) (st : mpi) : Z := fold_right (fun r s => rank_work st r + s) 0 L.
Lemma work_change L st st' r d : NoDup L -> In r L -> (forall q, q <> r -> rank_work st' q = rank_work st q) ->
  rank_work st' r + d = rank_work st r -> work L st' + d = work L st.
Proof.
  induction L as [|x L IH]; intros Hnd0 Hin Hq Hr; [destruct Hin|]. inversion Hnd0 as [|? ? Hx Hnd']; subst. unfold work. cbn [fold_right]. fold (work L st) (work L st').
  destruct (Z.eq_dec x r) as [->|Hne].
  - assert (work L st' = work L st) as ->; [|lia]. clear IH Hin Hnd0 Hnd' Hr.
    induction L as [|y L IH]; [reflexivity|]. unfold work. cbn [fold_right]. fold (work L st) (work L st').
    rewrite IH by (intros H; apply Hx; right; exact H). rewrite Hq; [reflexivity|]. intros ->. apply Hx. left. reflexivity.
  - destruct Hin as [?|Hin]; [congruence|]. rewrite (Hq x Hne). pose proof (IH Hnd' Hin Hq Hr). lia.
Qed.
Lemma work_nonneg L st : 0 <= work L st.
Proof. induction L as [|x L IH]; cbn; [lia|]. fold (work L st). unfold rank_work. pose proof (zlen_nonneg (mp_send st x)). pose proof (zlen_nonneg (mp_chan st x)). lia. Qed.

Lemma work_step st st' : inv st -> mpi_step both tec a st st' -> work (zrange 1 n) st' < work (zrange 1 n) st.
Proof.
  intros [rem [Hnd [Hin [Hrecv [Hidle [Hw [Hok Hh]]]]]]] Hs.
  assert (forall r, mp_chan st r <> [] \/ mp_send st r <> [] -> In r (zrange 1 n)) as Hr.
  { intros r H. apply In_zrange. destruct (Z_lt_le_dec 0 r) as [H1|H1]; [destruct (Z_lt_le_dec r n) as [H2|H2]; [lia|]|];
      destruct (Hidle r) as [Q1 Q2]; try lia; destruct H; congruence. }
  pose proof (zrange_NoDup 1 n) as Hz.
  destruct Hs as [st r i t m Esnd Epk | st r t m q x' Er Ec Eu | st r t i u m x' Er Ec Es Epk Eu].
  - match goal with |- work _ ?s' < _ => pose proof (work_change (zrange 1 n) st s' r 1 Hz (Hr r ltac:(right; congruence))) as W end.
    cut (forall P : Prop, P -> P); [|auto]. intros _.
    assert (work (zrange 1 n) (mkMpi (mp_master st) (mp_recv st) (upd (mp_chan st) r (mp_chan st r ++ [m])) (upd (mp_send st) r t)) + 1 = work (zrange 1 n) st); [|lia].
    apply W.
    + intros p Hne. unfold rank_work. cbn [mp_send mp_chan]. unfold upd. destruct (p =? r) eqn:Q; [lia|reflexivity].
    + unfold rank_work. cbn [mp_send mp_chan]. unfold upd. rewrite Z.eqb_refl, Esnd, zlen_app. unfold zlen. cbn [length]. lia.
  - assert (work (zrange 1 n) (mkMpi x' t (upd (mp_chan st) r q) (mp_send st)) + 1 = work (zrange 1 n) st); [|lia].
    apply (work_change _ _ _ r); [exact Hz|apply Hr; left; congruence| |].
    + intros p Hne. unfold rank_work. cbn [mp_send mp_chan]. unfold upd. destruct (p =? r) eqn:Q; [lia|reflexivity].
    + unfold rank_work. cbn [mp_send mp_chan]. unfold upd. rewrite Z.eqb_refl, Ec. unfold zlen. cbn [length]. lia.
  - assert (work (zrange 1 n) (mkMpi x' t (mp_chan st) (upd (mp_send st) r u)) + 2 = work (zrange 1 n) st); [|lia].
    apply (work_change _ _ _ r); [exact Hz|apply Hr; right; congruence| |].
    + intros p Hne. unfold rank_work. cbn [mp_send mp_chan]. unfold upd. destruct (p =? r) eqn:Q; [lia|reflexivity].
    + unfold rank_work. cbn [mp_send mp_chan]. unfold upd. rewrite Z.eqb_refl, Es. unfold zlen. cbn [length]. lia.
Qed.

Lemma run_work k st : mpi_run both tec a k (mpi_init n points a) st ->
  Z.of_nat k + work (zrange 1 n) st <= work (zrange 1 n) (mpi_init n points a).
Proof.
  remember (mpi_init n points a) as s0. intros H. revert Heqs0. induction H; intros E; [lia|].
  specialize (IHmpi_run E). subst st. pose proof (work_step _ _ (run_inv _ _ H) H0). lia.
Qed.

Lemma filter_sum (f : Z -> Z) L : NoDup (zrange 1 n) ->
  fold_right (fun r s => zlen (filter (fun i => f i =? r) L) + s) 0 (zrange 1 n) <= zlen L.
Proof.
  intros Hz. induction L as [|i L IH].
  - cbn [filter]. clear Hz. induction (zrange 1 n) as [|x l IHl]; cbn in *; unfold zlen in *; cbn in *; lia.
  - assert (forall l, NoDup l -> fold_right (fun r s => zlen (filter (fun i0 => f i0 =? r) (i :: L)) + s) 0 l
              <= 1 + fold_right (fun r s => zlen (filter (fun i0 => f i0 =? r) L) + s) 0 l /\
             (~ In (f i) l -> fold_right (fun r s => zlen (filter (fun i0 => f i0 =? r) (i :: L)) + s) 0 l
              = fold_right (fun r s => zlen (filter (fun i0 => f i0 =? r) L) + s) 0 l)) as G.
    { induction l as [|x l IHl]; intros Hd; [cbn; lia|]. inversion Hd; subst. destruct (IHl H2) as [G1 G2]. cbn [fold_right filter] in *.
      destruct (f i =? x) eqn:Q.
      - apply Z.eqb_eq in Q. subst x. rewrite G2 by assumption. unfold zlen at 1. cbn [length]. unfold zlen in *. split; [lia|]. intros H. exfalso. apply H. left. reflexivity.
      - split; [lia|]. intros H. rewrite G2; [reflexivity|]. intros Hi. apply H. right. exact Hi. }
    destruct (G _ Hz) as [G1 _]. unfold zlen in *. cbn [length]. lia.
Qed.

Lemma init_work : work (zrange 1 n) (mpi_init n points a) <= 2 * points.
Proof.
  pose proof (filter_sum node (zrange 0 points) (zrange_NoDup 1 n)) as F. rewrite zlen_zrange in F by lia.
  assert (forall l, (forall r, In r l -> 0 < r) -> work l (mpi_init n points a) = 2 * fold_right (fun r s => zlen (filter (fun i => node i =? r) (zrange 0 points)) + s) 0 l) as G.
  { induction l as [|r l IH]; intros Hl; [reflexivity|]. unfold work. cbn [fold_right]. fold (work l (mpi_init n points a)).
    rewrite IH by (intros; apply Hl; right; assumption). unfold rank_work at 1, mpi_init at 1 2. cbn [mp_send mp_chan].
    assert (0 < r) by (apply Hl; left; reflexivity). destruct (r =? 0) eqn:Q; [lia|]. unfold node. change (zlen (@nil (list R))) with 0. lia. }
  rewrite G by (intros r Hr; apply In_zrange in Hr; lia). lia.
Qed.

Lemma collect_prop :
  (forall k st, mpi_run both tec a k (mpi_init n points a) st -> Z.of_nat k <= 2 * points) /\
  (forall k st, mpi_run both tec a k (mpi_init n points a) st -> ~ all_done st -> exists st', guaranteed both tec a st st') /\
  (forall k st, mpi_run both tec a k (mpi_init n points a) st -> all_done st ->
     forall i, 0 <= i < points ->
       zget (ar_ws (mp_master st)) i = zget (ar_ws (a (mpi_node n i))) i /\
       zget (ar_p0 (mp_master st)) i = zget (ar_p0 (a (mpi_node n i))) i /\
       (both = true -> zget (ar_p1 (mp_master st)) i = zget (ar_p1 (a (mpi_node n i))) i)).
Proof.
  split; [|split].
  - intros k st H. pose proof (run_work k st H). pose proof init_work. pose proof (work_nonneg (zrange 1 n) st). lia.
  - intros k st H. apply progress. apply (run_inv k st H).
  - intros k st H [Hd _] i Hi. destruct (run_inv k st H) as [rem [_ [_ [Hrecv [_ [_ [_ Hh]]]]]]].
    rewrite Hd in Hrecv. destruct rem; [|discriminate]. apply Hh; [exact Hi|]. intros [].
Qed.
End S.
