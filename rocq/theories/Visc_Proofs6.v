From Verif Require Import BaseFacts RBaseFacts Relp_Proofs Mpi_Proofs Eups_Proofs Visc_Spec.
Open Scope Z_scope.

Section S.
Variables (tec points n : Z) (a : Z -> arrays).
Hypothesis Hn : 0 < n.
Hypothesis Hp : 0 <= points.
Hypothesis Ha : forall r, 0 <= r < n -> arrays_ok true tec points (a r).
Let node (t : Z * Z) := mpi_node n (snd t).
Let tasks := pairs [0; 1] (zrange 0 points).
Definition vtask (t : Z * Z) : Prop := (fst t = 0 \/ fst t = 1) /\ 0 <= snd t < points.
Definition vmsg (t : Z * Z) (m : list R) : Prop := vpack tec (a (node t)) t = Ok m.

Lemma in_tasks t : In t tasks <-> vtask t.
Proof.
  destruct t as [ph i]. unfold tasks, vtask. rewrite In_pairs, In_zrange. cbn [In fst snd]. split.
  - intros [[<-|[<-|[]]] H]; auto.
  - intros [[-> | ->] H]; auto.
Qed.
Lemma nd_tasks : NoDup tasks.
Proof. exact (NoDup_pairs 0 2 0 points). Qed.
Lemma vnode_range t : vtask t -> 0 <= node t < n.
Proof. intros [_ H]. apply (proj1 (distribution_prop n points Hn ltac:(lia)) (snd t)). exact H. Qed.
Definition vholds (x : arrays) (t : Z * Z) (y : arrays) : Prop :=
  zget (ar_ws x) (snd t) = zget (ar_ws y) (snd t) /\ zget (phase_rows x (fst t)) (snd t) = zget (phase_rows y (fst t)) (snd t).
Lemma rows_ok x ph : arrays_ok true tec points x -> zlen (phase_rows x ph) = points /\ forall r, In r (phase_rows x ph) -> zlen r = tec.
Proof. intros (L0 & L1 & R1 & L2). destruct (L2 eq_refl). unfold phase_rows. destruct (ph =? 0); auto. Qed.
Lemma vpack_ok t r : vtask t -> 0 <= r < n -> exists m, vpack tec (a r) t = Ok m.
Proof.
  intros [_ Hi] Hr. destruct (Ha r Hr) as [L0 _]. destruct (rows_ok (a r) (fst t) (Ha r Hr)) as [L1 R1]. unfold vpack.
  destruct (rget_range (ar_ws (a r)) (snd t) ltac:(lia)) as [s [Es _]]. rewrite Es. cbn [bind].
  destruct (rget_range (phase_rows (a r) (fst t)) (snd t) ltac:(lia)) as [r0 [E0 Z0]]. rewrite E0. cbn [bind].
  rewrite (row_read r0 tec) by (apply R1, (zget_In _ _ _ Z0)). cbn [bind]. eauto.
Qed.
Lemma vunpack_pack x t r m : vtask t -> 0 <= r < n -> arrays_ok true tec points x -> vpack tec (a r) t = Ok m ->
  exists x', vunpack tec x (fst t) m = Ok x' /\ arrays_ok true tec points x' /\ vholds x' t (a r) /\
    (forall u, snd u <> snd t -> vholds x' u x) /\
    (forall ph, 0 <= ph <= 1 -> ph <> fst t -> phase_rows x' ph = phase_rows x ph).
Proof.
  intros [Hph Hi] Hr Ox E. destruct (Ha r Hr) as [L0 _]. destruct (rows_ok (a r) (fst t) (Ha r Hr)) as [L1 R1]. unfold vpack in E. destruct t as [ph i]. cbn [fst snd] in *.
  destruct (rget_range (ar_ws (a r)) i ltac:(lia)) as [s [Es Zs]]. rewrite Es in E. cbn [bind] in E.
  destruct (rget_range (phase_rows (a r) ph) i ltac:(lia)) as [r0 [E0 Z0]]. rewrite E0 in E. cbn [bind] in E.
  pose proof (R1 _ (zget_In _ _ _ Z0)) as Lr0. rewrite (row_read r0 tec Lr0) in E. cbn [bind] in E.
  assert (m = IZR i :: s :: r0) as -> by congruence. unfold vunpack.
  pose proof Ox as (X0 & X1 & XR & X2). destruct (X2 eq_refl) as [X3 XR1]. destruct (rows_ok x ph Ox) as [Xr XrR].
  destruct (rset_exists (ar_ws x) i s ltac:(lia)) as [ws [Ew [Lw [Gw Ow]]]].
  destruct (rset_exists (phase_rows x ph) i r0 ltac:(lia)) as [p0 [Ep [Lp [Gp Op]]]].
  assert (forall q, In q p0 -> zlen q = tec) as Hrow.
  { intros q Hq. apply In_zget in Hq. destruct Hq as [k [_ Hk]]. destruct (Z.eq_dec k i) as [->|Hne]; [congruence|].
    rewrite Op in Hk by assumption. apply XrR, (zget_In _ _ _ Hk). }
  change (rget (IZR i :: s :: r0) 0) with (@Ok R (IZR i)). cbn [bind].
  rewrite ctrunc_IZR by lia. change (rget (IZR i :: s :: r0) 1) with (@Ok R s). cbn [bind]. rewrite Ew. cbn [bind].
  rewrite (row_read_off r0 _ 2 tec Lr0); [|lia|].
  2: { intros v Hv. rewrite !zget_nth by lia. replace (Z.to_nat (2 + v)) with (S (S (Z.to_nat v))) by lia. reflexivity. }
  cbn [bind]. rewrite Ep. cbn [bind]. eexists. split; [reflexivity|].
  assert (Pw : forall q, phase_rows (with_rows x ph ws p0) q = if q =? 0 then (if ph =? 0 then p0 else ar_p0 x) else (if ph =? 0 then ar_p1 x else p0)).
  { intros q. unfold phase_rows, with_rows. destruct (ph =? 0), (q =? 0); reflexivity. }
  split; [|split; [|split]].
  - unfold with_rows. destruct (ph =? 0) eqn:Q; unfold arrays_ok; cbn [ar_ws ar_p0 ar_p1]; repeat split; auto; lia.
  - unfold vholds. cbn [fst snd]. rewrite Pw. split; [unfold with_rows; destruct (ph =? 0); cbn [ar_ws]; congruence|].
    destruct (ph =? 0) eqn:Q; congruence.
  - intros [ph' j]. unfold vholds. cbn [fst snd]. intros Hj. split; [unfold with_rows; destruct (ph =? 0); cbn [ar_ws]; now apply Ow|].
    rewrite Pw. unfold phase_rows in *. destruct (ph' =? 0) eqn:Q, (ph =? 0) eqn:Q2; try reflexivity; now apply Op.
  - intros q Hq Hne. rewrite Pw. unfold phase_rows. destruct (q =? 0) eqn:Q, (ph =? 0) eqn:Q2; try reflexivity; exfalso; lia.
Qed.

(* invariant: [rem] are the phases and points still missing at the master *)
Definition vminv (st : vmpi) : Prop := exists rem,
  NoDup rem /\ (forall t, In t rem -> vtask t /\ node t <> 0) /\
  vp_recv st = map (fun t => (fst t, node t)) rem /\
  (forall r, r = 0 \/ r < 0 \/ n <= r -> vp_chan st r = [] /\ vp_send st r = []) /\
  (forall r, 0 < r < n -> exists ci, filter (fun t => node t =? r) rem = ci ++ vp_send st r /\ Forall2 vmsg ci (vp_chan st r)) /\
  arrays_ok true tec points (vp_master st) /\
  (forall t, vtask t -> ~ In t rem -> vholds (vp_master st) t (a (node t))).
Lemma vinv_init : vminv (vmpi_init n points a).
Proof.
  exists (filter (fun t => negb (node t =? 0)) tasks). unfold vmpi_init. cbn [vp_recv vp_chan vp_send vp_master].
  split; [apply NoDup_filter, nd_tasks|].
  split. { intros t Ht. apply filter_In in Ht. destruct Ht as [Ht Hq]. apply in_tasks in Ht. split; [exact Ht|lia]. }
  split; [reflexivity|]. split.
  { intros r Hr. split; [reflexivity|]. destruct (r =? 0) eqn:Q; [reflexivity|].
    assert (forall L, (forall t, In t L -> vtask t) -> filter (fun t => mpi_node n (snd t) =? r) L = []) as G.
    { induction L as [|t L IH]; intros HL; [reflexivity|]. cbn [filter]. pose proof (vnode_range t (HL t (or_introl eq_refl))) as V. unfold node in V.
      destruct (mpi_node n (snd t) =? r) eqn:Q2; [lia|]. apply IH. intros; apply HL; right; assumption. }
    apply G. intros t. apply in_tasks. }
  split.
  { intros r Hr. exists []. cbn [app]. split; [|constructor]. destruct (r =? 0) eqn:Q; [lia|]. unfold node. fold tasks.
    induction tasks as [|t L IH]; [reflexivity|]. cbn [filter].
    destruct (mpi_node n (snd t) =? 0) eqn:Q0; cbn [negb].
    - rewrite IH. destruct (mpi_node n (snd t) =? r) eqn:Q1; [lia|reflexivity].
    - cbn [filter]. rewrite IH. reflexivity. }
  split; [apply Ha; lia|]. intros t Ht Hni.
  assert (node t = 0) as ->.
  { destruct (Z.eq_dec (node t) 0); [assumption|]. exfalso. apply Hni. apply filter_In. split; [now apply in_tasks|]. lia. }
  unfold vholds. auto.
Qed.
Lemma vdeliver st t rem m x' : vtask t -> node t <> 0 -> arrays_ok true tec points (vp_master st) -> vmsg t m ->
  vunpack tec (vp_master st) (fst t) m = Ok x' ->
  (forall u, vtask u -> ~ In u (t :: rem) -> vholds (vp_master st) u (a (node u))) ->
  arrays_ok true tec points x' /\ (forall u, vtask u -> ~ In u rem -> vholds x' u (a (node u))).
Proof.
  intros Ht Hnt Hok Hm E Hh.
  destruct (vunpack_pack (vp_master st) t (node t) m Ht (vnode_range t Ht) Hok Hm) as [x2 [E2 [O2 [H2 [K2 P2]]]]].
  rewrite E in E2. injection E2 as <-. split; [exact O2|]. intros u Hu Hnu.
  destruct (Z.eq_dec (snd u) (snd t)) as [Es|Es].
  - assert (node u = node t) as Nu by (unfold node; now rewrite Es). destruct (Z.eq_dec (fst u) (fst t)) as [Ef|Ef].
    + assert (u = t) as -> by (destruct u, t; cbn in *; congruence). exact H2.
    + rewrite Nu. destruct H2 as [A B]. assert (~ In u (t :: rem)) as Hn' by (intros [<-|?]; [congruence|contradiction]).
      destruct (Hh u Hu Hn') as [A' B']. rewrite Nu in B'. split; [now rewrite Es|]. rewrite P2; [exact B'| |exact Ef]. destruct Hu as [Hu _]. lia.
  - destruct (K2 u Es) as [A B]. assert (~ In u (t :: rem)) as Hn' by (intros [<-|?]; [congruence|contradiction]).
    destruct (Hh u Hu Hn') as [A' B']. split; congruence.
Qed.
Lemma vinv_step st st' : vminv st -> vmpi_step tec a st st' -> vminv st'.
Proof.
  intros [rem [Hnd [Hin [Hrecv [Hidle [Hw [Hok Hh]]]]]]] Hs.
  destruct Hs as [st r i t m Esnd Epk | st ph r t m q x' Er Ec Eu | st ph r t i u m x' Er Ec Es Epk Eu].
  - assert (0 < r < n) as Hr.
    { destruct (Z_lt_le_dec 0 r) as [H1|H1]; [destruct (Z_lt_le_dec r n) as [H2|H2]; [lia|]|];
      destruct (Hidle r) as [_ Q]; try lia; congruence. }
    destruct (Hw r Hr) as [ci [Ef Fc]]. rewrite Esnd in Ef.
    assert (node i = r) as Hni.
    { assert (In i (filter (fun i => node i =? r) rem)) as Hi by (rewrite Ef; apply in_or_app; right; left; reflexivity).
      apply filter_In in Hi. lia. }
    exists rem. cbn [vp_recv vp_chan vp_send vp_master]. split; [exact Hnd|]. split; [exact Hin|]. split; [exact Hrecv|].
    split. { intros r' Hr'. unfold upd. destruct (r' =? r) eqn:Q; [lia|]. apply Hidle. exact Hr'. }
    split; [|auto]. intros r' Hr'. unfold upd. destruct (r' =? r) eqn:Q; [|apply Hw, Hr'].
    apply Z.eqb_eq in Q. subst r'. exists (ci ++ [i]). split; [rewrite <- app_assoc; exact Ef|].
    apply Forall2_app; [exact Fc|]. constructor; [|constructor]. unfold vmsg. rewrite Hni. exact Epk.
  - destruct rem as [|i rem]; [cbn in Hrecv; congruence|]. cbn [map] in Hrecv. rewrite Er in Hrecv. injection Hrecv as -> -> ->.
    destruct (Hin i (or_introl eq_refl)) as [Hi Hni]. pose proof (vnode_range i Hi) as Hr.
    destruct (Hw (node i) ltac:(lia)) as [ci [Ef Fc]]. rewrite Ec in Fc. inversion Fc as [|i0 m0 ci' q' Hm Hq]; subst. clear Fc.
    cbn [filter] in Ef. rewrite Z.eqb_refl in Ef. cbn [app] in Ef. inversion Ef as [[Hi0 Ef']]. subst i0.
    destruct (vdeliver st i rem m x' Hi Hni Hok Hm Eu Hh) as [Ok' Hh'].
    exists rem. cbn [vp_recv vp_chan vp_send vp_master]. inversion Hnd; subst. split; [assumption|].
    split; [intros j Hj; apply Hin; right; exact Hj|]. split; [reflexivity|].
    split. { intros r' Hr'. unfold upd. destruct (r' =? node i) eqn:Q; [lia|]. apply Hidle. exact Hr'. }
    split; [|auto]. intros r' Hr'. unfold upd. destruct (r' =? node i) eqn:Q.
    + apply Z.eqb_eq in Q. subst r'. exists ci'. auto.
    + destruct (Hw r' Hr') as [c2 [E2 F2]]. exists c2. split; [|exact F2]. cbn [filter] in E2.
      destruct (node i =? r') eqn:Q2; [lia|exact E2].
  - destruct rem as [|j rem]; [cbn in Hrecv; congruence|]. cbn [map] in Hrecv. rewrite Er in Hrecv. injection Hrecv as -> -> ->.
    destruct (Hin j (or_introl eq_refl)) as [Hj Hnj]. pose proof (vnode_range j Hj) as Hr.
    destruct (Hw (node j) ltac:(lia)) as [ci [Ef Fc]]. rewrite Ec in Fc. inversion Fc; subst. clear Fc.
    rewrite Es in Ef. cbn [filter] in Ef. rewrite Z.eqb_refl in Ef. cbn [app] in Ef. inversion Ef as [[Hi0 Ef']]. subst i.
    destruct (vdeliver st j rem m x' Hj Hnj Hok Epk Eu Hh) as [Ok' Hh'].
    exists rem. cbn [vp_recv vp_chan vp_send vp_master]. inversion Hnd; subst. split; [assumption|].
    split; [intros k Hk; apply Hin; right; exact Hk|]. split; [reflexivity|].
    split. { intros r' Hr'. unfold upd. destruct (r' =? node j) eqn:Q; [lia|]. apply Hidle. exact Hr'. }
    split; [|auto]. intros r' Hr'. unfold upd. destruct (r' =? node j) eqn:Q.
    + apply Z.eqb_eq in Q. subst r'. exists []. rewrite Ec. split; [reflexivity|constructor].
    + destruct (Hw r' Hr') as [c2 [E2 F2]]. exists c2. split; [|exact F2]. cbn [filter] in E2.
      destruct (node j =? r') eqn:Q2; [lia|exact E2].
Qed.
Lemma vprogress st : vminv st -> ~ visc_done st -> exists st', visc_guaranteed tec a st st'.
Proof.
  intros [rem [Hnd [Hin [Hrecv [Hidle [Hw [Hok Hh]]]]]]] Hnot.
  destruct rem as [|i rem].
  - exfalso. apply Hnot. split; [exact Hrecv|]. intros r.
    destruct (Z_lt_le_dec 0 r) as [H1|H1]; [destruct (Z_lt_le_dec r n) as [H2|H2]|]; try (apply Hidle; lia).
    destruct (Hw r ltac:(lia)) as [ci [Ef Fc]]. cbn [filter] in Ef. symmetry in Ef. apply app_eq_nil in Ef. destruct Ef as [-> ->].
    inversion Fc. auto.
  - destruct (Hin i (or_introl eq_refl)) as [Hi Hni]. pose proof (vnode_range i Hi) as Hr. cbn [map] in Hrecv.
    destruct (Hw (node i) ltac:(lia)) as [ci [Ef Fc]]. cbn [filter] in Ef. rewrite Z.eqb_refl in Ef.
    destruct ci as [|i0 ci].
    + inversion Fc as [Ec|]. symmetry in Ec. cbn [app] in Ef. destruct (vp_send st (node i)) as [|j u] eqn:Es; [discriminate|]. inversion Ef. subst j.
      destruct (vpack_ok i (node i) Hi Hr) as [m Em].
      destruct (vunpack_pack (vp_master st) i (node i) m Hi Hr Hok Em) as [x' [Eu _]].
      eexists. split; [eapply vmpi_rdv; eauto|]. cbn [vp_recv]. eauto.
    + inversion Fc as [|i1 m ci' q Hm Hq Eci Ech]. subst. cbn [app] in Ef. inversion Ef. subst i0.
      destruct (vunpack_pack (vp_master st) i (node i) m Hi Hr Hok Hm) as [x' [Eu _]].
      eexists. split; [eapply vmpi_recv; eauto|]. cbn [vp_recv]. eauto.
Qed.
Lemma vrun_inv k st : visc_run tec a k (vmpi_init n points a) st -> vminv st.
Proof.
  remember (vmpi_init n points a) as s0. intros H. revert Heqs0. induction H; intros E; [subst; apply vinv_init|]. subst.
  eapply vinv_step; [apply IHvisc_run; reflexivity|eassumption].
Qed.

(* termination measure *)
Definition vrank_work (st : vmpi) (r : Z) : Z := 2 * zlen (vp_send st r) + zlen (vp_chan st r).
Definition vwork (L : list Z) (st : vmpi) : Z := fold_right (fun r s => vrank_work st r + s) 0 L.
Lemma vwork_change L st st' r d : NoDup L -> In r L -> (forall q, q <> r -> vrank_work st' q = vrank_work st q) ->
  vrank_work st' r + d = vrank_work st r -> vwork L st' + d = vwork L st.
Proof.
  induction L as [|x L IH]; intros Hnd0 Hin Hq Hr; [destruct Hin|]. inversion Hnd0 as [|? ? Hx Hnd']; subst. unfold vwork. cbn [fold_right]. fold (vwork L st) (vwork L st').
  destruct (Z.eq_dec x r) as [->|Hne].
  - assert (vwork L st' = vwork L st) as ->; [|lia]. clear IH Hin Hnd0 Hnd' Hr.
    induction L as [|y L IH]; [reflexivity|]. unfold vwork. cbn [fold_right]. fold (vwork L st) (vwork L st').
    rewrite IH by (intros H; apply Hx; right; exact H). rewrite Hq; [reflexivity|]. intros ->. apply Hx. left. reflexivity.
  - destruct Hin as [?|Hin]; [congruence|]. rewrite (Hq x Hne). pose proof (IH Hnd' Hin Hq Hr). lia.
Qed.
Lemma vwork_nonneg L st : 0 <= vwork L st.
Proof. induction L as [|x L IH]; cbn; [lia|]. fold (vwork L st). unfold vrank_work. pose proof (zlen_nonneg (vp_send st x)). pose proof (zlen_nonneg (vp_chan st x)). lia. Qed.
Lemma vwork_step st st' : vminv st -> vmpi_step tec a st st' -> vwork (zrange 1 n) st' < vwork (zrange 1 n) st.
Proof.
  intros [rem [Hnd [Hin [Hrecv [Hidle [Hw [Hok Hh]]]]]]] Hs.
  assert (forall r, vp_chan st r <> [] \/ vp_send st r <> [] -> In r (zrange 1 n)) as Hr.
  { intros r H. apply In_zrange. destruct (Z_lt_le_dec 0 r) as [H1|H1]; [destruct (Z_lt_le_dec r n) as [H2|H2]; [lia|]|];
      destruct (Hidle r) as [Q1 Q2]; try lia; destruct H; congruence. }
  pose proof (zrange_NoDup 1 n) as Hz.
  destruct Hs as [st r i t m Esnd Epk | st ph r t m q x' Er Ec Eu | st ph r t i u m x' Er Ec Es Epk Eu].
  - assert (vwork (zrange 1 n) (mkVm (vp_master st) (vp_recv st) (upd (vp_chan st) r (vp_chan st r ++ [m])) (upd (vp_send st) r t)) + 1 = vwork (zrange 1 n) st); [|lia].
    apply (vwork_change _ _ _ r); [exact Hz|apply Hr; right; congruence| |].
    + intros p Hne. unfold vrank_work. cbn [vp_send vp_chan]. unfold upd. destruct (p =? r) eqn:Q; [lia|reflexivity].
    + unfold vrank_work. cbn [vp_send vp_chan]. unfold upd. rewrite Z.eqb_refl, Esnd, zlen_app. unfold zlen. cbn [length]. lia.
  - assert (vwork (zrange 1 n) (mkVm x' t (upd (vp_chan st) r q) (vp_send st)) + 1 = vwork (zrange 1 n) st); [|lia].
    apply (vwork_change _ _ _ r); [exact Hz|apply Hr; left; congruence| |].
    + intros p Hne. unfold vrank_work. cbn [vp_send vp_chan]. unfold upd. destruct (p =? r) eqn:Q; [lia|reflexivity].
    + unfold vrank_work. cbn [vp_send vp_chan]. unfold upd. rewrite Z.eqb_refl, Ec. unfold zlen. cbn [length]. lia.
  - assert (vwork (zrange 1 n) (mkVm x' t (vp_chan st) (upd (vp_send st) r u)) + 2 = vwork (zrange 1 n) st); [|lia].
    apply (vwork_change _ _ _ r); [exact Hz|apply Hr; right; congruence| |].
    + intros p Hne. unfold vrank_work. cbn [vp_send vp_chan]. unfold upd. destruct (p =? r) eqn:Q; [lia|reflexivity].
    + unfold vrank_work. cbn [vp_send vp_chan]. unfold upd. rewrite Z.eqb_refl, Es. unfold zlen. cbn [length]. lia.
Qed.
Lemma vrun_work k st : visc_run tec a k (vmpi_init n points a) st ->
  Z.of_nat k + vwork (zrange 1 n) st <= vwork (zrange 1 n) (vmpi_init n points a).
Proof.
  remember (vmpi_init n points a) as s0. intros H. revert Heqs0. induction H; intros E; [lia|].
  specialize (IHvisc_run E). subst st. pose proof (vwork_step _ _ (vrun_inv _ _ H) H0). lia.
Qed.
Lemma vfilter_sum (f : Z * Z -> Z) L : NoDup (zrange 1 n) ->
  fold_right (fun r s => zlen (filter (fun i => f i =? r) L) + s) 0 (zrange 1 n) <= zlen L.
Proof.
  intros Hz. induction L as [|i L IH].
  - cbn [filter]. clear Hz. induction (zrange 1 n) as [|x l IHl]; cbn in *; unfold zlen in *; cbn in *; lia.
  - assert (forall l, NoDup l -> fold_right (fun r s => zlen (filter (fun i0 => f i0 =? r) (i :: L)) + s) 0 l
              <= 1 + fold_right (fun r s => zlen (filter (fun i0 => f i0 =? r) L) + s) 0 l /\
             (~ In (f i) l -> fold_right (fun r s => zlen (filter (fun i0 => f i0 =? r) (i :: L)) + s) 0 l
              = fold_right (fun r s => zlen (filter (fun i0 => f i0 =? r) L) + s) 0 l)) as G.
    { induction l as [|x l IHl]; intros Hd; [cbn; lia|]. inversion Hd; subst. destruct (IHl H2) as [G1 G2]. cbn [fold_right filter] in *.
      destruct (f i =? x) eqn:Q.
      - apply Z.eqb_eq in Q. subst x. rewrite G2 by assumption. unfold zlen at 1. cbn [length]. unfold zlen in *. split; [lia|]. intros H. exfalso. apply H. left. reflexivity.
      - split; [lia|]. intros H. rewrite G2; [reflexivity|]. intros Hi. apply H. right. exact Hi. }
    destruct (G _ Hz) as [G1 _]. unfold zlen in *. cbn [length]. lia.
Qed.
Lemma vinit_work : vwork (zrange 1 n) (vmpi_init n points a) <= 4 * points.
Proof.
  pose proof (vfilter_sum node tasks (zrange_NoDup 1 n)) as F. assert (zlen tasks = points * 2) as Lt.
  { unfold tasks. change [0; 1] with (zrange 0 2). rewrite (pairs_len 0 points 0 2) by lia. lia. }
  assert (forall l, (forall r, In r l -> 0 < r) -> vwork l (vmpi_init n points a) = 2 * fold_right (fun r s => zlen (filter (fun i => node i =? r) tasks) + s) 0 l) as G.
  { induction l as [|r l IH]; intros Hl; [reflexivity|]. unfold vwork. cbn [fold_right]. fold (vwork l (vmpi_init n points a)).
    rewrite IH by (intros; apply Hl; right; assumption). unfold vrank_work at 1, vmpi_init at 1 2. cbn [vp_send vp_chan].
    assert (0 < r) by (apply Hl; left; reflexivity). destruct (r =? 0) eqn:Q; [lia|]. unfold node, tasks. change (zlen (@nil (list R))) with 0. lia. }
  rewrite G by (intros r Hr; apply In_zrange in Hr; lia). lia.
Qed.
End S.
Lemma visc_collect tec points n a : 0 < n -> 0 <= points -> (forall r, 0 <= r < n -> arrays_ok true tec points (a r)) ->
  (forall k st, visc_run tec a k (vmpi_init n points a) st -> Z.of_nat k <= 4 * points) /\
  (forall k st, visc_run tec a k (vmpi_init n points a) st -> ~ visc_done st -> exists st', visc_guaranteed tec a st st') /\
  (forall k st, visc_run tec a k (vmpi_init n points a) st -> visc_done st ->
     forall i, 0 <= i < points ->
       zget (ar_ws (vp_master st)) i = zget (ar_ws (a (mpi_node n i))) i /\
       zget (ar_p0 (vp_master st)) i = zget (ar_p0 (a (mpi_node n i))) i /\
       zget (ar_p1 (vp_master st)) i = zget (ar_p1 (a (mpi_node n i))) i).
Proof.
  intros Hn Hp Ha. split; [|split].
  - intros k st H. pose proof (vrun_work tec points n a Hn Hp Ha k st H). assert (vwork (zrange 1 n) (vmpi_init n points a) <= 4 * points) by (eapply vinit_work; eauto). assert (0 <= vwork (zrange 1 n) st) by (eapply vwork_nonneg; eauto). lia.
  - intros k st H. apply (vprogress tec points n a Hn Hp Ha). apply (vrun_inv tec points n a Hn Hp Ha k st H).
  - intros k st H [Hd _] i Hi. destruct (vrun_inv tec points n a Hn Hp Ha k st H) as [rem [_ [_ [Hrecv [_ [_ [_ Hh]]]]]]].
    rewrite Hd in Hrecv. destruct rem; [|discriminate].
    destruct (Hh (0, i) ltac:(split; [now left|exact Hi]) ltac:(intros [])) as [A B]. destruct (Hh (1, i) ltac:(split; [now right|exact Hi]) ltac:(intros [])) as [_ C]. auto.
Qed.
