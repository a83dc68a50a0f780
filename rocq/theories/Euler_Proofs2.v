From Coq Require Import Lra Sorting.Sorted.
From Verif Require Import BaseFacts RBaseFacts Steady_Proofs Euler_Model Euler_Spec.
Open Scope Z_scope.

(* ---- lists of reals *)
Lemma rset_nthR l i y l' : rset l i y = Ok l' ->
  zlen l' = zlen l /\ 0 <= i < zlen l /\ (forall c, nthR l' c = if c =? i then y else nthR l c) /\
  Rsum l' = (Rsum l - nthR l i + y)%R.
Proof.
  intros H. destruct (rset_inv _ _ _ _ H) as (Hi & L & Gi & Go). split; auto. split; [lia|]. split.
  - intros c. destruct (Z.eqb_spec c i) as [->|N].
    + apply nthR_get. rewrite Gi. reflexivity.
    + unfold nthR. rewrite Go by auto. reflexivity.
  - unfold rset in H. destruct (_ && _) eqn:E in H; [|discriminate]. injection H as <-. clear Gi Go L E.
    unfold nthR. rewrite zget_nth by lia. assert (Hn : (Z.to_nat i < length l)%nat) by (unfold zlen in *; lia).
    revert Hn. generalize (Z.to_nat i). clear. induction l as [|a l IH]; intros n Hn; cbn in *; [lia|].
    destruct n; cbn; rewrite !Rsum_cons.
    + ring.
    + rewrite IH by lia. ring.
Qed.
Lemma rget_nthR l i x : rget l i = Ok x -> x = nthR l i /\ 0 <= i < zlen l.
Proof. intros H. apply rget_Ok in H. split; [symmetry; now apply nthR_get|now apply zget_Some_range in H]. Qed.

(* ---- C48 *)
Lemma add_term_ok r c0 u r' f : add_term r c0 u = Ok r' ->
  zlen r' = zlen r /\ (forall c, nthR r' c = nthR r c + contribution c ((c0, f), u))%R /\
  (Rsum r' = Rsum r - wall_term ((c0, f), u))%R.
Proof.
  unfold add_term, contribution, wall_term. cbn [snd fst]. destruct u as [[c1 d]|].
  2:{ intros H; injection H as <-. repeat split; intros; ring. }
  destruct (rget r c0) as [x| |] eqn:E; try discriminate. cbn [bind]. destruct (rget_nthR _ _ _ E) as (-> & Hc0).
  destruct (rset r c0 _) as [r1| |] eqn:E1; try discriminate. cbn [bind].
  destruct (rset_nthR _ _ _ _ E1) as (L1 & _ & G1 & S1). destruct (Z.eqb_spec c0 c1) as [<-|N].
  - intros H; injection H as <-. split; auto. split; [|rewrite S1; ring]. intros c. rewrite G1.
    destruct (Z.eqb_spec c c0) as [->|]; ring.
  - destruct (rget r1 c1) as [y| |] eqn:E2; try discriminate. cbn [bind]. destruct (rget_nthR _ _ _ E2) as (-> & Hc1).
    intros H. destruct (rset_nthR _ _ _ _ H) as (L2 & _ & G2 & S2). split; [lia|]. split; [|rewrite S2, S1; ring].
    intros c. rewrite G2, !G1. destruct (Z.eqb_spec c c1) as [->|], (Z.eqb_spec c1 c0) as [Q|]; try congruence; try (destruct (Z.eqb_spec c c0) as [->|]); try congruence; try ring.
Qed.

Lemma mapM_app {A B} (f : A -> res B) l1 l2 o1 o2 : mapM f l1 = Ok o1 -> mapM f l2 = Ok o2 -> mapM f (l1 ++ l2) = Ok (o1 ++ o2).
Proof.
  revert o1. induction l1 as [|a l1 IH]; intros o1; cbn [mapM app].
  - intros H; injection H as <-. auto.
  - destruct (f a); try discriminate. cbn [bind]. destruct (mapM f l1) eqn:E; try discriminate. cbn [bind].
    intros H; injection H as <-. intros H2. rewrite (IH _ eq_refl H2). reflexivity.
Qed.
Lemma mapM_len {A B} (f : A -> res B) l o : mapM f l = Ok o -> length o = length l.
Proof.
  revert o. induction l as [|a l IH]; intros o; cbn [mapM].
  - intros H; injection H as <-. auto.
  - destruct (f a); try discriminate. cbn [bind]. destruct (mapM f l) eqn:E; try discriminate. cbn [bind].
    intros H; injection H as <-. cbn. now rewrite (IH _ eq_refl).
Qed.
Lemma combine_app {A B} (a1 a2 : list A) (b1 b2 : list B) : length a1 = length b1 ->
  combine (a1 ++ a2) (b1 ++ b2) = combine a1 b1 ++ combine a2 b2.
Proof. revert b1. induction a1 as [|x a1 IH]; intros [|y b1] H; cbn in *; try discriminate; auto. f_equal. apply IH. lia. Qed.

Lemma faces_ok p bm sat c0 fs : forall r r',
  foldM (fun r f => let* u := face_update p bm sat c0 f in add_term r c0 u) fs r = Ok r' ->
  exists outs, mapM (fun cf => face_update p bm sat (fst cf) (snd cf)) (map (fun f => (c0, f)) fs) = Ok outs /\
    let ts := combine (map (fun f => (c0, f)) fs) outs in
    zlen r' = zlen r /\ (forall c, nthR r' c = nthR r c + Rsum (map (contribution c) ts))%R /\
    (Rsum r' = Rsum r - Rsum (map wall_term ts))%R.
Proof.
  induction fs as [|f fs IH]; intros r r'; cbn [foldM map mapM fst snd].
  - intros H; injection H as <-. exists []. split; auto. cbn. rewrite ?Rsum_nil. repeat split; intros; rewrite ?Rsum_nil; ring.
  - destruct (face_update p bm sat c0 f) as [u| |] eqn:E; try discriminate. cbn [bind].
    destruct (add_term r c0 u) as [r1| |] eqn:E1; try discriminate. cbn [bind]. intros H.
    destruct (IH _ _ H) as (outs & O & L & G & S). rewrite O. exists (u :: outs). split; auto.
    destruct (add_term_ok _ _ _ _ f E1) as (L1 & G1 & S1). cbn [combine map]. rewrite ?Rsum_cons. split; [lia|]. split.
    + intros c. rewrite G, G1, Rsum_cons. ring.
    + rewrite S, S1. ring.
Qed.

Lemma cells_ok p bm sat L : forall r r', foldM (update_cell p bm sat) L r = Ok r' ->
  let fs := flat_map (fun ic => map (fun f => (fst ic, f)) (ec_faces (snd ic))) L in
  exists outs, mapM (fun cf => face_update p bm sat (fst cf) (snd cf)) fs = Ok outs /\
    let ts := combine fs outs in
    zlen r' = zlen r /\
    (forall c, nthR r' c = nthR r c + Rsum (map (contribution c) ts)
        + Rsum (map (fun i : Z => if (i =? c)%Z then source_term p i (nthR sat i) else 0) (map fst L)))%R /\
    (Rsum r' = Rsum r - Rsum (map wall_term ts) + Rsum (map (fun i => source_term p i (nthR sat i)) (map fst L)))%R.
Proof.
  induction L as [|ic L IH]; intros r r'; cbn [foldM flat_map map].
  - intros H; injection H as <-. exists []. split; auto. cbn. rewrite ?Rsum_nil. repeat split; intros; rewrite ?Rsum_nil; ring.
  - unfold update_cell at 1. destruct (foldM _ (ec_faces (snd ic)) r) as [r1| |] eqn:E; try discriminate. cbn [bind].
    destruct (rget sat (fst ic)) as [s0| |] eqn:Es; try discriminate. cbn [bind]. destruct (rget_nthR _ _ _ Es) as (-> & _).
    destruct (rget r1 (fst ic)) as [x| |] eqn:Ex; try discriminate. cbn [bind]. destruct (rget_nthR _ _ _ Ex) as (-> & _).
    destruct (rset r1 (fst ic) _) as [r2| |] eqn:E2; try discriminate. cbn [bind]. intros H.
    destruct (rset_nthR _ _ _ _ E2) as (L2 & _ & G2 & S2).
    destruct (faces_ok _ _ _ _ _ _ _ E) as (o1 & O1 & L1 & G1 & S1).
    destruct (IH _ _ H) as (o2 & O2 & L3 & G3 & S3). exists (o1 ++ o2). split; [now apply mapM_app|].
    rewrite combine_app by (symmetry; now apply mapM_len in O1). cbv zeta in *. split; [lia|].
    rewrite !map_app. split.
    + intros c. rewrite G3, G2, map_app, !Rsum_app. rewrite (Z.eqb_sym (fst ic) c). destruct (Z.eqb_spec c (fst ic)) as [->|]; rewrite G1, Rsum_cons; ring.
    + rewrite S3, S2, S1, !Rsum_app, Rsum_cons. ring.
Qed.

Lemma Rsum_pick (f : Z -> R) c a n : Rsum (map (fun i => if i =? c then f i else 0%R) (zrange a (a + Z.of_nat n))) =
  if (a <=? c) && (c <? a + Z.of_nat n) then f c else 0%R.
Proof.
  revert a. induction n as [|n IH]; intros a.
  - rewrite zrange_empty by lia. cbn [map]. rewrite Rsum_nil. destruct (Z.leb_spec a c), (Z.ltb_spec c (a + Z.of_nat 0)); cbn [andb]; auto; lia.
  - rewrite zrange_cons by lia. cbn [map]. rewrite Rsum_cons. replace (a + Z.of_nat (S n)) with ((a + 1) + Z.of_nat n) by lia. rewrite IH.
    destruct (Z.leb_spec (a + 1) c), (Z.leb_spec a c), (Z.ltb_spec c (a + 1 + Z.of_nat n)), (Z.eqb_spec a c); cbn [andb]; subst; try lia; try ring.
Qed.

Lemma fst_combine_zrange {A} (l : list A) : map fst (combine (zrange 0 (zlen l)) l) = zrange 0 (zlen l).
Proof.
  assert (H : length (zrange 0 (zlen l)) = length l) by (rewrite zrange_length; unfold zlen; lia).
  revert H. generalize (zrange 0 (zlen l)). intros z. revert l. induction z as [|a z IH]; intros [|b l] H; cbn in *; try discriminate; auto.
  f_equal. apply IH. lia.
Qed.

Lemma Rsum_zrepeat0 n : Rsum (zrepeat 0%R n) = 0%R.
Proof. unfold zrepeat. induction (Z.to_nat n); cbn; auto. rewrite Rsum_cons, IHn0. ring. Qed.
Lemma nthR_zrepeat0 n c : nthR (zrepeat 0%R n) c = 0%R.
Proof.
  unfold nthR. destruct (zget (zrepeat 0%R n) c) eqn:E; auto. apply zget_In in E. unfold zrepeat in E. now apply repeat_spec in E.
Qed.

Lemma residual_ok p sat r : compute_residual p sat = Ok r ->
  exists bm outs, build_bid_map p = Ok bm /\
    mapM (fun cf => face_update p bm sat (fst cf) (snd cf)) (all_faces (ep_cells p)) = Ok outs /\
    let ts := combine (all_faces (ep_cells p)) outs in
    zlen r = zlen sat /\
    (forall c, 0 <= c < zlen (ep_cells p) ->
       nthR r c = (source_term p c (nthR sat c) + Rsum (map (contribution c) ts))%R) /\
    (Rsum r = Rsum (map (fun c => source_term p c (nthR sat c)) (zrange 0 (zlen (ep_cells p)))) - Rsum (map wall_term ts))%R.
Proof.
  unfold compute_residual. destruct (build_bid_map p) as [bm| |] eqn:E; try discriminate. cbn [bind]. intros H.
  destruct (cells_ok _ _ _ _ _ _ H) as (outs & O & L & G & S). exists bm, outs. split; auto. split; auto. cbv zeta in *.
  rewrite fst_combine_zrange in *. split; [rewrite L; apply zlen_zrepeat; apply zlen_nonneg|]. split.
  - intros c Hc. unfold all_faces. rewrite G, nthR_zrepeat0.
    replace (zlen (ep_cells p)) with (0 + Z.of_nat (Z.to_nat (zlen (ep_cells p)))) at 2 by lia.
    rewrite (Rsum_pick (fun i => source_term p i (nthR sat i))).
    destruct (Z.leb_spec 0 c), (Z.ltb_spec c (0 + Z.of_nat (Z.to_nat (zlen (ep_cells p))))); cbn [andb]; try lia. ring.
  - unfold all_faces. rewrite S, Rsum_zrepeat0. ring.
Qed.

Lemma face_kinds p bm sat c0 f u : face_update p bm sat c0 f = Ok u ->
  (ef_bdry f = false -> (ef_nb f < c0 -> u = None) /\ (c0 <= ef_nb f -> exists d, u = Some (ef_nb f, d))) /\
  (forall c, ef_bdry f = true -> zget (ep_cond p) (ef_bid f) = Some c -> c_type c <> Periodic -> exists d, u = Some (c0, d)) /\
  (forall c pb c1 nbf, ef_bdry f = true -> zget (ep_cond p) (ef_bid f) = Some c -> c_type c = Periodic ->
     zget (ep_partner p) (ef_bid f) = Some pb -> zget bm pb = Some (Some (c1, nbf)) ->
     (c1 < c0 -> u = None) /\ (c0 <= c1 -> exists d, u = Some (c1, d))).
Proof.
  unfold face_update. intros H. destruct (rget sat c0) as [s0| |]; try discriminate. cbn [bind] in H. destruct (ef_bdry f) eqn:B.
  - split; [discriminate|]. destruct (rget (ep_cond p) (ef_bid f)) as [c'| |] eqn:E; try discriminate. cbn [bind] in H. apply rget_Ok in E. split.
    + intros c _ Ec Np. assert (c' = c) by congruence; subst c'.
      destruct (c_type c); try congruence; (destruct (face_term _ _ _ _ _ _ _ _ _) as [d| |]; try discriminate; cbn [bind] in H; injection H as <-; eauto).
    + intros c pb c1 nbf _ Ec Np Ep Eb. assert (c' = c) by congruence; subst c'. rewrite Np in H.
      rewrite (proj2 (rget_Ok _ _ _) Ep) in H. cbn [bind] in H. rewrite (proj2 (rget_Ok _ _ _) Eb) in H. cbn [bind] in H.
      destruct (Z.ltb_spec c1 c0); [injection H as <-; split; [auto|lia]|]. split; [lia|]. intros _.
      destruct (rget sat c1); try discriminate. cbn [bind] in H.
      destruct (face_term _ _ _ _ _ _ _ _ _) as [d| |]; try discriminate. cbn [bind] in H; injection H as <-; eauto.
  - split; [|split; intros; discriminate]. intros _. destruct (Z.ltb_spec (ef_nb f) c0); [injection H as <-; split; [auto|lia]|]. split; [lia|]. intros _.
    destruct (rget sat (ef_nb f)); try discriminate. cbn [bind] in H.
    destruct (face_term _ _ _ _ _ _ _ _ _) as [d| |]; try discriminate. cbn [bind] in H; injection H as <-; eauto.
Qed.

Lemma pair_once p bm sat c0 c1 f0 f1 u0 u1 : c0 <> c1 ->
  face_update p bm sat c0 f0 = Ok u0 -> face_update p bm sat c1 f1 = Ok u1 ->
  (ef_bdry f0 = false /\ ef_bdry f1 = false /\ ef_nb f0 = c1 /\ ef_nb f1 = c0) \/
  (exists k0 k1 b0 b1, ef_bdry f0 = true /\ ef_bdry f1 = true /\
     zget (ep_cond p) (ef_bid f0) = Some k0 /\ c_type k0 = Periodic /\ zget (ep_cond p) (ef_bid f1) = Some k1 /\ c_type k1 = Periodic /\
     zget (ep_partner p) (ef_bid f0) = Some b1 /\ zget (ep_partner p) (ef_bid f1) = Some b0 /\
     zget bm b1 = Some (Some (c1, f1)) /\ zget bm b0 = Some (Some (c0, f0))) ->
  (exists d, u0 = Some (c1, d) /\ u1 = None) \/ (exists d, u0 = None /\ u1 = Some (c0, d)).
Proof.
  intros N E0 E1 [(B0 & B1 & N0 & N1)|(k0 & k1 & b0 & b1 & B0 & B1 & K0 & P0 & K1 & P1 & Q0 & Q1 & M1 & M0)].
  - destruct (face_kinds _ _ _ _ _ _ E0) as (A0 & _). destruct (face_kinds _ _ _ _ _ _ E1) as (A1 & _).
    specialize (A0 B0). specialize (A1 B1). rewrite N0 in A0. rewrite N1 in A1. destruct (Z_lt_ge_dec c0 c1).
    + left. destruct A0 as (_ & A0). destruct (A0 ltac:(lia)) as (d & ->). exists d. split; auto. apply A1. lia.
    + right. destruct A1 as (_ & A1). destruct (A1 ltac:(lia)) as (d & ->). exists d. split; auto. apply A0. lia.
  - destruct (face_kinds _ _ _ _ _ _ E0) as (_ & _ & A0). destruct (face_kinds _ _ _ _ _ _ E1) as (_ & _ & A1).
    specialize (A0 _ _ _ _ B0 K0 P0 Q0 M1). specialize (A1 _ _ _ _ B1 K1 P1 Q1 M0). destruct (Z_lt_ge_dec c0 c1).
    + left. destruct A0 as (_ & A0). destruct (A0 ltac:(lia)) as (d & ->). exists d. split; auto. apply A1. lia.
    + right. destruct A1 as (_ & A1). destruct (A1 ltac:(lia)) as (d & ->). exists d. split; auto. apply A0. lia.
Qed.

(* ---- C49 *)
Lemma upstream_ok flux G m : (forall ph s, 0 <= m ph s)%R ->
  let u := upstream true flux G m in
  let Fw := water_flux flux G (m 1 (snd u)) in
  let Fo := oil_flux flux G (m 0 (fst u)) in
  (fst u = 0 \/ fst u = 1) /\ (snd u = 0 \/ snd u = 1) /\
  ((0 <= flux)%R -> agrees (fst u) Fw /\ agrees (snd u) Fo) /\
  ((0 <= G)%R -> agrees (snd u) Fo) /\ ((G < 0)%R -> agrees (fst u) Fw) /\
  ((flux < 0)%R -> (0 <= G)%R -> fst u = 1 /\ (agrees (fst u) Fw <-> (Fw <= 0)%R)) /\
  ((flux < 0)%R -> (G < 0)%R -> snd u = 1 /\ (agrees (snd u) Fo <-> (Fo <= 0)%R)).
Proof.
  intros Hm. cbv zeta. unfold upstream, agrees, water_flux, oil_flux.
  pose proof (Hm 0 0). pose proof (Hm 0 1). pose proof (Hm 1 0). pose proof (Hm 1 1).
  destruct (Rleb_spec 0 G) as [HG|HG]; cbn [Z.eqb Pos.eqb];
  destruct (Rleb_spec 0 flux) as [HF|HF]; cbn [Z.eqb Pos.eqb];
  match goal with |- context [Rleb 0 ?e] => destruct (Rleb_spec 0 e) as [HE|HE] end; cbn [fst snd];
  repeat match goal with |- _ /\ _ => split | |- _ -> _ => intro | |- _ <-> _ => split end;
  try lra; try lia; auto;
  try (left; split; [reflexivity|nra]); try (right; split; [reflexivity|nra]);
  try match goal with H : _ \/ _ |- _ => destruct H as [[? ?]|[? ?]]; try discriminate; try lra end.
Qed.

Lemma upstream_refuted : exists flux G m, (forall ph s, 0 <= m ph s)%R /\
  let u := upstream true flux G m in
  ~ agrees (fst u) (water_flux flux G (m 1 (snd u))) /\
  (* the same face seen from the other cell *)
  upstream true (- flux) (- G) (fun ph s => m ph (1 - s)) <> (1 - fst u, 1 - snd u).
Proof.
  exists (-1)%R, 2%R, (fun ph s => if s =? 0 then 0%R else 1%R). split.
  { intros ph s. destruct (s =? 0); lra. }
  cbv zeta. unfold upstream, agrees, water_flux. destruct (Rleb_spec 0 2); [|lra]. destruct (Rleb_spec 0 (-1)); [lra|]. cbn [Z.eqb Pos.eqb].
  destruct (Rleb_spec 0 (-1 + -1 * (1 * 2))); [lra|]. cbn [fst snd]. split.
  - cbn. intros [[? ?]|[? ?]]; [discriminate|lra].
  - destruct (Rleb_spec 0 (- (2))); [lra|]. destruct (Rleb_spec 0 (- -1)); [|lra]. cbn [Z.eqb Pos.eqb Z.sub Z.add Z.opp Z.pos_sub].
    destruct (Rleb_spec 0 (- -1 + 1 * (1 * - (2)))); [lra|]. cbn. intros Q. discriminate.
Qed.
Lemma upstream_off_refuted : exists flux G m, (forall ph s, 0 <= m ph s)%R /\ (0 < flux)%R /\ snd (upstream false flux G m) = 1.
Proof.
  exists 1%R, 2%R, (fun _ _ => 1%R). split; [intros; lra|]. split; [lra|]. unfold upstream. destruct (Rleb_spec 0 0); [|lra].
  destruct (Rleb_spec 0 1); [|lra]. cbn [Z.eqb]. destruct (Rleb_spec 0 (1 + -1 * (1 * 2))); [lra|]. reflexivity.
Qed.

Lemma face_term_ok p sat c0 s0 f c1 s1 nbf wall d C0 C1 :
  zget (ep_cells p) c0 = Some C0 -> zget (ep_cells p) c1 = Some C1 -> c0 <> c1 ->
  ep_visc p = true -> ep_useg p = true -> ep_cap p = false -> vdot (ef_n f) (ef_n f) = 1%R ->
  face_term p sat c0 s0 f c1 s1 nbf wall = Ok d ->
  let K := fun i j => ((ec_perm C0 i j + ec_perm C1 i j) / 2)%R in
  let G := (ef_area f * (ep_drho p * vdot (ef_n f) (mvec K (ep_grav p))))%R in
  let m := fun ph side => if side =? 0 then ep_mob p ph c0 s0 else ep_mob p ph c1 s1 in
  let u := upstream true (ef_flux f) G m in
  let mw := m 0 (fst u) in let mo := m 1 (snd u) in
  (mw + mo <> 0)%R /\ (d = mw / (mw + mo) * water_flux (ef_flux f) G mo)%R /\
  (ef_flux f - d = mo / (mw + mo) * oil_flux (ef_flux f) G mw)%R.
Proof.
  intros G0 G1 N Hv Hg Hc Hn. unfold face_term.
  rewrite (proj2 (rget_Ok _ _ _) G0), (proj2 (rget_Ok _ _ _) G1). cbn [bind]. rewrite Hv, Hg, Hc. cbn [andb bind].
  intros Q0. cbv zeta in Q0. cbv zeta.
  revert Q0.
  set (K := fun i j => aver (ec_perm C0 i j) (ec_perm C1 i j)).
  change (fun i j => ((ec_perm C0 i j + ec_perm C1 i j) / 2)%R) with K.
  set (m := fun ph side => if side =? 0 then ep_mob p ph c0 s0 else ep_mob p ph c1 s1).
  assert (EG : (ef_area f * vdot (ef_n f) (vscale (ep_drho p) (mvec K (ep_grav p))))%R
     = (ef_area f * (ep_drho p * vdot (ef_n f) (mvec K (ep_grav p))))%R).
  { generalize (mvec K (ep_grav p)). intros [[a b] c]. unfold vdot, vscale. cbn. ring. }
  rewrite EG. set (G := (ef_area f * (ep_drho p * vdot (ef_n f) (mvec K (ep_grav p))))%R) in *.
  set (u := upstream true (ef_flux f) G m).
  set (mw := if fst u =? 0 then ep_mob p 0 c0 s0 else ep_mob p 0 c1 s1).
  set (mo := if snd u =? 0 then ep_mob p 1 c0 s0 else ep_mob p 1 c1 s1).
  destruct (fdiv 1 (mw + mo)) as [ti|] eqn:Et; [|discriminate].
  destruct (fdiv_inv _ _ _ Et) as (D & ->).
  destruct (fdiv 1 _) as [ati|] in |- *; [|discriminate].
  destruct (Z.eqb_spec c0 c1); [congruence|]. cbn [negb]. intros Q; injection Q as <-. split; auto.
  clearbody mw mo.
  match goal with |- context [(?a + (ef_area f * ?b) + 0)%R] => set (A := a); set (B := b) end.
  assert (EA : A = (mw / (mw + mo) * ef_flux f)%R).
  { unfold A. transitivity (mw / (mw + mo) * ef_flux f * vdot (ef_n f) (ef_n f))%R; [|rewrite Hn; ring].
    destruct (ef_n f) as [[a b] c]. unfold vdot, vscale. cbn. field. auto. }
  assert (EB : (ef_area f * B = mw / (mw + mo) * mo * G)%R).
  { unfold B. rewrite <- EG. generalize (vscale (ep_drho p) (mvec K (ep_grav p))). intros [[a b] c]. unfold vdot, vscale. cbn. field. auto. }
  rewrite EA, EB. unfold water_flux, oil_flux. split; field; auto.
Qed.

(* ---- C50 *)
Definition increasing (l : list Z) : Prop := forall i j a b, i <= j -> zget l i = Some a -> zget l j = Some b -> a <= b.

Lemma leaves_cover iters : increasing iters -> forall t a b, 0 <= a <= b -> b < zlen iters ->
  exists ls x y, zget iters a = Some x /\ zget iters b = Some y /\ mapM (visit_range iters) (leaves t (a, b)) = Ok ls /\ concat ls = zrange x y.
Proof.
  intros Inc. assert (Base : forall a b, 0 <= a <= b -> b < zlen iters ->
   exists ls x y, zget iters a = Some x /\ zget iters b = Some y /\ mapM (visit_range iters) [(a, b)] = Ok ls /\ concat ls = zrange x y).
  { intros a b H1 H2. destruct (zget_in_range iters a) as (x & X); [lia|]. destruct (zget_in_range iters b) as (y & Y); [lia|].
    pose proof (Inc a b x y ltac:(lia) X Y). exists [zrange x y], x, y. split; auto. split; auto. cbn [mapM]. unfold visit_range. cbn [fst snd].
    rewrite (proj2 (rget_Ok _ _ _) X), (proj2 (rget_Ok _ _ _) Y). cbn [bind]. destruct (Z.ltb_spec y x); [lia|]. split; auto. cbn. now rewrite app_nil_r. }
  induction t as [|l IHl r IHr]; intros a b H1 H2; cbn [leaves]; auto.
  destruct (divisible (a, b)) eqn:D; auto. unfold divisible in D. cbn [fst snd] in D. apply Z.ltb_lt in D.
  unfold split_range. cbn [fst snd]. rewrite Z.quot_div_nonneg by lia.
  assert (M : a <= (a + b) / 2 <= b) by (split; [apply Z.div_le_lower_bound|apply Z.div_le_upper_bound]; lia).
  set (m := (a + b) / 2) in *. clearbody m.
  destruct (IHl a m ltac:(lia) ltac:(lia)) as (l1 & x & y & X & Y & E1 & C1).
  destruct (IHr m b ltac:(lia) ltac:(lia)) as (l2 & y' & z & Y' & Z' & E2 & C2).
  assert (y' = y) by congruence; subst y'. exists (l1 ++ l2), x, z. split; auto. split; auto. split; [now apply mapM_app|].
  rewrite concat_app, C1, C2. pose proof (Inc a m x y ltac:(lia) X Y). pose proof (Inc m b y z ltac:(lia) Y Z'). rewrite <- (zrange_app x y z); auto.
Qed.

Lemma zget_increasing_sorted l : StronglySorted Z.le l -> increasing l.
Proof.
  induction 1 as [|x l Hl IH Hx]; intros i j a b Hij Ga Gb.
  - apply zget_Some_range in Ga. unfold zlen in Ga. cbn in Ga. lia.
  - pose proof (zget_Some_range _ _ _ Ga) as Ra. pose proof (zget_Some_range _ _ _ Gb) as Rb. unfold zlen in *; cbn [length] in *.
    rewrite zget_nth in Ga by lia. rewrite zget_nth in Gb by lia.
    destruct (Z.eq_dec i 0) as [->|Ni].
    + cbn in Ga. injection Ga as <-. destruct (Z.eq_dec j 0) as [->|Nj]; [cbn in Gb; injection Gb as <-; lia|].
      replace (Z.to_nat j) with (S (Z.to_nat (j - 1))) in Gb by lia. cbn in Gb. rewrite Forall_forall in Hx. apply Hx. eapply nth_error_In; eauto.
    + replace (Z.to_nat i) with (S (Z.to_nat (i - 1))) in Ga by lia. replace (Z.to_nat j) with (S (Z.to_nat (j - 1))) in Gb by lia. cbn in Ga, Gb.
      apply (IH (i - 1) (j - 1)); [lia| |]; rewrite zget_nth by lia; auto.
Qed.

Lemma sorted_filter_zrange (f : Z -> bool) n k a m : Z.of_nat k = n - a -> n <= m ->
  StronglySorted Z.le (filter f (zrange a n) ++ [m]).
Proof.
  revert a. induction k as [|k IH]; intros a Hk Hm.
  - rewrite zrange_empty by lia. cbn. repeat constructor.
  - rewrite zrange_cons by lia. cbn [filter]. pose proof (IH (a + 1) ltac:(lia) Hm) as S. destruct (f a); auto. cbn [app].
    constructor; auto. apply Forall_forall. intros x Hx. apply in_app_or in Hx. destruct Hx as [Hx|[<-|[]]]; [|lia].
    apply filter_In in Hx. destruct Hx as (Hx & _). apply In_zrange in Hx. lia.
Qed.

Lemma iters_first n : 0 <= n -> exists l, cell_iters [] n = (if n =? 0 then [] else [0]) ++ l ++ [n].
Proof.
  intros Hn. unfold cell_iters. cbn [app]. destruct (Z.eqb_spec n 0) as [->|N].
  - exists []. reflexivity.
  - rewrite zrange_cons by lia. cbn [filter]. rewrite Zmod_0_l. cbn [Z.eqb]. eexists. reflexivity.
Qed.
Lemma iters_ends n : 0 <= n -> zget (cell_iters [] n) 0 = Some 0 /\ zget (cell_iters [] n) (zlen (cell_iters [] n) - 1) = Some n /\ 1 <= zlen (cell_iters [] n).
Proof.
  intros Hn. destruct (iters_first n Hn) as (l & E). split; [|split].
  - rewrite E. destruct (Z.eqb_spec n 0) as [->|].
    + cbn [app]. unfold cell_iters in E. rewrite zrange_empty in E by lia. cbn in E. destruct l; [reflexivity|destruct l; discriminate].
    + reflexivity.
  - rewrite E, app_assoc. rewrite zlen_app. change (zlen [n]) with 1.
    pose proof (zlen_nonneg ((if n =? 0 then [] else [0]) ++ l)).
    rewrite zget_app_r by lia. replace (_ + 1 - 1 - _) with 0 by lia. reflexivity.
  - rewrite E, app_assoc, zlen_app. change (zlen [n]) with 1. pose proof (zlen_nonneg ((if n =? 0 then [] else [0]) ++ l)). lia.
Qed.

Lemma blocks_ok n t : 0 <= n -> visit_all (cell_iters [] n) t = Ok (zrange 0 n).
Proof.
  intros Hn. destruct (iters_ends n Hn) as (F & L & P). unfold visit_all.
  assert (Inc : increasing (cell_iters [] n)).
  { apply zget_increasing_sorted. unfold cell_iters. cbn [app]. apply (sorted_filter_zrange _ n (Z.to_nat n)); lia. }
  destruct (leaves_cover _ Inc t 0 (zlen (cell_iters [] n) - 1)) as (ls & x & y & X & Y & E & C); try lia.
  rewrite E. cbn [bind]. rewrite C. congruence.
Qed.

Lemma blocks_serial old n : 0 <= n -> (exists l, old = 0 :: l) ->
  visit_all (cell_iters old n) Leaf = Ok (zrange 0 n).
Proof.
  intros Hn (l & ->). unfold visit_all, cell_iters. cbn [leaves mapM]. unfold visit_range. cbn [fst snd].
  set (fl := filter (fun c => c mod Z.min 50 n =? 0) (zrange 0 n)). rewrite app_assoc.
  pose proof (zlen_nonneg ((0 :: l) ++ fl)). rewrite zlen_app. change (zlen [n]) with 1.
  unfold rget at 1. rewrite <- app_assoc. change (zget ((0 :: l) ++ fl ++ [n]) 0) with (Some 0). cbn [bind].
  rewrite app_assoc. unfold rget. rewrite zget_app_r by lia.
  replace (zlen ((0 :: l) ++ fl) + 1 - 1 - zlen ((0 :: l) ++ fl)) with 0 by lia. change (zget [n] 0) with (Some n). cbn [bind].
  destruct (Z.ltb_spec n 0); [lia|]. cbn. now rewrite app_nil_r.
Qed.
Lemma blocks_refuted : exists n t, visit_all (cell_iters (cell_iters [] n) n) t = UB.
Proof. exists 1, (Node Leaf (Node Leaf Leaf)). reflexivity. Qed.

Lemma source_term_net p c s : source_term p c s = net_source p c s.
Proof. unfold source_term, net_source, Rmax. destruct (Rltb_spec (ep_inj p c) 0), (Rle_dec (ep_inj p c) 0), (Rle_dec (- ep_inj p c) 0); lra. Qed.
Lemma residual_net p sat r : compute_residual p sat = Ok r ->
  exists bm outs, build_bid_map p = Ok bm /\
    mapM (fun cf => face_update p bm sat (fst cf) (snd cf)) (all_faces (ep_cells p)) = Ok outs /\
    let ts := combine (all_faces (ep_cells p)) outs in
    zlen r = zlen sat /\
    (forall c, 0 <= c < zlen (ep_cells p) ->
       nthR r c = (net_source p c (nthR sat c) + Rsum (map (contribution c) ts))%R) /\
    (Rsum r = Rsum (map (fun c => net_source p c (nthR sat c)) (zrange 0 (zlen (ep_cells p)))) - Rsum (map wall_term ts))%R.
Proof.
  intros H. destruct (residual_ok _ _ _ H) as (bm & outs & A & B & C & D & E). exists bm, outs. split; auto. split; auto. cbv zeta. split; auto. split.
  - intros c Hc. rewrite D by auto. now rewrite source_term_net.
  - rewrite E. f_equal. apply Rsum_map_ext. intros c _. apply source_term_net.
Qed.
