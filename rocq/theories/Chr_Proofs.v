(* Proofs about a chopper that is used several times. *)
From Coq Require Import Lra.
From Verif Require Import RBaseFacts BaseFacts Cap_Proofs7 Euler_Proofs2 Chop_Proofs Grd_Proofs2 Chr_Spec.
Open Scope Z_scope.

Lemma writes_both {A} : forall (ws : list (Z * A)) l l', zlen l = zlen l' ->
  (writes ws l = UB /\ writes ws l' = UB) \/ exists r r', writes ws l = Ok r /\ writes ws l' = Ok r' /\ zlen r = zlen l /\ zlen r' = zlen l /\ forall i, In i (map fst ws) \/ zget l i = zget l' i -> zget r i = zget r' i.
Proof.
  unfold writes. induction ws as [|[p v] t IH]; intros l l' HL.
  - right. exists l, l'. cbn. split; [reflexivity|]. split; [reflexivity|]. split; [reflexivity|]. split; [congruence|]. intros i [[]|H]. exact H.
  - cbn [foldM fst snd]. destruct (rset l p v) as [l1| |] eqn:E.
    + destruct (rset_zget _ _ _ _ E) as (Z1 & Z2 & Z3). assert (exists l2, rset l' p v = Ok l2) as (l2 & E'). { unfold rset in *. rewrite <- HL. destruct ((0 <=? p) && (p <? zlen l)); [eexists; reflexivity|discriminate]. }
      rewrite E'. cbn [bind]. destruct (rset_zget _ _ _ _ E') as (Y1 & Y2 & Y3). destruct (IH l1 l2 ltac:(lia)) as [(U1 & U2)|(r & r' & R1 & R2 & R3 & R4 & R5)]; [left; auto|]. right. exists r, r'. split; [exact R1|]. split; [exact R2|]. split; [lia|]. split; [lia|]. intros i Hi. apply R5. cbn [map fst In] in Hi.
      destruct (Z.eq_dec i p) as [->|N]; [right; congruence|]. destruct Hi as [[Hi|Hi]|Hi]; [congruence|left; exact Hi|right; rewrite Z3, Y3 by exact N; exact Hi].
    + exfalso. unfold rset in E. destruct ((0 <=? p) && (p <? zlen l)); discriminate.
    + left. split; [reflexivity|]. unfold rset in *. rewrite <- HL. destruct ((0 <=? p) && (p <? zlen l)); [discriminate|reflexivity].
Qed.
Lemma writes_all {A} (ws : list (Z * A)) l l' : zlen l = zlen l' -> (forall i, 0 <= i < zlen l -> In i (map fst ws)) -> writes ws l = writes ws l'.
Proof.
  intros HL HC. destruct (writes_both ws l l' HL) as [(-> & ->)|(r & r' & -> & -> & R3 & R4 & R5)]; [reflexivity|]. f_equal. apply zlist_ext; [lia|]. intros i Hi. apply R5. left. apply HC. lia.
Qed.
Lemma resize_len {A} (prev : list A) n x : 0 <= n -> exists l, resize prev n x = Ok l /\ zlen l = n.
Proof.
  intros Hn. unfold resize. destruct (Z.ltb_spec n 0); [lia|]. eexists. split; [reflexivity|]. rewrite zlen_app. destruct (Z_le_gt_dec (zlen prev) n) as [L|L].
  - rewrite zlen_zrepeat by lia. unfold zlen in *. rewrite firstn_length. lia.
  - replace (zrepeat x (n - zlen prev)) with (@nil A) by (unfold zrepeat; replace (Z.to_nat (n - zlen prev)) with 0%nat by lia; reflexivity). unfold zlen in *. rewrite firstn_length. cbn. lia.
Qed.
Lemma resize_neg {A} (prev : list A) n x : n < 0 -> resize prev n x = Throw.
Proof. intros H. unfold resize. destruct (Z.ltb_spec n 0); [reflexivity|lia]. Qed.
Lemma mapM_in {A C} (f : A -> res (list (Z * C))) l bs a p : mapM f l = Ok bs -> In a l -> (forall b, f a = Ok b -> In p (map fst b)) -> In p (map fst (concat bs)).
Proof.
  intros HM HI HF. apply mapM_Ok in HM. revert HI. induction HM as [|x y l bs E H IH]; [intros []|]. intros [->|HI]; cbn [concat]; rewrite map_app, in_app_iff; [left; apply HF; exact E|right; apply IH; exact HI].
Qed.
Lemma ok_inj {A} (a b : A) : Ok a = Ok b -> a = b.
Proof. congruence. Qed.
(* COORD *)
Lemma coord_same prev g imin imax jmin jmax zmin zmax reset : imin < imax -> jmin < jmax -> chop_coord_on prev g imin imax jmin jmax zmin zmax reset = chop_coord g imin imax jmin jmax zmin zmax reset.
Proof.
  intros Hi Hj. unfold chop_coord_on, chop_coord. destruct (negb _); [reflexivity|]. destruct (rget _ _) as [xc| |]; cbn [bind]; try reflexivity. destruct (rget _ _) as [yc| |]; cbn [bind]; try reflexivity.
  set (nnx := imax - imin). set (nny := jmax - jmin). set (n := 6 * (nnx + 1) * (nny + 1)). assert (0 <= n) as Hn by (unfold n, nnx, nny; nia). destruct (resize_len prev n fill_value Hn) as (l & -> & LL). unfold vresize. destruct (Z.ltb_spec n 0); [lia|]. cbn [bind].
  destruct (mapM _ _) as [ws| |] eqn:EM; cbn [bind]; try reflexivity. apply writes_all; [rewrite zlen_zrepeat by lia; exact LL|]. intros p Hp. rewrite LL in Hp.
  set (q := p / 6). set (c := p mod 6). assert (p = 6 * q + c) as Ep by (apply Z.div_mod; lia). pose proof (Z.mod_pos_bound p 6 ltac:(lia)) as Hc. fold c in Hc.
  set (x := q mod (nnx + 1)). set (y := q / (nnx + 1)). assert (q = (nnx + 1) * y + x) as Eq by (apply Z.div_mod; unfold nnx; lia). pose proof (Z.mod_pos_bound q (nnx + 1) ltac:(unfold nnx; lia)) as Hx. fold x in Hx.
  assert (0 <= q < (nnx + 1) * (nny + 1)) as Hq by (unfold n in Hp; lia). assert (0 < nnx + 1) as Hx1 by (unfold nnx; lia). assert (0 <= y < nny + 1) as Hy by (split; [apply Z.div_pos; lia|apply Z.div_lt_upper_bound; lia]).
  assert (In (y + jmin, x + imin) (pairs (zrange jmin (jmax + 1)) (zrange imin (imax + 1)))) as HI by (apply In_pairs; rewrite !In_zrange; unfold nnx, nny in *; lia).
  apply (mapM_in _ _ _ _ _ EM HI). intros b Hb. unfold pillar_writes in Hb. cbn [fst snd] in Hb. replace (y + jmin - jmin) with y in Hb by lia. replace (x + imin - imin) with x in Hb by lia. rewrite <- Eq in Hb.
  repeat match type of Hb with bind ?e _ = _ => destruct e as [?| |]; cbn [bind] in Hb; try discriminate end. apply ok_inj in Hb. subst b. assert (c = 0 \/ c = 1 \/ c = 2 \/ c = 3 \/ c = 4 \/ c = 5) as Hc6 by lia. rewrite Ep. destruct reset; cbn [map fst In]; clear -Hc6; (destruct Hc6 as [Hc6|[Hc6|[Hc6|[Hc6|[Hc6|Hc6]]]]]; [left|right; left|do 2 right; left|do 3 right; left|do 4 right; left|do 5 right; left]; lia).
Qed.
(* ZCORN *)
Lemma zcorn_covered g imin imax jmin jmax kmin kmax zlo zhi corr ws : imin < imax -> jmin < jmax -> kmin <= kmax ->
  mapM (cell_writes g imin jmin kmin (imax - imin) (jmax - jmin) zlo zhi corr) (triples (zrange kmin kmax) (zrange jmin jmax) (zrange imin imax)) = Ok ws ->
  forall p, 0 <= p < 8 * (imax - imin) * (jmax - jmin) * (kmax - kmin) -> In p (map fst (concat ws)).
Proof.
  intros Hi Hj Hk EM p Hp. destruct (corner_decomp (imax - imin) (jmax - jmin) (kmax - kmin) p ltac:(lia) ltac:(lia) Hp) as (i & j & k & ci & cj & ck & Ri & Rj & Rk & Bi & Bj & Bk & Ep).
  assert (In (k + kmin, (j + jmin, i + imin)) (triples (zrange kmin kmax) (zrange jmin jmax) (zrange imin imax))) as HI by (apply In_triples; rewrite !In_zrange; lia).
  apply (mapM_in _ _ _ _ _ EM HI). intros b Hb. unfold cell_writes in Hb. cbn [fst snd] in Hb. replace (i + imin - imin) with i in Hb by lia. replace (j + jmin - jmin) with j in Hb by lia. replace (k + kmin - kmin) with k in Hb by lia.
  rewrite Ep, <- (corner_off_no (imax - imin) (jmax - jmin) i j k ci cj ck Bi Bj Bk). set (cc := ci + 2 * cj + 4 * ck). assert (In cc (zrange 0 8)) as HC by (apply In_zrange; unfold cc; destruct Bi, Bj, Bk; lia).
  clearbody cc. clear EM HI. apply mapM_Ok in Hb. revert HC. induction Hb as [|x y l bs E H IH]; [intros []|]. intros [->|HC]; cbn [map In]; [left|right; apply IH; exact HC]. destruct (rget _ _) as [z| |] in E; cbn [bind] in E; try discriminate. apply ok_inj in E. subst y. reflexivity.
Qed.
Lemma zlen_triples ks js is : zlen (triples ks js is) = zlen ks * (zlen js * zlen is).
Proof.
  assert (forall A B (f : A -> list B) l n, (forall a, zlen (f a) = n) -> zlen (flat_map f l) = zlen l * n) as G.
  { intros A B f l n H. induction l as [|a t IH]; [reflexivity|]. cbn [flat_map]. rewrite zlen_app, IH, H. unfold zlen. cbn [length]. lia. }
  unfold triples, pairs. apply G. intros k. rewrite zlen_map. apply G. intros j. apply zlen_map.
Qed.
Definition absent (d : cdeck) (m : members) : Prop :=
  (dk_actnum d = None -> m_actnum m = []) /\ (dk_poro d = None -> m_poro m = []) /\ (dk_ntg d = None -> m_ntg m = []) /\ (dk_swcr d = None -> m_swcr m = []) /\ (dk_sowcr d = None -> m_sowcr m = []) /\
  (dk_permx d = None -> m_permx m = []) /\ (dk_permy d = None -> m_permy m = []) /\ (dk_permz d = None -> m_permz m = []) /\ (dk_satnum d = None -> m_satnum m = []).
Lemma filter_same {A} (prev : list A) kw cmap : (kw = None -> prev = []) -> filter_on prev kw cmap = filter_keyword kw cmap.
Proof. intros H. destruct kw; [reflexivity|]. cbn. rewrite H; reflexivity. Qed.
Lemma filter_absent {A} (prev : list A) kw cmap f : (kw = None -> prev = []) -> filter_on prev kw cmap = Ok f -> kw = None -> f = [].
Proof. intros H E ->. cbn in E. rewrite H in E by reflexivity. congruence. Qed.
Ltac stepin H := match type of H with
  | step ?e _ _ = _ => let E := fresh "E" in destruct e as [?| |] eqn:E; cbn [step] in H
  | (if ?b then _ else _) = _ => destruct b
  end.
Lemma keeps d s s' imin imax jmin jmax zmin zmax reset : absent d (cs_mem s) -> chop_on d s imin imax jmin jmax zmin zmax reset = Done s' \/ chop_on d s imin imax jmin jmax zmin zmax reset = Raised s' -> absent d (cs_mem s').
Proof.
  intros (A1 & A2 & A3 & A4 & A5 & A6 & A7 & A8 & A9) H. assert (exists o, chop_on d s imin imax jmin jmax zmin zmax reset = o /\ (o = Done s' \/ o = Raised s')) as (o & EO & HO) by (eexists; split; [reflexivity|exact H]). clear H. unfold chop_on in EO. cbv zeta in EO.
  repeat stepin EO; subst o; (destruct HO as [HO|HO]; [try discriminate HO; injection HO as <-|try discriminate HO; injection HO as <-]); unfold absent; cbn [cs_mem set_coord set_dims set_nz set_zcorn m_actnum m_poro m_ntg m_swcr m_sowcr m_permx m_permy m_permz m_satnum] in *; repeat split; try assumption; eapply filter_absent; eassumption.
Qed.
Lemma history_absent d s : history d s -> absent d (cs_mem s).
Proof. induction 1; [repeat split|]. eapply keeps; eassumption. Qed.
Lemma zlen_zr a b : a <= b -> zlen (zrange a b) = b - a.
Proof. apply zlen_zrange. Qed.
Lemma reuse d s imin imax jmin jmax zmin zmax reset : imin < imax -> jmin < jmax -> absent d (cs_mem s) ->
  match chop_deck d imin imax jmin jmax zmin zmax reset with
  | Ok m => exists nm, chop_on d s imin imax jmin jmax zmin zmax reset = Done (mkCs m nm)
  | Throw => exists s', chop_on d s imin imax jmin jmax zmin zmax reset = Raised s'
  | UB => chop_on d s imin imax jmin jmax zmin zmax reset = Undef
  end.
Proof.
  intros Hi Hj (A1 & A2 & A3 & A4 & A5 & A6 & A7 & A8 & A9). unfold chop_deck, chop, chop_on. cbv zeta. rewrite coord_same by assumption. cbn [set_coord set_dims set_nz set_zcorn cs_mem cs_map m_coord m_zcorn m_actnum m_poro m_ntg m_swcr m_sowcr m_permx m_permy m_permz m_satnum].
  destruct (chop_coord _ _ _ _ _ _ _ _) as [co| |]; cbn [bind step]; [|eexists; reflexivity|reflexivity].
  destruct (negb _); [eexists; reflexivity|]. destruct (botmax _) as [bm| |]; cbn [bind step]; [|eexists; reflexivity|reflexivity]. destruct (topmin _) as [tm| |]; cbn [bind step]; [|eexists; reflexivity|reflexivity].
  destruct (Rleb _ _); [eexists; reflexivity|]. destruct (find_kmin _ _ _) as [kmin| |]; cbn [bind step]; [|eexists; reflexivity|reflexivity]. destruct (find_kmax _ _ _) as [kmax| |]; cbn [bind step]; [|eexists; reflexivity|reflexivity].
  set (n := (imax - imin) * (jmax - jmin) * (kmax - kmin)). replace (8 * (imax - imin) * (jmax - jmin) * (kmax - kmin)) with (8 * n) by (unfold n; ring). unfold vresize. destruct (Z.ltb_spec (8 * n) 0) as [LN|LN].
  { rewrite resize_neg by exact LN. cbn [bind step]. eexists. reflexivity. }
  assert (kmin <= kmax) as HK by (unfold n in LN; assert (0 < (imax - imin) * (jmax - jmin)) by nia; nia). destruct (Z.ltb_spec n 0); [lia|].
  destruct (resize_len (m_zcorn (cs_mem s)) (8 * n) fill_value LN) as (lz & -> & LZ). cbn [bind step]. destruct (resize_len (cs_map s) n (-1) ltac:(lia)) as (lm & -> & LM). cbn [bind step].
  set (cells := triples _ _ _). set (cmap := map _ cells). assert (zlen cmap = n) as LC by (unfold cmap, cells; rewrite zlen_map, zlen_triples, !zlen_zr by lia; unfold n; ring).
  rewrite (writes_all (combine (zrange 0 (zlen cmap)) cmap) (zrepeat (-1) n) lm).
  2:{ rewrite zlen_zrepeat by lia. lia. }
  2:{ rewrite zlen_zrepeat by lia. intros i Hi0. assert (map fst (combine (zrange 0 (zlen cmap)) cmap) = zrange 0 (zlen cmap)) as ->. { apply Euler_Proofs2.fst_combine_zrange. } apply In_zrange. lia. }
  destruct (writes (combine _ _) lm) as [nmap| |]; cbn [bind step]; [|eexists; reflexivity|reflexivity]. destruct (mapM _ cells) as [ws| |] eqn:EM; cbn [bind step]; [|eexists; reflexivity|reflexivity].
  rewrite (writes_all (concat ws) (zrepeat fill_value (8 * n)) lz).
  2:{ rewrite zlen_zrepeat by lia. lia. }
  2:{ rewrite zlen_zrepeat by lia. intros p Hp. apply (zcorn_covered _ _ _ _ _ _ _ _ _ _ _ Hi Hj HK EM). unfold n in Hp. lia. }
  destruct (writes (concat ws) lz) as [zc| |]; cbn [bind step]; [|eexists; reflexivity|reflexivity]. cbn [c_map c_nx c_ny c_nz c_coord c_zcorn].
  rewrite !filter_same by assumption. repeat (match goal with |- context [filter_keyword ?k ?c] => destruct (filter_keyword k c) as [?| |]; cbn [bind step]; [|eexists; reflexivity|reflexivity] end). eexists. reflexivity.
Qed.
Lemma reuse_history d s imin imax jmin jmax zmin zmax reset : history d s -> imin < imax -> jmin < jmax ->
  match chop_deck d imin imax jmin jmax zmin zmax reset with
  | Ok m => exists s', chop_on d s imin imax jmin jmax zmin zmax reset = Done s' /\ cs_mem s' = m
  | Throw => exists s', chop_on d s imin imax jmin jmax zmin zmax reset = Raised s'
  | UB => chop_on d s imin imax jmin jmax zmin zmax reset = Undef
  end.
Proof.
  intros HH Hi Hj. pose proof (reuse d s imin imax jmin jmax zmin zmax reset Hi Hj (history_absent d s HH)) as H. destruct (chop_deck _ _ _ _ _ _ _ _) as [m| |]; [|exact H|exact H]. destruct H as (nm & H). exists (mkCs m nm). split; [exact H|reflexivity].
Qed.
(* a failed chop *)
Lemma failed d s imin imax jmin jmax zmin zmax reset bm tm : wf_arrays (g_nx (dk_grid d)) (g_ny (dk_grid d)) (g_nz (dk_grid d)) (g_coord (dk_grid d)) (g_zcorn (dk_grid d)) -> box_within (g_nx (dk_grid d)) (g_ny (dk_grid d)) imin imax jmin jmax ->
  is_bottom_max (g_nx (dk_grid d)) (g_ny (dk_grid d)) (g_zcorn (dk_grid d)) bm -> is_top_min (g_nx (dk_grid d)) (g_ny (dk_grid d)) (g_nz (dk_grid d)) (g_zcorn (dk_grid d)) tm -> (Rmin zmax tm <= Rmax zmin bm)%R ->
  exists s', chop_on d s imin imax jmin jmax zmin zmax reset = Raised s' /\ let m := cs_mem s in let m' := cs_mem s' in
    m_nx m' = imax - imin /\ m_ny m' = jmax - jmin /\ zlen (m_coord m') = 6 * (imax - imin + 1) * (jmax - jmin + 1) /\
    (exists xc yc, zget (g_coord (dk_grid d)) (pillar_no (g_nx (dk_grid d)) imin jmin 0) = Some xc /\ zget (g_coord (dk_grid d)) (pillar_no (g_nx (dk_grid d)) imin jmin 1) = Some yc /\
      forall i j c v, 0 <= i <= imax - imin -> 0 <= j <= jmax - jmin -> 0 <= c < 6 -> zget (g_coord (dk_grid d)) (pillar_no (g_nx (dk_grid d)) (i + imin) (j + jmin) c) = Some v ->
      exists w, zget (m_coord m') (pillar_no (imax - imin) i j c) = Some w /\ (reset = false -> w = v) /\
        (reset = true -> (c = 0 \/ c = 3 -> w = (v - xc)%R) /\ (c = 1 \/ c = 4 -> w = (v - yc)%R) /\ (c = 2 -> w = 0%R) /\ (c = 5 -> w = (zmax - zmin)%R))) /\
    m_nz m' = m_nz m /\ m_zcorn m' = m_zcorn m /\ m_actnum m' = m_actnum m /\ m_poro m' = m_poro m /\ m_ntg m' = m_ntg m /\ m_swcr m' = m_swcr m /\ m_sowcr m' = m_sowcr m /\
    m_permx m' = m_permx m /\ m_permy m' = m_permy m /\ m_permz m' = m_permz m /\ m_satnum m' = m_satnum m.
Proof.
  intros WF (B1 & B2 & B3 & B4) HB HT HZ. destruct (chop_coord_ok (dk_grid d) WF imin imax jmin jmax (conj B1 B2) (conj B3 B4) zmin zmax reset) as (nc & xc & yc & Enc & Hx & Hy & Hnc & Hall).
  destruct (botmax_ok _ WF) as (bm' & Ebm & Hbm'). destruct (topmin_ok _ WF) as (tm' & Etm & Htm'). assert (bm' = bm) by (eapply bottom_max_unique; eassumption). subst bm'. assert (tm' = tm) by (eapply top_min_unique; eassumption). subst tm'.
  unfold chop_on. cbv zeta. rewrite coord_same by lia. rewrite Enc. cbn [step]. pose proof (wf_zcorn _ _ _ _ _ WF) as ZL. destruct (Z.eqb_spec (zlen (g_zcorn (dk_grid d))) (layersz (dk_grid d) * g_nz (dk_grid d))) as [_|Hne]; [|exfalso; apply Hne; unfold layersz; exact ZL]. cbn [negb]. rewrite Ebm, Etm. cbn [step]. rewrite smax_Rmax, smin_Rmin. destruct (Rleb_spec (Rmin zmax tm) (Rmax zmin bm)); [|lra].
  eexists. split; [reflexivity|]. cbn [cs_mem set_coord set_dims m_nx m_ny m_nz m_coord m_zcorn m_actnum m_poro m_ntg m_swcr m_sowcr m_permx m_permy m_permz m_satnum].
  split; [reflexivity|]. split; [reflexivity|]. split; [exact Hnc|]. split; [|repeat split; reflexivity].
  exists xc, yc. split; [exact Hx|]. split; [exact Hy|]. intros i j c v Hi Hj Hc Hv. eexists. split; [apply (Hall i j c v Hi Hj Hc Hv)|]. unfold coord_new. split; [intros ->; reflexivity|]. intros ->.
  repeat split; intros; repeat match goal with H : _ \/ _ |- _ => destruct H end; subst c; reflexivity.
Qed.
(* the second of two chops fails *)
Lemma one_failed : exists s s', history Grd_Proofs2.one_deck s /\ chop_on Grd_Proofs2.one_deck s 0 1 0 1 3 4 true = Raised s' /\ m_nz (cs_mem s') = 1.
Proof.
  destruct slanted_meets as (H1 & H2 & H3 & H4 & out & H5 & H6). destruct (Grd_Proofs2.contents Grd_Proofs2.one_deck 0 1 0 1 1 2 true out H1 H2 Grd_Proofs2.one_deck_ok H5) as (m & E & _ & HI & _). pose proof (reuse_history Grd_Proofs2.one_deck fresh 0 1 0 1 1 2 true (History_new _) ltac:(lia) ltac:(lia)) as H. rewrite E in H. destruct H as (s & HS & HM).
  destruct (failed Grd_Proofs2.one_deck s 0 1 0 1 3 4 true 1 2 H1 H2 H3 H4) as (s' & HR & F). { unfold Rmin, Rmax. repeat destruct Rle_dec; lra. }
  exists s, s'. split; [eapply History_chop; [apply History_new|left; exact HS]|]. split; [exact HR|]. cbv zeta in F. destruct F as (_ & _ & _ & _ & FZ & _). rewrite FZ, HM.
  apply Grd_Proofs2.in_sub in HI. repeat (destruct HI as [HI|HI]; [first [discriminate HI|destruct HI as (_ & HI); discriminate HI|injection HI as _ _ HI; rewrite <- HI; exact H6]|]). destruct HI as (_ & HI). discriminate HI.
Qed.
(* two chops of one chopper *)
Lemma one_history : exists s, history Grd_Proofs2.one_deck s /\ s <> fresh.
Proof.
  destruct slanted_meets as (H1 & H2 & H3 & H4 & out & H5 & H6). destruct (Grd_Proofs2.contents Grd_Proofs2.one_deck 0 1 0 1 1 2 true out H1 H2 Grd_Proofs2.one_deck_ok H5) as (m & E & _ & HI & _). pose proof (reuse_history Grd_Proofs2.one_deck fresh 0 1 0 1 1 2 true (History_new _) ltac:(lia) ltac:(lia)) as H. rewrite E in H. destruct H as (s' & HS & HM).
  exists s'. split; [eapply History_chop; [apply History_new|left; exact HS]|]. intros ->. subst m. apply Grd_Proofs2.in_sub in HI. cbn in HI. repeat (destruct HI as [HI|HI]; [try discriminate HI; destruct HI as (_ & HI); discriminate HI|]). destruct HI as (_ & HI). discriminate HI.
Qed.
