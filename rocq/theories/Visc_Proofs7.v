From Verif Require Import BaseFacts RBaseFacts Bgrid_Proofs Steady_Proofs Shape_Proofs2 Relp_Proofs Mpi_Proofs Eups_Proofs Cap_Proofs Cap_Proofs2 Cap_Proofs4 Cap_Proofs8 Visc_Proofs2 Visc_Proofs3 Visc_Proofs4 Visc_Proofs5 Visc_Proofs6 Visc_Spec.
Open Scope Z_scope.

Ltac nine v H := let Hv := fresh in assert (Hv : v = 0 \/ v = 1 \/ v = 2 \/ v = 3 \/ v = 4 \/ v = 5 \/ v = 6 \/ v = 7 \/ v = 8) by lia;
  destruct Hv as [-> | [-> | [-> | [-> | [-> | [-> | [-> | [-> | ->]]]]]]]].
Lemma voigt_element k v : zlen k = 9 -> 0 <= v < 9 -> get_voigt k v = Ok (tensor_of k (element_row v) (element_col v)).
Proof.
  intros L H. unfold get_voigt, tensor_of. nine v H; cbn -[rget]; 
  match goal with |- (let* p := rget voigt_tab ?i in _) = _ => let w := eval vm_compute in (rget voigt_tab i) in change (rget voigt_tab i) with w end; cbn [bind];
  rewrite nthR_rget by lia; reflexivity.
Qed.
Lemma voigt_row k tec : zlen k = 9 -> 0 <= tec <= 9 -> exists row, mapM (get_voigt k) (zrange 0 tec) = Ok row /\ zlen row = tec /\
  forall v, 0 <= v < tec -> nthR row v = tensor_of k (element_row v) (element_col v).
Proof.
  intros L H. exists (map (fun v => tensor_of k (element_row v) (element_col v)) (zrange 0 tec)). split.
  - apply mapM_all_Ok. intros v Hv. apply In_zrange in Hv. apply voigt_element; [exact L|lia].
  - split; [unfold zlen; rewrite map_length, zrange_length; lia|]. intros v Hv. unfold nthR. rewrite zget_map, zget_zrange by lia. reflexivity.
Qed.
Lemma point_spec x cells tol l inv up tec ph q : vproper x (map fst cells) -> (exists cv, In cv (vrocky x cells) /\ (0 < vpore x cv)%R) ->
    (forall cv, In cv (vrocky x cells) -> (0 <= vpore x cv)%R /\ (0 <= cv_minx (water_curve x (fst cv)) <= cv_maxx (water_curve x (fst cv)))%R /\ (cv_maxx (water_curve x (fst cv)) <= 1)%R) ->
  visc_limits x tol cells = Ok l -> curves_shaped (vi_aniso x) inv -> zlen inv = zlen (vi_rocks x) -> 0 <= tec <= 9 ->
  (forall ts, exists k, up ts = Ok k /\ zlen k = 9) ->
  exists s row ts k, visc_point x inv l (map fst cells) up tec ph q = Ok (s, row) /\
    (s * sum_cells (vpore x) (vrocky x cells) = sum_cells (fun cv => cell_sat x inv q (fst cv) * vpore x cv) (vrocky x cells))%R /\
    visc_perms x ph (stone_sats (vi_aniso x) inv q) (map fst cells) = Ok ts /\ up ts = Ok k /\ zlen row = tec /\
    (forall v, 0 <= v < tec -> nthR row v = tensor_of k (element_row v) (element_col v)).
Proof.
  intros Pr Ex Cu E Sh Li Ht Up. destruct (vlimits_spec x cells tol Pr Ex Cu) as (l' & E' & Po & Pp & _ & Lr & _). rewrite E in E'. injection E' as <-.
  destruct (sat_values x cells tol l inv q Pr Ex Cu E Sh Li) as (s & Es & V). unfold visc_values in Es.
  rewrite water_ok in Es by (assumption || lia). cbn [bind fst] in Es. rewrite mdiv_ok in Es by lra. cbn [bind] in Es. injection Es as Es.
  destruct (perms_spec x (map fst cells) ph (stone_sats (vi_aniso x) inv q) Pr) as (m & _ & Pm).
  { unfold stone_sats. rewrite zlen_map, zlen_zrange; pose proof (zlen_nonneg inv); lia. }
  cbn zeta in Pm. match type of Pm with _ = Ok ?u => set (ts := u) in * end. destruct (Up ts) as (k & Ek & Lk). destruct (voigt_row k tec Lk Ht) as (row & Er & Lrow & Gr).
  exists s, row, ts, k. split; [|auto]. unfold visc_point. rewrite water_ok by (assumption || lia). cbn [bind fst snd]. fold (stone_sats (vi_aniso x) inv q). rewrite Pm. cbn [bind]. rewrite Ek. cbn [bind].
  rewrite mdiv_ok by lra. cbn [bind]. rewrite Er. cbn [bind]. now rewrite Es.
Qed.
(* the saturation stored does not depend on the phase *)
Lemma point_same x inv l ecl up tec q s row s' row' : visc_point x inv l ecl up tec 0 q = Ok (s, row) -> visc_point x inv l ecl up tec 1 q = Ok (s', row') -> s = s'.
Proof.
  unfold visc_point. destruct (visc_water _ _ _ _) as [w| |]; cbn [bind]; try discriminate.
  destruct (visc_perms x 0 _ _) as [t| |]; cbn [bind]; try discriminate. destruct (up t) as [k| |]; cbn [bind]; try discriminate.
  destruct (visc_perms x 1 _ _) as [t'| |]; cbn [bind]; try discriminate. destruct (up t') as [k'| |]; cbn [bind]; try discriminate.
  destruct (mdiv _ _) as [d| |]; cbn [bind]; try discriminate. destruct (mapM (get_voigt k) _) as [r| |]; cbn [bind]; try discriminate. destruct (mapM (get_voigt k') _) as [r'| |]; cbn [bind]; try discriminate. congruence.
Qed.

(* ---- one process *)
Lemma rank_spec point tec n rank ps (sat : R -> R) (row : Z -> R -> list R) :
  0 <= tec -> (forall ph q, In q ps -> ph = 0 \/ ph = 1 -> point ph q = Ok (sat q, row ph q) /\ zlen (row ph q) = tec) ->
  exists a, visc_rank point tec n rank ps = Ok a /\ arrays_ok true tec (zlen ps) a /\
    forall i q, zget ps i = Some q -> mpi_node n i = rank ->
      zget (ar_ws a) i = Some (sat q) /\ zget (ar_p0 a) i = Some (row 0 q) /\ zget (ar_p1 a) i = Some (row 1 q).
Proof.
  intros Ht Hpt. unfold visc_rank. pose proof (zlen_nonneg ps) as Hn.
  set (step := fun (a : arrays) (t : Z * Z) => _).
  destruct (foldM_split_inv step (fun done a => arrays_ok true tec (zlen ps) a /\
     forall ph i q, In (ph, i) done -> zget ps i = Some q -> mpi_node n i = rank -> zget (ar_ws a) i = Some (sat q) /\ zget (phase_rows a ph) i = Some (row ph q))
     (pairs [0; 1] (zrange 0 (zlen ps))) (mkArr (zrepeat 0%R (zlen ps)) (zrepeat (zrepeat 0%R tec) (zlen ps)) (zrepeat (zrepeat 0%R tec) (zlen ps)))) as (a & E & Ok1 & V).
  - split; [|intros ph i q []]. unfold arrays_ok. cbn [ar_ws ar_p0 ar_p1]. rewrite !zlen_zrepeat by lia.
    assert (K : forall r, In r (zrepeat (zrepeat 0%R tec) (zlen ps)) -> zlen r = tec) by (intros r Hr; apply repeat_spec in Hr; subst r; apply zlen_zrepeat; lia).
    auto.
  - intros done [ph i] rest a Hall [(L0 & L1 & R1 & L2) V]. destruct (L2 eq_refl) as [L3 R3].
    assert (Hin : In (ph, i) (pairs [0; 1] (zrange 0 (zlen ps)))) by (rewrite Hall; apply in_or_app; right; now left).
    apply In_pairs in Hin. destruct Hin as [Hph Hi]. apply In_zrange in Hi. assert (Hph' : ph = 0 \/ ph = 1) by (destruct Hph as [<-|[<-|[]]]; auto).
    unfold step. cbn [fst snd]. destruct (mpi_node n i =? rank) eqn:Q.
    2:{ exists a. split; [reflexivity|]. split; [unfold arrays_ok; auto|]. intros p j q I Hq Hr. apply in_app_or in I. destruct I as [I|[I|[]]]; [eauto|]. injection I as -> ->. lia. }
    destruct (rget_range ps i ltac:(lia)) as (q & Eq & Zq). rewrite Eq. cbn [bind]. destruct (Hpt ph q (zget_In _ _ _ Zq) Hph') as [Ep Lp]. rewrite Ep. cbn [bind fst snd].
    destruct (rset_exists (ar_ws a) i (sat q) ltac:(lia)) as (ws & Ew & Lw & Gw & Ow). rewrite Ew. cbn [bind].
    assert (Lph : zlen (phase_rows a ph) = zlen ps) by (unfold phase_rows; destruct (ph =? 0); lia).
    assert (Rph : forall r, In r (phase_rows a ph) -> zlen r = tec) by (unfold phase_rows; destruct (ph =? 0); assumption).
    destruct (rset_exists (phase_rows a ph) i (row ph q) ltac:(lia)) as (rows & Er & Lr & Gr & Or). rewrite Er. cbn [bind].
    eexists. split; [reflexivity|].
    assert (Hrow : forall r, In r rows -> zlen r = tec).
    { intros r Hr. apply In_zget in Hr. destruct Hr as [k [_ Hk]]. destruct (Z.eq_dec k i) as [->|Hne]; [congruence|]. rewrite Or in Hk by assumption. apply Rph, (zget_In _ _ _ Hk). }
    split.
    { unfold arrays_ok, with_rows. destruct (ph =? 0); cbn [ar_ws ar_p0 ar_p1]; repeat split; auto; lia. }
    assert (Ws : ar_ws (with_rows a ph ws rows) = ws) by (unfold with_rows; destruct (ph =? 0); reflexivity). rewrite Ws.
    assert (Pr : forall p, (p = 0 \/ p = 1) -> phase_rows (with_rows a ph ws rows) p = if p =? ph then rows else phase_rows a p).
    { intros p Hp. unfold phase_rows, with_rows. destruct Hp as [-> | ->], Hph' as [-> | ->]; reflexivity. }
    intros p j q' I Hq' Hr. apply in_app_or in I. destruct I as [I|[I|[]]].
    + assert (Hp : p = 0 \/ p = 1).
      { assert (I' : In (p, j) (pairs [0; 1] (zrange 0 (zlen ps)))) by (rewrite Hall; apply in_or_app; now left). apply In_pairs in I'. destruct I' as [[<-|[<-|[]]] _]; auto. }
      destruct (V p j q' I Hq' Hr) as [A B]. rewrite (Pr p Hp). destruct (Z.eq_dec j i) as [->|Hj].
      * rewrite Zq in Hq'. injection Hq' as <-. split; [exact Gw|]. destruct (p =? ph) eqn:Qp; [|exact B]. apply Z.eqb_eq in Qp. subst p. exact Gr.
      * split; [rewrite Ow; assumption|]. destruct (p =? ph) eqn:Qp; [|exact B]. apply Z.eqb_eq in Qp. subst p. rewrite Or; assumption.
    + injection I as <- <-. rewrite Zq in Hq'. injection Hq' as <-. rewrite (Pr ph Hph'), Z.eqb_refl. split; assumption.
  - exists a. split; [exact E|]. split; [exact Ok1|]. intros i q Hq Hr.
    assert (Hi : 0 <= i < zlen ps) by (destruct (Z_lt_le_dec i 0); [rewrite zget_None_neg in Hq by lia; discriminate|]; destruct (Z_lt_le_dec i (zlen ps)); [lia|]; rewrite (proj2 (zget_None_iff ps i)) in Hq by lia; discriminate).
    destruct (V 0 i q) as [A B]; [apply In_pairs; split; [now left|apply In_zrange; lia]|exact Hq|exact Hr|].
    destruct (V 1 i q) as [_ C]; [apply In_pairs; split; [right; now left|apply In_zrange; lia]|exact Hq|exact Hr|]. auto.
Qed.
(* ---- all processes *)
Lemma visc_master x cells tol l inv up tec n ps (ars : Z -> arrays) k st : vproper x (map fst cells) -> (exists cv, In cv (vrocky x cells) /\ (0 < vpore x cv)%R) ->
    (forall cv, In cv (vrocky x cells) -> (0 <= vpore x cv)%R /\ (0 <= cv_minx (water_curve x (fst cv)) <= cv_maxx (water_curve x (fst cv)))%R /\ (cv_maxx (water_curve x (fst cv)) <= 1)%R) ->
  visc_limits x tol cells = Ok l -> curves_shaped (vi_aniso x) inv -> zlen inv = zlen (vi_rocks x) -> 0 <= tec <= 9 ->
  (forall ts, exists k, up ts = Ok k /\ zlen k = 9) -> 0 < n ->
  (forall r, 0 <= r < n -> visc_rank (visc_point x inv l (map fst cells) up tec) tec n r ps = Ok (ars r)) ->
  visc_run tec ars k (vmpi_init n (zlen ps) ars) st ->
  Z.of_nat k <= 4 * zlen ps /\ (~ visc_done st -> exists st', visc_guaranteed tec ars st st') /\
  (visc_done st -> forall i q, zget ps i = Some q ->
     exists s row0 row1, visc_point x inv l (map fst cells) up tec 0 q = Ok (s, row0) /\ visc_point x inv l (map fst cells) up tec 1 q = Ok (s, row1) /\
       zget (ar_ws (vp_master st)) i = Some s /\ zget (ar_p0 (vp_master st)) i = Some row0 /\ zget (ar_p1 (vp_master st)) i = Some row1).
Proof.
  intros Pr Ex Cu E Sh Li Ht Up Hn Ha Hrun. set (pt := visc_point x inv l (map fst cells) up tec) in *.
  set (sat := fun q => match pt 0 q with Ok v => fst v | _ => 0%R end). set (row := fun ph q => match pt ph q with Ok v => snd v | _ => [] end).
  assert (Hpt : forall ph q, In q ps -> ph = 0 \/ ph = 1 -> pt ph q = Ok (sat q, row ph q) /\ zlen (row ph q) = tec).
  { intros ph q _ Hph. destruct (point_spec x cells tol l inv up tec ph q Pr Ex Cu E Sh Li Ht Up) as (s & rw & ts & k0 & Ep & _ & _ & _ & Lr & _). fold pt in Ep.
    destruct (point_spec x cells tol l inv up tec 0 q Pr Ex Cu E Sh Li Ht Up) as (s0 & rw0 & ts0 & k1 & Ep0 & _). fold pt in Ep0.
    assert (s = s0) as <-. { destruct Hph as [-> | ->]; [congruence|]. symmetry. exact (point_same _ _ _ _ _ _ _ _ _ _ _ Ep0 Ep). }
    unfold sat, row. rewrite Ep, Ep0. auto. }
  assert (Hr : forall r, 0 <= r < n -> arrays_ok true tec (zlen ps) (ars r) /\ forall i q, zget ps i = Some q -> mpi_node n i = r ->
      zget (ar_ws (ars r)) i = Some (sat q) /\ zget (ar_p0 (ars r)) i = Some (row 0 q) /\ zget (ar_p1 (ars r)) i = Some (row 1 q)).
  { intros r Hr. destruct (rank_spec pt tec n r ps sat row ltac:(lia) Hpt) as (a & Ea & Oa & Va). rewrite (Ha r Hr) in Ea. injection Ea as <-. auto. }
  pose proof (zlen_nonneg ps) as Hp. destruct (visc_collect tec (zlen ps) n ars Hn Hp (fun r H => proj1 (Hr r H))) as (C1 & C2 & C3).
  split; [eapply C1; eauto|]. split; [eapply C2; eauto|]. intros Hd i q Hq.
  assert (Hi : 0 <= i < zlen ps) by (destruct (Z_lt_le_dec i 0); [rewrite zget_None_neg in Hq by lia; discriminate|]; destruct (Z_lt_le_dec i (zlen ps)); [lia|]; rewrite (proj2 (zget_None_iff ps i)) in Hq by lia; discriminate).
  assert (Hnode : 0 <= mpi_node n i < n) by (apply (proj1 (distribution_prop n (zlen ps) Hn Hp)); exact Hi).
  destruct (C3 k st Hrun Hd i Hi) as (A & B & C). destruct (proj2 (Hr _ Hnode) i q Hq eq_refl) as (A' & B' & C'). rewrite A' in A. rewrite B' in B. rewrite C' in C.
  pose proof (zget_In _ _ _ Hq) as Iq. destruct (Hpt 0 q Iq (or_introl eq_refl)) as [P0 _]. destruct (Hpt 1 q Iq (or_intror eq_refl)) as [P1 _]. exists (sat q), (row 0 q), (row 1 q). auto.
Qed.
