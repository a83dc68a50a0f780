From Verif Require Import BaseFacts RBaseFacts Bgrid_Proofs Shape_Proofs2 Visc_Spec.
Open Scope Z_scope.

(* ---- input check *)
Lemma cell_ok aniso minperm maxperm minporo s po kx ky kz : (0 <= minporo <= 1)%R -> (0 <= minperm <= maxperm)%R ->
  visc_valid aniso minporo maxperm s po kx ky kz ->
  visc_cell aniso minperm maxperm minporo s po kx ky kz =
    Ok (if s =? 0 then (0%R, (minperm, if aniso then (minperm, minperm) else (ky, kz)))
        else (Rmax minporo po, (Rmin maxperm (Rmax minperm kx), (ky, kz)))).
Proof.
  intros Mp Mk (Hs & Hp & Hx & Hyz). unfold visc_cell.
  assert ((s <? 0) || (1000 <? s) = false) as -> by lia.
  rewrite (Rltb_f po 0) by lra. rewrite (Rltb_f kx 0) by lra. cbn [negb andb].
  assert (P : (if Rltb po minporo then minporo else po) = Rmax minporo po).
  { destruct (Rltb_spec po minporo); [rewrite Rmax_left by lra|rewrite Rmax_right by lra]; reflexivity. }
  rewrite P. pose proof (Rmax_lub minporo po 1 ltac:(lra) ltac:(lra)). pose proof (Rmax_l minporo po).
  rewrite (Rltb_f (Rmax minporo po) 0) by lra. rewrite (Rltb_f 1 (Rmax minporo po)) by lra. cbn [orb].
  assert (K : (if Rltb kx minperm then minperm else kx) = Rmax minperm kx).
  { destruct (Rltb_spec kx minperm); [rewrite Rmax_left by lra|rewrite Rmax_right by lra]; reflexivity. }
  rewrite K.
  assert (K2 : (if Rltb maxperm (Rmax minperm kx) then maxperm else Rmax minperm kx) = Rmin maxperm (Rmax minperm kx)).
  { destruct (Rltb_spec maxperm (Rmax minperm kx)); [rewrite Rmin_left by lra|rewrite Rmin_right by lra]; reflexivity. }
  rewrite K2. pose proof (Rmax_l minperm kx). assert (0 <= Rmin maxperm (Rmax minperm kx))%R by (apply Rmin_glb; lra).
  rewrite (Rltb_f (Rmin maxperm (Rmax minperm kx)) 0) by lra.
  destruct aniso; cbn [andb]; [|reflexivity].
  destruct (Hyz eq_refl). rewrite (Rltb_f ky 0), (Rltb_f kz 0) by lra. reflexivity.
Qed.
Lemma cell_refused aniso minperm maxperm minporo s po kx ky kz : (0 <= minporo <= 1)%R -> (0 <= minperm <= maxperm)%R ->
  ~ visc_valid aniso minporo maxperm s po kx ky kz -> visc_cell aniso minperm maxperm minporo s po kx ky kz = Throw.
Proof.
  intros Mp Mk Hn. unfold visc_cell.
  destruct ((s <? 0) || (1000 <? s)) eqn:Es; [reflexivity|].
  destruct (Rltb_spec po 0) as [H|H]; cbn [negb andb].
  { rewrite (Rltb_t po 0) by lra. reflexivity. }
  destruct (Rltb_spec po minporo) as [H1|H1].
  - rewrite (Rltb_f minporo 0), (Rltb_f 1 minporo) by lra. cbn [orb].
    destruct (Rltb_spec kx 0) as [Hk|Hk]; cbn [negb andb].
    { rewrite (Rltb_f maxperm kx) by lra. rewrite (Rltb_t kx 0) by lra. reflexivity. }
    destruct (Rltb _ 0) eqn:Q; [reflexivity|].
    destruct aniso; cbn [andb].
    + destruct (Rltb_spec ky 0) as [Hy|Hy]; [reflexivity|]. destruct (Rltb_spec kz 0) as [Hz|Hz]; [reflexivity|].
      exfalso. apply Hn. repeat split; intros; try lra; lia.
    + exfalso. apply Hn. repeat split; intros; try lra; try lia; discriminate.
  - destruct (Rltb_spec 1 po) as [H2|H2]. { rewrite orb_true_r. reflexivity. }
    rewrite (Rltb_f po 0) by lra. cbn [orb].
    destruct (Rltb_spec kx 0) as [Hk|Hk]; cbn [negb andb].
    { rewrite (Rltb_f maxperm kx) by lra. rewrite (Rltb_t kx 0) by lra. reflexivity. }
    destruct (Rltb _ 0) eqn:Q; [reflexivity|].
    destruct aniso; cbn [andb].
    + destruct (Rltb_spec ky 0) as [Hy|Hy]; [reflexivity|]. destruct (Rltb_spec kz 0) as [Hz|Hz]; [reflexivity|].
      exfalso. apply Hn. repeat split; intros; try lra; lia.
    + exfalso. apply Hn. repeat split; intros; try lra; try lia; discriminate.
Qed.
Lemma check_all_cells aniso contrast minperm maxperm minporo cells : (0 <= minporo <= 1)%R -> (0 <= minperm <= maxperm)%R ->
  ((0 < contrast)%R /\ Forall (fun c => visc_valid aniso minporo maxperm (fst c) (fst (snd c)) (fst (snd (snd c))) (fst (snd (snd (snd c)))) (snd (snd (snd (snd c))))) cells ->
   exists r, visc_check aniso contrast minperm maxperm minporo cells = Ok r /\ zlen r = zlen cells /\
     forall i s po kx ky kz, zget cells i = Some (s, (po, (kx, (ky, kz)))) ->
       zget r i = Some (if s =? 0 then (0%R, (minperm, if aniso then (minperm, minperm) else (ky, kz)))
                        else (Rmax minporo po, (Rmin maxperm (Rmax minperm kx), (ky, kz))))) /\
  (~ ((0 < contrast)%R /\ Forall (fun c => visc_valid aniso minporo maxperm (fst c) (fst (snd c)) (fst (snd (snd c))) (fst (snd (snd (snd c)))) (snd (snd (snd (snd c))))) cells) ->
   visc_check aniso contrast minperm maxperm minporo cells = Throw).
Proof.
  intros Mp Mk. split.
  - intros (C & V). unfold visc_check. unfold Rleb. destruct (Rle_dec contrast 0) as [H|_]; [lra|].
    match goal with |- exists r, mapM ?f cells = _ /\ _ => destruct (mapM_exists f cells) as (r & E) end.
    { intros (s & po & kx & ky & kz) Hc. rewrite Forall_forall in V. specialize (V _ Hc). cbn [fst snd] in *. rewrite cell_ok by assumption. eauto. }
    exists r. split; [exact E|]. apply mapM_Ok in E. split; [unfold zlen; rewrite <- (Forall2_length' _ _ _ E); reflexivity|].
    intros i s po kx ky kz Hi. destruct (Forall2_zget _ _ _ E i _ Hi) as (b & Hb & Eb). cbn [fst snd] in Eb.
    rewrite Forall_forall in V. specialize (V _ (zget_In _ _ _ Hi)). cbn [fst snd] in V. rewrite cell_ok in Eb by assumption. congruence.
  - intros Hn. unfold visc_check, Rleb. destruct (Rle_dec contrast 0) as [H|H]; [reflexivity|].
    assert (Hf : ~ Forall (fun c => visc_valid aniso minporo maxperm (fst c) (fst (snd c)) (fst (snd (snd c))) (fst (snd (snd (snd c)))) (snd (snd (snd (snd c))))) cells)
      by (intros F; apply Hn; split; [lra|exact F]).
    clear Hn. induction cells as [|(s & po & kx & ky & kz) t IH]; [exfalso; apply Hf; constructor|]. cbn [mapM fst snd].
    assert (D : visc_valid aniso minporo maxperm s po kx ky kz \/ ~ visc_valid aniso minporo maxperm s po kx ky kz).
    { unfold visc_valid. destruct (Z_le_dec 0 s), (Z_le_dec s 1000), (Rle_dec 0 po), (Rle_dec po 1), (Rle_dec 0 kx), (Rle_dec 0 ky), (Rle_dec 0 kz), aniso;
        try (left; repeat split; intros; (assumption || lia || lra || discriminate));
        right; intros (A1 & A2 & A3 & A4); try lia; try lra; try (destruct (A4 eq_refl); lra). }
    destruct D as [D|D].
    + rewrite cell_ok by assumption. cbn [bind]. rewrite IH; [reflexivity|]. intros F. apply Hf. constructor; assumption.
    + rewrite cell_refused by assumption. reflexivity.
Qed.

(* ---- rock files *)
Lemma iso_rock_iff load wcol ocol f cs : iso_rock load wcol ocol f = Ok cs <-> exists w o, cs = [(w, o)] /\ opposite_columns load f wcol ocol w o.
Proof.
  unfold iso_rock, opposite_columns. split.
  - destruct (load f 1 wcol) as [(w & [dw|])| |]; cbn [bind fst snd]; try discriminate.
    destruct (load f 1 ocol) as [(o & [d|])| |]; cbn [bind fst snd]; try discriminate.
    destruct (Bool.eqb dw d) eqn:Q; [discriminate|]. intros E. injection E as <-. exists w, o. split; [reflexivity|]. exists dw. split; [reflexivity|].
    destruct dw, d; try discriminate; reflexivity.
  - intros (w & o & -> & d & -> & ->). cbn [bind fst snd]. rewrite Bool.eqb_negb2. reflexivity.
Qed.
Lemma aniso_phase_iff load f cs : aniso_phase load f = Ok cs <-> exists x y z, cs = [x; y; z] /\ strict_column load f 2 3 x /\ strict_column load f 2 4 y /\ strict_column load f 2 5 z.
Proof.
  unfold aniso_phase, strict_column. cbn [mapM]. split.
  - destruct (load f 2 3) as [(x & [dx|])| |]; cbn [bind fst snd]; try discriminate.
    destruct (load f 2 4) as [(y & [dy|])| |]; cbn [bind fst snd]; try discriminate.
    destruct (load f 2 5) as [(z & [dz|])| |]; cbn [bind fst snd]; try discriminate.
    intros E. injection E as <-. exists x, y, z. eauto 10.
  - intros (x & y & z & -> & (dx & ->) & (dy & ->) & (dz & ->)). reflexivity.
Qed.
Lemma aniso_rock_iff load w o cs : aniso_rock load w o = Ok cs <-> aniso_columns load w o cs.
Proof.
  unfold aniso_rock, aniso_columns. split.
  - destruct (aniso_phase load w) as [lw| |] eqn:Ew; cbn [bind]; try discriminate.
    destruct (aniso_phase load o) as [lo| |] eqn:Eo; cbn [bind]; try discriminate.
    apply aniso_phase_iff in Ew, Eo. destruct Ew as (x & y & z & -> & A). destruct Eo as (x' & y' & z' & -> & B). cbn [combine].
    intros E. injection E as <-. exists x, y, z, x', y', z'. tauto.
  - intros (x & y & z & x' & y' & z' & -> & A1 & A2 & A3 & B).
    rewrite (proj2 (aniso_phase_iff load w [x; y; z])) by (exists x, y, z; tauto).
    rewrite (proj2 (aniso_phase_iff load o [x'; y'; z'])) by (exists x', y', z'; tauto). reflexivity.
Qed.
Lemma zget_rep {A} (c : A) n i : 0 <= i < n -> zget (zrepeat c n) i = Some c.
Proof. intros H. rewrite zget_zrepeat by lia. reflexivity. Qed.
Lemma zget_over {A} (l : list A) i : zlen l <= i -> zget l i = None.
Proof. intros H. apply zget_None_iff. lia. Qed.
Lemma F2_zlen {A B} (R : A -> B -> Prop) l l' : Forall2 R l l' -> zlen l' = zlen l.
Proof. intros F. unfold zlen. rewrite (Forall2_length' _ _ _ F). reflexivity. Qed.
Lemma range_get n i : 0 <= i < n -> zget (zrange 0 n) i = Some i.
Proof. intros H. rewrite zget_zrange by lia. f_equal. Qed.
(* isotropic input *)
Lemma iso_files load wcol ocol stones files rs : 0 < stones ->
  (visc_rocks load wcol ocol false stones files = Ok rs <->
   (zlen files = stones \/ zlen files = 1) /\ zlen rs = stones /\
   forall i, 0 <= i < stones -> exists f w o, zget files (if zlen files =? stones then i else 0) = Some f /\
     opposite_columns load f wcol ocol w o /\ zget rs i = Some [(w, o)]).
Proof.
  intros S0. unfold visc_rocks. destruct (zlen files =? stones) eqn:Q.
  - apply Z.eqb_eq in Q. rewrite mapM_Ok. split.
    + intros F. split; [now left|]. split; [unfold zlen; rewrite <- (Forall2_length' _ _ _ F); rewrite zrange_length; lia|].
      intros i Hi. destruct (Forall2_zget _ _ _ F i i (range_get _ _ Hi)) as (b & Hb & Eb).
      destruct (rget files i) as [f| |] eqn:Ef; try discriminate. cbn [bind] in Eb. apply iso_rock_iff in Eb. destruct Eb as (w & o & -> & Ho).
      apply rget_Ok in Ef. eauto 8.
    + intros (_ & L & H). assert (G : exists bs, mapM (fun i => let* f := rget files i in iso_rock load wcol ocol f) (zrange 0 stones) = Ok bs).
      { apply mapM_exists. intros i Hi. apply In_zrange in Hi. destruct (H i Hi) as (f & w & o & Hf & Ho & _). apply rget_Ok in Hf. rewrite Hf. cbn [bind].
        exists [(w, o)]. apply iso_rock_iff. eauto. }
      destruct G as (bs & G). apply mapM_Ok in G. replace rs with bs; [exact G|]. apply zlist_ext.
      * unfold zlen in *. rewrite <- (Forall2_length' _ _ _ G), zrange_length. lia.
      * intros i. destruct (Z_lt_ge_dec i 0); [rewrite !zget_None_neg by lia; reflexivity|]. destruct (Z_lt_ge_dec i stones).
        -- destruct (H i ltac:(lia)) as (f & w & o & Hf & Ho & Hr). destruct (Forall2_zget _ _ _ G i i (range_get stones i ltac:(lia))) as (b & Hb & Eb).
           apply rget_Ok in Hf. rewrite Hf in Eb. cbn [bind] in Eb. apply iso_rock_iff in Eb. destruct Eb as (w2 & o2 & -> & d2 & A & B). destruct Ho as (d & A' & B'). congruence.
        -- rewrite !zget_over; [reflexivity|lia|]. rewrite (F2_zlen _ _ _ G), zlen_zrange by lia. lia.
  - destruct (zlen files =? 1) eqn:Q1; [|split; [discriminate|]; intros ([H|H] & _); lia].
    apply Z.eqb_eq in Q1. destruct (rget_range files 0 ltac:(lia)) as (f & Ef & Zf). rewrite Ef. cbn [bind]. split.
    + destruct (iso_rock load wcol ocol f) as [c| |] eqn:Ec; cbn [bind]; try discriminate. intros E. injection E as <-.
      apply iso_rock_iff in Ec. destruct Ec as (w & o & -> & Ho). split; [now right|]. split; [rewrite zlen_zrepeat by lia; reflexivity|].
      intros i Hi. exists f, w, o. rewrite zget_rep by lia. auto.
    + intros (_ & L & H). destruct (H 0 ltac:(lia)) as (f' & w & o & Hf & Ho & Hr). rewrite Zf in Hf. injection Hf as <-.
      rewrite (proj2 (iso_rock_iff load wcol ocol f [(w, o)])) by eauto. cbn [bind]. f_equal. apply zlist_ext.
      * rewrite zlen_zrepeat by lia. lia.
      * intros i. destruct (Z_lt_ge_dec i 0); [rewrite !zget_None_neg by lia; reflexivity|]. destruct (Z_lt_ge_dec i stones).
        -- rewrite zget_rep by lia. destruct (H i ltac:(lia)) as (f2 & w2 & o2 & Hf2 & Ho2 & Hr2). rewrite Zf in Hf2. injection Hf2 as <-.
           destruct Ho as (d & A & B), Ho2 as (d2 & A2 & B2). congruence.
        -- rewrite !zget_over; [reflexivity|lia|]. rewrite zlen_zrepeat by lia. lia.
Qed.
Lemma columns_unique load w o cs cs' : aniso_columns load w o cs -> aniso_columns load w o cs' -> cs = cs'.
Proof. rewrite <- !aniso_rock_iff. congruence. Qed.
(* anisotropic input *)
Lemma aniso_files load wcol ocol stones files rs : 0 < stones ->
  (visc_rocks load wcol ocol true stones files = Ok rs <->
   (zlen files = 2 * stones \/ zlen files = 2) /\ zlen rs = stones /\
   forall i, 0 <= i < stones -> exists w o cs, zget files (if zlen files =? 2 * stones then 2 * i else 0) = Some w /\
     zget files (if zlen files =? 2 * stones then 2 * i + 1 else 1) = Some o /\
     aniso_columns load w o cs /\ zget rs i = Some cs).
Proof.
  intros S0. unfold visc_rocks. destruct (zlen files =? 2 * stones) eqn:Q.
  - apply Z.eqb_eq in Q. rewrite mapM_Ok. split.
    + intros F. split; [now left|]. split; [unfold zlen; rewrite <- (Forall2_length' _ _ _ F); rewrite zrange_length; lia|].
      intros i Hi. destruct (Forall2_zget _ _ _ F i i (range_get _ _ Hi)) as (b & Hb & Eb).
      destruct (rget files (2 * i)) as [w| |] eqn:Ew; try discriminate. cbn [bind] in Eb.
      destruct (rget files (2 * i + 1)) as [o| |] eqn:Eo; try discriminate. cbn [bind] in Eb. apply aniso_rock_iff in Eb.
      apply rget_Ok in Ew, Eo. exists w, o, b. auto.
    + intros (_ & L & H). match goal with |- Forall2 (fun x y => ?f = _) _ _ => idtac | _ => idtac end.
      assert (G : exists bs, mapM (fun i => let* w := rget files (2 * i) in let* o := rget files (2 * i + 1) in aniso_rock load w o) (zrange 0 stones) = Ok bs).
      { apply mapM_exists. intros i Hi. apply In_zrange in Hi. destruct (H i Hi) as (w & o & cs & Hw & Ho & Hc & _). apply rget_Ok in Hw, Ho. rewrite Hw, Ho. cbn [bind].
        exists cs. apply aniso_rock_iff. assumption. }
      destruct G as (bs & G). apply mapM_Ok in G. replace rs with bs; [exact G|]. apply zlist_ext.
      * unfold zlen in *. rewrite <- (Forall2_length' _ _ _ G), zrange_length. lia.
      * intros i. destruct (Z_lt_ge_dec i 0); [rewrite !zget_None_neg by lia; reflexivity|]. destruct (Z_lt_ge_dec i stones).
        -- destruct (H i ltac:(lia)) as (w & o & cs & Hw & Ho & Hc & Hr). destruct (Forall2_zget _ _ _ G i i (range_get stones i ltac:(lia))) as (b & Hb & Eb).
           apply rget_Ok in Hw, Ho. rewrite Hw, Ho in Eb. cbn [bind] in Eb. apply aniso_rock_iff in Eb. rewrite (columns_unique _ _ _ _ _ Hc Eb) in Hr. congruence.
        -- rewrite !zget_over; [reflexivity|lia|]. rewrite (F2_zlen _ _ _ G), zlen_zrange by lia. lia.
  - destruct (zlen files =? 2) eqn:Q1; [|split; [discriminate|]; intros ([H|H] & _); lia].
    apply Z.eqb_eq in Q1. destruct (rget_range files 0 ltac:(lia)) as (w & Ew & Zw). rewrite Ew. cbn [bind].
    destruct (rget_range files 1 ltac:(lia)) as (o & Eo & Zo). rewrite Eo. cbn [bind]. split.
    + destruct (aniso_rock load w o) as [c| |] eqn:Ec; cbn [bind]; try discriminate. intros E. injection E as <-.
      apply aniso_rock_iff in Ec. split; [now right|]. split; [rewrite zlen_zrepeat by lia; reflexivity|].
      intros i Hi. exists w, o, c. rewrite zget_rep by lia. auto.
    + intros (_ & L & H). destruct (H 0 ltac:(lia)) as (w' & o' & c & Hw & Ho & Hc & Hr). rewrite Zw in Hw. rewrite Zo in Ho. injection Hw as <-. injection Ho as <-.
      rewrite (proj2 (aniso_rock_iff load w o c)) by assumption. cbn [bind]. f_equal. apply zlist_ext.
      * rewrite zlen_zrepeat by lia. lia.
      * intros i. destruct (Z_lt_ge_dec i 0); [rewrite !zget_None_neg by lia; reflexivity|]. destruct (Z_lt_ge_dec i stones).
        -- rewrite zget_rep by lia. destruct (H i ltac:(lia)) as (w2 & o2 & c2 & Hw2 & Ho2 & Hc2 & Hr2). rewrite Zw in Hw2. rewrite Zo in Ho2. injection Hw2 as <-. injection Ho2 as <-.
           rewrite (columns_unique _ _ _ _ _ Hc Hc2). congruence.
        -- rewrite !zget_over; [reflexivity|lia|]. rewrite zlen_zrepeat by lia. lia.
Qed.
