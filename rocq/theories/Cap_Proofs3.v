From Verif Require Import BaseFacts RBaseFacts Bgrid_Proofs Relp_Proofs3 Relp_Proofs4 Cap_Proofs2 Cap_Spec.
Open Scope Z_scope.

(* ---- tabulation, as a whole *)
Lemma bound_lt swir swor parts : (swir < swor)%R -> (1 < parts)%R -> ((swor - swir) / parts < swor - swir)%R.
Proof.
  intros S P. apply Rmult_lt_reg_r with parts; [lra|]. unfold Rdiv. rewrite Rmult_assoc, Rinv_l by lra. rewrite Rmult_1_r.
  rewrite <- (Rmult_1_r (swor - swir)) at 1. apply Rmult_lt_compat_l; lra.
Qed.
Lemma bound_pos swir swor parts : (swir < swor)%R -> (1 < parts)%R -> (0 < (swor - swir) / parts)%R.
Proof. intros S P. apply Rdiv_lt_0_compat; lra. Qed.
Lemma loop_two {A} (f : R -> res (R * A)) lo hi bound n : (lo < hi)%R -> forall L t t', tinv f lo hi t -> 2 <= zlen t \/ (bound < L)%R ->
  tab_loop n f lo hi bound L t = Ok (Some t') -> 2 <= zlen t'.
Proof.
  intros LH. induction n as [|n IH]; intros L t t' I Z H.
  - cbn in H. destruct (Rltb bound L) eqn:B; [discriminate|]. apply Rltb_false in B. injection H as <-. destruct Z; [assumption|lra].
  - destruct (Rlt_dec bound L) as [B|B].
    + destruct (loop_step f lo hi bound LH n L t B) as (p & L' & Rd & E). rewrite E in H. destruct (f p) as [v| |] eqn:F; try discriminate. cbn [bind] in H.
      eapply IH; [| |exact H]; [eapply round_inv; eauto|]. destruct Rd as [L|e L|l a b r L G]; [now right|now right|left].
      destruct (tinv_3 f lo hi l a b r v I F) as (_ & Ea & _). rewrite Ea. rewrite zlen_app. unfold zlen. cbn [length]. lia.
    + cbn in H. rewrite (Rltb_f bound L) in H by lra. injection H as <-. destruct Z; [assumption|lra].
Qed.
Lemma tab_values {A} (f : R -> res (R * A)) fuel swir swor pcmin pcmax parts t : (pcmin < pcmax)%R -> (swir < swor)%R -> (1 < parts)%R ->
  tabulate fuel f swir swor pcmin pcmax parts = Ok (Some t) ->
  ordered t /\ (forall e, In e t -> (pcmin <= fst e <= pcmax)%R /\ f (fst e) = Ok (snd e)) /\
  (exists v, In (pcmin, v) t) /\ (exists v, In (pcmax, v) t).
Proof.
  unfold tabulate. intros LH S P H. pose proof (loop_inv f pcmin pcmax _ LH _ _ _ _ (tinv_0 f pcmin pcmax 0) H) as (O & Q & H1 & H2).
  assert (Z : 2 <= zlen t) by (eapply loop_two; [exact LH|apply (tinv_0 f pcmin pcmax 0)|right; apply (bound_lt swir swor parts S P)|exact H]).
  split; [exact O|]. split; [exact Q|]. split; [apply H2; lia|apply H1; lia].
Qed.
Lemma tab_resolution {A} (f : R -> res (R * A)) fuel swir swor pcmin pcmax parts t : (pcmin < pcmax)%R -> (swir < swor)%R -> (1 < parts)%R ->
  monotone f pcmin pcmax -> tabulate fuel f swir swor pcmin pcmax parts = Ok (Some t) ->
  forall a b, adjacent t a b -> (Rabs (fst (snd b) - fst (snd a)) <= (swor - swir) / parts)%R.
Proof.
  unfold tabulate. intros LH S P M H a b Ad. eapply (loop_fine f pcmin pcmax _ LH fuel M); [apply (tinv_0 f pcmin pcmax 0)| |exact H|exact Ad]. left. split; [unfold zlen; cbn; lia|now apply bound_lt].
Qed.
Lemma tab_terminates {A} (f : R -> res (R * A)) fuel swir swor pcmin pcmax parts d : (pcmin < pcmax)%R -> (swir < swor)%R -> (1 < parts)%R -> (0 < d)%R ->
  (forall p, (pcmin <= p <= pcmax)%R -> exists v, f p = Ok v) ->
  (forall p q s a s' b, (pcmin <= p <= pcmax)%R -> (pcmin <= q <= pcmax)%R -> (Rabs (q - p) < d)%R ->
     f p = Ok (s, a) -> f q = Ok (s', b) -> (Rabs (s' - s) <= (swor - swir) / parts)%R) ->
  (3 + 2 * (pcmax - pcmin) / d <= INR fuel)%R ->
  exists t, tabulate fuel f swir swor pcmin pcmax parts = Ok (Some t).
Proof.
  intros LH Sk P D Tot Uc Fu. unfold tabulate. set (bd := ((swor - swir) / parts)%R) in *. pose proof (bound_lt swir swor parts Sk P) as B. fold bd in B.
  assert (W : (0 < 2 * (pcmax - pcmin) / d)%R) by (apply Rdiv_lt_0_compat; lra).
  destruct fuel as [|[|[|n]]]; [cbn in Fu; lra|cbn in Fu; lra|change (INR 2) with 2%R in Fu; lra|].
  destruct (Tot pcmax) as (v1 & F1); [lra|]. destruct (Tot pcmin) as (v2 & F2); [lra|].
  destruct (loop_step f pcmin pcmax bd LH (S (S n)) _ [] B) as (p & L' & Rd & E). rewrite E. assert (Q : p = pcmax /\ L' = (swor - swir)%R) by (inversion Rd; subst; [split; reflexivity|destruct l; discriminate]). destruct Q as [-> ->]. rewrite F1. cbn [bind].
  pose proof (tinv_1 f pcmin pcmax LH v1 F1) as I1. change (add_pair [] pcmax v1) with [(pcmax, v1)] in *.
  destruct (loop_step f pcmin pcmax bd LH (S n) (swor - swir)%R [(pcmax, v1)] B) as (p & L' & Rd' & E'). rewrite E'.
  assert (Q : p = pcmin /\ L' = (swor - swir)%R).
  { inversion Rd' as [|e L0 Ee|l a b r L0 G Ee]; subst; [split; reflexivity|]. apply (f_equal (@length _)) in Ee. rewrite app_length in Ee. cbn in Ee. lia. }
  destruct Q as [-> ->].
  rewrite F2. cbn [bind]. destruct (tinv_2 f pcmin pcmax LH _ v2 I1 F2) as [I2 Z2].
  apply (loop_ends f pcmin pcmax bd LH d D n Tot); [exact Uc|exact I2|lia|]. cbn [add_pair fst]. rewrite (Rltb_t pcmin pcmax) by assumption. cbn [phi fst].
  rewrite !S_INR in Fu. unfold psi. rewrite Rplus_0_r. apply Rmax_lub; [apply pos_INR|]. lra.
Qed.
Lemma tab_jump {A} (f : R -> res (R * A)) fuel swir swor pcmin pcmax parts c u v (a b : A) : (pcmin <= c < pcmax)%R -> (swir < swor)%R -> (1 < parts)%R ->
  ((swor - swir) / parts < Rabs (v - u))%R -> (forall p, f p = Ok (if Rle_dec p c then (u, a) else (v, b))) ->
  tabulate fuel f swir swor pcmin pcmax parts = Ok None.
Proof.
  intros C S P J F. unfold tabulate. eapply (loop_jump f pcmin pcmax _ ltac:(lra) fuel c u v a b C J F); [apply (tinv_0 f pcmin pcmax 0)|now apply bound_lt].
Qed.
Lemma tab_empty {A} (f : R -> res (R * A)) fuel swir swor pcmin pcmax parts : (swor <= swir)%R -> (1 < parts)%R ->
  tabulate fuel f swir swor pcmin pcmax parts = Ok (Some []).
Proof.
  intros S P. unfold tabulate. assert (B : (swor - swir <= (swor - swir) / parts)%R).
  { apply Rmult_le_reg_r with parts; [lra|]. unfold Rdiv. rewrite Rmult_assoc, Rinv_l by lra. rewrite Rmult_1_r.
    rewrite <- (Rmult_1_r (swor - swir)) at 2. apply Rmult_le_compat_neg_l; lra. }
  destruct fuel; cbn; now rewrite Rltb_f by lra.
Qed.
Lemma tab_single {A} (f : R -> res (R * A)) fuel swir swor p parts v : (swir < swor)%R -> (1 < parts)%R -> f p = Ok v ->
  tabulate (S fuel) f swir swor p p parts = Ok (Some [(p, v)]).
Proof.
  intros S P F. unfold tabulate. cbn [tab_loop]. rewrite Rltb_t by (now apply bound_lt). destruct (Req_EM_T p p) as [_|N]; [|now contradiction N].
  cbn [bind fst snd]. rewrite F. cbn [bind add_pair]. pose proof (bound_pos swir swor parts S P). destruct fuel; cbn; now rewrite Rltb_f by lra.
Qed.

(* ---- input check *)
Ltac cs := unfold cap_cell, cond_cell.
Ltac rb := repeat match goal with
  | |- context[Rltb ?a ?b] => let E := fresh "E" in destruct (Rltb a b) eqn:E; [apply Rltb_true in E|apply Rltb_false in E]; cbn [negb andb orb] in * end.
Lemma cap_cell_ok mk mp s po k : (mp <= 1)%R -> cell_valid s po k ->
  cap_cell mk mp s po k = Ok (if s =? 0 then (0%R, mk) else (Rmax po mp, Rmax k mk)).
Proof.
  intros M (S & P & K). cs. destruct (s <? 0) eqn:E1; [apply Z.ltb_lt in E1; lia|]. destruct (1000 <? s) eqn:E2; [apply Z.ltb_lt in E2; lia|]. cbn [orb].
  assert (Q : (if negb (Rltb po 0) && Rltb po mp then mp else po) = Rmax po mp).
  { unfold Rmax. destruct (Rle_dec po mp); rb; lra. }
  assert (Q' : (if negb (Rltb k 0) && Rltb k mk then mk else k) = Rmax k mk).
  { unfold Rmax. destruct (Rle_dec k mk); rb; lra. }
  rewrite Q, Q'. pose proof (Rmax_l po mp). pose proof (Rmax_l k mk). assert (Rmax po mp <= 1)%R by (apply Rmax_lub; lra).
  rewrite !Rltb_f by lra. reflexivity.
Qed.
Lemma cap_cell_bad mk mp s po k : ~ cell_valid s po k -> cap_cell mk mp s po k = Throw.
Proof.
  intros V. cs. destruct (s <? 0) eqn:E1; [reflexivity|]. destruct (1000 <? s) eqn:E2; [reflexivity|]. cbn [orb]. apply Z.ltb_ge in E1, E2.
  unfold cell_valid in V. destruct (Rlt_dec po 0).
  { rewrite (Rltb_t po 0) by lra. cbn [negb andb]. now rewrite (Rltb_t po 0) by lra. }
  destruct (Rlt_dec 1 po).
  { rewrite (Rltb_f po 0) by lra. cbn [negb andb]. destruct (Rltb po mp) eqn:E; [apply Rltb_true in E; rewrite (Rltb_t 1 mp) by lra|rewrite (Rltb_t 1 po) by lra]; now rewrite Bool.orb_true_r. }
  destruct (Rlt_dec k 0); [|exfalso; apply V; repeat split; lra || lia].
  destruct (Rltb (if negb (Rltb po 0) && Rltb po mp then mp else po) 0 || Rltb 1 (if negb (Rltb po 0) && Rltb po mp then mp else po)); [reflexivity|].
  rewrite (Rltb_t k 0) by lra. cbn [negb andb]. now rewrite (Rltb_t k 0) by lra.
Qed.
Lemma cond_cell_ok mk mp s po k : (mp <= 1)%R -> (0 <= mk)%R -> cell_valid s po k ->
  cond_cell mk mp s po k = Ok (if s =? 0 then (0%R, mk) else (Rmax po mp, if Req_EM_T k 0 then mk else k)).
Proof.
  intros M Mk (S & P & K). cs. destruct (s <? 0) eqn:E1; [apply Z.ltb_lt in E1; lia|]. destruct (1000 <? s) eqn:E2; [apply Z.ltb_lt in E2; lia|]. cbn [orb].
  assert (Q : (if negb (Rltb po 0) && Rltb po mp then mp else po) = Rmax po mp).
  { unfold Rmax. destruct (Rle_dec po mp); rb; lra. }
  rewrite Q. pose proof (Rmax_l po mp). assert (Rmax po mp <= 1)%R by (apply Rmax_lub; lra). rewrite (Rltb_f (Rmax po mp) 0), (Rltb_f 1 (Rmax po mp)) by lra. cbn [orb].
  rewrite (Rltb_f (if Req_EM_T k 0 then mk else k) 0) by (destruct (Req_EM_T k 0); lra). reflexivity.
Qed.
Lemma cond_cell_bad mk mp s po k : ~ cell_valid s po k -> cond_cell mk mp s po k = Throw.
Proof.
  intros V. cs. destruct (s <? 0) eqn:E1; [reflexivity|]. destruct (1000 <? s) eqn:E2; [reflexivity|]. cbn [orb]. apply Z.ltb_ge in E1, E2.
  unfold cell_valid in V. destruct (Rlt_dec po 0).
  { rewrite (Rltb_t po 0) by lra. cbn [negb andb]. now rewrite (Rltb_t po 0) by lra. }
  destruct (Rlt_dec 1 po).
  { rewrite (Rltb_f po 0) by lra. cbn [negb andb]. destruct (Rltb po mp) eqn:E; [apply Rltb_true in E; rewrite (Rltb_t 1 mp) by lra|rewrite (Rltb_t 1 po) by lra]; now rewrite Bool.orb_true_r. }
  destruct (Rlt_dec k 0); [|exfalso; apply V; repeat split; lra || lia].
  destruct (Rltb (if negb (Rltb po 0) && Rltb po mp then mp else po) 0 || Rltb 1 (if negb (Rltb po 0) && Rltb po mp then mp else po)); [reflexivity|].
  destruct (Req_EM_T k 0); [lra|]. now rewrite (Rltb_t k 0) by lra.
Qed.
Section Check.
  Variable cell : Z -> R -> R -> res (R * R).
  Variable g : Z -> R -> R -> R * R.
  Hypothesis good : forall s po k, cell_valid s po k -> cell s po k = Ok (g s po k).
  Hypothesis bad : forall s po k, ~ cell_valid s po k -> cell s po k = Throw.
  Lemma check_gen sat poro perm : zlen sat <= zlen poro -> zlen sat <= zlen perm ->
    (cells_valid sat poro perm -> exists ps ks, check_cells cell sat poro perm = Ok (ps, ks) /\ zlen ps = zlen sat /\ zlen ks = zlen sat /\
       forall i s po k, zget sat i = Some s -> zget poro i = Some po -> zget perm i = Some k -> zget ps i = Some (fst (g s po k)) /\ zget ks i = Some (snd (g s po k))) /\
    (~ cells_valid sat poro perm -> check_cells cell sat poro perm = Throw).
  Proof.
    intros L1 L2. unfold check_cells. set (F := fun i : Z => let* s := rget sat i in let* po := rget poro i in let* k := rget perm i in cell s po k). split.
    - intros V. destruct (mapM_exists F (zrange 0 (zlen sat))) as (l & E).
      { intros i Hi. apply In_zrange in Hi. destruct (zget_in_range sat i Hi) as (s & Es). destruct (zget_in_range poro i ltac:(lia)) as (po & Ep). destruct (zget_in_range perm i ltac:(lia)) as (k & Ek).
        unfold F. rewrite (proj2 (rget_Ok _ _ _) Es), (proj2 (rget_Ok _ _ _) Ep), (proj2 (rget_Ok _ _ _) Ek). cbn [bind]. rewrite good by (eapply V; eauto). eauto. }
      rewrite E. cbn [bind]. exists (map fst l), (map snd l). split; [reflexivity|]. apply mapM_Ok in E. pose proof (zlen_nonneg sat).
      assert (Z : zlen l = zlen sat). { unfold zlen. rewrite <- (Forall2_length' _ _ _ E), zrange_length. unfold zlen. lia. }
      rewrite !zlen_map. split; [exact Z|]. split; [exact Z|]. intros i s po k Es Ep Ek. pose proof (zget_Some_range _ _ _ Es) as R.
      destruct (Forall2_zget _ _ _ E i _ (zget_zrange 0 (zlen sat) i ltac:(lia))) as (b & Eb & Fb). rewrite Z.add_0_l in Fb. unfold F in Fb.
      rewrite (proj2 (rget_Ok _ _ _) Es), (proj2 (rget_Ok _ _ _) Ep), (proj2 (rget_Ok _ _ _) Ek) in Fb. cbn [bind] in Fb. rewrite good in Fb by (eapply V; eauto). injection Fb as <-.
      rewrite !zget_map, Eb. split; reflexivity.
    - intros NV. assert (T : mapM F (zrange 0 (zlen sat)) = Throw); [|now rewrite T].
      assert (D : forall i, 0 <= i < zlen sat -> (exists b, F i = Ok b) \/ F i = Throw).
      { intros i Hi. destruct (zget_in_range sat i Hi) as (s & Es). destruct (zget_in_range poro i ltac:(lia)) as (po & Ep). destruct (zget_in_range perm i ltac:(lia)) as (k & Ek).
        unfold F. rewrite (proj2 (rget_Ok _ _ _) Es), (proj2 (rget_Ok _ _ _) Ep), (proj2 (rget_Ok _ _ _) Ek). cbn [bind].
        assert (C : cell_valid s po k \/ ~ cell_valid s po k).
        { unfold cell_valid. destruct (Z_le_dec 0 s); [|right; lia]. destruct (Z_le_dec s 1000); [|right; lia].
          destruct (Rle_dec 0 po); [|right; lra]. destruct (Rle_dec po 1); [|right; lra]. destruct (Rle_dec 0 k); [|right; lra]. left. repeat split; assumption. }
        destruct C as [C|C]; [left; rewrite good by exact C; eauto|right; now apply bad]. }
      assert (G : forall l, (forall i, In i l -> 0 <= i < zlen sat) -> (exists bs, mapM F l = Ok bs) \/ mapM F l = Throw).
      { induction l as [|i l IH]; intros Hl; [left; now exists []|]. cbn [mapM]. destruct (D i (Hl i (or_introl eq_refl))) as [(b & ->)| ->]; [|now right]. cbn [bind].
        destruct (IH (fun j I => Hl j (or_intror I))) as [(bs & ->)| ->]; [left; cbn; eauto|now right]. }
      destruct (G (zrange 0 (zlen sat))) as [(bs & E)|E]; [intros i Hi; now apply In_zrange in Hi| |exact E].
      exfalso. apply NV. intros i s po k Es Ep Ek. pose proof (zget_Some_range _ _ _ Es) as Rg. apply mapM_Ok in E.
      destruct (Forall2_zget _ _ _ E i _ (zget_zrange 0 (zlen sat) i ltac:(lia))) as (b & Eb & Fb). rewrite Z.add_0_l in Fb. unfold F in Fb.
      rewrite (proj2 (rget_Ok _ _ _) Es), (proj2 (rget_Ok _ _ _) Ep), (proj2 (rget_Ok _ _ _) Ek) in Fb. cbn [bind] in Fb.
      assert (C : cell_valid s po k \/ ~ cell_valid s po k).
      { unfold cell_valid. destruct (Z_le_dec 0 s); [|right; lia]. destruct (Z_le_dec s 1000); [|right; lia].
        destruct (Rle_dec 0 po); [|right; lra]. destruct (Rle_dec po 1); [|right; lra]. destruct (Rle_dec 0 k); [|right; lra]. left. repeat split; assumption. }
      destruct C as [C|C]; [exact C|]. rewrite bad in Fb by exact C. discriminate.
  Qed.
End Check.
Lemma check_cap minperm minporo sat poro perm : (minporo <= 1)%R -> zlen sat <= zlen poro -> zlen sat <= zlen perm -> cells_valid sat poro perm ->
  exists ps ks, check_cells (cap_cell minperm minporo) sat poro perm = Ok (ps, ks) /\ zlen ps = zlen sat /\ zlen ks = zlen sat /\
  forall i s po k, zget sat i = Some s -> zget poro i = Some po -> zget perm i = Some k ->
    (s = 0 -> zget ps i = Some 0%R /\ zget ks i = Some minperm) /\
    (0 < s -> zget ps i = Some (Rmax po minporo) /\ zget ks i = Some (Rmax k minperm)).
Proof.
  intros M L1 L2 V. destruct (check_gen (cap_cell minperm minporo) _ (fun s po k H => cap_cell_ok minperm minporo s po k M H) (cap_cell_bad minperm minporo) sat poro perm L1 L2) as [A _].
  destruct (A V) as (ps & ks & E & Z1 & Z2 & Q). exists ps, ks. split; [exact E|]. split; [exact Z1|]. split; [exact Z2|].
  intros i s po k Es Ep Ek. specialize (Q i s po k Es Ep Ek). split; intros Hs.
  - subst s. exact Q.
  - destruct (s =? 0) eqn:E0; [apply Z.eqb_eq in E0; lia|exact Q].
Qed.
Lemma check_cap_rejects minperm minporo sat poro perm : (minporo <= 1)%R -> zlen sat <= zlen poro -> zlen sat <= zlen perm -> ~ cells_valid sat poro perm ->
  check_cells (cap_cell minperm minporo) sat poro perm = Throw.
Proof.
  intros M L1 L2 V. now apply (check_gen (cap_cell minperm minporo) _ (fun s po k H => cap_cell_ok minperm minporo s po k M H) (cap_cell_bad minperm minporo) sat poro perm L1 L2).
Qed.
Lemma check_cond minperm minporo sat poro perm : (minporo <= 1)%R -> (0 <= minperm)%R -> zlen sat <= zlen poro -> zlen sat <= zlen perm -> cells_valid sat poro perm ->
  exists ps ks, check_cells (cond_cell minperm minporo) sat poro perm = Ok (ps, ks) /\ zlen ps = zlen sat /\ zlen ks = zlen sat /\
  forall i s po k, zget sat i = Some s -> zget poro i = Some po -> zget perm i = Some k ->
    (s = 0 -> zget ps i = Some 0%R /\ zget ks i = Some minperm) /\
    (0 < s -> zget ps i = Some (Rmax po minporo) /\ (k = 0%R -> zget ks i = Some minperm) /\ (k <> 0%R -> zget ks i = Some k)).
Proof.
  intros M Mk L1 L2 V. destruct (check_gen (cond_cell minperm minporo) _ (fun s po k H => cond_cell_ok minperm minporo s po k M Mk H) (cond_cell_bad minperm minporo) sat poro perm L1 L2) as [A _].
  destruct (A V) as (ps & ks & E & Z1 & Z2 & Q). exists ps, ks. split; [exact E|]. split; [exact Z1|]. split; [exact Z2|].
  intros i s po k Es Ep Ek. specialize (Q i s po k Es Ep Ek). split; intros Hs.
  - subst s. exact Q.
  - destruct (s =? 0) eqn:E0; [apply Z.eqb_eq in E0; lia|]. cbn [fst snd] in Q. destruct Q as [Q1 Q2]. split; [exact Q1|].
    destruct (Req_EM_T k 0); split; intros; try contradiction; assumption.
Qed.
Lemma check_cond_rejects minperm minporo sat poro perm : (minporo <= 1)%R -> (0 <= minperm)%R -> zlen sat <= zlen poro -> zlen sat <= zlen perm -> ~ cells_valid sat poro perm ->
  check_cells (cond_cell minperm minporo) sat poro perm = Throw.
Proof.
  intros M Mk L1 L2 V. now apply (check_gen (cond_cell minperm minporo) _ (fun s po k H => cond_cell_ok minperm minporo s po k M Mk H) (cond_cell_bad minperm minporo) sat poro perm L1 L2).
Qed.
