From Coq Require Import Lra.
From Verif Require Import BaseFacts RBaseFacts Steady_Model Steady_Spec.
Open Scope Z_scope.

Lemma nthR_get l i x : zget l i = Some x -> nthR l i = x.
Proof. unfold nthR; intros ->; auto. Qed.
Lemma zget_nthR l i : 0 <= i < zlen l -> zget l i = Some (nthR l i).
Proof. intros H. destruct (zget_in_range _ _ H) as (x & Hx). rewrite Hx. now rewrite (nthR_get _ _ _ Hx). Qed.

Lemma max_change_unique m m' n a b : is_max_change m n a b -> is_max_change m' n a b -> m = m'.
Proof.
  intros (P1 & B1 & E1) (P2 & B2 & E2).
  apply Rle_antisym.
  - destruct E1 as [->|(i & Hi & ->)]; auto.
  - destruct E2 as [->|(i & Hi & ->)]; auto.
Qed.

Lemma racc_id l : racc (fun v => v) l = Rsum l.
Proof. rewrite racc_sum, map_id. auto. Qed.

Lemma sat_diff_ok pv a b : zlen a = zlen pv -> zlen b = zlen pv -> (0 < Rsum pv)%R ->
  exists m, sat_diff pv a b = Ok (m, Some (rms_change pv a b)) /\ is_max_change m (zlen pv) a b.
Proof.
  intros Ha Hb Hp. unfold sat_diff.
  destruct (foldM_inv (fun me i =>
      let* s := rget a i in let* o := rget b i in let* v := rget pv i in
      Ok (smax (fst me) (Rabs (s - o)), (snd me + (s - o) * (s - o) * v)%R))
     (fun l me => (0 <= fst me)%R /\ (forall i, In i l -> (Rabs (nthR a i - nthR b i) <= fst me)%R) /\
        (fst me = 0%R \/ exists i, In i l /\ fst me = Rabs (nthR a i - nthR b i)) /\
        snd me = Rsum (map (fun i => (nthR a i - nthR b i) ^ 2 * nthR pv i)%R l))
     (zrange 0 (zlen pv)) (0%R, 0%R)) as (me & E & H1 & H2 & H3 & H4).
  - cbn. repeat split; auto; try lra; try tauto.
  - intros l i me I (H1 & H2 & H3 & H4). apply In_zrange in I.
    rewrite (proj2 (rget_Ok a i _) (zget_nthR a i ltac:(lia))). cbn.
    rewrite (proj2 (rget_Ok b i _) (zget_nthR b i ltac:(lia))). cbn.
    rewrite (proj2 (rget_Ok pv i _) (zget_nthR pv i ltac:(lia))). cbn.
    eexists; split; [reflexivity|]. cbn [fst snd]. rewrite smax_Rmax.
    pose proof (Rmax_l (fst me) (Rabs (nthR a i - nthR b i))).
    pose proof (Rmax_r (fst me) (Rabs (nthR a i - nthR b i))).
    repeat split.
    + lra.
    + intros j Hj. apply in_app_or in Hj. destruct Hj as [Hj|[<-|[]]]; auto. specialize (H2 _ Hj). lra.
    + unfold Rmax. destruct (Rle_dec _ _).
      * right. exists i. split; auto. apply in_or_app; right; left; auto.
      * destruct H3 as [H3|(j & Hj & H3)]; auto. right. exists j. split; auto. apply in_or_app; auto.
    + rewrite map_app, Rsum_app, H4. cbn [map]. rewrite Rsum_cons, Rsum_nil. simpl pow. ring.
  - rewrite E. cbn [bind]. rewrite racc_id, fdiv_Some by lra. cbn. eexists; split.
    + rewrite H4. reflexivity.
    + repeat split; auto.
      * intros i Hi. apply H2. apply In_zrange; auto.
      * destruct H3 as [H3|(i & Hi & H3)]; auto. right. exists i. apply In_zrange in Hi. auto.
Qed.

(* ---- C36 *)
Section Loop.
Variables (p : sparams) (pv : list R) (tr : tsolver) (sat0 : list R).
Hypothesis H0 : zlen sat0 = zlen pv.
Hypothesis Hpv : (0 < Rsum pv)%R.
Hypothesis Htr : forall h s dt, zlen s = zlen pv -> zlen (snd (tr h s dt)) = zlen pv.
Hypothesis Hinit : (0 < sp_init p)%R.
Hypothesis Hmax : (0 < sp_max_step p)%R.

Definition trace_ok (calls : list tcall) : Prop :=
  forall k c, zget calls k = Some c ->
    tr (firstn (Z.to_nat k) calls) (tc_in c) (tc_step c) = (tc_conv c, tc_out c) /\
    tc_in c = sat_after sat0 (firstn (Z.to_nat k) calls) /\
    (0 < tc_step c <= Rmax (sp_init p) (sp_max_step p))%R /\
    (k = 0 -> tc_step c = sp_init p) /\
    (forall b, zget calls (k - 1) = Some b -> next_step p pv b (tc_step c) /\ ~ steady_call p pv b).

Definition linv (st : sstate) : Prop :=
  ss_old st = ss_sat st /\ ss_sat st = sat_after sat0 (ss_calls st) /\ zlen (ss_sat st) = zlen pv /\
  zlen (ss_calls st) = ss_it st /\ (0 < ss_step st <= Rmax (sp_init p) (sp_max_step p))%R /\
  (ss_calls st = [] -> ss_step st = sp_init p) /\ trace_ok (ss_calls st) /\
  (forall b, zget (ss_calls st) (zlen (ss_calls st) - 1) = Some b -> next_step p pv b (ss_step st)) /\
  (ss_stat st = true <-> exists b, zget (ss_calls st) (zlen (ss_calls st) - 1) = Some b /\ steady_call p pv b).

Lemma change_of_unique c d d' : change_of p pv c d -> change_of p pv c d' -> d = d'.
Proof. unfold change_of. destruct (sp_maxdiff p); [apply max_change_unique|congruence]. Qed.

Lemma body_inv st : linv st -> ss_stat st = false ->
  exists st', ss_body p pv tr st = Ok st' /\ linv st' /\ ss_it st' = ss_it st + 1.
Proof.
  intros (I1 & I2 & I3 & I4 & I5 & I6 & I7 & I8 & I9) Hs.
  unfold ss_body. destruct (tr (ss_calls st) (ss_sat st) (ss_step st)) as [cv out] eqn:Et. cbn [fst snd].
  pose proof (Htr (ss_calls st) (ss_sat st) (ss_step st) I3) as Ho. rewrite Et in Ho. cbn in Ho.
  set (c := mkCall (ss_sat st) (ss_step st) cv out).
  pose proof (zlen_nonneg (ss_calls st)) as Hn.
  assert (Hlast : zget (ss_calls st ++ [c]) (zlen (ss_calls st ++ [c]) - 1) = Some c).
  { rewrite zlen_app. replace (zlen (ss_calls st) + zlen [c] - 1) with (zlen (ss_calls st)) by (unfold zlen; cbn; lia).
    rewrite zget_app_r by lia. replace (zlen (ss_calls st) - zlen (ss_calls st)) with 0 by lia. auto. }
  assert (Hsa : sat_after sat0 (ss_calls st ++ [c]) = out).
  { unfold sat_after. rewrite map_app. cbn [map]. rewrite last_last. auto. }
  assert (T : trace_ok (ss_calls st ++ [c])).
  { intros k c' Hk.
    pose proof (zget_Some_range _ _ _ Hk) as Hr. rewrite zlen_app in Hr. change (zlen [c]) with 1 in Hr.
    destruct (Z.eq_dec k (zlen (ss_calls st))) as [Ek|Ek].
    - rewrite zget_app_r in Hk by lia. replace (k - zlen (ss_calls st)) with 0 in Hk by lia.
      assert (c' = c) by (cbn in Hk; congruence). subst c'.
      replace (firstn (Z.to_nat k) (ss_calls st ++ [c])) with (ss_calls st).
      2:{ replace (Z.to_nat k) with (length (ss_calls st)) by (unfold zlen in Ek; lia).
          rewrite firstn_app, Nat.sub_diag, firstn_all. cbn. now rewrite app_nil_r. }
      subst c. cbn [tc_in tc_step tc_conv tc_out]. repeat split; auto; try tauto.
      + intros K. apply I6. destruct (ss_calls st); auto. unfold zlen in *; cbn in *; lia.
      + assert (k - 1 < zlen (ss_calls st)) by lia. rewrite zget_app_l in H by lia. rewrite Ek in H. auto.
      + intros Q. rewrite zget_app_l in H by lia. rewrite Ek in H.
        assert (ss_stat st = true) by (apply I9; eauto). congruence.
    - rewrite zget_app_l in Hk by lia. destruct (I7 k c' Hk) as (A1 & A2 & A3 & A4 & A5).
      assert (Hf : firstn (Z.to_nat k) (ss_calls st ++ [c]) = firstn (Z.to_nat k) (ss_calls st)).
      { rewrite firstn_app. replace (Z.to_nat k - length (ss_calls st))%nat with 0%nat by (unfold zlen in *; lia).
        cbn. now rewrite app_nil_r. }
      rewrite Hf. repeat split; auto; try tauto.
      + rewrite zget_app_l in H by lia. apply A5; auto.
      + rewrite zget_app_l in H by lia. apply A5; auto. }
  assert (Hlen : zlen (ss_calls st ++ [c]) = ss_it st + 1).
  { rewrite zlen_app. unfold zlen at 2; cbn. lia. }
  destruct cv.
  - destruct (sat_diff_ok pv out (ss_old st) Ho ltac:(now rewrite I1) Hpv) as (m & Em & Hm).
    rewrite Em. cbn [bind fst snd]. eexists; split; [reflexivity|]. split; [|reflexivity].
    set (d := if sp_maxdiff p then m else rms_change pv out (ss_old st)).
    assert (Ed : (if sp_maxdiff p then Some m else Some (rms_change pv out (ss_old st))) = Some d)
      by (unfold d; destruct (sp_maxdiff p); auto).
    rewrite Ed. cbn [option_map below].
    assert (Hd : change_of p pv c d).
    { unfold change_of, d, c. cbn [tc_in tc_out]. rewrite <- I1. destruct (sp_maxdiff p); auto. }
    set (stp := if Rltb d (sp_dt_tol p) then smin (sp_max_step p) (2 * ss_step st)%R else ss_step st).
    assert (Hns : next_step p pv c stp).
    { unfold next_step. change (tc_conv c) with true. exists d. split; auto.
      unfold stp. change (tc_step c) with (ss_step st).
      destruct (Rltb_spec d (sp_dt_tol p)); [left|right]; split; auto; try lra. apply smin_Rmin. }
    unfold linv. cbn [ss_old ss_sat ss_calls ss_it ss_step ss_stat].
    split; [auto|]. split; [auto|]. split; [auto|]. split; [auto|].
    split.
    { unfold stp. destruct (Rltb_spec d (sp_dt_tol p)); auto. rewrite smin_Rmin.
      split; [apply Rmin_glb_lt; lra|]. eapply Rle_trans; [apply Rmin_l|apply Rmax_r]. }
    split; [intros Q; destruct (ss_calls st); discriminate|].
    split; [auto|]. split; [intros b Hb; rewrite Hlast in Hb; injection Hb as <-; auto|].
    split.
    + intros Q. exists c. split; auto. split; auto. exists d. split; auto.
      change (tc_step c) with (ss_step st). now apply Rltb_true.
    + intros (b & Hb & Sb). rewrite Hlast in Hb. injection Hb as <-.
      destruct Sb as (_ & d' & Hd' & Lt). rewrite (change_of_unique _ _ _ Hd' Hd) in Lt. now apply Rltb_true.
  - eexists; split; [reflexivity|]. split; [|reflexivity].
    unfold linv. cbn [ss_old ss_sat ss_calls ss_it ss_step ss_stat].
    split; [auto|]. split; [auto|]. split; [auto|]. split; [auto|].
    split; [lra|].
    split; [intros Q; destruct (ss_calls st); discriminate|].
    split; [auto|]. split; [intros b Hb; rewrite Hlast in Hb; injection Hb as <-; auto|].
    + reflexivity.
    + split; [discriminate|]. intros (b & Hb & Sb). rewrite Hlast in Hb. injection Hb as <-. destruct Sb as (Q & _). discriminate.
Qed.

Lemma loop_inv fuel : forall st, linv st -> sp_max_it p - ss_it st <= Z.of_nat fuel -> ss_it st <= Z.max 0 (sp_max_it p) ->
  exists st', ss_loop fuel p pv tr st = Ok st' /\ linv st' /\ ss_it st' <= Z.max 0 (sp_max_it p) /\
    (ss_stat st' = true \/ sp_max_it p <= ss_it st').
Proof.
  induction fuel as [|n IH]; intros st Hi Hf Hm; cbn [ss_loop].
  - destruct (ss_stat st) eqn:Es; cbn [negb andb]; [eexists; split; [reflexivity|]; auto|].
    destruct (Z.ltb_spec (ss_it st) (sp_max_it p)); [lia|]. eexists; split; [reflexivity|]. auto.
  - destruct (ss_stat st) eqn:Es; cbn [negb andb]; [eexists; split; [reflexivity|]; auto|].
    destruct (Z.ltb_spec (ss_it st) (sp_max_it p)).
    + destruct (body_inv st Hi Es) as (st' & Eb & Hi' & It). rewrite Eb. cbn [bind]. apply IH; auto; lia.
    + eexists; split; [reflexivity|]. auto.
Qed.

Lemma run_inv : exists st, steady_run p pv tr sat0 = Ok st /\ linv st /\ ss_it st <= Z.max 0 (sp_max_it p) /\
    (ss_stat st = true \/ sp_max_it p <= ss_it st).
Proof.
  apply loop_inv; [|cbn; lia|cbn; lia].
  unfold linv. cbn [ss_old ss_sat ss_calls ss_it ss_step ss_stat].
  assert (G : forall k c, zget (@nil tcall) k = Some c -> False).
  { intros k c H. apply zget_Some_range in H. change (zlen (@nil tcall)) with 0 in H. lia. }
  repeat split; auto; try discriminate; try lra; try (exfalso; eapply G; eassumption).
  - apply Rmax_l.
  - intros (b & H & _). exfalso; eapply G; eassumption.
Qed.
End Loop.

Lemma steady_ok p pv tr sat0 :
  zlen sat0 = zlen pv -> (0 < Rsum pv)%R ->
  (forall h s dt, zlen s = zlen pv -> zlen (snd (tr h s dt)) = zlen pv) ->
  (0 < sp_init p)%R -> (0 < sp_max_step p)%R ->
  exists st, steady_run p pv tr sat0 = Ok st /\
    let calls := ss_calls st in
    zlen calls = ss_it st /\ zlen calls <= Z.max 0 (sp_max_it p) /\
    (forall k c, zget calls k = Some c ->
       tr (firstn (Z.to_nat k) calls) (tc_in c) (tc_step c) = (tc_conv c, tc_out c) /\
       tc_in c = sat_after sat0 (firstn (Z.to_nat k) calls) /\
       (0 < tc_step c <= Rmax (sp_init p) (sp_max_step p))%R /\
       (k = 0 -> tc_step c = sp_init p) /\
       (forall b, zget calls (k - 1) = Some b -> next_step p pv b (tc_step c) /\ ~ steady_call p pv b)) /\
    ss_sat st = sat_after sat0 calls /\
    (ss_stat st = true <-> exists c, zget calls (zlen calls - 1) = Some c /\ steady_call p pv c) /\
    (ss_stat st = false -> zlen calls = Z.max 0 (sp_max_it p)).
Proof.
  intros A B C D E. destruct (run_inv p pv tr sat0 A B C D E) as (st & Er & (I1 & I2 & I3 & I4 & I5 & I6 & I7 & I8 & I9) & Hm & Hs).
  exists st. split; auto. cbv zeta. split; auto. split; [lia|]. split; [exact I7|]. split; auto. split; auto.
  intros Q. destruct Hs as [Hs|Hs]; [congruence|]. rewrite I4. pose proof (zlen_nonneg (ss_calls st)). lia.
Qed.
