From Verif Require Import BaseFacts RBaseFacts Lin_Facts Steady_Proofs Steady_Proofs2 Euler_Proofs2 Impl_Proofs Eld_Proofs2 Ssk_Spec.
Open Scope Z_scope.

(* ---- maximal change ---- *)
Lemma max_diff_loop s old l : forall m d, foldM (fun m i => let* a := rget s i in let* b := rget old i in Ok (smax m (Rabs (a - b)))) l m = Ok d ->
  (m <= d)%R /\ (forall i, In i l -> (Rabs (nthR s i - nthR old i) <= d)%R) /\ (d = m \/ exists i, In i l /\ d = Rabs (nthR s i - nthR old i)).
Proof.
  induction l as [|c l IH]; intros m d E; cbn [foldM] in E.
  - injection E as <-. split; [lra|]. split; [intros i []|left; reflexivity].
  - apply bind_Ok in E. destruct E as (m' & E1 & E). apply bind_Ok in E1. destruct E1 as (a & Ea & E1). apply bind_Ok in E1. destruct E1 as (b & Eb & E1). injection E1 as <-. apply rget_Ok in Ea, Eb.
    assert (Na : nthR s c = a) by (apply nthR_get; exact Ea). assert (Nb : nthR old c = b) by (apply nthR_get; exact Eb). destruct (IH _ _ E) as (A & B & C). rewrite smax_Rmax in A, C. pose proof (Rmax_l m (Rabs (a - b))). pose proof (Rmax_r m (Rabs (a - b))). split; [lra|]. split.
    + intros i [<- |I]; [rewrite Na, Nb; lra|exact (B i I)].
    + destruct C as [->|(i & I & ->)]; [|right; exists i; split; [right; exact I|reflexivity]]. unfold Rmax. destruct (Rle_dec m (Rabs (a - b))); [right; exists c; split; [left; reflexivity|rewrite Na, Nb; reflexivity]|left; reflexivity].
Qed.
Lemma max_diff_is s old d : max_diff s old = Ok d -> is_max_change d (zlen s) s old.
Proof.
  intros E. destruct (max_diff_loop s old _ _ _ E) as (A & B & C). split; [exact A|]. split; [intros i Hi; apply B, In_zrange; lia|]. destruct C as [C|(i & I & C)]; [left; exact C|right]. exists i. apply In_zrange in I. split; [lia|exact C].
Qed.
(* ---- the loop ---- *)
Definition change_at (sat : list R) (l : list (list R)) (i : Z) (d : R) : Prop := is_max_change d (zlen (after_step l i)) (after_step l i) (before_step sat l i).
Lemma after_cons s l i : 0 < i -> after_step (s :: l) i = after_step l (i - 1).
Proof. intros H. unfold after_step. replace (Z.to_nat i) with (S (Z.to_nat (i - 1))) by lia. reflexivity. Qed.
Lemma before_cons sat s l i : 0 < i -> before_step sat (s :: l) i = before_step s l (i - 1).
Proof.
  intros H. unfold before_step. destruct (Z.eqb_spec i 0); [lia|]. destruct (Z.eqb_spec (i - 1) 0) as [E|N]; [rewrite E; reflexivity|]. replace (Z.to_nat (i - 1)) with (S (Z.to_nat (i - 1 - 1))) by lia. reflexivity.
Qed.
Lemma x_loop_ok p tr n : forall h sat h' s, x_loop n p tr h sat sat = Ok (h', s) -> exists l, h' = h ++ l /\ zlen l <= Z.of_nat n /\ steps_from tr h sat l /\ s = before_step sat l (zlen l) /\
  (forall i, 0 <= i < zlen l - 1 -> exists d, change_at sat l i d /\ (xp_change p <= d)%R) /\
  (zlen l < Z.of_nat n -> 0 < zlen l /\ exists d, change_at sat l (zlen l - 1) d /\ (d < xp_change p)%R).
Proof.
  induction n as [|n IH]; intros h sat h' s E; cbn [x_loop] in E.
  - injection E as <- <-. exists []. rewrite app_nil_r. change (zlen (@nil (list R))) with 0. split; [reflexivity|]. split; [lia|]. split; [exact I|]. split; [reflexivity|]. split; intros; lia.
  - apply bind_Ok in E. destruct E as (s1 & Et & E). apply bind_Ok in E. destruct E as (d & Ed & E). pose proof (max_diff_is _ _ _ Ed) as Hd. destruct (Rltb d (xp_change p)) eqn:C.
    + injection E as <- <-. exists [s1]. apply Rltb_true in C. change (zlen [s1]) with 1. split; [reflexivity|]. split; [lia|]. split; [split; [exact Et|exact I]|]. split; [reflexivity|]. split; [intros; lia|]. intros _. split; [lia|]. exists d. split; [exact Hd|exact C].
    + apply Rltb_false in C. destruct (IH _ _ _ _ E) as (l & -> & L & St & Es & B & F). exists (s1 :: l). rewrite zlen_cons. pose proof (zlen_nonneg l) as N. split; [rewrite <- app_assoc; reflexivity|]. split; [lia|]. split; [split; [exact Et|exact St]|].
      split; [rewrite before_cons by lia; rewrite Es; f_equal; lia|]. assert (Sh : forall i e, 0 < i -> change_at s1 l (i - 1) e -> change_at sat (s1 :: l) i e) by (intros i e Hi Q; unfold change_at; rewrite after_cons, before_cons by exact Hi; exact Q). split.
      * intros i Hi. destruct (Z.eq_dec i 0) as [-> |Ni]; [exists d; split; [exact Hd|lra]|]. destruct (B (i - 1) ltac:(lia)) as (e & Q & Le). exists e. split; [apply Sh; [lia|exact Q]|exact Le].
      * intros Hl. destruct (F ltac:(lia)) as (P & e & Q & Le). split; [lia|]. exists e. split; [apply Sh; [lia|]; replace (1 + zlen l - 1 - 1) with (zlen l - 1) by lia; exact Q|exact Le].
Qed.
Lemma explicit_loop p tr sat0 l s : explicit_run p tr sat0 = Ok (l, s) ->
  zlen l <= Z.max 0 (xp_steps p) /\ steps_from tr [] sat0 l /\ s = before_step sat0 l (zlen l) /\
  (forall i, 0 <= i < zlen l - 1 -> exists d, is_max_change d (zlen (after_step l i)) (after_step l i) (before_step sat0 l i) /\ (xp_change p <= d)%R) /\
  (zlen l < xp_steps p -> 0 < zlen l /\ exists d, is_max_change d (zlen (after_step l (zlen l - 1))) (after_step l (zlen l - 1)) (before_step sat0 l (zlen l - 1)) /\ (d < xp_change p)%R).
Proof.
  intros E. destruct (x_loop_ok p tr _ _ _ _ _ E) as (l' & El & L & St & Es & B & F). cbn [app] in El. subst l'. split; [lia|]. split; [exact St|]. split; [exact Es|]. split; [exact B|]. intros H. apply F. pose proof (zlen_nonneg l). lia.
Qed.
Lemma explicit_all p tr sat0 l s : (xp_change p <= 0)%R -> explicit_run p tr sat0 = Ok (l, s) -> zlen l = Z.max 0 (xp_steps p).
Proof.
  intros C E. destruct (explicit_loop _ _ _ _ _ E) as (A & _ & _ & _ & F). pose proof (zlen_nonneg l). destruct (Z.lt_ge_cases (zlen l) (xp_steps p)) as [H'|H']; [|lia]. destruct (F H') as (_ & d & (D & _) & Lt). lra.
Qed.
(* ---- the results of the two upscalers ---- *)
Lemma explicit_kr orth u Kc low hi fl p tr sat0 after bct ph st mK st' ks sat : steady_ok orth u Kc low hi -> fluids_ok fl -> su_bct u = bct -> 0 <= ph < 2 -> zlen sat = zlen (su_g u) -> single_tensor u st = Ok (mK, st') ->
  explicit_steady u fl p tr sat0 mK after = Ok (ks, sat) -> (exists l, explicit_run p tr sat0 = Ok (l, sat)) /\ steady_kr orth u Kc low hi fl bct sat ph (entry mK) (entry (if ph =? 0 then fst ks else snd ks)).
Proof.
  intros UO FO Eb Hp L Es E. unfold explicit_steady in E. apply bind_Ok in E. destruct E as ((l & s) & E1 & E). apply bind_Ok in E. destruct E as (((mw & mo) & s2) & E2 & E). cbn [fst snd] in *. injection E as <- <-. split; [eauto|]. exists st, st', (after l), s2, mK, mw, mo. auto 12.
Qed.
Lemma implicit_kr orth u Kc low hi fl p pv tr sat0 after bct ph st mK st' ks sat ok : steady_ok orth u Kc low hi -> fluids_ok fl -> su_bct u = bct -> 0 <= ph < 2 -> zlen sat = zlen (su_g u) -> single_tensor u st = Ok (mK, st') ->
  implicit_steady u fl p pv tr sat0 mK after = Ok (ks, sat, ok) -> (exists s, steady_run p pv tr sat0 = Ok s /\ ss_sat s = sat /\ ss_stat s = ok) /\ steady_kr orth u Kc low hi fl bct sat ph (entry mK) (entry (if ph =? 0 then fst ks else snd ks)).
Proof.
  intros UO FO Eb Hp L Es E. unfold implicit_steady in E. apply bind_Ok in E. destruct E as (s & E1 & E). apply bind_Ok in E. destruct E as (((mw & mo) & s2) & E2 & E). cbn [fst snd] in *. injection E as <- <- <-. split; [eauto|]. exists st, st', (after s), s2, mK, mw, mo. auto 12.
Qed.
(* ---- the manager ---- *)
Lemma series_ok run s pd : forall before init rs, x_series run before s init pd = Ok rs -> exists l, rs = before ++ l /\ runs_of run before s init pd l.
Proof.
  induction pd as [|p t IH]; intros before init rs E; cbn [x_series] in E.
  - injection E as <-. exists []. split; [symmetry; apply app_nil_r|exact I].
  - apply bind_Ok in E. destruct E as (f & Ef & E). destruct (IH _ _ _ E) as (l & -> & Hl). exists (mkXrun s p init f :: l). split; [rewrite <- app_assoc; reflexivity|]. cbn [runs_of xr_sat xr_pdrop xr_start xr_final]. auto.
Qed.
Lemma manager_ok run nc ctl : forall before rs, x_manager run nc before ctl = Ok rs -> exists gs, rs = before ++ List.concat gs /\ length gs = length ctl /\
  forall k s pd, nth_error ctl k = Some (s, pd) -> exists g, nth_error gs k = Some g /\ runs_of run (before ++ List.concat (firstn k gs)) s (zrepeat s nc) pd g.
Proof.
  induction ctl as [|(s & pd) t IH]; intros before rs E; cbn [x_manager] in E.
  - injection E as <-. exists []. split; [symmetry; apply app_nil_r|]. split; [reflexivity|]. intros [|k] s pd H; discriminate.
  - apply bind_Ok in E. destruct E as (b & Eb & E). destruct (series_ok _ _ _ _ _ _ Eb) as (l & -> & Hl). destruct (IH _ _ E) as (gs & -> & Lg & G). exists (l :: gs). split; [cbn [List.concat]; rewrite app_assoc; reflexivity|]. split; [cbn; rewrite Lg; reflexivity|].
    intros [|k] s' pd' H; cbn [nth_error] in *.
    + injection H as <- <-. exists l. split; [reflexivity|]. cbn [firstn List.concat]. rewrite app_nil_r. exact Hl.
    + destruct (G k s' pd' H) as (g & Eg & Q). exists g. split; [exact Eg|]. cbn [firstn List.concat]. rewrite app_assoc. exact Q.
Qed.
Lemma manager_runs run nc ctl rs : x_manager run nc [] ctl = Ok rs -> exists gs, rs = List.concat gs /\ length gs = length ctl /\
  forall k s pd, nth_error ctl k = Some (s, pd) -> exists g, nth_error gs k = Some g /\ runs_of run (List.concat (firstn k gs)) s (zrepeat s nc) pd g.
Proof. intros E. exact (manager_ok run nc ctl [] rs E). Qed.
