From Verif Require Import BaseFacts RBaseFacts Lin_Facts Steady_Proofs Euler_Proofs2 Impl_Proofs Matx_Proofs Hnum_Proofs Hnum_Proofs2 Hyb_Proofs Hyb_Proofs2 Hyb_Proofs3 Hyb_Proofs4 Hyb_Proofs5 Hyb_Proofs6 Hyb_Proofs7 Hyb_Proofs8 Lsv_Spec.
Open Scope Z_scope.

(* ---- history ---- *)
Definition inplace (p : option lprec) (log : list lcall) : Prop :=
  match p with
  | None => forall c, In c log -> lc_type c = 0
  | Some q => exists j b, zget log j = Some b /\ lc_type b = lp_type q /\ lc_type b <> 0 /\ lc_new b = true /\ lc_op b = lp_mat q /\
      forall m c, j < m -> zget log m = Some c -> lc_type c = 0 \/ (lc_new c = false /\ lc_type c = lp_type q)
  end.
Definition good (log : list lcall) : Prop := forall i c, zget log i = Some c -> 0 <= lc_type c <= 3 /\ (lc_type c = 0 -> lc_prec c = lc_op c) /\
  (lc_type c <> 0 -> exists j b, 0 <= j <= i /\ zget log j = Some b /\ lc_type b = lc_type c /\ lc_new b = true /\ lc_op b = lc_prec c /\
     forall m c', j < m <= i -> zget log m = Some c' -> lc_type c' = 0 \/ (lc_new c' = false /\ lc_type c' = lc_type c)).

Lemma zget_snoc {A} (l : list A) a i b : zget (l ++ [a]) i = Some b -> (zget l i = Some b /\ i < zlen l) \/ (i = zlen l /\ b = a).
Proof.
  intros H. pose proof (zget_Some_range _ _ _ H) as Hr. rewrite zlen_app in Hr. replace (zlen [a]) with 1 in Hr by reflexivity. destruct (Z.eq_dec i (zlen l)) as [->|Ne].
  - rewrite zget_app_r in H by lia. replace (zlen l - zlen l) with 0 in H by lia. cbn in H. right. split; [reflexivity|congruence].
  - rewrite zget_app_l in H by lia. left. split; [exact H|lia].
Qed.
Lemma zget_last {A} (l : list A) a : zget (l ++ [a]) (zlen l) = Some a.
Proof. rewrite zget_app_r by lia. replace (zlen l - zlen l) with 0 by lia. reflexivity. Qed.
Lemma zget_snoc_l {A} (l : list A) a i b : zget l i = Some b -> zget (l ++ [a]) i = Some b.
Proof. intros H. pose proof (zget_Some_range _ _ _ H). rewrite zget_app_l by lia. exact H. Qed.

(* the three things a solve can do to the preconditioner and the trace *)
Inductive effect (ty : Z) (p : option lprec) : option lprec -> res lcall -> Prop :=
  | E_bad r : (forall lc, r <> Ok lc) -> r = Throw \/ r = UB -> effect ty p p r
  | E_ub q : effect ty p (Some q) UB
  | E_ilu lc : lc_type lc = 0 -> lc_prec lc = lc_op lc -> effect ty p p (Ok lc)
  | E_new m lc : 1 <= ty <= 3 -> lc_type lc = ty -> lc_new lc = true -> lc_op lc = m -> lc_prec lc = m -> effect ty p (Some (mkLp ty m)) (Ok lc)
  | E_old q lc : 1 <= ty <= 3 -> p = Some q -> lp_type q = ty -> lc_type lc = ty -> lc_new lc = false -> lc_prec lc = lp_mat q -> effect ty p p (Ok lc).

Lemma lin_effect ty same s d maxit p p' r : lin_call ty same s d maxit p = (p', r) -> effect ty p p' r.
Proof.
  unfold lin_call. destruct (Z.eqb_spec ty 0) as [->|N0].
  - intros H. injection H as <- <-. unfold ilu_call. destruct (regularise s d) as [s'| |]; cbn [bind]; [|apply E_bad; [intros; discriminate|auto]..]. apply E_ilu; reflexivity.
  - destruct ((1 <=? ty) && (ty <=? 3)) eqn:E; [|intros H; injection H as <- <-; apply E_bad; [intros; discriminate|auto]].
    apply andb_prop in E. assert (Ht : 1 <= ty <= 3) by lia. unfold amg_call. destruct same.
    + intros H. injection H as <- <-. unfold use_precond. destruct p as [q|]; [|apply E_bad; [intros; discriminate|auto]].
      destruct (Z.eqb_spec (lp_type q) ty) as [Eq|]; [|apply E_bad; [intros; discriminate|auto]].
      destruct (start_guess s) as [x| |]; cbn [bind]; [|apply E_bad; [intros; discriminate|auto]..]. eapply E_old; try reflexivity; eauto.
    + destruct (regularise s d) as [s'| |]; intros H; injection H as <- <-; [|apply E_bad; [intros; discriminate|auto]..].
      unfold use_precond. cbn [lp_type lp_mat]. rewrite Z.eqb_refl. unfold start_guess.
      match goal with |- context[bind ?e _] => destruct e as [x| |] eqn:Es end; cbn [bind].
      * apply E_new; try reflexivity. exact Ht.
      * exfalso. revert Es. match goal with |- foldM ?ff ?ll ?xx = Throw -> False => assert (NT : forall l x, foldM ff l x <> Throw) end.
        { induction l as [|(i & row) l IH]; intros x; cbn [foldM]; [discriminate|]. destruct (decoupled s' i row); [|cbn [bind]; apply IH]. destruct (sy_has s' i i); [|discriminate].
          unfold rget, mdiv. destruct (zget (sy_rhs s') i) as [r|]; cbn [bind]; [|discriminate]. destruct (fdiv r (sy_val s' i i)); cbn [bind]; [|discriminate]. unfold rset. destruct ((0 <=? i) && (i <? zlen x)); cbn [bind]; [apply IH|discriminate]. }
        apply NT.
      * apply E_ub.
Qed.

Lemma extend log p p' ty lc : effect ty p p' (Ok lc) -> inplace p log -> good log -> inplace p' (log ++ [lc]) /\ good (log ++ [lc]).
Proof.
  intros E I G. inversion E as [r A B|q|lc' A B|m lc' A B C D F|q lc' A B C D F H]; subst; try (exfalso; eapply A; reflexivity).
  - split.
    + destruct p' as [q|]; cbn [inplace] in *.
      * destruct I as (j & b & Gj & T & T0 & Nw & O & L). exists j, b. split; [apply zget_snoc_l; exact Gj|]. repeat split; auto. intros m c Hm Gm. destruct (zget_snoc _ _ _ _ Gm) as [(G' & _)|(_ & ->)]; [apply (L m c Hm G')|left; exact A].
      * intros c Hc. apply in_app_or in Hc. destruct Hc as [Hc|[->|[]]]; [apply I; exact Hc|exact A].
    + intros i c Gi. destruct (zget_snoc _ _ _ _ Gi) as [(G' & Hi)|(-> & ->)].
      * destruct (G i c G') as (X & Y & Z). split; [exact X|]. split; [exact Y|]. intros W. destruct (Z W) as (j & b & Hj & Gj & T & Nw & O & L). exists j, b. split; [exact Hj|]. split; [apply zget_snoc_l; exact Gj|]. repeat split; auto.
        intros m c' Hm Gm. apply (L m c' Hm). destruct (zget_snoc _ _ _ _ Gm) as [(G2 & _)|(-> & _)]; [exact G2|lia].
      * split; [lia|]. split; [auto|]. intros; lia.
  - split.
    + exists (zlen log), lc. split; [apply zget_last|]. cbn [lp_type lp_mat]. repeat split; auto; [lia|]. intros m c Hm Gm. pose proof (zget_Some_range _ _ _ Gm) as Hr. rewrite zlen_app in Hr. replace (zlen [lc]) with 1 in Hr by reflexivity. lia.
    + intros i c Gi. destruct (zget_snoc _ _ _ _ Gi) as [(G' & Hi)|(-> & ->)].
      * destruct (G i c G') as (X & Y & Z). split; [exact X|]. split; [exact Y|]. intros W. destruct (Z W) as (j & b & Hj & Gj & T & Nw & O & L). exists j, b. split; [exact Hj|]. split; [apply zget_snoc_l; exact Gj|]. repeat split; auto.
        intros m c' Hm Gm. apply (L m c' Hm). destruct (zget_snoc _ _ _ _ Gm) as [(G2 & _)|(-> & _)]; [exact G2|lia].
      * split; [lia|]. split; [lia|]. intros _. exists (zlen log), lc. split; [pose proof (zlen_nonneg log); lia|]. split; [apply zget_last|]. repeat split; auto; try congruence. intros; lia.
  - cbn [inplace] in *. destruct I as (j & b & Gj & T & T0 & Nw & O & L). split.
    + exists j, b. split; [apply zget_snoc_l; exact Gj|]. repeat split; auto. intros m c Hm Gm. destruct (zget_snoc _ _ _ _ Gm) as [(G' & _)|(_ & ->)]; [apply (L m c Hm G')|right; split; assumption].
    + intros i c Gi. destruct (zget_snoc _ _ _ _ Gi) as [(G' & Hi)|(-> & ->)].
      * destruct (G i c G') as (X & Y & Z). split; [exact X|]. split; [exact Y|]. intros W. destruct (Z W) as (j' & b' & Hj & Gj' & T' & Nw' & O' & L'). exists j', b'. split; [exact Hj|]. split; [apply zget_snoc_l; exact Gj'|]. repeat split; auto.
        intros m c' Hm Gm. apply (L' m c' Hm). destruct (zget_snoc _ _ _ _ Gm) as [(G2 & _)|(-> & _)]; [exact G2|lia].
      * split; [lia|]. split; [lia|]. intros _. exists j, b. pose proof (zget_Some_range _ _ _ Gj). split; [lia|]. split; [apply zget_snoc_l; exact Gj|]. repeat split; auto; try congruence.
        intros m c' Hm Gm. destruct (zget_snoc _ _ _ _ Gm) as [(G2 & _)|(_ & ->)]; [destruct (L m c' ltac:(lia) G2) as [U|(U & V)]; [auto|right; split; congruence]|right; split; [assumption|congruence]].
Qed.

Lemma solve_effect K sv c sv' l r : sv_solve K sv c = (sv', l, r) -> r <> UB ->
  (sv_prec sv' = sv_prec sv /\ l = []) \/ exists lc, l = [lc] /\ effect (sc_type c) (sv_prec sv) (sv_prec sv') (Ok lc).
Proof.
  unfold sv_solve. intros H NU. destruct (sv_grid sv) as [(g & st)|]; [|injection H as <- <- <-; congruence].
  destruct (assemble _ _ _ _ _) as [(s & d)| |]; [|injection H as <- <- <-; auto..]. destruct (lin_call _ _ _ _ _ _) as (p & r0) eqn:E. apply lin_effect in E.
  destruct r0 as [lc| |].
  - right. exists lc. destruct (apply_solver K lc) as [x| |]; [destruct (recover _ _ _ _ _) as [sol| |]|..]; injection H as <- <- <-; cbn [sv_prec]; auto.
  - injection H as <- <- <-. left. inversion E; subst; auto.
  - injection H as <- <- <-. congruence.
Qed.

Lemma run_inv K ops : forall sv sv' log log0, sv_run K sv ops = Some (sv', log) -> inplace (sv_prec sv) log0 -> good log0 -> inplace (sv_prec sv') (log0 ++ log) /\ good (log0 ++ log).
Proof.
  induction ops as [|o ops IH]; intros sv sv' log log0 H I G; cbn [sv_run] in H.
  - injection H as <- <-. rewrite app_nil_r. auto.
  - destruct (sv_step K sv o) as [(sv1 & l)|] eqn:E; [|discriminate]. destruct (sv_run K sv1 ops) as [(sv2 & l')|] eqn:E2; [|discriminate]. injection H as <- <-. rewrite app_assoc. apply (IH _ _ _ _ E2).
    + destruct o as [g bc|c]; cbn [sv_step] in E.
      * unfold sv_init in E. destruct (zlen g =? 0); [injection E as <- <-; rewrite app_nil_r; exact I|]. destruct (init_structure g bc); cbn [bind] in E; try discriminate. injection E as <- <-. rewrite app_nil_r. exact I.
      * destruct (sv_solve K sv c) as ((sv3 & l3) & r) eqn:Es. assert (NU : r <> UB) by (intros ->; discriminate). destruct (solve_effect _ _ _ _ _ _ Es NU) as [(P & L)|(lc & L & Ef)].
        { destruct r; try congruence; injection E as <- <-; subst; rewrite app_nil_r, P; exact I. }
        { destruct r; try congruence; injection E as <- <-; subst; apply (extend _ _ _ _ _ Ef I G). }
    + destruct o as [g bc|c]; cbn [sv_step] in E.
      * unfold sv_init in E. destruct (zlen g =? 0); [injection E as <- <-; rewrite app_nil_r; exact G|]. destruct (init_structure g bc); cbn [bind] in E; try discriminate. injection E as <- <-. rewrite app_nil_r. exact G.
      * destruct (sv_solve K sv c) as ((sv3 & l3) & r) eqn:Es. assert (NU : r <> UB) by (intros ->; discriminate). destruct (solve_effect _ _ _ _ _ _ Es NU) as [(P & L)|(lc & L & Ef)].
        { destruct r; try congruence; injection E as <- <-; subst; rewrite app_nil_r; exact G. }
        { destruct r; try congruence; injection E as <- <-; subst; apply (extend _ _ _ _ _ Ef I G). }
Qed.
Lemma fresh_inv K ops sv log : sv_run K fresh ops = Some (sv, log) -> inplace (sv_prec sv) log /\ good log.
Proof. intros H. apply (run_inv K ops fresh sv log [] H); [intros c []|intros i c Gi]. apply zget_Some_range in Gi. cbn in Gi. lia. Qed.

Lemma reuse_history : forall K ops sv log, sv_run K fresh ops = Some (sv, log) -> forall i c, zget log i = Some c ->
  0 <= lc_type c <= 3 /\ (lc_type c = 0 -> lc_prec c = lc_op c) /\
  (lc_type c <> 0 -> exists j b, 0 <= j <= i /\ zget log j = Some b /\ lc_type b = lc_type c /\ lc_new b = true /\ lc_op b = lc_prec c /\
     forall m c', j < m <= i -> zget log m = Some c' -> lc_type c' = 0 \/ (lc_new c' = false /\ lc_type c' = lc_type c)).
Proof. intros K ops sv log H. exact (proj2 (fresh_inv K ops sv log H)). Qed.

Lemma no_build K ops : (forall o, In o ops -> ~ builds o) -> forall sv sv' log, sv_prec sv = None -> sv_run K sv ops = Some (sv', log) -> sv_prec sv' = None.
Proof.
  induction ops as [|o ops IH]; intros Hb sv sv' log P H; cbn [sv_run] in H; [injection H as <- <-; exact P|].
  destruct (sv_step K sv o) as [(sv1 & l)|] eqn:E; [|discriminate]. destruct (sv_run K sv1 ops) as [(sv2 & l')|] eqn:E2; [|discriminate]. injection H as <- <-.
  apply (IH (fun o' Ho => Hb o' (or_intror Ho)) _ _ _) with (2 := E2). pose proof (Hb o (or_introl eq_refl)) as Nb. destruct o as [g bc|c]; cbn [sv_step builds] in *.
  - unfold sv_init in E. destruct (zlen g =? 0); [injection E as <- <-; exact P|]. destruct (init_structure g bc); cbn [bind] in E; try discriminate. injection E as <- <-. exact P.
  - unfold sv_solve in E. destruct (sv_grid sv) as [(g & st)|]; [|discriminate]. destruct (assemble _ _ _ _ _) as [(s & d)| |]; [|injection E as <- <-; exact P|discriminate].
    rewrite P in E. unfold lin_call, amg_call in E. destruct (Z.eqb_spec (sc_type c) 0).
    + destruct (ilu_call s d (sc_maxit c)) as [lc| |]; [destruct (apply_solver K lc) as [x| |]; [destruct (recover _ _ _ _ _)|..]|..]; try discriminate; injection E as <- <-; reflexivity.
    + destruct ((1 <=? sc_type c) && (sc_type c <=? 3)) eqn:Et; [|injection E as <- <-; reflexivity]. apply andb_prop in Et. destruct (sc_same c) eqn:Es; [|exfalso; apply Nb; split; [lia|reflexivity]]. cbn [use_precond] in E. discriminate.
Qed.
Lemma reuse_first : forall K ops sv log, sv_run K fresh ops = Some (sv, log) -> (forall o, In o ops -> ~ builds o) ->
  forall c g st s d, sv_grid sv = Some (g, st) -> assemble g (sc_bc c) st (sc_ip c) (sc_src c) = Ok (s, d) -> 1 <= sc_type c <= 3 -> sc_same c = true ->
  sv_solve K sv c = (sv, [], UB).
Proof.
  intros K ops sv log H Nb c g st s d Eg Ea Ht Es. pose proof (no_build K ops Nb fresh sv log eq_refl H) as P. unfold sv_solve. rewrite Eg, Ea, P. unfold lin_call, amg_call. destruct (Z.eqb_spec (sc_type c) 0); [lia|].
  replace ((1 <=? sc_type c) && (sc_type c <=? 3)) with true by (symmetry; apply andb_true_intro; lia). rewrite Es. cbn [use_precond]. destruct sv; cbn in *; congruence.
Qed.
Lemma reuse_other_class : forall K ops sv log, sv_run K fresh ops = Some (sv, log) ->
  forall j b, zget log j = Some b -> lc_type b <> 0 -> (forall m c', j < m -> zget log m = Some c' -> lc_type c' = 0) ->
  forall c g st s d, sv_grid sv = Some (g, st) -> assemble g (sc_bc c) st (sc_ip c) (sc_src c) = Ok (s, d) -> 1 <= sc_type c <= 3 -> sc_same c = true ->
  sc_type c <> lc_type b -> sv_solve K sv c = (sv, [], Throw).
Proof.
  intros K ops sv log H j b Gj Tb Lb c g st s d Eg Ea Ht Es Ne. destruct (fresh_inv K ops sv log H) as (I & G). destruct (sv_prec sv) as [q|] eqn:P; cbn [inplace] in I.
  2:{ exfalso. apply Tb, I. eapply zget_In. exact Gj. }
  destruct I as (j' & b' & Gj' & T & T0 & Nw & O & L). assert (Eq : lp_type q = lc_type b).
  { destruct (Z.lt_trichotomy j j') as [Hlt|[->|Hlt]]; [exfalso; apply T0, (Lb j' b' Hlt Gj')|congruence|]. destruct (L j b Hlt Gj) as [U|(_ & U)]; [contradiction|congruence]. }
  unfold sv_solve. rewrite Eg, Ea, P. unfold lin_call, amg_call. destruct (Z.eqb_spec (sc_type c) 0); [lia|].
  replace ((1 <=? sc_type c) && (sc_type c <=? 3)) with true by (symmetry; apply andb_true_intro; lia). rewrite Es. cbn [use_precond]. destruct (Z.eqb_spec (lp_type q) (sc_type c)); [congruence|]. destruct sv; cbn in *; congruence.
Qed.

(* ---- one solve ---- *)
Lemma failure_keeps : forall K sv c sv' l, sv_solve K sv c = (sv', l, Throw) -> sv_sol sv' = sv_sol sv /\ sv_grid sv' = sv_grid sv.
Proof.
  intros K sv c sv' l H. unfold sv_solve in H. destruct (sv_grid sv) as [(g & st)|] eqn:Eg; [|discriminate]. destruct (assemble _ _ _ _ _) as [(s & d)| |]; [|injection H as <- <-; auto|discriminate].
  destruct (lin_call _ _ _ _ _ _) as (p & r0). destruct r0 as [lc| |]; [|injection H as <- <-; auto|discriminate].
  destruct (apply_solver K lc) as [x| |]; [destruct (recover _ _ _ _ _) as [sol| |]|..]; try discriminate; injection H as <- <-; auto.
Qed.
Lemma success_converged : forall K sv c sv' l, sv_solve K sv c = (sv', l, Ok tt) -> exists g st s d lc x, sv_grid sv = Some (g, st) /\ sv_grid sv' = Some (g, st) /\
  assemble g (sc_bc c) st (sc_ip c) (sc_src c) = Ok (s, d) /\ l = [lc] /\ K (lc_type lc) (lc_op lc) (lc_prec lc) (lc_rhs lc) (lc_start lc) (lc_maxit lc) = (x, true) /\
  recover g st (sc_ip c) d x = Ok (sv_sol sv').
Proof.
  intros K sv c sv' l H. unfold sv_solve in H. destruct (sv_grid sv) as [(g & st)|] eqn:Eg; [|discriminate]. destruct (assemble _ _ _ _ _) as [(s & d)| |] eqn:Ea; [|discriminate..].
  destruct (lin_call _ _ _ _ _ _) as (p & r0). destruct r0 as [lc| |]; [|discriminate..]. unfold apply_solver in H.
  destruct (K (lc_type lc) (lc_op lc) (lc_prec lc) (lc_rhs lc) (lc_start lc) (lc_maxit lc)) as (x & cv) eqn:EK. destruct cv; [|discriminate]. destruct (recover g st (sc_ip c) d x) as [sol| |] eqn:Er; [|discriminate..].
  injection H as <- <-. exists g, st, s, d, lc, x. repeat split; auto.
Qed.
