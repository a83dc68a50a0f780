(* Capillary pressure limits, shifted rows, bounds; depth trend; variogram. *)
From Verif Require Import BaseFacts RBaseFacts Shape_Proofs2 Steady_Proofs Euler_Proofs2 Mload_Proofs Mload_Proofs2 Mload_Proofs3 Rprop_Proofs3 Avg_Proofs Avg_Proofs2 Chop_Props Drv_Proofs2 Drv_Proofs3 Drv_Proofs4 Drv_Spec.
Open Scope Z_scope.

Lemma run_app l1 l2 t : run (l1 ++ l2) t = match run l1 t with Next t' => run l2 t' | Fail t' => Fail t' | Undef => Undef end.
Proof.
  revert t. induction l1 as [|a l1 IH]; intros t; cbn [app run]; [reflexivity|]. destruct (a t); [apply IH|reflexivity|reflexivity].
Qed.
(* statements that do not touch the limits, or the column of pressures *)
Definition keeps (a : state -> outcome) : Prop := forall t, match a t with Next t' | Fail t' => t_pcmin t' = t_pcmin t /\ t_pcmax t' = t_pcmax t /\ t_cols t' Pc = t_cols t Pc | Undef => True end.
Lemma run_keeps l : Forall keeps l -> keeps (run l).
Proof.
  induction 1 as [|a l Ha Hl IH]; intros t; cbn [run]; [auto|]. specialize (Ha t). destruct (a t) as [t'|t'|]; [|exact Ha|exact I]. specialize (IH t'). destruct (run l t'); intuition congruence.
Qed.
Lemma put_keeps c v : c <> Pc -> keeps (put c v).
Proof. intros N t. unfold put. destruct v; cbn; [|auto]. rewrite push_other by congruence. auto. Qed.
Lemma put_sw_keeps rocks cells : keeps (put_sw rocks cells).
Proof. intros t. unfold put_sw. destruct cells; [|auto]. destruct (end_points rocks l); auto. Qed.
Lemma put_dips_keeps o l : keeps (put_dips o l).
Proof.
  intros t. unfold put_dips. destruct l; [|auto]. destruct (let* xy := dip_averages l in dip_azimuth (o_azim o) (fst xy) (snd xy)) as [[d a]| |]; auto.
Qed.
Lemma put_rock_keeps l : keeps (put_rock l).
Proof.
  intros t. unfold put_rock. destruct l; [|auto]. destruct (let* r := sat_volumes (t_max t) l in let* row := normalised (snd r) in Ok (fst r, row)) as [[m row]| |]; auto.
Qed.
Definition up_acts (o : opts) (s : sample) : list (state -> outcome) :=
  if o_upscale o then
     [need (s_perm s); put Poro (s_poro s)] ++ (if o_ntg o then [put NetPoro (s_netporo s); put Ntg (s_ntg s)] else []) ++
     (if o_swcr o then [put Swcr (s_swcr s)] else []) ++ (if o_sowcr o then [put Sowcr (s_sowcr s)] else []) ++
     [put Kx (option_map p_xx (s_perm s)); put Ky (option_map p_yy (s_perm s)); put Kz (option_map p_zz (s_perm s));
      put Kyz (option_map p_yz (s_perm s)); put Kxz (option_map p_xz (s_perm s)); put Kxy (option_map p_xy (s_perm s))]
   else [].
Definition mid_acts (o : opts) (rocks : list (R * R)) (s : sample) : list (state -> outcome) := (if o_upscale o then [] else [put Poro (s_poro2 s)]) ++ [put_sw rocks (s_cells s)].
Definition late_acts (o : opts) (s : sample) : list (state -> outcome) := (if o_dips o then [put_dips o (s_dips s)] else []) ++ (if o_satvol o then [put_rock (s_sat s)] else []).
Lemma acts_split o rocks s : acts o rocks s = up_acts o s ++ (if o_end o then [scan o rocks (s_cells s)] ++ mid_acts o rocks s ++ (if o_cappres o then [put_pc rocks (s_cells s) (s_pc s)] else []) else []) ++ late_acts o s.
Proof.
  unfold acts, up_acts, mid_acts, late_acts. destruct (o_end o); [|reflexivity]. rewrite <- !app_assoc. reflexivity.
Qed.
Lemma Forall_if {A} (P : A -> Prop) (b : bool) l : Forall P l -> Forall P (if b then l else []).
Proof. intros H. destruct b; [exact H|constructor]. Qed.
Lemma up_keeps o s : Forall keeps (up_acts o s).
Proof.
  unfold up_acts. apply Forall_if. constructor; [intros t; unfold need; destruct (s_perm s); auto|]. constructor; [apply put_keeps; discriminate|].
  apply Forall_app. split; [apply Forall_if; repeat constructor; apply put_keeps; discriminate|]. apply Forall_app. split; [apply Forall_if; repeat constructor; apply put_keeps; discriminate|].
  apply Forall_app. split; [apply Forall_if; repeat constructor; apply put_keeps; discriminate|]. repeat constructor; apply put_keeps; discriminate.
Qed.
Lemma mid_keeps o rocks s : Forall keeps (mid_acts o rocks s).
Proof.
  unfold mid_acts. apply Forall_app. split; [destruct (o_upscale o); repeat constructor; apply put_keeps; discriminate|]. constructor; [apply put_sw_keeps|constructor].
Qed.
Lemma late_keeps o s : Forall keeps (late_acts o s).
Proof.
  unfold late_acts. apply Forall_app. split; apply Forall_if; (constructor; [|constructor]); [apply put_dips_keeps|apply put_rock_keeps].
Qed.
Lemma up_flag o (rocks : list (R * R)) s t : fits t -> match run (up_acts o s) t with Next t' => forallb snd (up_stages o s) = true | Fail t' => forallb snd (up_stages o s) = false | Undef => True end.
Proof.
  intros F. assert (Q : Forall2 (act_ok o rocks s) (up_acts o s) (up_stages o s)).
  { pose proof (acts_ok o rocks s) as H. rewrite acts_split in H. unfold stages in H. apply Forall2_app_inv_l in H. destruct H as (l1 & l2 & H1 & _ & E).
    assert (L : List.length l1 = List.length (up_stages o s)).
    { rewrite <- (Forall2_length' _ _ _ H1). unfold up_acts, up_stages. destruct (o_upscale o), (o_ntg o), (o_swcr o), (o_sowcr o); reflexivity. }
    assert (l1 = up_stages o s) as -> by (clear -E L; revert l1 E L; induction (up_stages o s) as [|x l IH]; intros [|y l1] E L; cbn in *; try discriminate; [reflexivity|]; injection E as -> E; f_equal; apply (IH l1 E); lia). exact H1. }
  assert (D : distinct_cols (up_stages o s)).
  { pose proof (stages_distinct o s) as D. unfold stages in D. clear -D. revert D. generalize (end_stages o s ++ (if o_dips o then [([Dip; Azim], is_some (s_dips s))] else []) ++ (if o_satvol o then [([Rock], is_some (s_sat s))] else [])). intros l2. induction (up_stages o s) as [|[cs b] l IH]; intros D; [exact I|].
    cbn [app distinct_cols] in *. destruct D as [D1 D2]. split; [|exact (IH D2)]. intros c Hc b' Hb. apply (D1 c Hc b'). apply in_app_iff. auto. }
  pose proof (run_ok o rocks s _ _ Q D t F) as H. destruct (run (up_acts o s) t); tauto.
Qed.
(* ---- least and greatest *)
Lemma limits_fold cs : forall a b l1 l2, is_least a l1 -> is_greatest b l2 ->
  is_least (fst (pc_limits cs (a, b))) (l1 ++ map e_pcmin (filter (fun c => 0 <? e_sat c) cs)) /\ is_greatest (snd (pc_limits cs (a, b))) (l2 ++ map e_pcmax (filter (fun c => 0 <? e_sat c) cs)).
Proof.
  unfold pc_limits. induction cs as [|c cs IH]; intros a b l1 l2 H1 H2; cbn [fold_left filter map]; [rewrite !app_nil_r; auto|]. destruct (0 <? e_sat c); [|apply IH; assumption]. cbn [fst snd map].
  replace (l1 ++ e_pcmin c :: map e_pcmin (filter (fun c => 0 <? e_sat c) cs)) with ((l1 ++ [e_pcmin c]) ++ map e_pcmin (filter (fun c => 0 <? e_sat c) cs)) by (rewrite <- app_assoc; reflexivity).
  replace (l2 ++ e_pcmax c :: map e_pcmax (filter (fun c => 0 <? e_sat c) cs)) with ((l2 ++ [e_pcmax c]) ++ map e_pcmax (filter (fun c => 0 <? e_sat c) cs)) by (rewrite <- app_assoc; reflexivity).
  destruct H1 as [A1 A2], H2 as [B1 B2]. apply IH.
  - rewrite smin_Rmin. split.
    + apply in_app_iff. unfold Rmin. destruct (Rle_dec (e_pcmin c) a); cbn; auto.
    + intros y Hy. apply in_app_iff in Hy. destruct Hy as [Hy|[<-|[]]]; [|apply Rmin_l]. apply Rle_trans with a; [apply Rmin_r|auto].
  - rewrite smax_Rmax. split.
    + apply in_app_iff. unfold Rmax. destruct (Rle_dec (e_pcmax c) b); cbn; auto.
    + intros y Hy. apply in_app_iff in Hy. destruct Hy as [Hy|[<-|[]]]; [|apply Rmax_l]. apply Rle_trans with b; [auto|apply Rmax_r].
Qed.
Definition keepl (a : state -> outcome) : Prop := forall t, match a t with Next t' | Fail t' => t_pcmin t' = t_pcmin t /\ t_pcmax t' = t_pcmax t | Undef => True end.
Lemma run_keepl l : Forall keepl l -> keepl (run l).
Proof.
  induction 1 as [|a l Ha Hl IH]; intros t; cbn [run]; [auto|]. specialize (Ha t). destruct (a t) as [t'|t'|]; [|exact Ha|exact I]. specialize (IH t'). destruct (run l t'); intuition congruence.
Qed.
Lemma Forall_keepl l : Forall keeps l -> Forall keepl l.
Proof.
  apply Forall_impl. intros a H t. specialize (H t). destruct (a t); tauto.
Qed.
Lemma put_pc_keepl rocks cells f : keepl (put_pc rocks cells f).
Proof.
  intros t. unfold put_pc. destruct cells; [|auto]. destruct f; [|auto]. destruct (end_points rocks l); auto.
Qed.
Definition lims (o : opts) (ss : list sample) (t : state) : Prop :=
  is_least (t_pcmin t) (pc_start :: flat_map (pressures e_pcmin) (filter (searched o) ss)) /\ is_greatest (t_pcmax t) (- pc_start :: flat_map (pressures e_pcmax) (filter (searched o) ss))%R.
Lemma lims_same o ss s t t' : lims o ss t -> searched o s = false -> t_pcmin t' = t_pcmin t /\ t_pcmax t' = t_pcmax t /\ t_cols t' Pc = t_cols t Pc -> lims o (ss ++ [s]) t'.
Proof.
  intros L Q (A & B & _). unfold lims. rewrite filter_app. cbn [filter]. rewrite Q, app_nil_r, A, B. exact L.
Qed.
Lemma scan_plain o rocks cells : o_cappres o = false -> keeps (scan o rocks cells).
Proof.
  intros H t. unfold scan. destruct cells; [|auto]. destruct (end_points rocks l); auto. rewrite H. auto.
Qed.
Lemma run_lims o rocks ss s t : fits t -> lims o ss t -> match run (acts o rocks s) t with Next t' | Fail t' => lims o (ss ++ [s]) t' | Undef => True end.
Proof.
  intros F L. rewrite acts_split, run_app. pose proof (up_flag o rocks s t F) as U. pose proof (run_keeps _ (up_keeps o s) t) as K. destruct (run (up_acts o s) t) as [t1|t1|] eqn:E1; [| |exact I].
  2: { apply (lims_same o ss s t); [exact L|unfold searched; rewrite U; reflexivity|exact K]. }
  destruct (o_end o && o_cappres o) eqn:EC.
  2: { assert (K2 : Forall keeps ((if o_end o then [scan o rocks (s_cells s)] ++ mid_acts o rocks s ++ (if o_cappres o then [put_pc rocks (s_cells s) (s_pc s)] else []) else []) ++ late_acts o s)).
    { apply Forall_app. split; [|apply late_keeps]. destruct (o_end o); [|constructor]. cbn [andb] in EC. rewrite EC, app_nil_r. constructor; [apply scan_plain; exact EC|apply mid_keeps]. }
    pose proof (run_keeps _ K2 t1) as K3. assert (Sr : searched o s = false) by (unfold searched; rewrite <- (andb_assoc _ (o_end o)), EC, andb_false_r; reflexivity).
    destruct (run _ t1); [| |exact I]; apply (lims_same o ss s t); try assumption; intuition congruence. }
  apply andb_true_iff in EC. destruct EC as [En Cp]. rewrite En, Cp. cbn [app run]. unfold scan at 1. destruct (s_cells s) as [cs|] eqn:Cs.
  2: { apply (lims_same o ss s t); [exact L|unfold searched; rewrite Cs; apply andb_false_r|exact K]. }
  destruct (end_points rocks cs) as [r| |] eqn:P; [|exfalso; exact (end_points_nothrow _ _ P)|exact I].
  rewrite Cp. set (t2 := mkState _ _ _ _ _).
  assert (K2 : Forall keepl ((mid_acts o rocks s ++ [put_pc rocks (Some cs) (s_pc s)]) ++ late_acts o s)).
  { apply Forall_app. split; [|apply Forall_keepl, late_keeps]. apply Forall_app. split; [apply Forall_keepl, mid_keeps|]. constructor; [apply put_pc_keepl|constructor]. }
  assert (L2 : lims o (ss ++ [s]) t2).
  { destruct K as (K1 & K3 & _). destruct L as [L1 L3]. rewrite <- K1 in L1. rewrite <- K3 in L3. destruct (limits_fold cs _ _ _ _ L1 L3) as [M1 M2]. unfold lims, t2. cbn [t_pcmin t_pcmax].
    assert (Sr : searched o s = true) by (unfold searched; rewrite U, En, Cp, Cs; reflexivity). rewrite filter_app. cbn [filter]. rewrite Sr, !flat_map_app. cbn [flat_map]. unfold pressures at 2 4. rewrite Cs, !app_nil_r. auto. }
  pose proof (run_keepl _ K2 t2) as K3. destruct (run _ t2) as [t3|t3|]; [| |exact I]; destruct K3 as [A B]; unfold lims in *; rewrite A, B; exact L2.
Qed.
Lemma subsamples_lims o rocks ss t : subsamples o rocks ss = Ok t -> lims o ss t.
Proof.
  unfold subsamples. intros E. assert (G : forall l done t0 t1, inv o rocks done t0 -> lims o done t0 -> foldM (subsample o rocks) l t0 = Ok t1 -> lims o (done ++ l) t1).
  { induction l as [|s l IH]; intros done t0 t1 I L Q; cbn [foldM] in Q; [injection Q as <-; rewrite app_nil_r; exact L|]. destruct (subsample o rocks t0 s) as [t2| |] eqn:Sb; cbn [bind] in Q; try discriminate.
    destruct (subsample_inv _ _ _ _ _ _ I Sb) as [I2 _]. replace (done ++ s :: l) with ((done ++ [s]) ++ l) by (rewrite <- app_assoc; reflexivity). apply (IH _ t2); [exact I2| |exact Q].
    pose proof (run_lims o rocks done s t0 (proj1 (proj2 I)) L) as H. unfold subsample in Sb. destruct (s_chop s); [|discriminate]. destruct (run (acts o rocks s) t0); [| |discriminate]; injection Sb as <-; exact H. }
  apply (G ss [] _ t (inv_start o rocks)); [|exact E]. split; (split; [left; reflexivity|intros y [<-|[]]; apply Rle_refl]).
Qed.
(* ---- the pressures of a subsample are computed with the limits so far *)
Lemma pc_entry o rocks ss s t t' : subsamples o rocks ss = Ok t -> subsamples o rocks (ss ++ [s]) = Ok t' -> reaches o Pc s = true ->
  exists f, s_pc s = Some f /\ t_cols t' Pc = t_cols t Pc ++ [f (t_pcmin t') (t_pcmax t') (datum o rocks s Swir) (datum o rocks s Swor)].
Proof.
  intros E E' H. assert (Sb : subsample o rocks t s = Ok t').
  { unfold subsamples in *. rewrite foldM_app, E in E'. cbn [bind foldM] in E'. destruct (subsample o rocks t s); cbn [bind] in E'; congruence. }
  destruct (subsamples_inv _ _ _ _ E) as (_ & F & _). pose proof (run_ok o rocks s _ _ (acts_ok o rocks s) (stages_distinct o s) t F) as R0.
  assert (NE : t_cols t' Pc <> t_cols t Pc).
  { unfold subsample in Sb. destruct (s_chop s); [|discriminate]. destruct (run (acts o rocks s) t); [| |discriminate]; injection Sb as <-; destruct R0 as (_ & _ & _ & _ & C); specialize (C Pc); unfold reaches in H; rewrite H in C; destruct C as (row & C & _); cbn [t_cols]; rewrite C; intros Q; apply (f_equal (@List.length _)) in Q; rewrite app_length in Q; cbn in Q; lia. }
  assert (G : match run (acts o rocks s) t with Undef => True | Next t2 | Fail t2 => t_cols t2 Pc = t_cols t Pc \/ exists f, s_pc s = Some f /\ t_cols t2 Pc = t_cols t Pc ++ [f (t_pcmin t2) (t_pcmax t2) (datum o rocks s Swir) (datum o rocks s Swor)] end).
  { rewrite acts_split, run_app. pose proof (run_keeps _ (up_keeps o s) t) as K1. destruct (run (up_acts o s) t) as [t1|t1|]; [|left; tauto|exact I]. rewrite run_app.
    assert (K2 : forall t2, t_cols t2 Pc = t_cols t1 Pc -> match run (late_acts o s) t2 with Next t3 | Fail t3 => t_cols t3 Pc = t_cols t Pc | Undef => True end).
    { intros t2 Q. pose proof (run_keeps _ (late_keeps o s) t2) as K. destruct (run (late_acts o s) t2); intuition congruence. }
    destruct (o_end o) eqn:En; [|cbn [run]; specialize (K2 t1 eq_refl); destruct (run (late_acts o s) t1); tauto]. cbn [app run]. 
    assert (K3 : match scan o rocks (s_cells s) t1 with Next t2 | Fail t2 => t_cols t2 Pc = t_cols t1 Pc | Undef => True end) by (unfold scan; destruct (s_cells s); [|reflexivity]; destruct (end_points rocks l); reflexivity || exact I).
    destruct (scan o rocks (s_cells s) t1) as [t2|t2|]; [|left; destruct K1 as (_ & _ & K1); congruence|exact I]. rewrite run_app. pose proof (run_keeps _ (mid_keeps o rocks s) t2) as K4. destruct (run (mid_acts o rocks s) t2) as [t3|t3|]; [|left; destruct K1 as (_ & _ & K1), K4 as (_ & _ & K4); congruence|exact I].
    assert (K5 : t_cols t3 Pc = t_cols t Pc) by (destruct K1 as (_ & _ & K1), K4 as (_ & _ & K4); congruence).
    destruct (o_cappres o); [|cbn [run]; specialize (K2 t3); destruct (run (late_acts o s) t3); try exact I; left; apply K2; destruct K4 as (_ & _ & K4); congruence].
    cbn [run]. unfold put_pc. destruct (s_cells s) as [cs|] eqn:Cs; [|left; exact K5]. destruct (s_pc s) as [f|] eqn:Fp; [|left; exact K5]. destruct (end_points rocks cs) as [r| |] eqn:P; [|left; exact K5|exact I].
    apply end_points_inv in P. subst r. cbn [fst snd]. pose proof (run_keeps _ (late_keeps o s) (with_cols t3 (push Pc (f (t_pcmin t3) (t_pcmax t3) (end_mean rocks fst cs) (end_mean rocks snd cs)) (t_cols t3)))) as K6.
    destruct (run (late_acts o s) _) as [t4|t4|]; [| |exact I]; destruct K6 as (K7 & K8 & K9); right; exists f; (split; [reflexivity|]); rewrite K7, K8, K9; cbn [with_cols t_cols t_pcmin t_pcmax]; rewrite push_same, K5; unfold datum; rewrite Cs; reflexivity. }
  unfold subsample in Sb. destruct (s_chop s); [|discriminate]. destruct (run (acts o rocks s) t); [| |discriminate]; injection Sb as <-; cbn [t_cols t_pcmin t_pcmax] in *; destruct G as [G|G]; try contradiction; exact G.
Qed.
