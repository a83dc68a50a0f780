(* The table of results of cpchop: all subsamples; printing. *)
From Verif Require Import BaseFacts RBaseFacts Shape_Proofs2 Steady_Proofs Euler_Proofs2 Mload_Proofs Mload_Proofs2 Mload_Proofs3 Rprop_Proofs3 Avg_Proofs Avg_Proofs2 Drv_Proofs2 Drv_Proofs3 Drv_Spec.
Open Scope Z_scope.

(* the columns of a finished subsample *)
Definition columns_of (o : opts) : list col :=
  (if o_upscale o then [Poro] ++ (if o_ntg o then [NetPoro; Ntg] else []) ++ (if o_swcr o then [Swcr] else []) ++ (if o_sowcr o then [Sowcr] else []) ++ [Kx; Ky; Kz; Kyz; Kxz; Kxy] else []) ++
  (if o_end o then (if o_upscale o then [] else [Poro]) ++ [Swir; Swor] ++ (if o_cappres o then [Pc] else []) else []) ++ (if o_dips o then [Dip; Azim] else []) ++ (if o_satvol o then [Rock] else []).
Lemma columns_stages o s : concat (map fst (stages o s)) = columns_of o.
Proof.
  unfold columns_of, stages, up_stages, end_stages. destruct (o_upscale o), (o_ntg o), (o_swcr o), (o_sowcr o), (o_end o), (o_cappres o), (o_dips o), (o_satvol o); reflexivity.
Qed.
Lemma columns_NoDup o : NoDup (columns_of o).
Proof.
  assert (E : nodup col_eq_dec (columns_of o) = columns_of o) by (unfold columns_of; destruct (o_upscale o), (o_ntg o), (o_swcr o), (o_sowcr o), (o_end o), (o_cappres o), (o_dips o), (o_satvol o); reflexivity).
  rewrite <- E. apply NoDup_nodup.
Qed.
Lemma col_in_In c l : col_in c l = true <-> In c l.
Proof.
  unfold col_in. rewrite existsb_exists. split; [intros (d & Q1 & Q2); destruct (col_eq_dec c d); [subst; exact Q1|discriminate]|]. intros H. exists c. split; [exact H|]. destruct (col_eq_dec c c); congruence.
Qed.
Lemma NoDup_app_inv {A} (l1 l2 : list A) : NoDup (l1 ++ l2) -> NoDup l2 /\ forall x, In x l1 -> ~ In x l2.
Proof.
  induction l1 as [|a l1 IH]; cbn [app]; intros N; [split; [exact N|intros x []]|]. inversion N as [|? ? N1 N2]; subst. destruct (IH N2) as [A1 A2]. split; [exact A1|]. intros x [->|Hx]; [intros Hx2; apply N1, in_app_iff; auto|exact (A2 x Hx)].
Qed.
Lemma stages_distinct o s : distinct_cols (stages o s).
Proof.
  assert (E : forall (l : list (list col * bool)), NoDup (concat (map fst l)) -> distinct_cols l).
  { induction l as [|[cs b] t IH]; intros N; [exact I|]. cbn [map fst concat] in N. apply NoDup_app_inv in N. destruct N as (N2 & N3). split; [|exact (IH N2)]. intros c Hc [ds b'] Hb. cbn [fst]. apply not_true_is_false. intros Hd.
    apply col_in_In in Hc, Hd. apply (N3 c Hc). apply in_concat. exists ds. split; [|exact Hd]. apply in_map_iff. exists (ds, b'). auto. }
  apply E. rewrite columns_stages. apply columns_NoDup.
Qed.
Lemma completes_reaches o s c : completes o s = true -> reaches o c s = col_in c (columns_of o).
Proof.
  unfold completes, reaches. rewrite <- (columns_stages o s). generalize (stages o s). induction l as [|[cs b] l IH]; cbn [forallb snd reached map fst concat]; intros A; [reflexivity|].
  apply andb_true_iff in A. destruct A as [-> A]. cbn [andb]. rewrite (IH A). unfold col_in. rewrite existsb_app. reflexivity.
Qed.
Definition inv (o : opts) (rocks : list (R * R)) (ss : list sample) (t : state) : Prop :=
  t_done t = zlen (filter (completes o) ss) /\ fits t /\ forall c, Forall2 (entry_of o rocks c) (filter (reaches o c) ss) (t_cols t c).
Lemma subsample_inv o rocks ss t s t' : inv o rocks ss t -> subsample o rocks t s = Ok t' -> inv o rocks (ss ++ [s]) t' /\ t_max t <= t_max t'.
Proof.
  intros (D & F & C) E. unfold subsample in E. destruct (s_chop s); [|discriminate]. pose proof (run_ok o rocks s _ _ (acts_ok o rocks s) (stages_distinct o s) t F) as H.
  assert (Cols : forall t2, (forall c, if reached (stages o s) c then exists row, t_cols t2 c = t_cols t c ++ [row] /\ entry_of o rocks c s row else t_cols t2 c = t_cols t c) ->
    forall c, Forall2 (entry_of o rocks c) (filter (reaches o c) (ss ++ [s])) (t_cols t2 c)).
  { intros t2 H2 c. specialize (H2 c). rewrite filter_app. cbn [filter]. unfold reaches at 2. destruct (reached (stages o s) c).
    - destruct H2 as (row & -> & En). apply Forall2_app; [apply C|]. constructor; [exact En|constructor].
    - rewrite H2, app_nil_r. apply C. }
  destruct (run (acts o rocks s) t) as [t2|t2|]; [| |discriminate]; injection E as <-; destruct H as (B & Dn & F2 & M & Co).
  - split; [|exact M]. split; [|split; [exact F2|exact (Cols t2 Co)]]. cbn [t_done]. rewrite filter_app, zlen_app. cbn [filter]. unfold completes at 2. rewrite B. change (zlen [s]) with 1. lia.
  - split; [|exact M]. split; [|split; [exact F2|exact (Cols t2 Co)]]. rewrite filter_app, zlen_app. cbn [filter]. unfold completes at 2. rewrite B. change (zlen (@nil sample)) with 0. lia.
Qed.
Lemma subsamples_from o rocks ss : forall done t t', inv o rocks done t -> foldM (subsample o rocks) ss t = Ok t' -> inv o rocks (done ++ ss) t'.
Proof.
  induction ss as [|s ss IH]; intros done t t' I E; cbn [foldM] in E; [injection E as <-; rewrite app_nil_r; exact I|]. destruct (subsample o rocks t s) as [t1| |] eqn:Q; cbn [bind] in E; try discriminate.
  destruct (subsample_inv _ _ _ _ _ _ I Q) as [I1 _]. specialize (IH (done ++ [s]) t1 t' I1 E). rewrite <- app_assoc in IH. exact IH.
Qed.
Lemma inv_start o rocks : inv o rocks [] (mkState (fun _ => []) pc_start (- pc_start)%R 0 0).
Proof.
  split; [reflexivity|]. split; [split; [cbn; lia|intros row []]|]. intros c. constructor.
Qed.
Lemma subsamples_inv o rocks ss t : subsamples o rocks ss = Ok t -> inv o rocks ss t.
Proof.
  intros E. exact (subsamples_from o rocks ss [] _ t (inv_start o rocks) E).
Qed.
Lemma table_entries o rocks ss t : subsamples o rocks ss = Ok t ->
  t_done t = zlen (filter (completes o) ss) /\ forall c, Forall2 (entry_of o rocks c) (filter (reaches o c) ss) (t_cols t c).
Proof.
  intros E. destruct (subsamples_inv _ _ _ _ E) as (A & _ & B). auto.
Qed.
Lemma subsamples_defined o rocks ss : Forall (proper o rocks) ss -> exists t, subsamples o rocks ss = Ok t.
Proof.
  intros P. unfold subsamples. assert (G : forall done t, inv o rocks done t -> exists t', foldM (subsample o rocks) ss t = Ok t').
  { induction P as [|s ss Hs Hss IH]; intros done t I; cbn [foldM]; [eexists; reflexivity|]. destruct (subsample o rocks t s) as [t1| |] eqn:Q; cbn [bind].
    - destruct (subsample_inv _ _ _ _ _ _ I Q) as [I1 _]. exact (IH _ _ I1).
    - exfalso. unfold subsample in Q. rewrite (proj1 Hs) in Q. destruct (run _ t); discriminate.
    - exfalso. unfold subsample in Q. rewrite (proj1 Hs) in Q. pose proof (run_ok o rocks s _ _ (acts_ok o rocks s) (stages_distinct o s) t (proj1 (proj2 I))) as H. destruct (run _ t); try discriminate. exact (H Hs). }
  exact (G [] _ (inv_start o rocks)).
Qed.
Lemma subsamples_chop o rocks ss s t : subsamples o rocks ss = Ok t -> In s ss -> s_chop s = true.
Proof.
  unfold subsamples. generalize (mkState (fun _ => []) pc_start (- pc_start)%R 0 0). induction ss as [|x ss IH]; intros t0 E Hs; [destruct Hs|]. cbn [foldM] in E. destruct (subsample o rocks t0 x) as [t1| |] eqn:Q; cbn [bind] in E; try discriminate.
  destruct Hs as [->|Hs]; [|exact (IH t1 E Hs)]. unfold subsample in Q. destruct (s_chop s); [reflexivity|discriminate].
Qed.
