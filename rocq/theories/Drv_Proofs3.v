(* The table of results of cpchop: rows belong to subsamples. *)
From Verif Require Import BaseFacts RBaseFacts Shape_Proofs2 Steady_Proofs Euler_Proofs2 Mload_Proofs Mload_Proofs2 Mload_Proofs3 Avg_Proofs Avg_Proofs2 Drv_Proofs2 Drv_Spec.
Open Scope Z_scope.

Lemma col_in_one c d : col_in c [d] = if col_eq_dec c d then true else false.
Proof. unfold col_in. cbn [existsb]. apply orb_false_r. Qed.
Lemma push_same c v t : push c v t c = t c ++ [v].
Proof. unfold push. destruct (col_eq_dec c c); [reflexivity|congruence]. Qed.
Lemma push_other c d v t : d <> c -> push c v t d = t d.
Proof. intros H. unfold push. destruct (col_eq_dec d c); [congruence|reflexivity]. Qed.

(* every rock row fits below t_max *)
Definition fits (t : state) : Prop := 0 <= t_max t /\ forall row, In row (t_cols t Rock) -> zlen row <= t_max t.
Definition act_ok (o : opts) (rocks : list (R * R)) (s : sample) (a : state -> outcome) (st : list col * bool) : Prop := forall t, fits t ->
  match a t with
  | Undef => ~ proper o rocks s
  | Fail t' => snd st = false /\ t' = t
  | Next t' => snd st = true /\ t_done t' = t_done t /\ fits t' /\ t_max t <= t_max t' /\
      forall c, if col_in c (fst st) then exists row, t_cols t' c = t_cols t c ++ [row] /\ entry_of o rocks c s row else t_cols t' c = t_cols t c
  end.
Lemma fits_push c v t : c <> Rock -> fits t -> fits (with_cols t (push c v (t_cols t))).
Proof. intros N [A B]. split; [exact A|]. cbn. intros row. rewrite push_other by congruence. apply B. Qed.
Lemma need_ok {A} o rocks s (v : option A) : act_ok o rocks s (need v) ([], is_some v).
Proof.
  intros t F. destruct v; cbn; [|auto]. split; [reflexivity|]. split; [reflexivity|]. split; [exact F|]. split; [lia|]. reflexivity.
Qed.
Lemma put_ok o rocks s c v : c <> Pc -> c <> Rock -> (forall x, v = Some x -> x = datum o rocks s c) -> act_ok o rocks s (put c v) ([c], is_some v).
Proof.
  intros N1 N2 D t F. destruct v as [x|]; cbn [put is_some snd fst]; [|auto]. split; [reflexivity|]. split; [reflexivity|]. split; [apply fits_push; assumption|]. split; [cbn; lia|]. intros d. rewrite col_in_one.
  cbn [t_cols with_cols]. destruct (col_eq_dec d c) as [->|N]; [|apply push_other; exact N]. exists [x]. split; [apply push_same|]. rewrite (D x eq_refl). destruct c; try reflexivity; congruence.
Qed.
Lemma scan_ok o rocks s : act_ok o rocks s (scan o rocks (s_cells s)) ([], is_some (s_cells s)).
Proof.
  intros t F. unfold scan. destruct (s_cells s) as [cs|] eqn:E; cbn [is_some]; [|auto]. destruct (end_points rocks cs) as [r| |] eqn:P.
  - split; [reflexivity|]. split; [reflexivity|]. split; [exact F|]. split; [cbn; lia|]. reflexivity.
  - exfalso. exact (end_points_nothrow _ _ P).
  - intros (_ & H & _). destruct (H cs E) as [A B]. rewrite end_points_ok in P by assumption. discriminate.
Qed.
Lemma put_sw_ok o rocks s : act_ok o rocks s (put_sw rocks (s_cells s)) ([Swir; Swor], is_some (s_cells s)).
Proof.
  intros t F. unfold put_sw. destruct (s_cells s) as [cs|] eqn:E; cbn [is_some]; [|auto]. destruct (end_points rocks cs) as [r| |] eqn:P.
  - apply end_points_inv in P. subst r. split; [reflexivity|]. split; [reflexivity|]. split.
    + destruct F as [A B]. split; [exact A|]. exact B.
    + split; [cbn; lia|]. intros d. cbn [fst snd with_cols t_cols]. unfold col_in. cbn [existsb]. destruct (col_eq_dec d Swir) as [->|N1].
      * exists [end_mean rocks fst cs]. cbn [orb]. rewrite push_other by discriminate. rewrite push_same. split; [reflexivity|]. cbn. rewrite E. reflexivity.
      * destruct (col_eq_dec d Swor) as [->|N2]; cbn [orb].
        -- exists [end_mean rocks snd cs]. rewrite push_same, push_other by discriminate. split; [reflexivity|]. cbn. rewrite E. reflexivity.
        -- rewrite !push_other by assumption. reflexivity.
  - exfalso. exact (end_points_nothrow _ _ P).
  - intros (_ & H & _). destruct (H cs E) as [A B]. rewrite end_points_ok in P by assumption. discriminate.
Qed.
Lemma put_pc_ok o rocks s : act_ok o rocks s (put_pc rocks (s_cells s) (s_pc s)) ([Pc], is_some (s_cells s) && is_some (s_pc s)).
Proof.
  intros t F. unfold put_pc. destruct (s_cells s) as [cs|] eqn:E; cbn [is_some andb]; [|auto]. destruct (s_pc s) as [g|] eqn:G; cbn [is_some]; [|auto]. destruct (end_points rocks cs) as [r| |] eqn:P.
  - apply end_points_inv in P. subst r. split; [reflexivity|]. split; [reflexivity|]. split; [apply fits_push; [discriminate|exact F]|]. split; [cbn; lia|]. intros d. cbn [fst snd with_cols t_cols]. rewrite col_in_one.
    destruct (col_eq_dec d Pc) as [->|N]; [|apply push_other; exact N]. eexists. split; [apply push_same|]. cbn [entry_of]. exists g, (t_pcmin t), (t_pcmax t). split; [exact G|]. unfold datum. rewrite E. reflexivity.
  - exfalso. exact (end_points_nothrow _ _ P).
  - intros (_ & H & _). destruct (H cs E) as [A B]. rewrite end_points_ok in P by assumption. discriminate.
Qed.
Lemma put_dips_ok o rocks s : act_ok o rocks s (put_dips o (s_dips s)) ([Dip; Azim], is_some (s_dips s)).
Proof.
  intros t F. unfold put_dips. destruct (s_dips s) as [l|] eqn:E; cbn [is_some]; [|auto]. destruct (let* xy := dip_averages l in dip_azimuth (o_azim o) (fst xy) (snd xy)) as [[d a]| |] eqn:P.
  - apply dips_inv in P. injection P as -> ->. split; [reflexivity|]. split; [reflexivity|]. split.
    + destruct F as [A B]. split; [exact A|]. exact B.
    + split; [cbn; lia|]. intros d. cbn [fst snd with_cols t_cols]. unfold col_in. cbn [existsb]. destruct (col_eq_dec d Dip) as [->|N1].
      * eexists. cbn [orb]. rewrite push_other by discriminate. rewrite push_same. split; [reflexivity|]. cbn. rewrite E. reflexivity.
      * destruct (col_eq_dec d Azim) as [->|N2]; cbn [orb].
        -- eexists. rewrite push_same, push_other by discriminate. split; [reflexivity|]. cbn. rewrite E. reflexivity.
        -- rewrite !push_other by assumption. reflexivity.
  - exfalso. exact (dips_nothrow _ _ P).
  - intros (_ & _ & H & _). destruct (H l E) as [A B]. exact (dips_proper o l A B P).
Qed.
Lemma put_rock_ok o rocks s : act_ok o rocks s (put_rock (s_sat s)) ([Rock], is_some (s_sat s)).
Proof.
  intros t F. unfold put_rock. destruct (s_sat s) as [cs|] eqn:E; cbn [is_some]; [|auto]. destruct (sat_volumes (t_max t) cs) as [[m row]| |] eqn:P; cbn [bind fst snd].
  - pose proof P as P'. unfold sat_volumes in P'. destruct (sat_volumes_from cs [] (t_max t, []) (m, row) (vinv0 _ (proj1 F)) P') as ((V & Sm & Le & _) & M & _). cbn [app fst snd] in *.
    destruct (normalised row) as [out| |] eqn:Q; cbn [bind].
    + destruct (normalised_inv _ _ Q) as [L Nth]. split; [reflexivity|]. split; [reflexivity|]. split; [|split; [exact M|]].
      * destruct F as [A B]. split; cbn [t_max t_cols]; [lia|]. intros x. rewrite push_same. intros Hx. apply in_app_iff in Hx. destruct Hx as [Hx|[<-|[]]]; [specialize (B x Hx); lia|lia].
      * intros d. cbn [t_cols fst]. rewrite col_in_one. destruct (col_eq_dec d Rock) as [->|N]; [|apply push_other; exact N]. exists out. split; [apply push_same|]. cbn [entry_of]. exists cs. split; [exact E|]. intros N. rewrite <- Sm in N. destruct (Nth N) as [N1 N2]. split; [|exact N2]. intros t' _. rewrite N1, V, Sm. reflexivity.
    + exfalso. exact (normalised_nothrow _ Q).
    + intros (_ & _ & _ & H). destruct (H cs E) as [A B]. unfold normalised in Q. assert (Sr : racc (fun x => x) row = Rsum row) by (rewrite racc_sum, map_id; reflexivity). rewrite Sr in Q.
      rewrite (mapM_all_Ok _ (fun v => v / Rsum row)%R) in Q by (intros; apply mdiv_ok; rewrite Sm; exact B). discriminate.
  - exfalso. exact (sat_volumes_nothrow _ _ P).
  - intros (_ & _ & _ & H). destruct (H cs E) as [A B]. destruct (sat_volumes_exists cs A (t_max t, [])) as (s' & E'); [exact (proj1 F)|]. change (sat_volumes (t_max t) cs = Ok s') in E'. congruence.
Qed.
Lemma acts_ok o rocks s : Forall2 (act_ok o rocks s) (acts o rocks s) (stages o s).
Proof.
  unfold acts, stages, up_stages, end_stages. rewrite (app_assoc (if o_upscale o then _ else _)).
  assert (PP : forall c f, c <> Pc -> c <> Rock -> datum o rocks s c = get0 (option_map f (s_perm s)) -> act_ok o rocks s (put c (option_map f (s_perm s))) ([c], is_some (s_perm s))).
  { intros c f N1 N2 D. replace (is_some (s_perm s)) with (is_some (option_map f (s_perm s))) by (destruct (s_perm s); reflexivity). apply put_ok; [exact N1|exact N2|]. intros x Hx. rewrite D, Hx. reflexivity. }
  rewrite <- !app_assoc. apply Forall2_app; [|apply Forall2_app; [|apply Forall2_app]].
  - destruct (o_upscale o) eqn:U; [|constructor].
    apply Forall2_app; [constructor; [apply need_ok|constructor; [|constructor]]|].
    { apply put_ok; try discriminate. intros x Hx. cbn. rewrite U, Hx. reflexivity. }
    apply Forall2_app; [destruct (o_ntg o); [|constructor]; constructor; [|constructor; [|constructor]]; apply put_ok; try discriminate; intros x Hx; cbn; rewrite Hx; reflexivity|].
    apply Forall2_app; [destruct (o_swcr o); [|constructor]; constructor; [|constructor]; apply put_ok; try discriminate; intros x Hx; cbn; rewrite Hx; reflexivity|].
    apply Forall2_app; [destruct (o_sowcr o); [|constructor]; constructor; [|constructor]; apply put_ok; try discriminate; intros x Hx; cbn; rewrite Hx; reflexivity|].
    cbn [map]. repeat (constructor; [apply PP; [discriminate|discriminate|reflexivity]|]). constructor.
  - destruct (o_end o); [|constructor]. apply Forall2_app; [constructor; [apply scan_ok|constructor]|]. apply Forall2_app.
    + destruct (o_upscale o) eqn:U; [constructor|]. constructor; [|constructor]. apply put_ok; try discriminate. intros x Hx. cbn. rewrite U, Hx. reflexivity.
    + apply Forall2_app; [constructor; [apply put_sw_ok|constructor]|]. destruct (o_cappres o); [|constructor]. constructor; [apply put_pc_ok|constructor].
  - destruct (o_dips o); [|constructor]. constructor; [apply put_dips_ok|constructor].
  - destruct (o_satvol o); [|constructor]. constructor; [apply put_rock_ok|constructor].
Qed.
(* a column occurs in one stage only *)
Fixpoint distinct_cols (l : list (list col * bool)) : Prop :=
  match l with [] => True | (cs, _) :: t => (forall c, col_in c cs = true -> forall b, In b t -> col_in c (fst b) = false) /\ distinct_cols t end.
Lemma reached_absent l c : (forall b, In b l -> col_in c (fst b) = false) -> reached l c = false.
Proof.
  induction l as [|[cs b] t IH]; intros H; [reflexivity|]. cbn [reached]. pose proof (H (cs, b) (or_introl eq_refl)) as Q. cbn [fst] in Q. rewrite Q, IH by (intros; apply H; right; assumption). apply andb_false_r.
Qed.
Lemma run_ok o rocks s : forall al sl, Forall2 (act_ok o rocks s) al sl -> distinct_cols sl -> forall t, fits t ->
  match run al t with
  | Undef => ~ proper o rocks s
  | Fail t' => forallb snd sl = false /\ t_done t' = t_done t /\ fits t' /\ t_max t <= t_max t' /\
      forall c, if reached sl c then exists row, t_cols t' c = t_cols t c ++ [row] /\ entry_of o rocks c s row else t_cols t' c = t_cols t c
  | Next t' => forallb snd sl = true /\ t_done t' = t_done t /\ fits t' /\ t_max t <= t_max t' /\
      forall c, if reached sl c then exists row, t_cols t' c = t_cols t c ++ [row] /\ entry_of o rocks c s row else t_cols t' c = t_cols t c
  end.
Proof.
  induction 1 as [|a [cs b] al sl Ha Hl IH]; intros D t F; cbn [run].
  - cbn [reached forallb]. split; [reflexivity|]. split; [reflexivity|]. split; [exact F|]. split; [lia|]. reflexivity.
  - destruct D as [D1 D2]. specialize (Ha t F). destruct (a t) as [t1|t1|].
    + destruct Ha as (B & Dn & F1 & M1 & C1). cbn [snd] in B. subst b. specialize (IH D2 t1 F1).
      assert (Comb : forall t2, (forall c, if reached sl c then exists row, t_cols t2 c = t_cols t1 c ++ [row] /\ entry_of o rocks c s row else t_cols t2 c = t_cols t1 c) ->
        forall c, if reached ((cs, true) :: sl) c then exists row, t_cols t2 c = t_cols t c ++ [row] /\ entry_of o rocks c s row else t_cols t2 c = t_cols t c).
      { intros t2 H2 c. specialize (H2 c). specialize (C1 c). cbn [reached andb fst] in *. destruct (col_in c cs) eqn:I; cbn [orb].
        - rewrite (reached_absent sl c (D1 c I)) in H2. rewrite H2. exact C1.
        - rewrite C1 in H2. exact H2. }
      destruct (run al t1) as [t2|t2|]; [| |exact IH]; destruct IH as (A1 & A2 & A3 & A4 & A5); cbn [forallb snd andb]; (split; [exact A1|]); (split; [congruence|]); (split; [exact A3|]); (split; [lia|]); exact (Comb t2 A5).
    + destruct Ha as (B & ->). cbn [snd] in B. subst b. cbn [forallb snd andb]. split; [reflexivity|]. split; [reflexivity|]. split; [exact F|]. split; [lia|]. intros c. reflexivity.
    + exact Ha.
Qed.
