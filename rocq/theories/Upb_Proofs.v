From Verif Require Import BaseFacts RBaseFacts Bound_Model Bound_Spec Upb_Model Upb_Spec.
Open Scope Z_scope.

(* ---------- C20 *)
Lemma set_bctype_spec t u :
  ((t = 2 <-> ub_type u = 2) -> exists u', set_bctype t u = Ok u' /\ ub_type u' = t /\ (ub_unique u' = true <-> t = 1 \/ t = 2)) /\
  (~ (t = 2 <-> ub_type u = 2) -> set_bctype t u = Throw).
Proof.
  unfold set_bctype. destruct (Z.eqb_spec t 2), (Z.eqb_spec (ub_type u) 2), (Z.eqb_spec t 1); cbn; (split; [intros|intros; try tauto]); try tauto;
    try (eexists; split; [reflexivity|]; cbn; split; [reflexivity|]; intuition congruence).
  all: exfalso; lia.
Qed.

Lemma attempt_periodic ts u : (ub_type (fold_left attempt ts u) = 2 <-> ub_type u = 2).
Proof.
  revert u. induction ts as [|t ts IH]; intros u; cbn [fold_left]; [reflexivity|]. rewrite IH. unfold attempt.
  destruct (Z.eq_dec t 2) as [Ht|Ht], (Z.eq_dec (ub_type u) 2) as [Hu|Hu].
  - destruct (proj1 (set_bctype_spec t u)) as [u' [-> [E _]]]; [tauto|]. lia.
  - rewrite (proj2 (set_bctype_spec t u)) by tauto. reflexivity.
  - rewrite (proj2 (set_bctype_spec t u)) by tauto. reflexivity.
  - destruct (proj1 (set_bctype_spec t u)) as [u' [-> [E _]]]; [tauto|]. lia.
Qed.
Lemma attempt_unique ts u : (ub_unique u = true <-> ub_type u = 1 \/ ub_type u = 2) ->
  (ub_unique (fold_left attempt ts u) = true <-> ub_type (fold_left attempt ts u) = 1 \/ ub_type (fold_left attempt ts u) = 2) /\
  ub_periodic_ext (fold_left attempt ts u) = ub_periodic_ext u /\ ub_clip (fold_left attempt ts u) = ub_clip u.
Proof.
  revert u. induction ts as [|t ts IH]; intros u H; cbn [fold_left]; [auto|].
  assert ((ub_unique (attempt u t) = true <-> ub_type (attempt u t) = 1 \/ ub_type (attempt u t) = 2) /\
     ub_periodic_ext (attempt u t) = ub_periodic_ext u /\ ub_clip (attempt u t) = ub_clip u) as [H1 [H2 H3]].
  { unfold attempt. destruct (set_bctype t u) as [u'| |] eqn:E; [|auto|auto]. unfold set_bctype in E.
    destruct (_ || _); [discriminate|]. inversion E; subst. cbn. split; [|auto].
    destruct (Z.eqb_spec t 2), (Z.eqb_spec t 1); cbn; intuition congruence. }
  destruct (IH _ H1) as [G1 [G2 G3]]. split; [exact G1|]. split; congruence.
Qed.
Lemma history_prop t0 ts :
  let u := fold_left attempt ts (init_deck t0) in
  (ub_type u = 2 <-> t0 = 2) /\ (ub_unique u = true <-> ub_type u = 1 \/ ub_type u = 2) /\
  ub_periodic_ext u = (t0 =? 2) /\ (ub_type u = t0 \/ In (ub_type u) ts).
Proof.
  intros u. unfold u. destruct (attempt_unique ts (init_deck t0)) as [H1 [H2 H3]].
  { cbn. destruct (Z.eqb_spec t0 1), (Z.eqb_spec t0 2); cbn; intuition congruence. }
  split; [apply attempt_periodic|]. split; [exact H1|]. split; [exact H2|].
  assert (forall ts u0, ub_type (fold_left attempt ts u0) = ub_type u0 \/ In (ub_type (fold_left attempt ts u0)) ts) as G.
  { clear. induction ts as [|t ts IH]; intros u0; cbn [fold_left]; [left; reflexivity|].
    destruct (IH (attempt u0 t)) as [E|E]; [|right; right; exact E]. rewrite E. unfold attempt.
    destruct (set_bctype t u0) as [u'| |] eqn:E1; [|left; reflexivity|left; reflexivity].
    unfold set_bctype in E1. destruct (_ || _); [discriminate|]. inversion E1; subst. cbn. right; left; reflexivity. }
  apply (G ts (init_deck t0)).
Qed.

(* ---------- C21-C23 *)
Definition in_range {A} (v : A -> R) (l : list A) (w : A -> R) (m : R) : Prop :=
  forall lo hi, (forall x, In x l -> w x <> 0%R -> (lo <= v x <= hi)%R) -> (lo <= m <= hi)%R.

Lemma mean_spec {A} (w v : A -> R) l : (forall x, In x l -> 0 <= w x)%R -> (exists x, In x l /\ w x <> 0%R) ->
  fdiv (Rsum (map (fun x => w x * v x)%R l)) (Rsum (map w l)) = Some (wmean w v l) /\
  (forall lo hi, (forall x, In x l -> w x <> 0%R -> (lo <= v x <= hi)%R) -> (lo <= wmean w v l <= hi)%R).
Proof.
  intros Hw [x0 [Hx0 Hn]].
  assert (0 < Rsum (map w l))%R as Hp.
  { apply in_split in Hx0. destruct Hx0 as [l1 [l2 ->]]. rewrite map_app, Rsum_app. cbn [map]. rewrite Rsum_cons.
    assert (0 <= Rsum (map w l1))%R by (apply Rsum_map_nonneg; intros; apply Hw; apply in_or_app; left; assumption).
    assert (0 <= Rsum (map w l2))%R by (apply Rsum_map_nonneg; intros; apply Hw; apply in_or_app; right; right; assumption).
    assert (0 <= w x0)%R by (apply Hw; apply in_or_app; right; left; reflexivity). lra. }
  split; [apply fdiv_Some; lra|]. intros lo hi H. apply mean_bounds; assumption.
Qed.

Lemma porosity_prop cells : (forall c, In c cells -> 0 < u_vol c)%R -> cells <> [] ->
  exists p, upscale_porosity cells = Some p /\ (p * sum u_vol cells = sum (fun c => u_vol c * u_poro c) cells)%R /\
    (forall lo hi, (forall c, In c cells -> lo <= u_poro c <= hi)%R -> (lo <= p <= hi)%R) /\
    (forall v, (forall c, In c cells -> u_poro c = v) -> p = v).
Proof.
  intros Hv Hne. unfold upscale_porosity. rewrite !racc_sum.
  destruct (mean_spec u_vol u_poro cells) as [E B].
  - intros x Hx. specialize (Hv x Hx). lra.
  - destruct cells as [|c cs]; [contradiction|]. exists c. split; [left; reflexivity|]. specialize (Hv c (or_introl eq_refl)). lra.
  - exists (wmean u_vol u_poro cells). split; [exact E|]. split; [|split].
    + unfold wmean, sum. field. apply fdiv_inv in E. apply E.
    + intros lo hi H. apply B. intros; apply H; assumption.
    + intros v H. specialize (B v v). destruct B; [intros x Hx _; rewrite (H x Hx); lra|]. lra.
Qed.

Lemma sum_pos_ex {A} (w : A -> R) l : (0 < Rsum (map w l))%R -> exists x, In x l /\ w x <> 0%R.
Proof.
  induction l as [|a l IH]; cbn [map]; [rewrite Rsum_nil; lra|]. rewrite Rsum_cons. intros H.
  destruct (Req_EM_T (w a) 0) as [E|E]; [|exists a; split; [left; reflexivity|exact E]].
  rewrite E in H. destruct IH as [x [Hx N]]; [lra|]. exists x. split; [right|]; assumption.
Qed.
Lemma net_prop cells : (forall c, In c cells -> 0 < u_vol c /\ 0 <= u_ntg c)%R -> cells <> [] ->
  exists np ntg, upscale_net_porosity cells = Some np /\ upscale_ntg cells = Some ntg /\
    (ntg * np * sum u_vol cells = sum (fun c => u_vol c * u_ntg c * u_poro c) cells)%R /\
    ((forall c, In c cells -> u_ntg c = 0)%R -> np = 0%R) /\
    ((exists c, In c cells /\ u_ntg c <> 0%R) ->
       forall lo hi, (forall c, In c cells -> u_ntg c <> 0%R -> lo <= u_poro c <= hi)%R -> (lo <= np <= hi)%R) /\
    (forall lo hi, (forall c, In c cells -> lo <= u_ntg c <= hi)%R -> (lo <= ntg <= hi)%R).
Proof.
  intros Hv Hne. unfold upscale_net_porosity, upscale_ntg. rewrite !racc_sum.
  destruct (mean_spec u_vol u_ntg cells) as [E B].
  - intros x Hx. specialize (Hv x Hx). lra.
  - destruct cells as [|c cs]; [contradiction|]. exists c. split; [left; reflexivity|]. specialize (Hv c (or_introl eq_refl)). lra.
  - assert (Rsum (map (fun c => u_vol c * u_poro c * u_ntg c)%R cells) = Rsum (map (fun c => (u_vol c * u_ntg c) * u_poro c)%R cells)) as EQ
      by (apply Rsum_map_ext; intros; ring).
    rewrite EQ.
    pose proof (fdiv_inv _ _ _ E) as [NZ _].
    assert (0 <= Rsum (map (fun c => u_vol c * u_ntg c)%R cells))%R as NN.
    { apply Rsum_map_nonneg. intros c Hc. specialize (Hv c Hc). nra. }
    destruct (Rltb_spec 0 (Rsum (map (fun c => (u_vol c * u_ntg c)%R) cells))) as [Hp|Hp].
    + assert (exists c, In c cells /\ (u_vol c * u_ntg c <> 0)%R) as Hex.
      { apply sum_pos_ex. exact Hp. }
      destruct (mean_spec (fun c => u_vol c * u_ntg c)%R u_poro cells) as [E2 B2].
      * intros c Hc. specialize (Hv c Hc). nra.
      * exact Hex.
      * exists (wmean (fun c => u_vol c * u_ntg c)%R u_poro cells), (wmean u_vol u_ntg cells).
        split; [exact E2|]. split; [exact E|]. split; [|split; [|split]].
        -- unfold wmean, sum. field; auto with real; split; auto with real; lra.
        -- intros H. destruct Hex as [c [Hc N]]. exfalso. apply N. rewrite (H c Hc). ring.
        -- intros _ lo hi H. apply B2. intros c Hc N. apply H; [exact Hc|]. intros Z0. apply N. rewrite Z0. ring.
        -- intros lo hi H. apply B. intros; apply H; assumption.
    + assert (Rsum (map (fun c => (u_vol c * u_ntg c)%R) cells) = 0)%R as Z0 by lra.
      assert (forall c, In c cells -> u_ntg c = 0%R) as AZ.
      { intros c Hc. destruct (Req_EM_T (u_ntg c) 0) as [H|H]; [exact H|]. exfalso.
        assert (0 < Rsum (map (fun c => (u_vol c * u_ntg c)%R) cells))%R; [|lra].
        apply in_split in Hc. destruct Hc as [l1 [l2 Ecs]]. rewrite Ecs, map_app, Rsum_app. cbn [map]. rewrite Rsum_cons.
        assert (0 <= Rsum (map (fun c => (u_vol c * u_ntg c)%R) l1))%R by (apply Rsum_map_nonneg; intros x Hx; assert (In x cells) as Hx' by (rewrite Ecs; apply in_or_app; left; exact Hx); specialize (Hv x Hx'); nra).
        assert (0 <= Rsum (map (fun c => (u_vol c * u_ntg c)%R) l2))%R by (apply Rsum_map_nonneg; intros x Hx; assert (In x cells) as Hx' by (rewrite Ecs; apply in_or_app; right; right; exact Hx); specialize (Hv x Hx'); nra).
        assert (In c cells) as Hc by (rewrite Ecs; apply in_or_app; right; left; reflexivity). specialize (Hv c Hc).
        assert (0 < u_vol c * u_ntg c)%R by (apply Rmult_lt_0_compat; lra). lra. }
      exists 0%R, (wmean u_vol u_ntg cells). split; [reflexivity|]. split; [exact E|]. split; [|split; [|split]].
      * rewrite Rmult_0_r, Rmult_0_l. unfold sum. symmetry. apply Rsum_map_zero. intros c Hc. rewrite (AZ c Hc). ring.
      * reflexivity.
      * intros [c [Hc N]]. exfalso. apply N. apply AZ. exact Hc.
      * intros lo hi H. apply B. intros; apply H; assumption.
Qed.

Lemma swcr_prop (ntg : bool) cells :
  let w := fun c => if ntg then (u_vol c * u_poro c * u_ntg c)%R else (u_vol c * u_poro c)%R in
  (forall c, In c cells -> 0 <= w c)%R -> (exists c, In c cells /\ w c <> 0%R) ->
  (exists m, upscale_swcr ntg cells = Some m /\ (m * sum w cells = sum (fun c => w c * u_swcr c) cells)%R /\
     forall lo hi, (forall c, In c cells -> w c <> 0%R -> lo <= u_swcr c <= hi)%R -> (lo <= m <= hi)%R) /\
  (exists m, upscale_sowcr ntg cells = Some m /\ (m * sum w cells = sum (fun c => w c * u_sowcr c) cells)%R /\
     forall lo hi, (forall c, In c cells -> w c <> 0%R -> lo <= u_sowcr c <= hi)%R -> (lo <= m <= hi)%R).
Proof.
  intros w Hw Hex.
  destruct (mean_spec w u_swcr cells Hw Hex) as [E1 B1]. destruct (mean_spec w u_sowcr cells Hw Hex) as [E2 B2].
  pose proof (fdiv_inv _ _ _ E1) as [NZ _].
  split; [exists (wmean w u_swcr cells)|exists (wmean w u_sowcr cells)]; (split; [|split; [|assumption]]);
    try (unfold wmean, sum; field; exact NZ).
  - unfold upscale_swcr. rewrite !racc_sum. unfold w in E1. destruct ntg; exact E1.
  - unfold upscale_sowcr. rewrite !racc_sum. unfold w in E2. destruct ntg; exact E2.
Qed.

(* ---------- C25 *)
Definition sel1 (b : bcs) (dir : Z) (f : uface) : bool := on_boundary f && (canon_of b f =? 2 * dir + 1).
Definition sel2 (b : bcs) (dir : Z) (f : uface) : bool :=
  on_boundary f && ((canon_of b f =? 2 * dir + 2) || ((dir =? 0) && (canon_of b f =? 0))).

Lemma quot_dir c dir : 0 <= dir < 3 ->
  (Z.quot (c - 1) 2 = dir <-> c = 2 * dir + 1 \/ c = 2 * dir + 2 \/ (dir = 0 /\ c = 0)).
Proof.
  intros Hd. destruct (Z_le_gt_dec 1 c) as [H|H].
  - rewrite Z.quot_div_nonneg by lia. assert (c = 2 * ((c - 1) / 2) + (c - 1) mod 2 + 1) by (pose proof (Z.div_mod (c - 1) 2); lia).
    pose proof (Z.mod_pos_bound (c - 1) 2). split; intros; [|destruct H2 as [?|[?|?]]]; try lia.
  - replace (c - 1) with (- (1 - c)) by ring. rewrite Z.quot_opp_l by lia. rewrite Z.quot_div_nonneg by lia.
    pose proof (Z.div_mod (1 - c) 2). pose proof (Z.mod_pos_bound (1 - c) 2). split; intros; lia.
Qed.

Lemma vel_fold b dir l a0 : 0 <= dir < 3 ->
  (forall x, In x l -> on_boundary (fst x) = true -> exists c, zget (t_canon b) (gf_bid (uf_g (fst x))) = Some c) ->
  foldM (vel_step b dir) l a0 =
    Ok (((fst (fst a0) + Rsum (map (fun x => snd x * vget (uf_n (fst x)) dir)%R (filter (fun x => sel1 b dir (fst x)) l)))%R,
         (snd (fst a0) + Rsum (map (fun x => gf_area (uf_g (fst x))) (filter (fun x => sel1 b dir (fst x)) l)))%R),
        ((fst (snd a0) + Rsum (map (fun x => snd x * vget (uf_n (fst x)) dir)%R (filter (fun x => sel2 b dir (fst x)) l)))%R,
         (snd (snd a0) + Rsum (map (fun x => gf_area (uf_g (fst x))) (filter (fun x => sel2 b dir (fst x)) l)))%R)).
Proof.
  intros Hd. revert a0. induction l as [|[f q] l IH]; intros a0 H.
  - cbn. destruct a0 as [[? ?] [? ?]]. cbn. rewrite !Rplus_0_r. reflexivity.
  - cbn [foldM filter fst]. assert (vel_step b dir a0 (f, q) = Ok (
      (if sel1 b dir f then ((fst (fst a0) + q * vget (uf_n f) dir)%R, (snd (fst a0) + gf_area (uf_g f))%R) else fst a0),
      (if sel2 b dir f then ((fst (snd a0) + q * vget (uf_n f) dir)%R, (snd (snd a0) + gf_area (uf_g f))%R) else snd a0))) as ->.
    { unfold vel_step, sel1, sel2. cbn [fst snd]. specialize (H (f, q) (or_introl eq_refl)). cbn [fst] in H. unfold on_boundary in *.
      destruct (gf_bid (uf_g f) =? 0); cbn [negb andb]; [destruct a0; reflexivity|].
      destruct (H eq_refl) as [c Ec]. unfold canon_of. rewrite Ec. pose proof (zget_Some_range _ _ _ Ec) as R.
      destruct (rget_range (t_canon b) (gf_bid (uf_g f)) R) as [c' [-> Ec']]. assert (c' = c) by congruence. subst c'. cbn [bind].
      pose proof (quot_dir c dir Hd) as Q.
      destruct (Z.eqb_spec (Z.quot (c - 1) 2) dir) as [E|E].
      - apply Q in E. destruct (Z.eqb_spec (c - 1) (2 * dir)), (Z.eqb_spec c (2 * dir + 1)); try lia.
        + destruct (Z.eqb_spec c (2 * dir + 2)); [lia|]. destruct (Z.eqb_spec c 0); [lia|]. rewrite andb_false_r. cbn [orb]. reflexivity.
        + destruct E as [E|[E|[E E']]]; [lia| |].
          * destruct (Z.eqb_spec c (2 * dir + 2)); [|lia]. reflexivity.
          * subst. destruct (Z.eqb_spec 0 (2 * 0 + 2)); reflexivity.
      - destruct (Z.eqb_spec c (2 * dir + 1)); [tauto|]. destruct (Z.eqb_spec c (2 * dir + 2)); [tauto|].
        destruct (Z.eqb_spec dir 0), (Z.eqb_spec c 0); cbn [orb andb]; try tauto; destruct a0; reflexivity. }
    cbn [bind]. rewrite IH by (intros; apply H; [right|]; assumption).
    destruct (sel1 b dir f), (sel2 b dir f); cbn [fst snd map]; rewrite ?Rsum_cons; cbn [fst snd]; rewrite ?Rplus_assoc; reflexivity.
Qed.

Lemma in_combine_map1 {A B} (l : list A) (m : list B) x : In x (combine l m) -> In (fst x) l.
Proof. destruct x. apply in_combine_l. Qed.

(* the result of computeAverageVelocity, all canonical ids *)
Lemma velocity_prop b faces flux dir : 0 <= dir < 3 ->
  (forall f, In f faces -> on_boundary f = true -> exists c, zget (t_canon b) (gf_bid (uf_g f)) = Some c) ->
  let side1 := filter (fun x => on_boundary (fst x) && (canon_of b (fst x) =? 2 * dir + 1)) (combine faces flux) in
  let side2 := filter (fun x => on_boundary (fst x) && ((canon_of b (fst x) =? 2 * dir + 2) || ((dir =? 0) && (canon_of b (fst x) =? 0)))) (combine faces flux) in
  let avg := fun side => fdiv (sum (fun x => snd x * vget (uf_n (fst x)) dir)%R side) (sum (fun x => gf_area (uf_g (fst x))) side) in
  average_velocity b faces flux dir =
    Ok (match avg side1, avg side2 with Some x, Some y => Some ((x + y) / 2)%R | _, _ => None end).
Proof.
  intros Hd H side1 side2 avg. unfold average_velocity. rewrite vel_fold; [|exact Hd|].
  - cbn [bind fst snd]. rewrite !Rplus_0_l. unfold avg, sum, side1, side2, sel1, sel2.
    destruct (fdiv _ _); [|reflexivity]. destruct (fdiv _ _); [|reflexivity]. do 2 f_equal. field.
  - intros x Hx. apply H. eapply in_combine_map1; eauto.
Qed.

Lemma delta_fold b dir l a0 : 0 <= dir < 3 ->
  (forall f, In f l -> on_boundary f = true -> exists c, zget (t_canon b) (gf_bid (uf_g f)) = Some c) ->
  foldM (delta_step b dir) l a0 =
    Ok (((fst (fst a0) + Rsum (map (fun x => gf_area (uf_g x) * vget (gf_cent (uf_g x)) dir)%R (filter (sel1 b dir) l)))%R,
         (snd (fst a0) + Rsum (map (fun x => gf_area (uf_g x)) (filter (sel1 b dir) l)))%R),
        ((fst (snd a0) + Rsum (map (fun x => gf_area (uf_g x) * vget (gf_cent (uf_g x)) dir)%R (filter (sel2 b dir) l)))%R,
         (snd (snd a0) + Rsum (map (fun x => gf_area (uf_g x)) (filter (sel2 b dir) l)))%R)).
Proof.
  intros Hd. revert a0. induction l as [|f l IH]; intros a0 H.
  - cbn. destruct a0 as [[? ?] [? ?]]. cbn. rewrite !Rplus_0_r. reflexivity.
  - cbn [foldM filter]. assert (delta_step b dir a0 f = Ok (
      (if sel1 b dir f then ((fst (fst a0) + gf_area (uf_g f) * vget (gf_cent (uf_g f)) dir)%R, (snd (fst a0) + gf_area (uf_g f))%R) else fst a0),
      (if sel2 b dir f then ((fst (snd a0) + gf_area (uf_g f) * vget (gf_cent (uf_g f)) dir)%R, (snd (snd a0) + gf_area (uf_g f))%R) else snd a0))) as ->.
    { unfold delta_step, sel1, sel2. specialize (H f (or_introl eq_refl)). unfold on_boundary in *.
      destruct (gf_bid (uf_g f) =? 0); cbn [negb andb]; [destruct a0; reflexivity|].
      destruct (H eq_refl) as [c Ec]. unfold canon_of. rewrite Ec. pose proof (zget_Some_range _ _ _ Ec) as R.
      destruct (rget_range (t_canon b) (gf_bid (uf_g f)) R) as [c' [-> Ec']]. assert (c' = c) by congruence. subst c'. cbn [bind].
      pose proof (quot_dir c dir Hd) as Q.
      destruct (Z.eqb_spec (Z.quot (c - 1) 2) dir) as [E|E].
      - apply Q in E. destruct (Z.eqb_spec (c - 1) (2 * dir)), (Z.eqb_spec c (2 * dir + 1)); try lia.
        + destruct (Z.eqb_spec c (2 * dir + 2)); [lia|]. destruct (Z.eqb_spec c 0); [lia|]. rewrite andb_false_r. cbn [orb]. reflexivity.
        + destruct E as [E|[E|[E E']]]; [lia| |].
          * destruct (Z.eqb_spec c (2 * dir + 2)); [|lia]. reflexivity.
          * subst. destruct (Z.eqb_spec 0 (2 * 0 + 2)); reflexivity.
      - destruct (Z.eqb_spec c (2 * dir + 1)); [tauto|]. destruct (Z.eqb_spec c (2 * dir + 2)); [tauto|].
        destruct (Z.eqb_spec dir 0), (Z.eqb_spec c 0); cbn [orb andb]; try tauto; destruct a0; reflexivity. }
    cbn [bind]. rewrite IH by (intros; apply H; [right|]; assumption).
    destruct (sel1 b dir f), (sel2 b dir f); cbn [fst snd map]; rewrite ?Rsum_cons; cbn [fst snd]; rewrite ?Rplus_assoc; reflexivity.
Qed.

(* ---------- C24: uniform flow in a box *)
Lemma canon_ex b faces low hi : box_faces b faces low hi ->
  forall f, In f faces -> on_boundary f = true -> exists c, zget (t_canon b) (gf_bid (uf_g f)) = Some c.
Proof. intros [H _] f Hf Hb. destruct (H f Hf Hb) as [s [_ [E _]]]. eauto. Qed.

Lemma side_normal_dir s d : 0 <= s < 6 -> 0 <= d < 3 ->
  vget (side_normal s) d = if s / 2 =? d then (if Z.even s then -1 else 1)%R else 0%R.
Proof.
  intros Hs Hd. assert (s = 0 \/ s = 1 \/ s = 2 \/ s = 3 \/ s = 4 \/ s = 5) as C by lia.
  assert (d = 0 \/ d = 1 \/ d = 2) as D by lia.
  destruct C as [->|[->|[->|[->|[->| ->]]]]], D as [->|[->| ->]]; reflexivity.
Qed.

Lemma sel_side b faces low hi dir : 0 <= dir < 3 -> box_faces b faces low hi ->
  (forall f, In f faces -> sel1 b dir f = true -> zget (t_canon b) (gf_bid (uf_g f)) = Some (2 * dir + 1) /\ uf_n f = side_normal (2 * dir) /\ (0 < gf_area (uf_g f))%R /\ vget (gf_cent (uf_g f)) dir = low dir) /\
  (forall f, In f faces -> sel2 b dir f = true -> zget (t_canon b) (gf_bid (uf_g f)) = Some (2 * dir + 2) /\ uf_n f = side_normal (2 * dir + 1) /\ (0 < gf_area (uf_g f))%R /\ vget (gf_cent (uf_g f)) dir = hi dir) /\
  (exists f, In f faces /\ sel1 b dir f = true) /\ (exists f, In f faces /\ sel2 b dir f = true).
Proof.
  intros Hd [H1 H2].
  assert (2 * dir / 2 = dir) as D1 by (rewrite Z.mul_comm; apply Z.div_mul; lia).
  assert ((2 * dir + 1) / 2 = dir) as D2 by (rewrite Z.mul_comm, Z.div_add_l by lia; cbn; lia).
  assert (Z.even (2 * dir) = true) as V1 by (rewrite Z.even_mul; reflexivity).
  assert (Z.even (2 * dir + 1) = false) as V2 by (rewrite Z.even_add, V1; reflexivity).
  split; [|split; [|split]].
  - intros f Hf Hs. unfold sel1 in Hs. apply andb_true_iff in Hs. destruct Hs as [Hb Hc]. destruct (H1 f Hf Hb) as [s [Rs [Ec [En [Ea Ep]]]]].
    unfold canon_of in Hc. rewrite Ec in Hc. apply Z.eqb_eq in Hc. assert (s = 2 * dir) by lia. subst s. rewrite D1, V1 in Ep. auto.
  - intros f Hf Hs. unfold sel2 in Hs. apply andb_true_iff in Hs. destruct Hs as [Hb Hc]. destruct (H1 f Hf Hb) as [s [Rs [Ec [En [Ea Ep]]]]].
    unfold canon_of in Hc. rewrite Ec in Hc. apply orb_true_iff in Hc. destruct Hc as [Hc|Hc].
    + apply Z.eqb_eq in Hc. assert (s = 2 * dir + 1) by lia. subst s. rewrite D2, V2 in Ep.
      split; [rewrite Ec; f_equal; lia|]. auto.
    + apply andb_true_iff in Hc. destruct Hc as [_ Hc]. apply Z.eqb_eq in Hc. lia.
  - destruct (H2 (2 * dir) ltac:(lia)) as [f [Hf [Hb Ec]]]. exists f. split; [exact Hf|]. unfold sel1, canon_of. rewrite Hb, Ec. cbn. apply Z.eqb_eq. lia.
  - destruct (H2 (2 * dir + 1) ltac:(lia)) as [f [Hf [Hb Ec]]]. exists f. split; [exact Hf|]. unfold sel2, canon_of. rewrite Hb, Ec. cbn [andb].
    apply orb_true_iff. left. apply Z.eqb_eq. lia.
Qed.

Lemma filter_combine_map {A} (p : A -> bool) (g : A -> R) l :
  filter (fun x : A * R => p (fst x)) (combine l (map g l)) = map (fun a => (a, g a)) (filter p l).
Proof. induction l as [|a l IH]; cbn; [reflexivity|]. destruct (p a); cbn; rewrite IH; reflexivity. Qed.

Lemma area_pos {A} (w : A -> R) (p : A -> bool) l : (forall x, In x l -> p x = true -> 0 < w x)%R -> (exists x, In x l /\ p x = true) ->
  (0 < Rsum (map w (filter p l)))%R.
Proof.
  intros H [x [Hx Hp]]. apply Rsum_map_pos.
  - intros E. assert (In x (filter p l)) by (apply filter_In; auto). rewrite E in *. contradiction.
  - intros y Hy. apply filter_In in Hy. destruct Hy. apply H; assumption.
Qed.

Lemma uniform_velocity b faces low hi dir v : 0 <= dir < 3 -> box_faces b faces low hi ->
  average_velocity b faces (map (uniform_flux v) faces) dir = Ok (Some (v dir)).
Proof.
  intros Hd B. destruct (sel_side b faces low hi dir Hd B) as [S1 [S2 [X1 X2]]].
  unfold average_velocity. rewrite vel_fold; [|exact Hd|intros x Hx; apply (canon_ex _ _ _ _ B); eapply in_combine_map1; eauto].
  cbn [bind fst snd]. rewrite !Rplus_0_l, !filter_combine_map, !map_map. cbn [fst snd].
  assert (forall p : uface -> bool, (forall f, In f faces -> p f = true -> exists s, (s = 2 * dir \/ s = 2 * dir + 1) /\ uf_n f = side_normal s) ->
    Rsum (map (fun f => uniform_flux v f * vget (uf_n f) dir)%R (filter p faces)) = (Rsum (map (fun f => gf_area (uf_g f)) (filter p faces)) * v dir)%R) as G.
  { intros p Hp. rewrite <- Rsum_map_scale_r. apply Rsum_map_ext. intros f Hf. apply filter_In in Hf. destruct Hf as [Hf Hpf].
    destruct (Hp f Hf Hpf) as [s [Es En]]. unfold uniform_flux. rewrite En, !side_normal_dir by (destruct Es; lia).
    assert (s / 2 = dir) as ->.
    { destruct Es as [-> | ->]; [rewrite Z.mul_comm; apply Z.div_mul; lia|rewrite Z.mul_comm, Z.div_add_l by lia; cbn; lia]. }
    rewrite Z.eqb_refl. assert (dir = 0 \/ dir = 1 \/ dir = 2) as [->|[->| ->]] by lia; cbn [Z.eqb Pos.eqb]; destruct (Z.even s); ring. }
  rewrite !G.
  - rewrite !fdiv_Some.
    + do 2 f_equal. field. split; apply Rgt_not_eq; apply area_pos; auto; intros; [apply S2|apply S1]; assumption.
    + apply Rgt_not_eq; apply area_pos; auto. intros; apply S2; assumption.
    + apply Rgt_not_eq; apply area_pos; auto. intros; apply S1; assumption.
  - intros f Hf Hs. exists (2 * dir + 1). split; [right; reflexivity|]. apply S2; assumption.
  - intros f Hf Hs. exists (2 * dir). split; [left; reflexivity|]. apply S1; assumption.
Qed.

Lemma box_delta b faces low hi dir : 0 <= dir < 3 -> box_faces b faces low hi ->
  compute_delta b faces dir = Ok (Some (hi dir - low dir)%R).
Proof.
  intros Hd B. destruct (sel_side b faces low hi dir Hd B) as [S1 [S2 [X1 X2]]].
  unfold compute_delta. rewrite delta_fold; [|exact Hd|apply (canon_ex _ _ _ _ B)].
  cbn [bind fst snd]. rewrite !Rplus_0_l.
  assert (forall (p : uface -> bool) x, (forall f, In f faces -> p f = true -> vget (gf_cent (uf_g f)) dir = x) ->
    Rsum (map (fun f => gf_area (uf_g f) * vget (gf_cent (uf_g f)) dir)%R (filter p faces)) = (Rsum (map (fun f => gf_area (uf_g f)) (filter p faces)) * x)%R) as G.
  { intros p x Hp. rewrite <- Rsum_map_scale_r. apply Rsum_map_ext. intros f Hf. apply filter_In in Hf. destruct Hf as [Hf Hpf]. rewrite (Hp f Hf Hpf). reflexivity. }
  rewrite (G (sel2 b dir) (hi dir)) by (intros; apply S2; assumption). rewrite (G (sel1 b dir) (low dir)) by (intros; apply S1; assumption).
  rewrite !fdiv_Some.
  - do 2 f_equal. field. split; apply Rgt_not_eq; apply area_pos; auto; intros; [apply S1|apply S2]; assumption.
  - apply Rgt_not_eq; apply area_pos; auto. intros; apply S1; assumption.
  - apply Rgt_not_eq; apply area_pos; auto. intros; apply S2; assumption.
Qed.

(* Darcy flow of a homogeneous medium with tensor K under a unit drop over length L *)
Lemma effective_homogeneous srt solve bct twodim faces b b0 b1 b2 low hi (K : Z -> Z -> R) :
  (bct = 0 \/ bct = 1 \/ bct = 2) ->
  let g := map uf_g faces in
  setup_upscaling srt g bct 0 1%R 1%R twodim b = Ok b0 ->
  setup_upscaling srt g bct 1 1%R 1%R twodim b0 = Ok b1 ->
  setup_upscaling srt g bct 2 1%R 1%R twodim b1 = Ok b2 ->
  (forall x, x = b0 \/ x = b1 \/ x = b2 -> box_faces x faces low hi) ->
  (forall d, 0 <= d < 3 -> (low d < hi d)%R) ->
  (forall d x, 0 <= d < 3 -> solve d x = Ok (map (uniform_flux (fun i => K i d / (hi d - low d))%R) faces)) ->
  exists cols, effective_perm srt solve bct twodim faces b = Ok cols /\
    forall d, 0 <= d < 3 -> exists col, zget cols d = Some col /\
      forall i, 0 <= i < 3 -> zget col i = Some (Some (if (bct =? 0) && negb (i =? d) then 0 else K i d)%R).
Proof.
  intros Hb g E0 E1 E2 HB HL HS.
  assert (forall d x x', 0 <= d < 3 -> setup_upscaling srt g bct d 1%R 1%R twodim x = Ok x' -> box_faces x' faces low hi ->
     exists col, perm_column srt solve bct twodim faces d x = Ok (col, x') /\
      forall i, 0 <= i < 3 -> zget col i = Some (Some (if (bct =? 0) && negb (i =? d) then 0 else K i d)%R)) as G.
  { intros d x x' Hd E B. unfold perm_column. fold g. rewrite E. cbn [bind]. rewrite HS by exact Hd. cbn [bind].
    pose proof (HL d Hd) as Hlt.
    destruct Hb as [->|Hb].
    - cbn [Z.eqb]. rewrite (uniform_velocity x' faces low hi d _ Hd B). cbn [bind].
      destruct (rset_exists [Some 0%R; Some 0%R; Some 0%R] d (Some (K d d / (hi d - low d))%R)) as [q [-> [Lq [Q1 Q2]]]]; [exact Hd|].
      cbn [bind]. rewrite (box_delta x' faces low hi d Hd B). cbn [bind]. eexists. split; [reflexivity|].
      intros i Hi. rewrite zget_map. destruct (Z.eqb_spec i d) as [->|Hne].
      + rewrite Q1. cbn. do 2 f_equal. field. lra.
      + rewrite Q2 by exact Hne. cbn [andb negb].
        assert (zget [Some 0%R; Some 0%R; Some 0%R] i = Some (Some 0%R)) as -> by (assert (i = 0 \/ i = 1 \/ i = 2) as [->|[->| ->]] by lia; reflexivity).
        cbn. do 2 f_equal. ring.
    - assert ((bct =? 0) = false) as -> by (apply Z.eqb_neq; lia).
      assert ((bct =? 1) || (bct =? 2) = true) as -> by (apply orb_true_iff; rewrite !Z.eqb_eq; lia).
      assert (mapM (average_velocity x' faces (map (uniform_flux (fun i => (K i d / (hi d - low d))%R)) faces)) (zrange 0 3) =
         Ok [Some (K 0%Z d / (hi d - low d)); Some (K 1%Z d / (hi d - low d)); Some (K 2%Z d / (hi d - low d))]%R) as ->.
      { replace (zrange 0 3) with [0; 1; 2] by reflexivity. cbn [mapM]. rewrite !(uniform_velocity x' faces low hi) by (lia || exact B). reflexivity. }
      cbn [bind]. rewrite (box_delta x' faces low hi d Hd B). cbn [bind]. eexists. split; [reflexivity|].
      intros i Hi. cbn [andb]. assert (i = 0 \/ i = 1 \/ i = 2) as [->|[->| ->]] by lia; cbv [zget Z.ltb Z.compare Z.to_nat Pos.to_nat Pos.iter_op Nat.add nth_error map]; do 2 f_equal; field; lra. }
  destruct (G 0 b b0 ltac:(lia) E0 (HB b0 (or_introl eq_refl))) as [c0 [C0 K0]].
  destruct (G 1 b0 b1 ltac:(lia) E1 (HB b1 (or_intror (or_introl eq_refl)))) as [c1 [C1 K1]].
  destruct (G 2 b1 b2 ltac:(lia) E2 (HB b2 (or_intror (or_intror eq_refl)))) as [c2 [C2 K2]].
  exists [c0; c1; c2]. split.
  - unfold effective_perm. replace (zrange 0 3) with [0; 1; 2] by reflexivity. cbn [foldM fst snd app]. rewrite C0. cbn [bind fst snd app].
    rewrite C1. cbn [bind fst snd app]. rewrite C2. reflexivity.
  - intros d Hd. assert (d = 0 \/ d = 1 \/ d = 2) as [->|[->| ->]] by lia; [exists c0|exists c1|exists c2]; (split; [reflexivity|assumption]).
Qed.

(* the unit cube with one face per side, fixed conditions: the hypotheses are met *)
Definition cube : list uface :=
  map (fun s => mkUface (mkGface (s + 1) 1%R
      (if s =? 0 then (0, /2, /2) else if s =? 1 then (1, /2, /2) else if s =? 2 then (/2, 0, /2)
       else if s =? 3 then (/2, 1, /2) else if s =? 4 then (/2, /2, 0) else (/2, /2, 1))%R) (side_normal s)) (zrange 0 6).

Lemma cube_box b : (forall i, 1 <= i <= 6 -> zget (t_canon b) i = Some i) -> box_faces b cube (fun _ => 0%R) (fun _ => 1%R).
Proof.
  intros H. split.
  - intros f Hf _. unfold cube in Hf. apply in_map_iff in Hf. destruct Hf as [s [<- Hs]]. apply In_zrange in Hs. exists s. split; [lia|].
    cbn [uf_g gf_bid uf_n gf_area gf_cent]. split; [apply H; lia|]. split; [reflexivity|]. split; [lra|].
    assert (s = 0 \/ s = 1 \/ s = 2 \/ s = 3 \/ s = 4 \/ s = 5) as C by lia.
    destruct C as [->|[->|[->|[->|[->| ->]]]]]; reflexivity.
  - intros s Hs. exists (mkUface (mkGface (s + 1) 1%R
      (if s =? 0 then (0, /2, /2) else if s =? 1 then (1, /2, /2) else if s =? 2 then (/2, 0, /2)
       else if s =? 3 then (/2, 1, /2) else if s =? 4 then (/2, /2, 0) else (/2, /2, 1))%R) (side_normal s)).
    split; [unfold cube; apply in_map_iff; exists s; split; [reflexivity|apply In_zrange; lia]|].
    split; [unfold on_boundary; cbn [uf_g gf_bid]; destruct (Z.eqb_spec (s + 1) 0); [lia|reflexivity]|]. cbn [uf_g gf_bid]. apply H; lia.
Qed.
