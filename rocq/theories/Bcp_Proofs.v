From Coq Require Import Lra.
From Verif Require Import BaseFacts Bound_Proofs2 Bound_Proofs3 Bcp_Spec.
Open Scope string_scope.
Open Scope Z_scope.

Lemma value_given {A} (o : option A) d x : value_or o d x <-> given o d = x.
Proof.
  split.
  - intros [y ->| ->]; reflexivity.
  - destruct o as [y|]; cbn; intros <-; [apply Value_given|apply Value_default]; reflexivity.
Qed.
Lemma side_spec p : (exists l r, side_conditions p = Ok (l, r) /\ requested p l r) \/ (side_conditions p = Throw /\ ~ exists l r, requested p l r).
Proof.
  unfold side_conditions. destruct (String.eqb_spec (given (bp_flow p) "dirichlet") "neumann") as [E|E].
  - destruct (bp_flow p) as [t|] eqn:EF; cbn in E; [subst t|discriminate]. destruct (bp_lflux p) as [l|] eqn:EL; cbn.
    + left. eexists. eexists. split; [reflexivity|]. apply Requested_flux; [exact EF|exact EL|apply value_given; reflexivity].
    + right. split; [reflexivity|]. intros (l & r & [l0 r0 HF _ _|l0 r0 _ HL _]).
      * apply value_given in HF. rewrite EF in HF. discriminate HF.
      * congruence.
  - destruct (String.eqb_spec (given (bp_flow p) "dirichlet") "dirichlet") as [D|D].
    + left. eexists. eexists. split; [reflexivity|]. apply Requested_pressure; apply value_given; [exact D|reflexivity|reflexivity].
    + right. split; [reflexivity|]. intros (l & r & [l0 r0 HF _ _|l0 r0 HF _ _]).
      * apply value_given in HF. congruence.
      * rewrite HF in E. apply E. reflexivity.
Qed.
Lemma requested_unique p l r l' r' : requested p l r -> requested p l' r' -> l = l' /\ r = r'.
Proof.
  intros [l0 r0 H1 H2 H3|l0 r0 H1 H2 H3] [l1 r1 G1 G2 G3|l1 r1 G1 G2 G3].
  - apply value_given in H2, H3, G2, G3. subst. split; reflexivity.
  - apply value_given in H1. rewrite G1 in H1. discriminate H1.
  - apply value_given in G1. rewrite H1 in G1. discriminate G1.
  - rewrite H2 in G2. injection G2 as ->. apply value_given in H3, G3. subst. split; reflexivity.
Qed.
(* the left and right sides get what is asked for, the others stay as they were *)
Lemma sides srt g p b : plain p ->
  (exists l r b', requested p l r /\ setup_conditions srt g p b = Ok b' /\ zlen (t_flow b') = 7 /\ zget (t_flow b') 1 = Some l /\ zget (t_flow b') 2 = Some r /\
     (forall i, 0 <= i < 7 -> i <> 1 -> i <> 2 -> zget (t_flow b') i = Some (kept b i)) /\
     (forall i, 0 <= i < 7 -> zget (t_sat b') i = Some (match zget (t_sat b) i with Some c => c | None => mkCond Dirichlet 1%R end))) \/
  (setup_conditions srt g p b = Throw /\ ~ exists l r, requested p l r).
Proof.
  intros (P1 & P2). apply value_given in P1, P2. unfold setup_conditions. rewrite P1, P2. destruct (side_spec p) as [(l & r & E & HR)|(E & HN)]; rewrite E; [|right; split; [reflexivity|exact HN]].
  left. exists l, r. cbn [bind]. assert (exists b0, bcs_resize 7 b = Ok b0 /\ Bound_Proofs2.sized 7 b0 /\ t_flow b0 = vec_resize 7 flow_default (t_flow b) /\ t_sat b0 = vec_resize 7 sat_default (t_sat b)) as (b0 & E0 & S0 & F0 & T0).
  { eexists. split; [reflexivity|]. split; [unfold Bound_Proofs2.sized; cbn [t_flow t_sat t_canon t_partner]; rewrite !vec_resize_len by lia; auto|split; reflexivity]. }
  rewrite E0. cbn [bind fst snd]. destruct (set_flow_ok 7 b0 1 l S0 ltac:(lia)) as (b1 & E1 & S1 & T1 & _ & _ & G1 & K1). rewrite E1. cbn [bind].
  destruct (set_flow_ok 7 b1 2 r S1 ltac:(lia)) as (b2 & E2 & S2 & T2 & _ & _ & G2 & K2). exists b2. split; [exact HR|]. split; [exact E2|]. split; [apply S2|]. split; [rewrite K2 by lia; exact G1|]. split; [exact G2|]. split.
  - intros i Hi N1 N2. rewrite K2, K1, F0, vec_resize_get by lia. unfold kept. destruct (Z.ltb_spec i (zlen (t_flow b))) as [HL|HL].
    + destruct (zget (t_flow b) i) eqn:EG; [reflexivity|]. destruct (zget_in_range (t_flow b) i ltac:(lia)) as (c & Hc). congruence.
    + rewrite (proj2 (zget_None_iff (t_flow b) i)) by lia. reflexivity.
  - intros i Hi. rewrite T2, T1, T0, vec_resize_get by lia. destruct (Z.ltb_spec i (zlen (t_sat b))) as [HL|HL].
    + destruct (zget (t_sat b) i) eqn:EG; [reflexivity|]. destruct (zget_in_range (t_sat b) i ltac:(lia)) as (c & Hc). congruence.
    + rewrite (proj2 (zget_None_iff (t_sat b) i)) by lia. reflexivity.
Qed.
(* ---- conditions for upscaling *)
Lemma up_types srt g p b : value_or (bp_upscaling p) false true -> (bp_type p = None \/ exists t, bp_type p = Some t /\ ~ 0 <= t <= 2) -> setup_conditions srt g p b = Throw.
Proof.
  intros H HT. apply value_given in H. unfold setup_conditions. rewrite H. destruct HT as [->|(t & -> & Ht)]; [reflexivity|]. cbn [required bind]. unfold setup_upscaling.
  replace ((t <? 0) || (2 <? t)) with true; [reflexivity|]. symmetry. apply orb_true_iff. rewrite !Z.ltb_lt. lia.
Qed.
Lemma rset_out {A} (l : list A) i x : ~ 0 <= i < zlen l -> rset l i x = UB.
Proof. intros H. unfold rset. destruct (Z.leb_spec 0 i); destruct (Z.ltb_spec i (zlen l)); cbn; try reflexivity; lia. Qed.
Lemma up_direction srt g p b t d : value_or (bp_upscaling p) false true -> bp_type p = Some t -> t = 0 \/ t = 2 -> bp_dir p = Some d -> ~ 0 <= d <= 2 -> setup_conditions srt g p b = UB.
Proof.
  intros H HT Ht HD Hd. apply value_given in H. unfold setup_conditions. rewrite H, HT, HD. cbn [required bind given]. unfold setup_upscaling. destruct Ht as [-> | ->].
  - change ((0 <? 0) || (2 <? 0)) with false. cbv iota. change (0 =? 0) with true. cbv iota. unfold fixed_conditions, bcs_clear.
    destruct (resize_empty 7 ltac:(lia)) as (b0 & E0 & (S1 & _) & _). rewrite E0. cbn [bind]. unfold set_flow. rewrite rset_out by lia. reflexivity.
  - change ((2 <? 0) || (2 <? 2)) with false. cbv iota. change (2 =? 0) with false. change (2 =? 1) with false. cbv iota zeta. rewrite rset_out; [reflexivity|]. change (zlen (zrepeat (mkCond Periodic 0%R) 6)) with 6. lia.
Qed.
Lemma canon_keeps l : forall b b', foldM (fun b i => set_canon i i b) l b = Ok b' -> t_flow b' = t_flow b /\ t_sat b' = t_sat b.
Proof.
  induction l as [|i l IH]; intros b b' H; cbn [foldM] in H; [injection H as <-; auto|]. unfold set_canon at 1 in H. destruct (rset (t_canon b) i i) as [s| |]; cbn [bind] in H; [|discriminate|discriminate]. apply IH in H. exact H.
Qed.
Lemma canon_all : forall l b, (forall i, In i l -> 0 <= i < 7) -> Bound_Proofs2.sized 7 b -> exists b', foldM (fun b i => set_canon i i b) l b = Ok b'.
Proof.
  induction l as [|i l IH]; intros b H S; cbn [foldM]; [eexists; reflexivity|]. destruct (set_canon_ok 7 b i i S (H i (or_introl eq_refl))) as (b1 & E & S1 & _). rewrite E. cbn [bind]. apply IH; [intros k Hk; apply H; right; exact Hk|exact S1].
Qed.
Lemma up_fixed srt g p b d dp s : value_or (bp_upscaling p) false true -> bp_type p = Some 0 -> value_or (bp_dir p) 0 d -> 0 <= d <= 2 -> value_or (bp_drop p) 100000%R dp -> value_or (bp_sat p) 1%R s ->
  exists b', setup_conditions srt g p b = Ok b' /\ zlen (t_flow b') = 7 /\ zlen (t_sat b') = 7 /\ zget (t_flow b') (2 * d + 1) = Some (mkCond Dirichlet dp) /\ zget (t_flow b') (2 * d + 2) = Some (mkCond Dirichlet 0%R) /\
    (forall i, 0 <= i < 7 -> i <> 2 * d + 1 -> i <> 2 * d + 2 -> zget (t_flow b') i = Some (mkCond Neumann 0%R)) /\
    zget (t_sat b') (2 * d + 1) = Some (mkCond Dirichlet s) /\ (forall i, 0 <= i < 7 -> i <> 2 * d + 1 -> zget (t_sat b') i = Some (mkCond Dirichlet 1%R)).
Proof.
  intros H HT HD Hd HP HS. apply value_given in H, HD, HP, HS. unfold setup_conditions. rewrite H, HT, HD, HP, HS. cbn [required bind]. unfold setup_upscaling. change ((0 <? 0) || (2 <? 0)) with false. cbv iota. change (0 =? 0) with true. cbv iota.
  unfold fixed_conditions, bcs_clear. destruct (resize_empty 7 ltac:(lia)) as (b0 & E0 & S0 & G0). rewrite E0. cbn [bind].
  destruct (set_flow_ok 7 b0 (2 * d + 1) (mkCond Dirichlet dp) S0 ltac:(lia)) as (b1 & E1 & S1 & T1 & _ & _ & G1 & K1). rewrite E1. cbn [bind].
  destruct (set_flow_ok 7 b1 (2 * d + 2) (mkCond Dirichlet 0%R) S1 ltac:(lia)) as (b2 & E2 & S2 & T2 & _ & _ & G2 & K2). rewrite E2. cbn [bind].
  destruct (set_sat_ok 7 b2 (2 * d + 1) (mkCond Dirichlet s) S2 ltac:(lia)) as (b3 & E3 & S3 & F3 & _ & _ & G3 & K3). rewrite E3. cbn [bind].
  destruct (canon_all (zrange 0 7) b3) as (b4 & E4). { intros i Hi. apply In_zrange in Hi. lia. } { exact S3. }
  rewrite E4. exists b4. apply canon_keeps in E4. destruct E4 as (F4 & T4). rewrite F4, T4. split; [reflexivity|]. split; [apply S3|]. split; [apply S3|]. rewrite F3. split; [rewrite K2 by lia; exact G1|]. split; [exact G2|].
  split; [intros i Hi N1 N2; rewrite K2, K1 by lia; apply (G0 i Hi)|]. split; [exact G3|]. intros i Hi N1. rewrite K3, T2, T1 by lia. apply (G0 i Hi).
Qed.
(* ---- region based conditions need the pressure *)
Lemma inside_iff p c : inside_block p c <-> forall d, 0 <= d < 3 -> (vget (corner (bp_low p) 0) d < vget c d < vget (corner (bp_high p) 1) d)%R.
Proof.
  unfold inside_block. destruct c as ((x, y), z). destruct (bp_low p) as ((lx, ly), lz). destruct (bp_high p) as ((hx, hy), hz). unfold corner. cbn [fst snd]. split.
  - intros ((a1 & b1 & A1 & B1 & H1) & (a2 & b2 & A2 & B2 & H2) & (a3 & b3 & A3 & B3 & H3)) d Hd. apply value_given in A1, A2, A3, B1, B2, B3. assert (d = 0 \/ d = 1 \/ d = 2) as [->|[->| ->]] by lia; cbn; subst; assumption.
  - intros H. pose proof (H 0 ltac:(lia)) as H0. pose proof (H 1 ltac:(lia)) as H1. pose proof (H 2 ltac:(lia)) as H2. cbn in H0, H1, H2. repeat split; eexists; eexists; (split; [apply value_given; reflexivity|split; [apply value_given; reflexivity|assumption]]).
Qed.
Lemma region srt g p b : value_or (bp_upscaling p) false false -> value_or (bp_region p) false true -> (forall f, In f g -> 0 <= gf_bid f) ->
  (bp_block p = None /\ setup_conditions srt g p b = Throw) \/
  exists q b', bp_block p = Some q /\ setup_conditions srt g p b = Ok b' /\ forall i, (exists f, In f g /\ gf_bid f = i) ->
    ((exists f, In f g /\ gf_bid f = i /\ i <> 0 /\ inside_block p (gf_cent f)) -> zget (t_flow b') i = Some (mkCond Dirichlet q)) /\
    (~ (exists f, In f g /\ gf_bid f = i /\ i <> 0 /\ inside_block p (gf_cent f)) -> zget (t_flow b') i = Some (kept b i)).
Proof.
  intros H1 H2 Hg. apply value_given in H1, H2. unfold setup_conditions. rewrite H1, H2. destruct (bp_block p) as [q|]; [|left; split; reflexivity]. right. cbn [required bind]. destruct (region_spec g (corner (bp_low p) 0) (corner (bp_high p) 1) q b Hg) as (b' & E & HB). exists q, b'. split; [reflexivity|]. split; [exact E|]. intros i Hi. destruct (HB i Hi) as (HB1 & HB2). split.
  - intros (f & F1 & F2 & F3 & F4). apply HB1. exists f. rewrite <- inside_iff. auto.
  - intros HN. apply HB2. intros (f & F1 & F2 & F3 & F4). apply HN. exists f. rewrite inside_iff. auto.
Qed.
(* ---- a table that was used before *)
Lemma stale srt : exists b1 b2, setup_conditions srt third_side block_param bcs_empty = Ok b1 /\ setup_conditions srt third_side no_param b1 = Ok b2 /\ zget (t_flow b2) 3 = Some (mkCond Dirichlet 5%R) /\
  exists b3, setup_conditions srt third_side no_param bcs_empty = Ok b3 /\ zget (t_flow b3) 3 = Some (mkCond Neumann 0%R).
Proof.
  destruct (region srt third_side block_param bcs_empty) as [(H & _)|(q & b1 & Hq & E1 & H1)]; [apply Value_default; reflexivity|apply Value_given; reflexivity|intros f [<-|[]]; cbn; lia|discriminate H|]. injection Hq as <-.
  assert (plain no_param) as P by (split; apply Value_default; reflexivity).
  destruct (H1 3) as (H3 & _). { eexists. split; [left; reflexivity|reflexivity]. }
  assert (zget (t_flow b1) 3 = Some (mkCond Dirichlet 5%R)) as G. { apply H3. eexists. split; [left; reflexivity|]. split; [reflexivity|]. split; [discriminate|]. apply inside_iff. intros d Hd. assert (d = 0 \/ d = 1 \/ d = 2) as [->|[->| ->]] by lia; cbn; lra. }
  assert (forall b, exists b', setup_conditions srt third_side no_param b = Ok b' /\ zget (t_flow b') 3 = Some (kept b 3)) as A.
  { intros b. destruct (sides srt third_side no_param b P) as [(l & r & b' & _ & E & _ & _ & _ & K & _)|(_ & N)].
    - exists b'. split; [exact E|apply K; lia].
    - exfalso. apply N. exists (mkCond Dirichlet 100000%R), (mkCond Dirichlet 0%R). apply Requested_pressure; apply Value_default; reflexivity. }
  destruct (A b1) as (b2 & E2 & G2). destruct (A bcs_empty) as (b3 & E3 & G3). exists b1, b2. split; [exact E1|]. split; [exact E2|]. split; [rewrite G2; unfold kept; rewrite G; reflexivity|]. exists b3. split; [exact E3|exact G3].
Qed.
(* the hypotheses are met: no parameters at all, and fluxes *)
Lemma examples_met : plain no_param /\ requested no_param (mkCond Dirichlet 100000%R) (mkCond Dirichlet 0%R) /\
  requested (mkBparam None None None None None None None (None, None, None) (None, None, None) None (Some "neumann") (Some 3%R) None None None) (mkCond Neumann 3%R) (mkCond Neumann (- 3)%R).
Proof.
  split; [split; apply Value_default; reflexivity|]. split; [apply Requested_pressure; apply Value_default; reflexivity|]. apply Requested_flux; [reflexivity|reflexivity|apply Value_default; reflexivity].
Qed.
