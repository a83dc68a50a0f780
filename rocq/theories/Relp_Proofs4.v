From Verif Require Import BaseFacts RBaseFacts Relp_Model Relp_Spec Relp_Proofs Relp_Proofs2 Relp_Proofs3.
Open Scope Z_scope.

(* ---------- loops in which some step is undefined *)
Lemma mapM_UB {A B} (f : A -> res B) l a : In a l -> f a = UB -> (forall x, In x l -> f x <> Throw) -> mapM f l = UB.
Proof.
  induction l as [|x l IH]; intros Hin Ha Hn; [destruct Hin|]. cbn [mapM].
  destruct (f x) as [b| |] eqn:E; cbn [bind].
  - destruct Hin as [->|Hin]; [congruence|]. rewrite IH; auto. intros y Hy. apply Hn. right; exact Hy.
  - exfalso. apply (Hn x); [left; reflexivity|exact E].
  - reflexivity.
Qed.
Lemma foldM_UB {A S} (f : S -> A -> res S) l a s : In a l -> (forall s, f s a = UB) ->
  (forall x s, In x l -> f s x <> Throw) -> foldM f l s = UB.
Proof.
  revert s. induction l as [|x l IH]; intros s Hin Ha Hn; [destruct Hin|]. cbn [foldM].
  destruct (f s x) as [b| |] eqn:E; cbn [bind].
  - destruct Hin as [->|Hin]; [rewrite Ha in E; discriminate|]. apply IH; auto. intros y t Hy. apply Hn. right; exact Hy.
  - exfalso. apply (Hn x s); [left; reflexivity|exact E].
  - reflexivity.
Qed.
Lemma rget_nothrow {A} (l : list A) i : rget l i <> Throw.
Proof. unfold rget. destruct (zget l i); discriminate. Qed.
Lemma bind_nothrow {A B} (x : res A) (f : A -> res B) : x <> Throw -> (forall a, f a <> Throw) -> bind x f <> Throw.
Proof. destruct x; cbn; auto; discriminate. Qed.

(* ---------- C33: the offset read for a cell *)
Lemma cell_pressure_nothrow h p c : cell_pressure h p c <> Throw.
Proof. unfold cell_pressure. destruct (h_dP h); [discriminate|]. apply bind_nothrow; [apply rget_nothrow|discriminate]. Qed.
Lemma cell_sat_nothrow h p c s : cell_sat h p c s <> Throw.
Proof.
  unfold cell_sat. repeat (apply bind_nothrow; [first [apply cell_pressure_nothrow|apply rget_nothrow]|intros ?]).
  destruct (h_aniso h); (apply bind_nothrow; [apply rget_nothrow|discriminate]).
Qed.

Lemma increasing_lower l : increasing l -> (forall c, In c l -> 0 <= c) ->
  forall i d c, 0 <= i -> zget l i = Some c -> i + d <= c -> forall j c', i <= j -> zget l j = Some c' -> j + d <= c'.
Proof.
  intros Hinc Hpos i d c Hi Ec Hd j c' Hij.
  revert c'. pattern j. apply (Zlt_lower_bound_ind _ i); [|exact Hij]. clear j Hij.
  intros j IH Hij c' Ec'. destruct (Z.eq_dec i j) as [<-|Hne]; [congruence|].
  pose proof (zget_Some_range _ _ _ Ec') as R.
  destruct (zget_in_range l (j - 1) ltac:(lia)) as [c1 E1].
  pose proof (IH (j - 1) ltac:(lia) c1 E1). pose proof (Hinc (j-1) j c1 c' ltac:(lia) E1 Ec'). lia.
Qed.

Lemma offset_prop h pv pore p : wf h -> increasing (h_ecl h) -> (forall c, In c (h_ecl h) -> 0 < region h c) ->
  h_ecl h <> [] -> zlen (h_dP h) = zlen (h_ecl h) -> zlen pv = zlen (h_sat h) ->
  ((forall i c, zget (h_ecl h) i = Some c -> c = i) ->
     (exists s, sweep_sat h pv pore p = Ok s) /\
     forall i c, zget (h_ecl h) i = Some c -> cell_pressure h p c = Ok (p - at_ (h_dP h) i)%R) /\
  (~ (forall i c, zget (h_ecl h) i = Some c -> c = i) -> sweep_sat h pv pore p = UB).
Proof.
  intros Hwf Hinc Hrock Hne HdP Hpv.
  assert (0 < zlen (h_ecl h)) as Hl by (destruct (h_ecl h); [congruence|unfold zlen; cbn [length]; lia]).
  assert (h_dP h <> []) as HdPn by (intros E; rewrite E in HdP; unfold zlen at 1 in HdP; cbn in HdP; lia).
  split.
  - intros Hid.
    assert (offsets_cover h) as Hcov.
    { right. intros c Hc _. apply In_zget in Hc. destruct Hc as [i [Hi Ei]]. rewrite (Hid i c Ei). lia. }
    split.
    + destruct (sweep_fold h p pv (fun _ => 0%R) Hwf Hcov Hpv) as [w [Ew _]]. unfold sweep_sat. rewrite Ew. cbn [bind]. eauto.
    + intros i c E. pose proof (zget_Some_range _ _ _ E). rewrite pressure_ok; [|assumption|apply (zget_In _ _ _ E)|apply Hrock, (zget_In _ _ _ E)|rewrite (Hid i c E); lia].
      unfold offset_of. destruct (h_dP h) eqn:Q; [congruence|]. rewrite (Hid i c E). reflexivity.
  - intros Hnid.
    assert (exists i c, zget (h_ecl h) i = Some c /\ c <> i) as [i [c [Ei Hne']]].
    { assert (forall n, (forall i, 0 <= i < Z.of_nat n -> i < zlen (h_ecl h) -> zget (h_ecl h) i = Some i) \/ exists i c, zget (h_ecl h) i = Some c /\ c <> i) as D.
      { induction n as [|n [IH|IH]]; [left; lia| |right; exact IH].
        destruct (zget (h_ecl h) (Z.of_nat n)) as [c|] eqn:E.
        - destruct (Z.eq_dec c (Z.of_nat n)) as [->|Hd]; [left|right; eauto].
          intros i Hi Hil. destruct (Z.eq_dec i (Z.of_nat n)) as [->|]; [exact E|apply IH; lia].
        - left. intros i Hi Hil. destruct (Z.eq_dec i (Z.of_nat n)) as [->|]; [|apply IH; lia].
          apply zget_None_iff in E. lia. }
      destruct (D (length (h_ecl h))) as [D1|D1]; [|exact D1]. exfalso. apply Hnid. intros i c E.
      pose proof (zget_Some_range _ _ _ E). rewrite D1 in E by (unfold zlen in *; lia). congruence. }
    assert (forall c, In c (h_ecl h) -> 0 <= c) as Hpos by (intros x Hx; apply Hwf in Hx; lia).
    pose proof (zget_Some_range _ _ _ Ei) as Ri.
    assert (i + 1 <= c) as Hic.
    { destruct (zget_in_range (h_ecl h) 0 ltac:(lia)) as [c0 E0]. pose proof (Hpos c0 (zget_In _ _ _ E0)).
      pose proof (increasing_lower _ Hinc Hpos 0 0 c0 ltac:(lia) E0 ltac:(lia) i c ltac:(lia) Ei). lia. }
    destruct (zget_in_range (h_ecl h) (zlen (h_ecl h) - 1) ltac:(lia)) as [cl El].
    pose proof (increasing_lower _ Hinc Hpos i 1 c ltac:(lia) Ei ltac:(lia) (zlen (h_ecl h) - 1) cl ltac:(lia) El) as Hcl.
    unfold sweep_sat. rewrite (foldM_UB _ _ cl); [reflexivity|apply (zget_In _ _ _ El)| |].
    + intros w. destruct (wf_cell h Hwf cl (zget_In _ _ _ El)) as [Es _]. rewrite Es. cbn [bind].
      pose proof (Hrock cl (zget_In _ _ _ El)). destruct (0 <? region h cl) eqn:Q; [|lia].
      unfold cell_sat, cell_pressure. destruct (h_dP h) eqn:Q2; [congruence|]. rewrite <- Q2 in *.
      assert (rget (h_dP h) cl = UB) as ->; [|reflexivity]. unfold rget.
      assert (zget (h_dP h) cl = None) as -> by (apply zget_None_iff; lia). reflexivity.
    + intros x w Hx. apply bind_nothrow; [apply rget_nothrow|]. intros s.
      apply bind_nothrow; [destruct (0 <? s); [apply cell_sat_nothrow|discriminate]|]. intros sw.
      apply bind_nothrow; [apply rget_nothrow|discriminate].
Qed.

(* ---------- phase permeabilities *)
Definition diag_of (h : helper) (ph : Z) (p : R) (c : Z) : list R :=
  if h_aniso h then [phase_perm h ph p c 0; phase_perm h ph p c 1; phase_perm h ph p c 2]
  else [h_minperm h; h_minperm h; h_minperm h].
Definition val_of (h : helper) (ph : Z) (p : R) (c : Z) : R :=
  if h_aniso h then h_minperm h else phase_perm h ph p c 0.

Lemma is_max_ext m l l' : is_max m l -> (forall x, In x l <-> In x l') -> is_max m l'.
Proof. intros [A B] H. split; [apply H, A|]. intros x Hx. apply B, H, Hx. Qed.
Lemma is_max_smax a b la lb : is_max a la -> is_max b lb -> is_max (smax a b) (la ++ lb).
Proof.
  intros [A1 A2] [B1 B2]. unfold smax. destruct (Rltb_spec a b); split.
  - apply in_or_app. auto.
  - intros x Hx. apply in_app_or in Hx. destruct Hx as [Hx|Hx]; [specialize (A2 x Hx); lra|auto].
  - apply in_or_app. auto.
  - intros x Hx. apply in_app_or in Hx. destruct Hx as [Hx|Hx]; [auto|specialize (B2 x Hx); lra].
Qed.
Lemma is_max_single a : is_max a [a].
Proof. split; [left; reflexivity|]. intros x [<-|[]]. lra. Qed.

Definition pp_inv (h : helper) (pv : list R) (ph : Z) (p : R) (done : list Z) (st : ppstate) : Prop :=
  let rk := filter (fun c => 0 <? region h c) done in
  zlen (pp_val st) = zlen (h_sat h) /\ zlen (pp_diag st) = zlen (h_sat h) /\
  (forall c, In c rk -> zget (pp_val st) c = Some (val_of h ph p c) /\ zget (pp_diag st) c = Some (diag_of h ph p c)) /\
  (forall c, 0 <= c < zlen (h_sat h) -> ~ In c rk -> zget (pp_val st) c = Some 0%R /\ zget (pp_diag st) c = Some []) /\
  is_max (pp_max st) (0%R :: flat_map (cand h ph p) rk) /\
  pp_water st = sumR (fun c => local_sat h p c * at_ pv c)%R rk.

Lemma pp_fold h pv ph p : wf h -> offsets_cover h -> zlen pv = zlen (h_sat h) -> 0 <= ph < 2 ->
  exists st, foldM (pp_step h pv ph p) (h_ecl h) (mkPp (zrepeat 0%R (zlen (h_sat h))) (zrepeat [] (zlen (h_sat h))) 0%R 0%R) = Ok st /\
    pp_inv h pv ph p (h_ecl h) st.
Proof.
  intros Hwf Hcov Hpv Hph. apply foldM_inv.
  - unfold pp_inv. cbn [filter flat_map pp_val pp_diag pp_max pp_water]. pose proof (zlen_nonneg (h_sat h)).
    rewrite !zlen_zrepeat by lia. split; [reflexivity|]. split; [reflexivity|]. split; [intros c []|].
    split; [intros c Hc _; rewrite !zget_zrepeat by lia; auto|]. split; [apply is_max_single|reflexivity].
  - intros done c st Hc (Lv & Ld & Gr & Gn & Mx & Wt).
    destruct (wf_cell h Hwf c Hc) as [Es [H0 [Hr [Ek Ep]]]]. unfold pp_step. rewrite Es, Ek. cbn [bind].
    destruct (0 <? region h c) eqn:Q.
    + rewrite cell_sat_ok by (try assumption; lia). cbn [bind]. rewrite (rget_at pv) by lia. cbn [bind].
      destruct (wf_curve h Hwf c Hc ltac:(lia)) as [_ Hkr].
      destruct (Hkr 0 ph ltac:(lia) Hph) as [k0 [E0 Z0]]. destruct (Hkr 1 ph ltac:(lia) Hph) as [k1 [E1 Z1]].
      destruct (Hkr 2 ph ltac:(lia) Hph) as [k2 [E2 Z2]]. rewrite E0. cbn [bind].
      match goal with |- exists s', bind ?e _ = _ /\ _ => assert (e = Ok (val_of h ph p c, diag_of h ph p c)) as -> end.
      { unfold val_of, diag_of. destruct (h_aniso h) eqn:An.
        - rewrite E1, E2. cbn [bind]. destruct Hwf as [_ [_ [_ [_ [An' _]]]]]. destruct (An' An) as [Ly Lz].
          rewrite !rget_at by lia. cbn [bind]. unfold phase_perm. rewrite Z0, Z1, Z2. reflexivity.
        - unfold phase_perm. rewrite Z0. reflexivity. }
      cbn [bind fst snd].
      destruct (rset_exists (pp_val st) c (val_of h ph p c) ltac:(lia)) as [v' [Ev [Lv' [Gv Ov]]]]. rewrite Ev. cbn [bind].
      destruct (rset_exists (pp_diag st) c (diag_of h ph p c) ltac:(lia)) as [d' [Ed [Ld' [Gd Od]]]]. rewrite Ed. cbn [bind].
      assert (diag_of h ph p c <> []) as Hdn by (unfold diag_of; destruct (h_aniso h); discriminate).
      destruct (lmax_spec _ Hdn) as [dm [Em [Im Mm]]]. rewrite Em. cbn [bind].
      eexists. split; [reflexivity|]. unfold pp_inv. cbn [pp_val pp_diag pp_max pp_water].
      rewrite filter_app. cbn [filter]. rewrite Q.
      split; [lia|]. split; [lia|]. split; [|split; [|split]].
      * intros c' Hc'. destruct (Z.eq_dec c' c) as [->|Hne]; [auto|].
        rewrite Ov, Od by assumption. apply Gr. apply in_app_or in Hc'. destruct Hc' as [?|[?|[]]]; [assumption|congruence].
      * intros c' Hr' Hn'. assert (c' <> c) by (intros ->; apply Hn'; apply in_or_app; right; left; reflexivity).
        rewrite Ov, Od by assumption. apply Gn; [exact Hr'|]. intros Hin. apply Hn'. apply in_or_app. left. exact Hin.
      * eapply is_max_ext.
        -- apply is_max_smax; [apply is_max_smax; [exact Mx|apply (is_max_single (val_of h ph p c))]|]. split; [exact Im|exact Mm].
        -- intros x. rewrite flat_map_app. cbn [flat_map]. rewrite app_nil_r. unfold val_of, diag_of, cand.
           rewrite !in_app_iff. cbn [In]. rewrite !in_app_iff. destruct (h_aniso h); cbn [In]; tauto.
      * rewrite sumR_snoc, Wt. reflexivity.
    + exists st. split; [reflexivity|]. unfold pp_inv. rewrite filter_app. cbn [filter]. rewrite Q, app_nil_r.
      repeat split; try assumption; try apply Gr; try apply Gn; try apply Mx; assumption.
Qed.

Lemma floor_nonneg M contrast minp : (0 <= M)%R -> (0 < contrast)%R -> (0 <= smax (M / contrast) minp)%R.
Proof.
  intros. rewrite smax_Rmax. eapply Rle_trans; [|apply Rmax_l]. unfold Rdiv. apply Rmult_le_pos; [assumption|].
  left. apply Rinv_0_lt_compat. assumption.
Qed.

Lemma phase_perms_prop h pv ph p : wf h -> offsets_cover h -> zlen pv = zlen (h_sat h) -> 0 <= ph < 2 ->
  (0 < h_contrast h)%R ->
  (h_aniso h = true -> forall c, In c (h_ecl h) -> 0 < region h c) ->
  exists M floor,
    phase_perms h pv ph p = Ok (map (tensor_of h ph p floor) (h_ecl h), sumR (fun c => local_sat h p c * at_ pv c)%R (rock_cells h)) /\
    is_max M (0%R :: flat_map (cand h ph p) (rock_cells h)) /\
    floor = Rmax (M / h_contrast h) (h_minperm h).
Proof.
  intros Hwf Hcov Hpv Hph Hco Hrock. destruct (pp_fold h pv ph p Hwf Hcov Hpv Hph) as [st [Est Inv]].
  destruct Inv as (Lv & Ld & Gr & Gn & Mx & Wt).
  exists (pp_max st), (smax (pp_max st / h_contrast h) (h_minperm h)). split; [|split; [exact Mx|apply smax_Rmax]].
  unfold phase_perms. rewrite Est. cbn [bind].
  set (floor := smax (pp_max st / h_contrast h) (h_minperm h)).
  assert (0 <= floor)%R as Hf. { apply floor_nonneg; [apply Mx; left; reflexivity|exact Hco]. }
  rewrite (mapM_all_Ok _ (tensor_of h ph p floor)); [cbn [bind]; rewrite Wt; reflexivity|].
  intros c Hc. unfold pp_tensor, tensor_of. destruct (wf_cell h Hwf c Hc) as [_ [H0 [Hr _]]].
  destruct (h_aniso h) eqn:An.
  - specialize (Hrock eq_refl c Hc).
    destruct (Gr c) as [_ Gd]. { apply filter_In. split; [exact Hc|lia]. }
    unfold diag_of in Gd. rewrite An in Gd. apply rget_Ok in Gd. rewrite Gd. cbn [bind].
    rewrite <- !smax_Rmax. reflexivity.
  - destruct (0 <? region h c) eqn:Q.
    + destruct (Gr c) as [Gv _]. { apply filter_In. auto. }
      unfold val_of in Gv. rewrite An in Gv. apply rget_Ok in Gv. rewrite Gv. cbn [bind].
      rewrite !smax_Rmax. replace (Rmax floor (Rmax floor (phase_perm h ph p c 0))) with (Rmax floor (phase_perm h ph p c 0)); [reflexivity|].
      rewrite (Rmax_right floor (Rmax _ _)); [reflexivity|apply Rmax_l].
    + destruct (Gn c Hr) as [Gv _]. { intros Hin. apply filter_In in Hin. destruct Hin. congruence. }
      apply rget_Ok in Gv. rewrite Gv. cbn [bind]. rewrite !smax_Rmax.
      rewrite (Rmax_left floor 0) by exact Hf. rewrite Rmax_left by lra. reflexivity.
Qed.

Lemma contrast_prop h pv ph p ts w : wf h -> offsets_cover h -> zlen pv = zlen (h_sat h) -> 0 <= ph < 2 ->
  (1 <= h_contrast h)%R -> (0 <= h_minperm h)%R ->
  (h_aniso h = true -> forall c, In c (h_ecl h) -> 0 < region h c) ->
  phase_perms h pv ph p = Ok (ts, w) ->
  forall k k', In k (flat_map entries ts) -> In k' (flat_map entries ts) ->
    (h_minperm h <= k)%R /\ (k <= h_contrast h * k')%R.
Proof.
  intros Hwf Hcov Hpv Hph Hco Hmp Hrock E.
  destruct (phase_perms_prop h pv ph p Hwf Hcov Hpv Hph ltac:(lra) Hrock) as [M [floor [E' [[_ HM] Hfl]]]].
  rewrite E in E'. assert (ts = map (tensor_of h ph p floor) (h_ecl h)) as -> by congruence. clear E E'.
  assert (forall k, In k (flat_map entries (map (tensor_of h ph p floor) (h_ecl h))) -> floor <= k /\ (k = floor \/ k <= M))%R as Hk.
  { intros k Hin. apply in_flat_map in Hin. destruct Hin as [t [Ht Hin]]. apply in_map_iff in Ht. destruct Ht as [c [<- Hc]].
    assert (0 < region h c -> forall d, (d = 0 \/ h_aniso h = true /\ (d = 1 \/ d = 2)) -> (phase_perm h ph p c d <= M)%R) as Hle.
    { intros Hr d Hd. apply HM. right. apply in_flat_map. exists c. split; [apply filter_In; split; [exact Hc|lia]|].
      unfold cand. destruct (h_aniso h); cbn [In]; destruct Hd as [->|[Ha [->| ->]]]; auto; discriminate. }
    unfold tensor_of in Hin. destruct (h_aniso h) eqn:An.
    - specialize (Hrock eq_refl c Hc).
      destruct Hin as [<-|[<-|[<-|[]]]]; (split; [apply Rmax_l|]); unfold Rmax; destruct (Rle_dec _ _); auto; right; apply Hle; auto.
    - destruct (0 <? region h c) eqn:Q.
      + assert (k = Rmax floor (phase_perm h ph p c 0)) as -> by (destruct Hin as [<-|[<-|[<-|[]]]]; reflexivity).
        split; [apply Rmax_l|]. unfold Rmax; destruct (Rle_dec _ _); auto. right. apply Hle; [lia|auto].
      + assert (k = floor) as -> by (destruct Hin as [<-|[<-|[<-|[]]]]; reflexivity). split; [lra|auto]. }
  intros k k' Hin Hin'. destruct (Hk k Hin) as [H1 H2]. destruct (Hk k' Hin') as [H3 _].
  assert (h_minperm h <= floor /\ M / h_contrast h <= floor)%R as [F1 F2].
  { rewrite Hfl. split; [apply Rmax_r|apply Rmax_l]. }
  split; [lra|]. destruct H2 as [->|H2].
  - apply (Rle_trans _ k'); [exact H3|]. assert (0 <= k')%R by lra. nra.
  - apply (Rle_trans _ M); [exact H2|]. apply (Rle_trans _ (h_contrast h * floor)).
    + assert (M = h_contrast h * (M / h_contrast h))%R as EM by (field; lra). rewrite EM at 1. apply Rmult_le_compat_l; lra.
    + apply Rmult_le_compat_l; lra.
Qed.

(* C31 *)
Lemma no_rock_prop h pv ph p : wf h -> offsets_cover h -> zlen pv = zlen (h_sat h) -> 0 <= ph < 2 ->
  (0 < h_contrast h)%R ->
  (phase_perms h pv ph p = UB <-> h_aniso h = true /\ exists c, In c (h_ecl h) /\ zget (h_sat h) c = Some 0) /\
  phase_perms h pv ph p <> Throw.
Proof.
  intros Hwf Hcov Hpv Hph Hco.
  destruct (Exists_dec (fun c => region h c = 0) (h_ecl h)) as [D|D]; [intros c; apply Z.eq_dec| |].
  - apply Exists_exists in D. destruct D as [c [Hc Hr]].
    destruct (wf_cell h Hwf c Hc) as [Es [H0 [Hrg _]]].
    destruct (h_aniso h) eqn:An.
    + assert (phase_perms h pv ph p = UB) as ->.
      { unfold phase_perms. destruct (pp_fold h pv ph p Hwf Hcov Hpv Hph) as [st [-> Inv]]. cbn [bind].
        destruct Inv as (Lv & Ld & Gr & Gn & Mx & Wt).
        rewrite (mapM_UB _ _ c); [reflexivity|exact Hc| |].
        - unfold pp_tensor. rewrite An. destruct (Gn c Hrg) as [_ Gd].
          { intros Hin. apply filter_In in Hin. lia. }
          apply rget_Ok in Gd. rewrite Gd. reflexivity.
        - intros x Hx. unfold pp_tensor. rewrite An. repeat (apply bind_nothrow; [apply rget_nothrow|intros ?]). discriminate. }
      split; [|discriminate]. split; [|auto]. intros _. split; [reflexivity|]. exists c. split; [exact Hc|].
      unfold region in Hr. destruct (zget (h_sat h) c) eqn:Q; [congruence|]. apply zget_None_iff in Q. lia.
    + destruct (phase_perms_prop h pv ph p Hwf Hcov Hpv Hph Hco) as [M [fl [E _]]]; [congruence|]. rewrite E.
      split; [|discriminate]. split; [discriminate|]. intros [? _]. discriminate.
  - assert (forall c, In c (h_ecl h) -> 0 < region h c) as Hrock.
    { intros c Hc. destruct (wf_cell h Hwf c Hc) as [_ [H0 _]]. assert (region h c <> 0); [|lia].
      intros E. apply D. apply Exists_exists. eauto. }
    destruct (phase_perms_prop h pv ph p Hwf Hcov Hpv Hph Hco) as [M [fl [E _]]]; [auto|]. rewrite E.
    split; [|discriminate]. split; [discriminate|]. intros [_ [c [Hc Ec]]]. specialize (Hrock c Hc). unfold region in Hrock. rewrite Ec in Hrock. lia.
Qed.

(* ---------- single-phase permeabilities *)
Lemma single_prop h grav tol vols r : wf h -> length vols = length (h_ecl h) -> h_aniso h = false ->
  (1 <= h_contrast h)%R -> (0 <= h_minperm h)%R ->
  (forall c, In c (h_ecl h) -> 0 < region h c \/ (at_ (h_kx h) c <= h_minperm h)%R) ->
  minmax_pc h grav tol vols = Ok r ->
  exists ts, single_perms h (mr_kmin r) = Ok ts /\ length ts = length (h_ecl h) /\
    forall k k', In k (flat_map entries ts) -> In k' (flat_map entries ts) ->
      (h_minperm h <= k)%R /\ (k <= h_contrast h * k')%R.
Proof.
  intros Hwf Hlen An Hco Hmp Hno E. unfold minmax_pc in E. destruct (Req_EM_T (h_contrast h) 0); [discriminate|].
  destruct (dP_range (h_dP h)) as [dpr| |]; try discriminate. cbn [bind] in E.
  destruct (mm_fold h vols Hwf) as [st [Est Inv]]. rewrite Est in E. cbn [bind] in E.
  destruct Inv as (Lp & Lv & Gp & Zp & Sp & Sir & Sor & Mn & Mx & Kx).
  assert (mr_kmin r = smax (mm_kmax st / h_contrast h) (h_minperm h)) as Ek.
  { match type of E with (if ?x then _ else _) = _ => destruct x; [discriminate|] end.
    destruct (fdiv _ _); [|inversion E; reflexivity]. destruct (fdiv _ _); [|inversion E; reflexivity].
    match type of E with (if ?x then _ else _) = _ => destruct x; [discriminate|] end. inversion E; reflexivity. }
  rewrite smax_Rmax in Ek. set (f := mr_kmin r) in *. clearbody f. clear E.
  assert (h_minperm h <= f /\ mm_kmax st / h_contrast h <= f)%R as [F1 F2] by (rewrite Ek; split; [apply Rmax_r|apply Rmax_l]).
  assert (forall c, In c (h_ecl h) -> at_ (h_kx h) c <= Rmax (mm_kmax st) f)%R as Hk.
  { intros c Hc. destruct (Hno c Hc) as [Hr|Hr].
    - apply Rle_trans with (mm_kmax st); [|apply Rmax_l]. apply Kx. right.
      apply In_zget in Hc. destruct Hc as [i [Hi Ei]].
      destruct (zget_in_range vols i) as [v Ev]; [unfold zlen in *; lia|].
      apply (in_map (fun cv => at_ (h_kx h) (fst cv)) _ (c, v)). apply filter_In. split.
      + apply (zget_In _ i). apply zget_combine; assumption.
      + unfold rockb. cbn [fst]. lia.
    - apply Rle_trans with f; [lra|apply Rmax_r]. }
  exists (map (fun c => let k := Rmax (at_ (h_kx h) c) f in (k, k, k)) (h_ecl h)). split; [|split].
  - unfold single_perms. apply mapM_all_Ok. intros c Hc. destruct (wf_cell h Hwf c Hc) as [_ [_ [_ [Ekx _]]]].
    rewrite Ekx. cbn [bind]. rewrite An, smax_Rmax. reflexivity.
  - apply map_length.
  - assert (forall k, In k (flat_map entries (map (fun c => let k := Rmax (at_ (h_kx h) c) f in (k, k, k)) (h_ecl h))) ->
       f <= k <= Rmax (mm_kmax st) f)%R as B.
    { intros k Hin. apply in_flat_map in Hin. destruct Hin as [t [Ht Hin]]. apply in_map_iff in Ht. destruct Ht as [c [<- Hc]].
      cbn [entries] in Hin.
      assert (k = Rmax (at_ (h_kx h) c) f) as -> by (destruct Hin as [<-|[<-|[<-|[]]]]; reflexivity).
      split; [apply Rmax_r|]. apply Rmax_lub; [apply Hk, Hc|apply Rmax_r]. }
    intros k k' Hin Hin'. destruct (B k Hin) as [B1 B2]. destruct (B k' Hin') as [B3 _]. split; [lra|].
    apply (Rle_trans _ _ _ B2). assert (0 <= f)%R by lra. apply Rmax_lub.
    + apply (Rle_trans _ (h_contrast h * f)).
      * assert (mm_kmax st = h_contrast h * (mm_kmax st / h_contrast h))%R as EM by (field; lra). rewrite EM at 1.
        apply Rmult_le_compat_l; lra.
      * apply Rmult_le_compat_l; lra.
    + nra.
Qed.

(* ---------- input check *)
Lemma existsb_false {A} (f : A -> bool) l : existsb f l = false <-> forall x, In x l -> f x = false.
Proof.
  rewrite <- not_true_iff_false, existsb_exists. split.
  - intros H x Hx. destruct (f x) eqn:E; [|reflexivity]. exfalso. apply H. eauto.
  - intros H [x [Hx E]]. rewrite (H x Hx) in E. discriminate.
Qed.

Lemma sanity_prop aniso low high minporo d :
  let n := zlen (ri_sat d) in
  zlen (ri_poro d) = n -> zlen (ri_kx d) = n -> (aniso = true -> zlen (ri_ky d) = n /\ zlen (ri_kz d) = n) ->
  (~ input_ok aniso d -> sanity_check aniso low high minporo d = Throw) /\
  (input_ok aniso d -> exists d', sanity_check aniso low high minporo d = Ok d' /\
     ri_sat d' = ri_sat d /\
     forall c s, zget (ri_sat d) c = Some s ->
       (s = 0 -> at_ (ri_poro d') c = 0%R /\ at_ (ri_kx d') c = low /\ (aniso = true -> at_ (ri_ky d') c = low /\ at_ (ri_kz d') c = low)) /\
       (s <> 0 -> at_ (ri_poro d') c = Rmax (at_ (ri_poro d) c) minporo /\
          ((low <= high)%R -> at_ (ri_kx d') c = Rmin (Rmax (at_ (ri_kx d) c) low) high) /\
          at_ (ri_ky d') c = at_ (ri_ky d) c /\ at_ (ri_kz d') c = at_ (ri_kz d) c)).
Proof.
  intros n Lp Lx Lyz. unfold sanity_check.
  destruct (existsb (fun s => s <? 0) (ri_sat d)) eqn:B1.
  { split; [auto|]. intros [H _]. apply existsb_exists in B1. destruct B1 as [s [Hs Q]]. specialize (H s Hs). lia. }
  destruct (existsb (fun s => 1000 <? s) (ri_sat d)) eqn:B2; cbn [orb].
  { split; [auto|]. intros [H _]. apply existsb_exists in B2. destruct B2 as [s [Hs Q]]. specialize (H s Hs). lia. }
  destruct (existsb (fun p => Rltb p 0 || Rltb 1 p) (ri_poro d)) eqn:B3.
  { split; [auto|]. intros [_ [H _]]. apply existsb_exists in B3. destruct B3 as [s [Hs Q]]. specialize (H s Hs).
    destruct (Rltb_spec s 0), (Rltb_spec 1 s); cbn in Q; try discriminate; lra. }
  destruct (existsb (fun k => Rltb k 0) (ri_kx d)) eqn:B4.
  { split; [auto|]. intros [_ [_ [H _]]]. apply existsb_exists in B4. destruct B4 as [s [Hs Q]]. specialize (H s Hs).
    apply Rltb_true in Q. lra. }
  destruct (aniso && (existsb (fun k => Rltb k 0) (ri_ky d) || existsb (fun k => Rltb k 0) (ri_kz d))) eqn:B5.
  { split; [auto|]. intros [_ [_ [_ H]]]. apply andb_true_iff in B5. destruct B5 as [Ha B5]. destruct (H Ha) as [Hy Hz].
    apply orb_true_iff in B5. destruct B5 as [B5|B5]; apply existsb_exists in B5; destruct B5 as [s [Hs Q]]; apply Rltb_true in Q;
      [specialize (Hy s Hs)|specialize (Hz s Hs)]; lra. }
  rewrite existsb_false in B1. rewrite existsb_false in B2. rewrite existsb_false in B3. rewrite existsb_false in B4.
  assert (input_ok aniso d) as Hok.
  { split; [intros s Hs; specialize (B1 s Hs); specialize (B2 s Hs); cbv beta in *; lia|].
    split; [intros x Hx; specialize (B3 x Hx); cbv beta in *; destruct (Rltb_spec x 0), (Rltb_spec 1 x); cbn in B3; try discriminate; lra|].
    split; [intros k Hk; specialize (B4 k Hk); cbv beta in *; apply Rltb_false in B4; exact B4|].
    intros ->. cbn [andb] in B5. apply orb_false_iff in B5. rewrite !existsb_false in B5. destruct B5 as [By Bz].
    split; intros k Hk; [specialize (By k Hk)|specialize (Bz k Hk)]; cbv beta in *; apply Rltb_false; assumption. }
  split; [contradiction|]. intros _.
  set (d1 := mkRinput _ _ _ _ _).
  assert (forall c, 0 <= c < n -> at_ (ri_poro d1) c = Rmax (at_ (ri_poro d) c) minporo /\
           ((low <= high)%R -> at_ (ri_kx d1) c = Rmin (Rmax (at_ (ri_kx d) c) low) high)) as H1.
  { intros c Hc. unfold d1. cbn [ri_poro ri_kx]. unfold at_. rewrite !zget_map.
    destruct (zget_in_range (ri_poro d) c ltac:(lia)) as [po Ep]. destruct (zget_in_range (ri_kx d) c ltac:(lia)) as [k Ek].
    rewrite Ep, Ek. cbn [option_map]. destruct Hok as [_ [Hp [Hk _]]].
    specialize (Hp po (zget_In _ _ _ Ep)). specialize (Hk k (zget_In _ _ _ Ek)). unfold raise_poro, clip_permx.
    split.
    - destruct (Rltb_spec po 0); [lra|]. cbn [negb andb]. destruct (Rltb_spec po minporo); unfold Rmax; destruct (Rle_dec _ _); lra.
    - intros Hlh. destruct (Rltb_spec k 0); [lra|]. cbn [negb andb]. destruct (Rltb_spec k low), (Rltb_spec high k);
        unfold Rmin, Rmax; repeat destruct (Rle_dec _ _); lra. }
  destruct (foldM_inv (fun d i =>
      let* s := rget (ri_sat d) i in
      if s =? 0 then
        let* kx := rset (ri_kx d) i low in
        let* ky := (if aniso then rset (ri_ky d) i low else Ok (ri_ky d)) in
        let* kz := (if aniso then rset (ri_kz d) i low else Ok (ri_kz d)) in
        let* po := rset (ri_poro d) i 0%R in
        Ok (mkRinput (ri_sat d) po kx ky kz)
      else Ok d)
     (fun done x => ri_sat x = ri_sat d /\ zlen (ri_poro x) = n /\ zlen (ri_kx x) = n /\ (aniso = true -> zlen (ri_ky x) = n /\ zlen (ri_kz x) = n) /\
        forall c s, zget (ri_sat d) c = Some s ->
          (s = 0 /\ In c done -> at_ (ri_poro x) c = 0%R /\ at_ (ri_kx x) c = low /\ (aniso = true -> at_ (ri_ky x) c = low /\ at_ (ri_kz x) c = low)) /\
          (s <> 0 \/ ~ In c done -> at_ (ri_poro x) c = at_ (ri_poro d1) c /\ at_ (ri_kx x) c = at_ (ri_kx d1) c /\
              at_ (ri_ky x) c = at_ (ri_ky d) c /\ at_ (ri_kz x) c = at_ (ri_kz d) c))
     (zrange 0 n) d1) as [d' [E' [S' [_ [_ [_ G']]]]]].
  - split; [reflexivity|]. unfold d1. cbn [ri_poro ri_kx ri_ky ri_kz]. rewrite !zlen_map.
    split; [exact Lp|]. split; [exact Lx|]. split; [exact Lyz|]. intros c s Ec. split; [intros [_ []]|]. auto.
  - intros done c x Hc [Sx [Lpx [Lxx [Lyzx G]]]]. apply In_zrange in Hc. cbv beta. rewrite Sx.
    destruct (rget_range (ri_sat d) c ltac:(unfold n in Hc; lia)) as [s [Es Zs]]. rewrite Es. cbn [bind].
    destruct (s =? 0) eqn:Q.
    + destruct (rset_exists (ri_kx x) c low ltac:(lia)) as [kx [Ex [L1 [G1 O1]]]]. rewrite Ex. cbn [bind].
      destruct (rset_exists (ri_poro x) c 0%R ltac:(lia)) as [po [Ep [L2 [G2 O2]]]].
      assert (exists ky kz, (if aniso then rset (ri_ky x) c low else Ok (ri_ky x)) = Ok ky /\ (if aniso then rset (ri_kz x) c low else Ok (ri_kz x)) = Ok kz /\
         zlen ky = zlen (ri_ky x) /\ zlen kz = zlen (ri_kz x) /\ (aniso = true -> at_ ky c = low /\ at_ kz c = low) /\
         (forall c', c' <> c -> at_ ky c' = at_ (ri_ky x) c' /\ at_ kz c' = at_ (ri_kz x) c')) as [ky [kz [Ey [Ez [L3 [L4 [G3 O3]]]]]]].
      { destruct aniso; [|exists (ri_ky x), (ri_kz x); repeat split; auto; discriminate]. destruct (Lyzx eq_refl) as [Ly Lz].
        destruct (rset_exists (ri_ky x) c low ltac:(lia)) as [ky [Ey [L3 [G3 O3]]]]. destruct (rset_exists (ri_kz x) c low ltac:(lia)) as [kz [Ez [L4 [G4 O4]]]].
        exists ky, kz. repeat split; auto; try (apply at_get; assumption). unfold at_. rewrite O3 by assumption. reflexivity. unfold at_. rewrite O4 by assumption. reflexivity. }
      rewrite Ey, Ez. cbn [bind]. rewrite Ep. cbn [bind]. eexists. split; [reflexivity|]. cbn [ri_sat ri_poro ri_kx ri_ky ri_kz].
      split; [reflexivity|]. split; [lia|]. split; [lia|]. split; [intros Ha; destruct (Lyzx Ha); lia|].
      intros c' s' Es'. destruct (Z.eq_dec c' c) as [->|Hne].
      * assert (s' = s) as -> by congruence. split.
        -- intros _. split; [apply at_get; exact G2|]. split; [apply at_get; exact G1|exact G3].
        -- intros [H|H]; [lia|]. exfalso. apply H. apply in_or_app. right. left. reflexivity.
      * destruct (G c' s' Es') as [Ga Gb]. destruct (O3 c' Hne) as [O3a O3b].
        assert (at_ po c' = at_ (ri_poro x) c') as -> by (unfold at_; rewrite O2 by assumption; reflexivity).
        assert (at_ kx c' = at_ (ri_kx x) c') as -> by (unfold at_; rewrite O1 by assumption; reflexivity).
        rewrite O3a, O3b. split.
        -- intros [H0 Hin]. apply Ga. split; [exact H0|]. apply in_app_or in Hin. destruct Hin as [?|[?|[]]]; [assumption|congruence].
        -- intros H. apply Gb. destruct H as [H|H]; [auto|]. right. intros Hin. apply H. apply in_or_app. auto.
    + exists x. split; [reflexivity|]. split; [assumption|]. split; [assumption|]. split; [assumption|]. split; [assumption|].
      intros c' s' Es'. destruct (G c' s' Es') as [Ga Gb]. split.
      * intros [H0 Hin]. apply Ga. split; [exact H0|]. apply in_app_or in Hin. destruct Hin as [?|[?|[]]]; [assumption|]. subst c'. assert (s' = s) by congruence. lia.
      * intros H. apply Gb. destruct H as [H|H]; [auto|]. right. intros Hin. apply H. apply in_or_app. auto.
  - exists d'. split; [exact E'|]. split; [exact S'|]. intros c s Ec. pose proof (zget_Some_range _ _ _ Ec) as Rc.
    destruct (G' c s Ec) as [Ga Gb]. split.
    + intros H0. apply Ga. split; [exact H0|]. apply In_zrange. unfold n. lia.
    + intros H0. destruct (Gb (or_introl H0)) as [A [B [C D]]]. destruct (H1 c ltac:(unfold n; lia)) as [X Y].
      rewrite A, B. auto.
Qed.
