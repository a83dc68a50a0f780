From Verif Require Import BaseFacts RBaseFacts Lin_Facts Steady_Proofs Bound_Spec Bound_Proofs Bound_Proofs2 Bound_Proofs3 Hyb_Proofs8 Eld_Proofs2 Lsv_Spec Lsv_Proofs Lsv_Proofs2 Lsv_Proofs3 Lsv_Proofs4.
Open Scope Z_scope.

(* ---- linear conditions ---- *)
(* the kind table after one face *)
Definition lin_kind (tol : R) (low hi : Z -> R) (twodim : bool) (f : gface) : option bctype :=
  match side_of tol low hi (gf_cent f) with Some s => Some (if twodim && (4 <=? s) then Neumann else Dirichlet) | None => None end.
Lemma nset_twice {A} (l : list A) : forall n x y, nset (nset l n x) n y = nset l n y.
Proof. induction l as [|a l IH]; intros [|n] x y; cbn; try reflexivity. f_equal. apply IH. Qed.
Lemma nset_len {A} (l : list A) : forall n x, List.length (nset l n x) = List.length l.
Proof. induction l as [|a l IH]; intros [|n] x; cbn; try reflexivity. f_equal. apply IH. Qed.
Lemma linear_step low hi tol pdrop pddir sat twodim b f b' : linear_face low hi tol pdrop pddir sat twodim b f = Ok b' ->
  exists k, lin_kind tol low hi twodim f = Some k /\ 0 <= gf_bid f < zlen (t_flow b) /\ t_partner b' = t_partner b /\ map c_type (t_flow b') = nset (map c_type (t_flow b)) (Z.to_nat (gf_bid f)) k.
Proof.
  unfold linear_face, lin_kind. destruct (side_of tol low hi (gf_cent f)) as [s|]; [|discriminate]. intros H. eexists. split; [reflexivity|].
  apply bind_Ok in H. destruct H as (b1 & E1 & H). apply bind_Ok in H. destruct H as (b2 & E2 & H). apply bind_Ok in H. destruct H as (b3 & E3 & H).
  unfold set_canon in E1. apply bind_Ok in E1. destruct E1 as (? & _ & E1). injection E1 as <-. unfold set_sat in E2. apply bind_Ok in E2. destruct E2 as (? & _ & E2). injection E2 as <-. cbn [t_flow t_partner t_sat t_canon] in *.
  unfold set_flow, rset in E3. cbn [t_flow] in E3. destruct ((0 <=? gf_bid f) && (gf_bid f <? zlen (t_flow b))) eqn:Er; [|discriminate]. cbn [bind] in E3. injection E3 as <-. apply andb_prop in Er. split; [lia|]. destruct (twodim && (4 <=? s)).
  - unfold set_flow, rset in H. cbn [t_flow] in H. destruct (_ && _) in H; [|discriminate]. cbn [bind] in H. injection H as <-. cbn [t_flow t_partner]. split; [reflexivity|]. rewrite nset_twice, map_nset. reflexivity.
  - injection H as <-. cbn [t_flow t_partner]. split; [reflexivity|]. rewrite map_nset. reflexivity.
Qed.
Lemma linear_fold low hi tol pdrop pddir sat twodim fs : forall b b', foldM (linear_face low hi tol pdrop pddir sat twodim) fs b = Ok b' ->
  t_partner b' = t_partner b /\ map c_type (t_flow b') = fold_left (fun t f => match lin_kind tol low hi twodim f with Some k => nset t (Z.to_nat (gf_bid f)) k | None => t end) fs (map c_type (t_flow b)).
Proof.
  induction fs as [|f fs IH]; intros b b' H; cbn [foldM] in H; [injection H as <-; auto|]. apply bind_Ok in H. destruct H as (b1 & E & H). destruct (IH _ _ H) as (-> & ->). destruct (linear_step _ _ _ _ _ _ _ _ _ _ E) as (k & Ek & _ & Ep & Ef). cbn [fold_left]. rewrite Ek, Ef, Ep. auto.
Qed.
(* setting the same places twice is setting them once *)
Definition paint {A} (ws : list (nat * A)) (t : list A) : list A := fold_left (fun t w => nset t (fst w) (snd w)) ws t.
Lemma nset_comm {A} (l : list A) : forall n m x y, n <> m -> nset (nset l n x) m y = nset (nset l m y) n x.
Proof. induction l as [|a l IH]; intros [|n] [|m] x y H; cbn; try reflexivity; try contradiction. f_equal. apply IH. intros ->. apply H. reflexivity. Qed.
Lemma paint_comm {A} (ws : list (nat * A)) n x : ~ In n (map fst ws) -> forall t, paint ws (nset t n x) = nset (paint ws t) n x.
Proof. induction ws as [|(m & y) ws IH]; intros H t; cbn [paint fold_left] in *; [reflexivity|]. cbn [map fst In] in H. cbn [fst snd]. rewrite nset_comm by (intros E; apply H; left; congruence). apply IH. intros E. apply H. right. exact E. Qed.
Lemma paint_twice {A} (ws : list (nat * A)) : NoDup (map fst ws) -> forall t, paint ws (paint ws t) = paint ws t.
Proof.
  induction ws as [|(n & x) ws IH]; intros ND t; [reflexivity|]. cbn [map fst] in ND. inversion ND as [|? ? Nin ND']; subst. change (paint ((n, x) :: ws) (paint ((n, x) :: ws) t) = paint ((n, x) :: ws) t).
  assert (E : forall t, paint ((n, x) :: ws) t = nset (paint ws t) n x) by (intros u; unfold paint; cbn [fold_left fst snd]; apply (paint_comm ws n x Nin u)). rewrite !E. rewrite (paint_comm ws n x Nin), nset_twice, IH by exact ND'. reflexivity.
Qed.
Fixpoint writes (tol : R) (low hi : Z -> R) (twodim : bool) (fs : list gface) : list (nat * bctype) :=
  match fs with [] => [] | f :: fs => match lin_kind tol low hi twodim f with Some k => (Z.to_nat (gf_bid f), k) :: writes tol low hi twodim fs | None => writes tol low hi twodim fs end end.
Lemma writes_fold tol low hi twodim fs : forall t, fold_left (fun t f => match lin_kind tol low hi twodim f with Some k => nset t (Z.to_nat (gf_bid f)) k | None => t end) fs t = paint (writes tol low hi twodim fs) t.
Proof. induction fs as [|f fs IH]; intros t; cbn [fold_left writes]; [reflexivity|]. rewrite IH. destruct (lin_kind tol low hi twodim f); reflexivity. Qed.
Lemma writes_in tol low hi twodim fs n : In n (map fst (writes tol low hi twodim fs)) -> exists f, In f fs /\ n = Z.to_nat (gf_bid f).
Proof. induction fs as [|f fs IH]; cbn [writes]; [intros []|]. destruct (lin_kind tol low hi twodim f); [cbn [map fst In]; intros [E|H]; [exists f; split; [left; reflexivity|symmetry; exact E]|]|intros H]; destruct (IH H) as (f' & H1 & H2); exists f'; split; auto; right; exact H1. Qed.
Lemma writes_NoDup tol low hi twodim fs : NoDup (map gf_bid fs) -> (forall f, In f fs -> 1 <= gf_bid f) -> NoDup (map fst (writes tol low hi twodim fs)).
Proof.
  induction fs as [|f fs IH]; intros ND H1; cbn [writes]; [constructor|]. cbn [map] in ND. inversion ND as [|? ? Nin ND']; subst. specialize (IH ND' (fun f' Hf => H1 f' (or_intror Hf))). destruct (lin_kind tol low hi twodim f); [|exact IH]. cbn [map fst]. constructor; [|exact IH].
  intros H. destruct (writes_in _ _ _ _ _ _ H) as (f' & Hf & E). apply Nin. replace (gf_bid f) with (gf_bid f'); [apply in_map; exact Hf|]. pose proof (H1 f (or_introl eq_refl)). pose proof (H1 f' (or_intror Hf)). lia.
Qed.
Lemma resize_self {A} n (x : A) l : 0 <= n -> zlen l = n -> vec_resize n x l = l.
Proof. intros Hn E. unfold vec_resize. replace (n - zlen l) with 0 by lia. cbn [zrepeat]. rewrite firstn_all2 by (unfold zlen in E; lia). unfold zrepeat. cbn. apply app_nil_r. Qed.
Lemma linear_shape srt g p dd sat twodim b b' : setup_upscaling srt g 1 p dd sat twodim b = Ok b' ->
  0 <= max_bid (bdy_faces g) + 1 /\ t_partner b' = vec_resize (max_bid (bdy_faces g) + 1) 0 (t_partner b) /\
  map c_type (t_flow b') = paint (writes tol6 (box_low (bdy_faces g)) (box_hi (bdy_faces g)) twodim (bdy_faces g)) (map c_type (vec_resize (max_bid (bdy_faces g) + 1) flow_default (t_flow b))).
Proof.
  unfold setup_upscaling, create_linear. cbn [Z.ltb Z.compare orb Z.eqb Pos.eqb Pos.compare Pos.compare_cont]. destruct (negb _); [discriminate|]. intros H. apply bind_Ok in H. destruct H as (b0 & E0 & H). destruct (linear_fold _ _ _ _ _ _ _ _ _ _ H) as (P & F).
  unfold bcs_resize in E0. destruct (Z.ltb_spec (max_bid (bdy_faces g) + 1) 0); [discriminate|]. injection E0 as <-. cbn [t_partner t_flow] in *. rewrite writes_fold in F. auto.
Qed.
Lemma linear_rel srt g p1 p2 d1 s1 d2 s2 twodim b b1 b2 : unique_ids g -> setup_upscaling srt g 1 p1 d1 s1 twodim b = Ok b1 -> setup_upscaling srt g 1 p2 d2 s2 twodim b1 = Ok b2 -> rel b1 b2.
Proof.
  intros (U1 & U2) H1 H2. destruct (linear_shape _ _ _ _ _ _ _ _ H1) as (N0 & P1 & F1). destruct (linear_shape _ _ _ _ _ _ _ _ H2) as (_ & P2 & F2). set (n := max_bid (bdy_faces g) + 1) in *. split.
  - rewrite P2, resize_self; [reflexivity|exact N0|]. rewrite P1. apply vec_resize_len. exact N0.
  - rewrite F2, resize_self; [rewrite F1; rewrite paint_twice; [reflexivity|apply writes_NoDup; assumption]|exact N0|].
    assert (L : forall ws (t : list bctype), zlen (paint ws t) = zlen t). { induction ws as [|w ws IH]; intros t; [reflexivity|]. change (zlen (paint ws (nset t (fst w) (snd w))) = zlen t). rewrite IH. unfold zlen. rewrite nset_len. reflexivity. }
    pose proof (f_equal (@zlen _) F1) as E. rewrite L, !zlen_map' in E. rewrite E. apply vec_resize_len. exact N0.
Qed.

(* ---- one direction ---- *)
Lemma direction_inv K srt g gf ip bct twodim ty maxit b sv log pdd b' sv' log' : perm_direction K srt g gf ip bct twodim ty maxit (b, sv, log) pdd = Ok (b', sv', log') ->
  setup_upscaling srt gf bct pdd 1 1 twodim b = Ok b' /\ exists sv0 (lc : lcall), (if pdd =? 0 then sv_init g (hbc_of b') sv = Ok sv0 else sv0 = sv) /\
  sv_solve K sv0 (Lsv_Model.mkCall (hbc_of b') ip (zrepeat 0%R (zlen g)) ty (negb (bct =? 0) && negb (pdd =? 0)) maxit) = (sv', [lc], Ok tt) /\ log' = log ++ [lc].
Proof.
  unfold perm_direction. intros H. apply bind_Ok in H. destruct H as (b1 & E1 & H). apply bind_Ok in H. destruct H as (sv0 & E2 & H). destruct (sv_solve K sv0 _) as ((sv1 & l) & r) eqn:Es. apply bind_Ok in H. destruct H as ([] & Er & H). subst r. injection H as <- <- <-.
  split; [exact E1|]. destruct (success_converged _ _ _ _ _ Es) as (? & ? & ? & ? & lc & ? & _ & _ & _ & -> & _). exists sv0, lc. split; [destruct (pdd =? 0); [exact E2|injection E2 as <-; reflexivity]|]. split; [exact Es|reflexivity].
Qed.
Lemma solve_keeps K sv c sv' lc : sv_solve K sv c = (sv', [lc], Ok tt) -> sv_grid sv' = sv_grid sv /\ effect (sc_type c) (sv_prec sv) (sv_prec sv') (Ok lc).
Proof.
  intros H. split; [destruct (success_converged _ _ _ _ _ H) as (? & ? & ? & ? & ? & ? & A & B & _); congruence|]. destruct (solve_effect _ _ _ _ _ _ H ltac:(discriminate)) as [(_ & E)|(lc' & E & X)]; [discriminate|injection E as <-; exact X].
Qed.
Lemma three : zrange 0 3 = [0; 1; 2].
Proof. reflexivity. Qed.

Lemma directions_reuse : forall K srt g gf ip bct twodim ty maxit b sv b' sv' log, 0 <= bct <= 2 -> unique_ids gf -> 0 < zlen g ->
  (forall pdd b b', 0 <= pdd < 3 -> setup_upscaling srt gf bct pdd 1 1 twodim b = Ok b' -> problem g (hbc_of b') ip (zrepeat 0%R (zlen g))) ->
  perm_directions K srt g gf ip bct twodim ty maxit b sv = Ok (b', sv', log) ->
  exists st c0 c1 c2, log = [c0; c1; c2] /\ sv_grid sv' = Some (g, st) /\ (forall c, In c log -> lc_type c = ty) /\ lc_new c0 = true /\
  (bct = 0 \/ ty = 0 -> forall c, In c log -> lc_new c = true /\ lc_prec c = lc_op c) /\
  (bct <> 0 -> ty <> 0 -> forall c, c = c1 \/ c = c2 -> lc_new c = false /\ lc_prec c = lc_op c0 /\ same_but_first (unknowns st) (lc_op c) (lc_prec c) /\
     (~ no_dirichlet g (hbc_of b') -> same_matrices (unknowns st) (lc_op c) (lc_prec c)) /\
     (no_dirichlet g (hbc_of b') -> lm_val (lc_prec c) 0 0 = (2 * lm_val (lc_op c) 0 0)%R)).
Proof.
  intros K srt g gf ip bct twodim ty maxit b sv b' sv' log Hb U Hg HP H. unfold perm_directions in H. rewrite three in H. cbn [foldM] in H.
  apply bind_Ok in H. destruct H as (((b0 & v0) & l0) & D0 & H). apply bind_Ok in H. destruct H as (((b1 & v1) & l1) & D1 & H). apply bind_Ok in H. destruct H as (((b2 & v2) & l2) & D2 & H). injection H as -> -> ->.
  apply direction_inv in D0. destruct D0 as (S0 & sv0 & c0 & I0 & R0 & ->). apply direction_inv in D1. destruct D1 as (S1 & sv1 & c1 & I1 & R1 & ->). apply direction_inv in D2. destruct D2 as (S2 & sv2 & c2 & I2 & R2 & ->).
  cbn [Z.eqb] in I0, I1, I2. subst sv1 sv2. unfold sv_init in I0. destruct (Z.eqb_spec (zlen g) 0); [lia|]. apply bind_Ok in I0. destruct I0 as (st & Est & I0).
  destruct (solve_keeps _ _ _ _ _ R0) as (G0 & X0). destruct (solve_keeps _ _ _ _ _ R1) as (G1 & X1). destruct (solve_keeps _ _ _ _ _ R2) as (G2 & X2). cbn [sc_type] in *.
  assert (E0 : sv_grid sv0 = Some (g, st)) by (injection I0 as <-; reflexivity). assert (Ev0 : sv_grid v0 = Some (g, st)) by congruence. assert (Ev1 : sv_grid v1 = Some (g, st)) by congruence.
  assert (P0 := HP 0 b b0 ltac:(lia) S0). assert (P1 := HP 1 b0 b1 ltac:(lia) S1). assert (P2 := HP 2 b1 b' ltac:(lia) S2).
  destruct (success_converged _ _ _ _ _ R0) as (g' & st' & s0 & d0 & lc0 & x0 & Q & _ & A0 & _). rewrite E0 in Q. injection Q as <- <-. cbn [sc_bc sc_ip sc_src] in A0.
  destruct (success_converged _ _ _ _ _ R1) as (g' & st' & s1 & d1 & lc1 & x1 & Q & _ & A1 & _). rewrite Ev0 in Q. injection Q as <- <-. cbn [sc_bc sc_ip sc_src] in A1.
  destruct (success_converged _ _ _ _ _ R2) as (g' & st' & s2 & d2 & lc2 & x2 & Q & _ & A2 & _). rewrite Ev1 in Q. injection Q as <- <-. cbn [sc_bc sc_ip sc_src] in A2.
  destruct ((fun H => solve_call _ _ _ _ _ _ _ _ _ _ E0 H R0) A0) as (t0 & T0 & O0 & _ & _ & N0 & _ & W0). destruct ((fun H => solve_call _ _ _ _ _ _ _ _ _ _ Ev0 H R1) A1) as (t1 & T1 & O1 & _ & _ & N1 & _ & W1). destruct ((fun H => solve_call _ _ _ _ _ _ _ _ _ _ Ev1 H R2) A2) as (t2 & T2 & O2 & _ & _ & N2 & _ & W2).
  cbn [sc_type sc_same] in *. replace (negb (0 =? 0)) with false in N0 by reflexivity. replace (negb (1 =? 0)) with true in N1 by reflexivity. replace (negb (2 =? 0)) with true in N2 by reflexivity. rewrite andb_false_r in N0. rewrite andb_true_r in N1, N2. cbn [negb] in N0. rewrite orb_true_r in N0. destruct N0 as (N0 & M0).
  exists st, c0, c1, c2. split; [reflexivity|]. split; [congruence|]. split; [cbn; intros c [<-|[<-|[<-|[]]]]; assumption|]. split; [exact M0|]. split.
  { intros HB. assert (EB : (ty =? 0) || negb (negb (bct =? 0)) = true) by (destruct HB as [-> | ->]; [apply orb_true_r|reflexivity]). rewrite EB in N1, N2. destruct N1 as (_ & M1). destruct N2 as (_ & M2). cbn. intros c [<-|[<-|[<-|[]]]]; auto. }
  intros Nb Nt. destruct (Z.eqb_spec bct 0); [contradiction|]. destruct (Z.eqb_spec ty 0); [contradiction|]. cbn in N1, N2. destruct N1 as (-> & M1). destruct N2 as (-> & M2).
  (* the preconditioner *)
  assert (Q0 : exists q, sv_prec v0 = Some q /\ lp_mat q = lc_op c0).
  { inversion X0 as [r A B| |lc A B|m lc A B C D F|q lc A B C D F G]; subst; [exfalso; eapply A; reflexivity|congruence|eexists; split; [reflexivity|reflexivity]|congruence]. }
  destruct Q0 as (q & Q0 & L0).
  assert (Q1 : sv_prec v1 = Some q /\ lc_prec c1 = lc_op c0).
  { inversion X1 as [r A B| |lc A B|m lc A B C D F|q' lc A B C D F G]; subst; [exfalso; eapply A; reflexivity|congruence|congruence|]. rewrite Q0 in B. injection B as <-. split; congruence. }
  destruct Q1 as (Q1 & L1).
  assert (Q2 : lc_prec c2 = lc_op c0).
  { inversion X2 as [r A B| |lc A B|m lc A B C D F|q' lc A B C D F G]; subst; [exfalso; eapply A; reflexivity|congruence|congruence|]. rewrite Q1 in B. injection B as <-. congruence. }
  (* the matrices *)
  assert (K01 : same_kinds (hbc_of b0) (hbc_of b1) /\ same_kinds (hbc_of b1) (hbc_of b')).
  { assert (bct = 1 \/ bct = 2) as [-> | ->] by lia; split; apply rel_kinds; [eapply linear_rel; eassumption|eapply linear_rel; eassumption|eapply (periodic_rel srt gf 0 1); eauto; lia|eapply (periodic_rel srt gf 1 2); eauto; lia]. }
  destruct K01 as (K01 & K12).
  assert (Di0 : discretised g (hbc_of b0) ip (zrepeat 0%R (zlen g)) st s0 d0) by (split; assumption).
  assert (Di1 : discretised g (hbc_of b1) ip (zrepeat 0%R (zlen g)) st s1 d1) by (split; [rewrite <- (kinds_structure g _ _ K01)|]; assumption).
  assert (Di2 : discretised g (hbc_of b') ip (zrepeat 0%R (zlen g)) st s2 d2) by (split; [rewrite <- (kinds_structure g _ _ K12), <- (kinds_structure g _ _ K01)|]; assumption).
  destruct (matrix_kinds _ _ _ _ _ _ _ _ _ _ _ P0 P1 K01 Di0 Di1) as (PA & RA & VA). destruct (matrix_kinds _ _ _ _ _ _ _ _ _ _ _ P1 P2 K12 Di1 Di2) as (PC & RC & VC).
  destruct (regularise_inv _ _ _ N0) as (Rp & _ & Rv). pose proof (reg_iff _ _ _ _ P2 _ _ _ Di2) as RI.
  assert (T : 0 < unknowns st). { pose proof P0 as (W & C & PO & IS & _). destruct (IS 0 ltac:(lia)) as (_ & _ & NZ). assert (Nf : 0 < Hnum_Spec.nfaces g 0). { destruct (Z_lt_le_dec 0 (Hnum_Spec.nfaces g 0)) as [|Le]; [assumption|]. exfalso. apply NZ. assert (Ez : zrange 0 (Hnum_Spec.nfaces g 0) = []) by (unfold zrange; replace (Z.to_nat (Hnum_Spec.nfaces g 0 - 0)) with O by lia; reflexivity). unfold Sum. rewrite Ez. reflexivity. }
    pose proof (Hyb_Proofs4.nrange g (hbc_of b0) st (d_HS _ _ _ _ P0 _ _ _ Di0) 0 0 ltac:(split; lia)). unfold unknowns. lia. }
  assert (F : forall c s, lc_op c = matrix_of s -> lc_prec c = lc_op c0 -> sy_pat s0 = sy_pat s -> (forall i j, 0 <= j < unknowns st -> sy_val s0 i j = sy_val s i j) ->
     lc_prec c = lc_op c0 /\ same_but_first (unknowns st) (lc_op c) (lc_prec c) /\ (~ no_dirichlet g (hbc_of b') -> same_matrices (unknowns st) (lc_op c) (lc_prec c)) /\
     (no_dirichlet g (hbc_of b') -> lm_val (lc_prec c) 0 0 = (2 * lm_val (lc_op c) 0 0)%R)).
  { intros c s Ec Ep Es Ev. split; [exact Ep|]. rewrite Ep, Ec, O0. unfold same_but_first, same_matrices. cbn [matrix_of lm_pat lm_val]. split; [|split].
    - split; [congruence|]. intros i j Hi Hj Ne. rewrite Rv, <- (Ev i j Hj). destruct (dy_reg d0); [|reflexivity]. destruct (Z.eqb_spec i 0); [|reflexivity]. destruct (Z.eqb_spec j 0); [lia|reflexivity].
    - intros Nd. split; [congruence|]. intros i j Hi Hj. rewrite Rv, <- (Ev i j Hj). destruct (dy_reg d0) eqn:Ed; [exfalso; apply Nd, RI; congruence|reflexivity].
    - intros Nd. apply RI in Nd. rewrite Rv, RA, RC, Nd. cbn. rewrite <- (Ev 0 0) by lia. ring. }
  intros c [-> | ->].
  - split; [exact M1|]. apply (F c1 s1 O1 L1 PA VA).
  - split; [exact M2|]. apply (F c2 s2 O2 Q2); [congruence|]. intros i j Hj. rewrite (VA i j Hj). apply VC. exact Hj.
Qed.
