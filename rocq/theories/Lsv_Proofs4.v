From Verif Require Import BaseFacts RBaseFacts Lin_Facts Steady_Proofs Euler_Proofs2 Impl_Proofs Matx_Proofs Mim_Proofs Hnum_Proofs Hnum_Proofs2 Hyb_Proofs Hyb_Proofs2 Hyb_Proofs3 Hyb_Proofs4 Hyb_Proofs5 Hyb_Proofs6 Hyb_Proofs7 Hyb_Proofs8 Eld_Proofs2 Lsv_Spec Lsv_Proofs Lsv_Proofs2 Lsv_Proofs3.
Open Scope Z_scope.

Definition nearly (s s' : hsys) : Prop := sy_pat s' = sy_pat s /\ sy_rhs s' = sy_rhs s /\ forall i j, sy_val s' i j = sy_val s i j \/ (i = j /\ sy_val s' i j = (sy_val s i j * 2)%R).
Lemma nearly_reg s d s' : regularise s d = Ok s' -> nearly s s'.
Proof.
  intros H. destruct (regularise_inv _ _ _ H) as (A & B & C). split; [exact A|]. split; [exact B|]. intros i j. rewrite C. destruct (dy_reg d); [|left; reflexivity]. cbn [andb].
  destruct (Z.eqb_spec i 0) as [->|]; [|left; reflexivity]. destruct (Z.eqb_spec j 0) as [->|]; cbn [andb]; [right; auto|left; reflexivity].
Qed.
Lemma nearly_refl s : nearly s s.
Proof. split; [reflexivity|]. split; [reflexivity|]. intros; left; reflexivity. Qed.

Lemma start_vector : forall g bc ip src, problem g bc ip src -> forall st s d, discretised g bc ip src st s d -> ip_spd g ip ->
  forall K sv c sv' lc r, sv_grid sv = Some (g, st) -> call_for c bc ip src -> sc_type c <> 0 -> sv_solve K sv c = (sv', [lc], r) ->
  zlen (lc_start lc) = unknowns st /\
  (forall i, 0 <= i < unknowns st -> (alone (lc_op lc) (unknowns st) i -> (lm_val (lc_op lc) i i * nthR (lc_start lc) i)%R = nthR (lc_rhs lc) i) /\
     (~ alone (lc_op lc) (unknowns st) i -> nthR (lc_start lc) i = 0%R)) /\
  (forall k r p, half g k r -> cond_at g bc k r = Some (CDirichlet p) -> nthR (lc_start lc) (num st k r) = p).
Proof.
  intros g bc ip src P st s d D Sp K sv c sv' lc r Eg Ec T H. pose proof Ec as (Eb & Ei & Es). pose proof D as (Di & Da). rewrite <- Eb, <- Ei, <- Es in Da. destruct (solve_call K sv c sv' lc r g st s d Eg Da H) as (s' & _ & B & C & _ & G & G2 & _).
  destruct (Z.eqb_spec (sc_type c) 0); [contradiction|]. cbn [orb] in G. assert (Nr : nearly s s') by (destruct (sc_same c); cbn [negb] in G; destruct G as (G & _); [subst; apply nearly_refl|apply (nearly_reg s d s' G)]).
  destruct (guess_ok g bc ip src P Sp st s d D s' Nr) as (x & Ex & Lx & Hx). rewrite G2 in Ex. injection Ex as ->. rewrite B, C. cbn [lm_val matrix_of]. split; [exact Lx|]. split; [exact Hx|].
  intros k r0 p Hh Ecd. pose proof (d_HS _ _ _ _ P _ _ _ D) as HS. pose proof (nrange g bc st HS k r0 Hh) as Hn. destruct (dirichlet_row g bc ip src P st s d D k r0 p Hh Ecd) as (R1 & R2). destruct Nr as (_ & Nr2 & Nr3).
  assert (Al : alone (matrix_of s') (unknowns st) (num st k r0)). { intros j Hj Nj. cbn [lm_val matrix_of]. destruct (Nr3 (num st k r0) j) as [->|(E & _)]; [apply R1; assumption|congruence]. }
  destruct (Hx (num st k r0) Hn) as (H1 & _). specialize (H1 Al). rewrite Nr2, R2 in H1.
  assert (V : sy_val s' (num st k r0) (num st k r0) = sy_val s (num st k r0) (num st k r0)).
  { destruct (sc_same c); cbn [negb] in G; destruct G as (G & _); [subst; reflexivity|]. destruct (regularise_inv _ _ _ G) as (_ & _ & V). rewrite V. destruct (dy_reg d) eqn:Ed; [|reflexivity]. exfalso. apply (reg_iff _ _ _ _ P _ _ _ D) in Ed. exact (Ed k r0 p Hh Ecd). }
  rewrite V in H1. pose proof (diag_positive g bc ip src P Sp st s d D (num st k r0) Hn). apply Rmult_eq_reg_l with (2 := ltac:(lra) : sy_val s (num st k r0) (num st k r0) <> 0%R). exact H1.
Qed.

Lemma nonempty g bc ip src st s d : problem g bc ip src -> discretised g bc ip src st s d -> ip_spd g ip -> 0 < zlen g -> 0 < unknowns st.
Proof.
  intros P D Sp Hg. pose proof (d_HS _ _ _ _ P _ _ _ D) as HS. destruct (Sp 0 ltac:(lia)) as (N2 & _). pose proof (nrange g bc st HS 0 0 ltac:(split; lia)). unfold unknowns. lia.
Qed.
Lemma solve_runs : forall K ops sv log, sv_run K fresh ops = Some (sv, log) ->
  forall g bc ip src, problem g bc ip src -> forall st s d, discretised g bc ip src st s d -> ip_spd g ip -> 0 < zlen g ->
  forall c, sv_grid sv = Some (g, st) -> call_for c bc ip src -> 0 <= sc_type c <= 3 ->
  (sc_type c = 0 \/ sc_same c = false \/
   exists j b, zget log j = Some b /\ lc_type b = sc_type c /\ forall m c', j < m -> zget log m = Some c' -> lc_type c' = 0) ->
  (forall ty A M b x n, zlen (fst (K ty A M b x n)) = zlen b) ->
  exists sv' lc, let answer := K (lc_type lc) (lc_op lc) (lc_prec lc) (lc_rhs lc) (lc_start lc) (lc_maxit lc) in
    sv_solve K sv c = (sv', [lc], if snd answer then Ok tt else Throw) /\
    (snd answer = true -> recover g st ip d (fst answer) = Ok (sv_sol sv')).
Proof.
  intros K ops sv log HR g bc ip src P st s d D Sp Hg c Eg (Eb & Ei & Es) Ht Hu HK. pose proof D as (Di & Da). pose proof (nonempty _ _ _ _ _ _ _ P D Sp Hg) as T0. destruct (pat_len _ _ _ _ _ _ _ P D) as (Lp & Lr & _).
  destruct (reg_ok _ _ _ _ P _ _ _ D T0) as (sr & Rg & _). pose proof (nearly_reg _ _ _ Rg) as Nr. pose proof (proj1 (proj2 Nr)) as Rr.
  assert (X : exists p lc, lin_call (sc_type c) (sc_same c) s d (sc_maxit c) (sv_prec sv) = (p, Ok lc) /\ zlen (lc_rhs lc) = unknowns st).
  { unfold lin_call. destruct (Z.eqb_spec (sc_type c) 0) as [T|T].
    - unfold ilu_call. rewrite Rg. cbn [bind]. eexists _, _. split; [reflexivity|]. cbn [lc_rhs]. congruence.
    - replace ((1 <=? sc_type c) && (sc_type c <=? 3)) with true by (symmetry; apply andb_true_intro; lia). unfold amg_call. destruct (sc_same c) eqn:Esm.
      + destruct Hu as [U|[U|(j & b & Gj & Tb & Lb)]]; [contradiction|discriminate|]. destruct (fresh_inv K ops sv log HR) as (I & _). destruct (sv_prec sv) as [q|] eqn:Ep; cbn [inplace] in I; [|exfalso; apply T; rewrite <- Tb; apply I; eapply zget_In; exact Gj].
        destruct I as (j' & b' & Gj' & T' & T0' & _ & _ & L). assert (Eq : lp_type q = sc_type c).
        { destruct (Z.lt_trichotomy j j') as [Hlt|[->|Hlt]]; [exfalso; apply T0', (Lb j' b' Hlt Gj')|congruence|]. destruct (L j b Hlt Gj) as [U|(_ & U)]; congruence. }
        cbn [use_precond]. rewrite Eq, Z.eqb_refl. destruct (guess_ok g bc ip src P Sp st s d D s (nearly_refl s)) as (x & -> & _). cbn [bind]. eexists _, _. split; [reflexivity|]. exact Lr.
      + rewrite Rg. cbn [use_precond lp_type]. rewrite Z.eqb_refl. destruct (guess_ok g bc ip src P Sp st s d D sr Nr) as (x & -> & _). cbn [bind]. eexists _, _. split; [reflexivity|]. cbn [lc_rhs]. congruence. }
  destruct X as (p & lc & El & Ll). unfold sv_solve. rewrite Eg, Eb, Ei, Es, Da, El. unfold apply_solver. pose proof (HK (lc_type lc) (lc_op lc) (lc_prec lc) (lc_rhs lc) (lc_start lc) (lc_maxit lc)) as Lx.
  destruct (K (lc_type lc) (lc_op lc) (lc_prec lc) (lc_rhs lc) (lc_start lc) (lc_maxit lc)) as (x & cv) eqn:EK. destruct cv.
  - destruct (conserve_ok _ _ _ _ P _ _ _ D x ltac:(cbn [fst] in Lx; lia)) as (ps & vs & Er & _). rewrite Er. eexists _, lc. rewrite EK. cbn [fst snd]. split; [reflexivity|]. intros _. exact Er.
  - eexists _, lc. rewrite EK. cbn [fst snd]. split; [reflexivity|]. intros; discriminate.
Qed.

(* ---- the three directions of the upscaling ---- *)
Definition rel (b1 b2 : bcs) : Prop := t_partner b1 = t_partner b2 /\ map c_type (t_flow b1) = map c_type (t_flow b2).
Lemma rel_kinds b1 b2 : rel b1 b2 -> same_kinds (hbc_of b1) (hbc_of b2).
Proof.
  intros (P & F) i. unfold hbc_of. cbn [hb_cond hb_partner]. rewrite P. split; [|reflexivity]. pose proof (f_equal (fun l => zget l i) F) as G. cbn beta in G. rewrite !zget_map in G.
  destruct (zget (t_flow b1) i) as [c1|], (zget (t_flow b2) i) as [c2|]; cbn in G; try discriminate; [|exact I]. injection G as G. unfold fcond_of. rewrite G. destruct (c_type c2); exact I.
Qed.
Lemma map_nset {A B} (f : A -> B) l : forall n x, map f (nset l n x) = nset (map f l) n (f x).
Proof. induction l as [|a l IH]; intros [|n] x; cbn; try reflexivity. f_equal. apply IH. Qed.
Lemma zlen_map' {A B} (f : A -> B) l : zlen (map f l) = zlen l.
Proof. unfold zlen. rewrite map_length. reflexivity. Qed.
Lemma rel_set b1 b2 i c1 c2 b1' b2' : rel b1 b2 -> c_type c1 = c_type c2 -> set_flow i c1 b1 = Ok b1' -> set_flow i c2 b2 = Ok b2' -> rel b1' b2'.
Proof.
  intros (P & F) E H1 H2. unfold set_flow, rset in *. destruct ((0 <=? i) && (i <? zlen (t_flow b1))); [|discriminate]. destruct ((0 <=? i) && (i <? zlen (t_flow b2))); [|discriminate]. cbn [bind] in *. injection H1 as <-. injection H2 as <-.
  split; [exact P|]. cbn [t_flow]. rewrite !map_nset, F, E. reflexivity.
Qed.
Definition kinds_list (fc fc' : list cond) : Prop := map c_type fc = map c_type fc'.
Lemma kinds_get fc fc' i c c' : kinds_list fc fc' -> zget fc i = Some c -> zget fc' i = Some c' -> c_type c = c_type c'.
Proof. intros H G G'. pose proof (f_equal (fun l => zget l i) H) as E. cbn beta in E. rewrite !zget_map, G, G' in E. injection E as E. exact E. Qed.
Lemma rel_flow fc fc' ar ar' l : kinds_list fc fc' -> forall b1 b2 b1' b2', rel b1 b2 -> foldM (store_flow fc ar) l b1 = Ok b1' -> foldM (store_flow fc' ar') l b2 = Ok b2' -> rel b1' b2'.
Proof.
  intros HK. induction l as [|f l IH]; intros b1 b2 b1' b2' HR H1 H2; cbn [foldM] in *; [injection H1 as <-; injection H2 as <-; exact HR|].
  apply bind_Ok in H1. destruct H1 as (d1 & E1 & H1). apply bind_Ok in H2. destruct H2 as (d2 & E2 & H2). apply (IH d1 d2 b1' b2'); [|exact H1|exact H2]. unfold store_flow in E1, E2.
  apply bind_Ok in E1. destruct E1 as (c1 & G1 & E1). apply bind_Ok in E2. destruct E2 as (c2 & G2 & E2). apply rget_Ok in G1, G2. pose proof (kinds_get _ _ _ _ _ HK G1 G2) as T. unfold is_neumann in *. rewrite T in E1.
  destruct (c_type c2) eqn:T2; [|apply bind_Ok in E1; destruct E1 as (? & _ & E1); apply bind_Ok in E2; destruct E2 as (? & _ & E2)|]; eapply (rel_set _ _ _ _ _ _ _ HR); try eassumption; cbn [c_type]; congruence.
Qed.
Lemma sat_keep sc l : forall b b', foldM (store_sat sc) l b = Ok b' -> t_partner b' = t_partner b /\ t_flow b' = t_flow b.
Proof.
  induction l as [|f l IH]; intros b b' H; cbn [foldM] in H; [injection H as <-; auto|]. apply bind_Ok in H. destruct H as (b1 & E & H). destruct (IH _ _ H) as (-> & ->). unfold store_sat in E. apply bind_Ok in E. destruct E as (c & _ & E). unfold set_sat in E. apply bind_Ok in E. destruct E as (? & _ & E). injection E as <-. auto.
Qed.
Lemma rel_periodic srt g fc fc' sc sc' tol b1 b2 b1' b2' : kinds_list fc fc' -> create_periodic srt b1 g fc sc tol = Ok b1' -> create_periodic srt b2 g fc' sc' tol = Ok b2' -> rel b1' b2'.
Proof.
  intros HK H1 H2. assert (EP : map is_periodic fc = map is_periodic fc').
  { unfold kinds_list in HK. assert (X : forall l : list cond, map is_periodic l = map (fun t => match t with Periodic => true | _ => false end) (map c_type l)) by (intros l; rewrite map_map; reflexivity). rewrite !X, HK. reflexivity. }
  unfold create_periodic in *. rewrite EP in H1. apply bind_Ok in H1. destruct H1 as (r & E & H1). rewrite E in H2. cbn [bind] in H2.
  apply bind_Ok in H1. destruct H1 as (a0 & A0 & H1). change (bcs_clear b2) with (bcs_clear b1) in H2. rewrite A0 in H2. cbn [bind] in H2. apply bind_Ok in H1. destruct H1 as (a1 & A1 & H1). rewrite A1 in H2. cbn [bind] in H2.
  apply bind_Ok in H1. destruct H1 as (a2 & A2 & H1). apply bind_Ok in H2. destruct H2 as (a3 & A3 & H2). pose proof (rel_flow _ _ _ _ _ HK _ _ _ _ (conj eq_refl eq_refl) A2 A3) as (P & F).
  destruct (sat_keep _ _ _ _ H1) as (P1 & F1). destruct (sat_keep _ _ _ _ H2) as (P2 & F2). split; congruence.
Qed.
Lemma periodic_rel srt g p1 p2 d1 s1 d2 s2 twodim b1 b2 b1' b2' : 0 <= p1 < 3 -> 0 <= p2 < 3 -> setup_upscaling srt g 2 p1 d1 s1 twodim b1 = Ok b1' -> setup_upscaling srt g 2 p2 d2 s2 twodim b2 = Ok b2' -> rel b1' b2'.
Proof.
  intros R1 R2 H1 H2. unfold setup_upscaling in *. cbn [Z.ltb Z.compare orb Z.eqb Pos.eqb Pos.compare Pos.compare_cont] in *.
  apply bind_Ok in H1. destruct H1 as (f1 & A1 & H1). apply bind_Ok in H1. destruct H1 as (f2 & A2 & H1). apply bind_Ok in H1. destruct H1 as (f3 & A3 & H1). apply bind_Ok in H1. destruct H1 as (f4 & _ & H1).
  apply bind_Ok in H2. destruct H2 as (g1 & B1 & H2). apply bind_Ok in H2. destruct H2 as (g2 & B2 & H2). apply bind_Ok in H2. destruct H2 as (g3 & B3 & H2). apply bind_Ok in H2. destruct H2 as (g4 & _ & H2).
  apply (rel_periodic _ _ _ _ _ _ _ _ _ _ _ ) with (2 := H1) (3 := H2). clear H1 H2.
  assert (X : forall p dd f1 f2 f3, 0 <= p < 3 -> rset (zrepeat (mkCond Periodic 0) 6) (2 * p) (mkCond Periodic dd) = Ok f1 -> rset f1 (2 * p + 1) (mkCond Periodic (- dd)) = Ok f2 ->
    (if twodim then let* f := rset f2 4 (mkCond Neumann 0) in rset f 5 (mkCond Neumann 0) else Ok f2) = Ok f3 -> map c_type f3 = [Periodic; Periodic; Periodic; Periodic; if twodim then Neumann else Periodic; if twodim then Neumann else Periodic]).
  { clear. intros p dd f1 f2 f3 Hp A B C. unfold rset in A, B. destruct (_ && _) in A; [|discriminate]. injection A as <-. destruct (_ && _) in B; [|discriminate]. injection B as <-.
    assert (p = 0 \/ p = 1 \/ p = 2) as [->|[->| ->]] by lia; destruct twodim; cbn in C; injection C as <-; reflexivity. }
  unfold kinds_list. rewrite (X p1 d1 f1 f2 f3 R1 A1 A2 A3), (X p2 d2 g1 g2 g3 R2 B1 B2 B3). reflexivity.
Qed.
