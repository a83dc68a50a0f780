From Verif Require Import BaseFacts RBaseFacts Lin_Facts Steady_Proofs Euler_Proofs2 Impl_Proofs Matx_Proofs Hnum_Proofs Hyb_Proofs Hyb_Proofs2 Hyb_Proofs3 Hyb_Proofs4 Hyb_Proofs5 Hyb_Proofs6 Hyb_Proofs7 Hyb_Proofs8 Hyb_Proofs9 Eld_Proofs2 Bound_Proofs Bound_Proofs3 Lsv_Proofs Lsv_Proofs2 Lsv_Proofs4 Lsv_Proofs5 Upb_Proofs Tens_Proofs Tens_Proofs2 Tens_Spec.
From Coq Require FunctionalExtensionality.
From Verif Require Ieul_Proofs4.
Open Scope Z_scope.

(* ---- the conditions on the sides ---- *)
Definition side_cond (bct pdd : Z) (twodim : bool) (s : Z) : fcond :=
  if bct =? 0 then (if s =? 2 * pdd then CDirichlet 1 else if s =? 2 * pdd + 1 then CDirichlet 0 else CNeumann 0)
  else fcond_of (periodic_flow pdd 1 twodim s).
Lemma fixed_tables srt gf pdd twodim b b' : 0 <= pdd < 3 -> setup_upscaling srt gf 0 pdd 1 1 twodim b = Ok b' ->
  t_canon b' = [0; 1; 2; 3; 4; 5; 6] /\ t_partner b' = [0; 0; 0; 0; 0; 0; 0] /\ forall i, 1 <= i <= 6 -> zget (t_flow b') i = Some (if i =? 2 * pdd + 1 then mkCond Dirichlet 1 else if i =? 2 * pdd + 2 then mkCond Dirichlet 0%R else mkCond Neumann 0%R).
Proof.
  intros Hd H. destruct (fixed_setup srt gf pdd 1 1 twodim b Hd) as (b0 & E & _ & _ & F & _). rewrite E in H. injection H as <-. split; [|split; [|intros i Hi; apply (F i Hi)]]; revert E; unfold setup_upscaling; cbn [Z.ltb Z.compare orb Z.eqb]; assert (pdd = 0 \/ pdd = 1 \/ pdd = 2) as [->|[->| ->]] by lia; cbv -[IZR]; intros E; injection E as <-; reflexivity.
Qed.
Lemma fixed_kinds srt gf pdd twodim b b' : 0 <= pdd < 3 -> setup_upscaling srt gf 0 pdd 1 1 twodim b = Ok b' -> forall i c, zget (t_flow b') i = Some c -> c_type c <> Periodic.
Proof.
  intros Hd H. assert (forallb (fun c => match c_type c with Periodic => false | _ => true end) (t_flow b') = true) as A.
  { revert H. unfold setup_upscaling. cbn [Z.ltb Z.compare orb Z.eqb]. assert (pdd = 0 \/ pdd = 1 \/ pdd = 2) as [->|[->| ->]] by lia; cbv -[IZR]; intros E; injection E as <-; reflexivity. }
  intros i c Hi Ec. apply forallb_forall with (x := c) in A; [rewrite Ec in A; discriminate|]. eapply zget_In; exact Hi.
Qed.
Lemma zget7 i : zget [0; 1; 2; 3; 4; 5; 6] i = if (0 <=? i) && (i <? 7) then Some i else None.
Proof.
  destruct (Z.leb_spec 0 i), (Z.ltb_spec i 7); cbn [andb]; [|apply zget_None_iff; cbn; lia..]. assert (i = 0 \/ i = 1 \/ i = 2 \/ i = 3 \/ i = 4 \/ i = 5 \/ i = 6) as [->|[->|[->|[->|[->|[->| ->]]]]]] by lia; reflexivity.
Qed.
Section Block.
Variables (srt : list bface -> list bface) (g : list hcell) (geo : Z -> mcell) (ip : hip) (bct : Z) (twodim : bool) (low hi : Z -> R).
Hypothesis BK : block srt g geo ip bct twodim low hi.
Notation gf := (map uf_g (grid_faces g geo)).
Notation src := (zrepeat 0%R (zlen g)).
Lemma bk_geo : geometry 3 g geo. Proof. apply BK. Qed.
Lemma bk_n k : 0 <= k < zlen g -> zlen (mc_faces (geo k)) = nfaces g k.
Proof. intros Hk. destruct bk_geo as (G & _). apply (G k Hk). Qed.
Lemma bk_b k r : half g k r -> nbr g k r = None -> 1 <= bid g k r. Proof. apply BK. Qed.
Lemma bk_box pdd b b' : 0 <= pdd < 3 -> setup_upscaling srt gf bct pdd 1 1 twodim b = Ok b' -> box_faces b' (grid_faces g geo) low hi.
Proof. intros Hd H. destruct BK as (_ & _ & _ & _ & _ & _ & P). apply (P pdd b b' Hd H). Qed.
Lemma bk_problem pdd b b' : 0 <= pdd < 3 -> setup_upscaling srt gf bct pdd 1 1 twodim b = Ok b' -> problem g (hbc_of b') ip src.
Proof. intros Hd H. destruct BK as (_ & _ & _ & _ & _ & _ & P). apply (P pdd b b' Hd H). Qed.
Lemma linked_more bc k k' : linked g closed_bc k k' -> linked g bc k k'.
Proof. induction 1 as [|k r k' r' k'' J L IH]; [constructor|]. apply closed_joined in J. destruct J as (A & B & T). apply (linked_step g bc k r k' r' k''); [split; [exact A|split; [exact B|left; exact T]]|exact IH]. Qed.
Lemma bk_connected bc : connected g bc.
Proof. intros k k' Hk Hk'. apply linked_more. destruct BK as (_ & C & _). apply (C k k' Hk Hk'). Qed.
(* ---- one direction of the program ---- *)
Record dirn (d : Z) (st : hstruct) (b : bcs) (x ps : list R) (vs : list (list R)) (col : list (option R)) : Prop := {
  dn_setup : exists b0, setup_upscaling srt gf bct d 1 1 twodim b0 = Ok b;
  dn_struct : structured g (hbc_of b) st;
  dn_darcy : darcy_law g ip st x ps vs;
  dn_cons : conserving g src vs;
  dn_flow : flow_conditions g (hbc_of b) st x vs;
  dn_col : exists t q, half_table g t /\ (forall k r, half g k r -> at2 t k r = at2 vs k r) /\ mean_velocities b bct d (grid_faces g geo) (List.concat t) = Ok q /\
    col = map (fun v => match v with Some v => Some (v * (hi d - low d))%R | None => None end) q }.
Section Run.
Variables (K : krylov) (ty maxit nf : Z).
Hypothesis EK : exact_solver K.
Hypothesis FM : flow_matrices g ip.
Hypothesis EF : enough_faces g nf.
Hypothesis Bal : forall d b b', 0 <= d < 3 -> setup_upscaling srt gf bct d 1 1 twodim b = Ok b' -> no_dirichlet g (hbc_of b') -> balanced g (hbc_of b') src.
Hypothesis Same : forall p1 p2 b b1 b2, 0 <= p1 < 3 -> 0 <= p2 < 3 -> setup_upscaling srt gf bct p1 1 1 twodim b = Ok b1 -> setup_upscaling srt gf bct p2 1 1 twodim b1 = Ok b2 -> init_structure g (hbc_of b1) = init_structure g (hbc_of b2).
Lemma run_direction s d s' : 0 <= d < 3 -> tensor_direction K srt g geo ip bct twodim ty maxit nf s d = Ok s' ->
  (d <> 0 -> exists st, sv_grid (ts_solver s) = Some (g, st) /\ init_structure g (hbc_of (ts_bcs s')) = Ok st) ->
  exists st x ps vs col, sv_grid (ts_solver s') = Some (g, st) /\ init_structure g (hbc_of (ts_bcs s')) = Ok st /\ ts_cols s' = ts_cols s ++ [col] /\
    setup_upscaling srt gf bct d 1 1 twodim (ts_bcs s) = Ok (ts_bcs s') /\ dirn d st (ts_bcs s') x ps vs col.
Proof.
  intros Hd H Hst. unfold tensor_direction in H. apply bind_Ok in H. destruct H as (((b & sv) & lg) & D & H). apply direction_inv in D. destruct D as (S & sv0 & lc & I & R & _).
  assert (G0 : exists st, sv_grid sv0 = Some (g, st) /\ init_structure g (hbc_of b) = Ok st).
  { destruct (Z.eqb_spec d 0) as [E|E].
    - unfold sv_init in I. destruct BK as (Hg & _). destruct (Z.eqb_spec (zlen g) 0); [lia|]. apply bind_Ok in I. destruct I as (st & Est & I). injection I as <-. exists st. split; [reflexivity|exact Est].
    - subst sv0. destruct (Hst E) as (st & A & B). exists st. split; [exact A|]. destruct (sv_grid sv) as [(g' & st')|]; [|discriminate]. apply bind_Ok in H. destruct H as (t & _ & H). apply bind_Ok in H. destruct H as (q & _ & H). apply bind_Ok in H. destruct H as (dl & _ & H). injection H as <-. exact B. }
  destruct G0 as (st & G0 & Is). destruct (solve_keeps _ _ _ _ _ R) as (Gk & _). rewrite Gk, G0 in H.
  pose proof (bk_problem d _ _ Hd S) as P. destruct (success_converged _ _ _ _ _ R) as (g' & st' & sy & dy & lc' & x & Q & _ & As & Ql & Kx & Rc). rewrite G0 in Q. injection Q as <- <-. injection Ql as <-. cbn [sc_bc sc_ip sc_src] in As, Rc.
  assert (Di : discretised g (hbc_of b) ip src st sy dy) by (split; assumption).
  assert (CF : call_for (Lsv_Model.mkCall (hbc_of b) ip src ty (negb (bct =? 0) && negb (d =? 0)) maxit) (hbc_of b) ip src) by (repeat split).
  destruct (handed_system g _ ip src P st sy dy Di K sv0 _ sv lc (Ok tt) G0 CF R) as (_ & Er & _). destruct (d_all _ _ _ _ P _ _ _ Di) as ((_ & Ls) & _).
  destruct (EK _ _ _ _ _ _ _ Kx) as (Lx & Sx). rewrite Er in Lx, Sx. rewrite Ls in Lx, Sx.
  assert (So : solved lc (unknowns st) x) by (intros i Hi; rewrite Er; apply Sx; exact Hi).
  assert (Hg : 0 < zlen g) by apply BK.
  destruct (exact_solve g (hbc_of b) ip src P st sy dy Di (proj1 FM) Hg (fun N => conj (bk_connected _) (Bal d _ _ Hd S N)) K sv0 _ sv lc x G0 CF R Kx Lx So) as (ps & vs & Es & Dl & Cn & Fc).
  destruct (conserve_ok _ _ _ _ P _ _ _ Di x Lx) as (ps' & vs' & E6 & _ & Ht & _). rewrite Rc, Es in E6. injection E6 as <- <-.
  pose proof P as (W & C & PO & _). pose proof (d_HS _ _ _ _ P _ _ _ Di) as HS.
  assert (Hu : unknowns st <= nf). { unfold init_structure in Is. apply bind_Ok in Is. destruct Is as (nm & En & Is). repeat (apply bind_Ok in Is; destruct Is as (? & _ & Is)). injection Is as <-. apply EF. exact En. }
  rewrite Es in H. cbn [snd fst] in H. destruct (post_main g (hbc_of b) st nf vs W C PO Is Hu Ht) as (t & m & Ep & Tt & Tj & Tn & _). rewrite Ep in H. cbn [bind fst snd] in H. apply bind_Ok in H. destruct H as (q & Eq & H).
  rewrite (box_delta b (grid_faces g geo) low hi d Hd (bk_box d _ _ Hd S)) in H. cbn [bind] in H. injection H as <-. cbn [ts_solver ts_bcs ts_cols sv_grid].
  exists st, x, ps, vs. eexists. split; [reflexivity|]. split; [exact Is|]. split; [reflexivity|]. split; [exact S|]. constructor; try assumption; [eexists; exact S|].
  exists t, q. split; [exact Tt|]. split; [|split; [exact Eq|apply map_ext; intros [v|]; reflexivity]].
  intros k r Hh. destruct (joined_or_loose g (hbc_of b) st k r HS Hh) as [(k' & r' & J)|Lo]; [|apply Tn; assumption]. rewrite (Tj k r k' r' J). destruct Fc as (F1 & _ & _ & F4). destruct J as (A & B & [T|Pr]).
  - specialize (F1 k r k' r' A B T). lra.
  - pose proof Pr as (dd & _ & (_ & Ec) & _). destruct (F4 k r k' r' dd Pr Ec) as (_ & E). lra.
Qed.
Lemma run_tensor b sv s : flow_tensor K srt g geo ip bct twodim ty maxit nf b sv = Ok s ->
  exists st b0 b1 b2 x0 x1 x2 p0 p1 p2 v0 v1 v2 c0 c1 c2, ts_cols s = [c0; c1; c2] /\ dirn 0 st b0 x0 p0 v0 c0 /\ dirn 1 st b1 x1 p1 v1 c1 /\ dirn 2 st b2 x2 p2 v2 c2.
Proof.
  intros H. unfold flow_tensor in H. rewrite three in H. cbn [foldM] in H. apply bind_Ok in H. destruct H as (s0 & D0 & H). apply bind_Ok in H. destruct H as (s1 & D1 & H). apply bind_Ok in H. destruct H as (s2 & D2 & H). injection H as ->.
  destruct (run_direction _ 0 _ ltac:(lia) D0) as (st & x0 & p0 & v0 & c0 & G0 & I0 & C0 & S0 & N0); [intros X; destruct (X eq_refl)|].
  assert (Q1 : setup_upscaling srt gf bct 1 1 1 twodim (ts_bcs s0) = Ok (ts_bcs s1)).
  { unfold tensor_direction in D1. apply bind_Ok in D1. destruct D1 as (((b1 & sv1) & l1) & E1 & D1). apply direction_inv in E1. destruct E1 as (S & _). destruct (sv_grid sv1) as [(g' & st')|]; [|discriminate]. repeat (apply bind_Ok in D1; destruct D1 as (? & _ & D1)). injection D1 as <-. exact S. }
  assert (I1 : init_structure g (hbc_of (ts_bcs s1)) = Ok st) by (rewrite <- (Same 0 1 _ _ _ ltac:(lia) ltac:(lia) S0 Q1); exact I0).
  destruct (run_direction _ 1 _ ltac:(lia) D1) as (st1 & x1 & p1 & v1 & c1 & G1 & I1' & C1 & S1 & N1); [intros _; exists st; auto|]. assert (st1 = st) by congruence. subst st1.
  assert (Q2 : setup_upscaling srt gf bct 2 1 1 twodim (ts_bcs s1) = Ok (ts_bcs s)).
  { unfold tensor_direction in D2. apply bind_Ok in D2. destruct D2 as (((b1 & sv1) & l1) & E1 & D2). apply direction_inv in E1. destruct E1 as (S & _). destruct (sv_grid sv1) as [(g' & st')|]; [|discriminate]. repeat (apply bind_Ok in D2; destruct D2 as (? & _ & D2)). injection D2 as <-. exact S. }
  assert (I2 : init_structure g (hbc_of (ts_bcs s)) = Ok st) by (rewrite <- (Same 1 2 _ _ _ ltac:(lia) ltac:(lia) S1 Q2); exact I1).
  destruct (run_direction _ 2 _ ltac:(lia) D2) as (st2 & x2 & p2 & v2 & c2 & G2 & I2' & C2 & S2 & N2); [intros _; exists st; auto|]. assert (st2 = st) by congruence. subst st2.
  exists st, (ts_bcs s0), (ts_bcs s1), (ts_bcs s), x0, x1, x2, p0, p1, p2, v0, v1, v2, c0, c1, c2. split; [rewrite C2, C1, C0; reflexivity|]. auto.
Qed.
End Run.
Hypothesis Hbct : bct = 0 \/ bct = 2.
Lemma conds pdd b b' : 0 <= pdd < 3 -> setup_upscaling srt gf bct pdd 1 1 twodim b = Ok b' -> forall k r s, on_side_of g b' k r s -> cond_at g (hbc_of b') k r = Some (side_cond bct pdd twodim s).
Proof.
  pose proof bk_b as Kb. pose proof bk_n as Kn. intros Hd H k r s (Hh & En & Ec). unfold cond_at. rewrite En. f_equal. unfold hbc_of. cbn [hb_cond]. destruct Hbct as [-> | ->].
  - destruct (fixed_tables _ _ _ _ _ _ Hd H) as (Tc & _ & Tf). rewrite Tc, zget7 in Ec. destruct (Z.leb_spec 0 (bid g k r)), (Z.ltb_spec (bid g k r) 7); cbn [andb] in Ec; try discriminate. injection Ec as Ec. pose proof (Kb k r Hh En).
    rewrite Tf by lia. rewrite Ec. unfold side_cond. cbn [Z.eqb]. destruct (Z.eqb_spec (s + 1) (2 * pdd + 1)), (Z.eqb_spec s (2 * pdd)); try lia; [reflexivity|]. destruct (Z.eqb_spec (s + 1) (2 * pdd + 2)), (Z.eqb_spec s (2 * pdd + 1)); try lia; reflexivity.
  - destruct BK as (_ & _ & _ & _ & _ & U & _). destruct (U eq_refl) as (Ps & Ui). destruct (periodic_setup srt gf pdd 1 1 twodim b Ps Hd Ui) as [(E & _)|(l & areas & b0 & Ef & E & F & _)]; [congruence|]. assert (b0 = b') by congruence. subst b0.
    assert (Ib : In (uf_g (uf_at g geo k r)) (bdy_faces gf)).
    { unfold bdy_faces. apply filter_In. split; [apply in_map, (In_faces g geo Kn k r Hh)|]. apply (bdry_iff g geo Kn Kb k r Hh) in En. exact En. }
    apply In_zget in Ib. destruct Ib as (i & _ & Gi). pose proof (Bound_Proofs3.find_ok srt gf [true; true; true; true; negb twodim; negb twodim] tol6 l areas Ps eq_refl Ef) as PO. destruct (po_faces _ _ _ _ _ PO i _ Gi) as (f & Hf & _ & Eb & _).
    rewrite (bid_at g geo k r En) in Eb. destruct (F f Hf) as (Fc & Ff & _). rewrite Eb in Fc, Ff. rewrite Ff. rewrite Fc in Ec. assert (b_canon f = s) by (injection Ec; lia). subst s. reflexivity.
Qed.
Lemma side_neumann pdd s q : side_cond bct pdd twodim s = CNeumann q -> q = 0%R.
Proof.
  unfold side_cond. destruct (bct =? 0); [destruct (s =? 2 * pdd); [discriminate|]; destruct (s =? 2 * pdd + 1); [discriminate|]; intros E; injection E as <-; reflexivity|].
  unfold periodic_flow. destruct (twodim && (4 <=? s)); [cbn; intros E; injection E as <-; reflexivity|]. destruct (s =? 2 * pdd); [discriminate|]. destruct (s =? 2 * pdd + 1); discriminate.
Qed.
Lemma no_outflux pdd b b' : 0 <= pdd < 3 -> setup_upscaling srt gf bct pdd 1 1 twodim b = Ok b' -> forall k r, half g k r -> outflux_at g (hbc_of b') k r = 0%R.
Proof.
  intros Hd H k r Hh. unfold outflux_at. destruct (nbr g k r) eqn:En; [unfold cond_at; rewrite En; reflexivity|]. destruct (side_ex g geo b' low hi bk_n bk_b (bk_box _ _ _ Hd H) k r Hh En) as (s & _ & O & _). rewrite (conds pdd b b' Hd H k r s O).
  destruct (side_cond bct pdd twodim s) eqn:E; try reflexivity. apply (side_neumann _ _ _ E).
Qed.
Lemma balanced0 pdd b b' : 0 <= pdd < 3 -> setup_upscaling srt gf bct pdd 1 1 twodim b = Ok b' -> balanced g (hbc_of b') src.
Proof.
  intros Hd H. unfold balanced. rewrite !Sum_zero; [reflexivity| |].
  - intros k Hk. apply Sum_zero. intros r Hr. apply (no_outflux pdd b b' Hd H). split; assumption.
  - intros k Hk. unfold nthR. destruct (bk_problem _ _ _ Hd H) as ((_ & I & _) & _). rewrite zget_zrepeat by (apply I; exact Hk). reflexivity.
Qed.
(* the solver structure is the same for the three directions *)
Lemma same_structure p1 p2 b1 b2 b1' b2' : 0 <= p1 < 3 -> 0 <= p2 < 3 -> setup_upscaling srt gf bct p1 1 1 twodim b1 = Ok b1' -> setup_upscaling srt gf bct p2 1 1 twodim b2 = Ok b2' ->
  init_structure g (hbc_of b1') = init_structure g (hbc_of b2') /\ forall k r k' r', partners g (hbc_of b1') k r k' r' -> partners g (hbc_of b2') k r k' r'.
Proof.
  intros H1 H2 S1 S2. destruct Hbct as [-> | ->].
  - pose proof (fixed_kinds _ _ _ _ _ _ H1 S1) as F1. pose proof (fixed_kinds _ _ _ _ _ _ H2 S2) as F2. destruct (fixed_tables _ _ _ _ _ _ H1 S1) as (_ & P1 & _). destruct (fixed_tables _ _ _ _ _ _ H2 S2) as (_ & P2 & _).
    assert (N : forall b, (forall i c, zget (t_flow b) i = Some c -> c_type c <> Periodic) -> forall i d, hb_cond (hbc_of b) i <> CPeriodic d).
    { intros b F i d E. unfold hbc_of in E. cbn [hb_cond] in E. destruct (zget (t_flow b) i) as [c|] eqn:Ei; [|discriminate]. specialize (F i c Ei). unfold fcond_of in E. destruct (c_type c); try discriminate. apply F. reflexivity. }
    split.
    + assert (E1 : per_face (hbc_of b1') = per_face (hbc_of b2')).
      { apply FunctionalExtensionality.functional_extensionality. intros f. unfold per_face. destruct (hf_nb f); [reflexivity|]. pose proof (N b1' F1 (hf_bid f)) as A. pose proof (N b2' F2 (hf_bid f)) as B. destruct (hb_cond (hbc_of b1') (hf_bid f)) as [p|d|q]; [|destruct (A d eq_refl)|]; destruct (hb_cond (hbc_of b2') (hf_bid f)) as [p'|d'|q']; try reflexivity; destruct (B d' eq_refl). }
      assert (E2 : hb_partner (hbc_of b1') = hb_partner (hbc_of b2')) by (unfold hbc_of; cbn [hb_partner]; rewrite P1, P2; reflexivity).
      unfold init_structure, bc_map, bc_partners, alloc_bc, set_bc, per_pair. rewrite E1, E2. reflexivity.
    + intros k r k' r' (d & d' & (Hh & E) & _). exfalso. unfold cond_at in E. destruct (nbr g k r); [discriminate|]. injection E as E. apply (N b1' F1 _ _ E).
  - pose proof (rel_kinds _ _ (periodic_rel srt gf p1 p2 _ _ _ _ _ _ _ _ _ H1 H2 S1 S2)) as SK. split; [apply kinds_structure; exact SK|]. intros k r k' r' (d & d' & (Hh & E) & (Hh' & E') & Ep).
    assert (Q : forall k r d, cond_at g (hbc_of b1') k r = Some (CPeriodic d) -> exists d2, cond_at g (hbc_of b2') k r = Some (CPeriodic d2)).
    { clear - SK. intros k r d E. pose proof (kinds_at g _ _ k r SK) as X. rewrite E in X. destruct (cond_at g (hbc_of b2') k r) as [[p|d2|q]|]; cbn in X; try contradiction. exists d2. reflexivity. }
    destruct (Q k r d E) as (e & Ee). destruct (Q k' r' d' E') as (e' & Ee'). exists e, e'. split; [split; assumption|]. split; [split; assumption|]. rewrite Ep. apply SK.
Qed.
Variables (K : krylov) (ty maxit nf : Z).
Hypothesis EK : exact_solver K.
Hypothesis FM : flow_matrices g ip.
Hypothesis EF : enough_faces g nf.
Lemma one_direction s d s' : 0 <= d < 3 -> tensor_direction K srt g geo ip bct twodim ty maxit nf s d = Ok s' ->
  (d <> 0 -> exists st, sv_grid (ts_solver s) = Some (g, st) /\ init_structure g (hbc_of (ts_bcs s')) = Ok st) ->
  exists st x ps vs col, sv_grid (ts_solver s') = Some (g, st) /\ init_structure g (hbc_of (ts_bcs s')) = Ok st /\ ts_cols s' = ts_cols s ++ [col] /\
    setup_upscaling srt gf bct d 1 1 twodim (ts_bcs s) = Ok (ts_bcs s') /\ dirn d st (ts_bcs s') x ps vs col.
Proof.
  apply (run_direction K ty maxit nf EK FM EF).
  - intros e b1 b' He S _. exact (balanced0 e b1 b' He S).
  - intros p1 p2 b0 b1 b2 H1 H2 S1 S2. exact (proj1 (same_structure p1 p2 _ _ _ _ H1 H2 S1 S2)).
Qed.
Lemma tensor_run b sv s : flow_tensor K srt g geo ip bct twodim ty maxit nf b sv = Ok s ->
  exists st b0 b1 b2 x0 x1 x2 p0 p1 p2 v0 v1 v2 c0 c1 c2, ts_cols s = [c0; c1; c2] /\ dirn 0 st b0 x0 p0 v0 c0 /\ dirn 1 st b1 x1 p1 v1 c1 /\ dirn 2 st b2 x2 p2 v2 c2.
Proof.
  apply (run_tensor K ty maxit nf EK FM EF).
  - intros e b1 b' He S _. exact (balanced0 e b1 b' He S).
  - intros p1 p2 b0 b1 b2 H1 H2 S1 S2. exact (proj1 (same_structure p1 p2 _ _ _ _ H1 H2 S1 S2)).
Qed.
End Block.
