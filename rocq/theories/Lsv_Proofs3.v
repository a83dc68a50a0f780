From Verif Require Import BaseFacts RBaseFacts Lin_Facts Steady_Proofs Euler_Proofs2 Impl_Proofs Matx_Proofs Mim_Proofs Hnum_Proofs Hnum_Proofs2 Hyb_Proofs Hyb_Proofs2 Hyb_Proofs3 Hyb_Proofs4 Hyb_Proofs5 Hyb_Proofs6 Hyb_Proofs7 Hyb_Proofs8 Eld_Proofs2 Lsv_Spec Lsv_Proofs Lsv_Proofs2.
From Verif Require Ieul_Proofs4.
Open Scope Z_scope.

(* ---- the stored entries lie inside the matrix ---- *)
Lemma pattern_range g bc st : conforming g -> counts_agree g -> periodic_ok g bc -> init_structure g bc = Ok st -> forall i j, phas (hs_pat st) i j -> 0 <= i < unknowns st /\ 0 <= j < unknowns st.
Proof.
  intros W C PO. destruct (numbering_ok g W C) as (nm & En & _). pose proof (setting_ok g bc nm W C PO En) as ST. unfold init_structure. rewrite En. cbn [bind].
  destruct (bc_map_ok g bc nm ST) as (m & Em & Hm). rewrite Em. cbn [bind]. destruct (bc_partners_ok g bc nm ST m Hm) as (pp & Ep & Hpp). rewrite Ep. cbn [bind].
  destruct (alloc_grid_ok g bc nm ST) as (sz0 & E0 & F0). rewrite E0. cbn [bind]. destruct (alloc_bc_ok g bc nm ST m pp Hm Hpp sz0 F0) as (sz & E1 & F1). rewrite E1. cbn [bind].
  destruct (set_grid_ok g bc nm ST m pp Hm sz F1) as (p1 & E2 & F2 & H2). rewrite E2. cbn [bind]. destruct (set_bc_ok g bc nm ST m pp Hm Hpp sz F1 p1 F2) as (p2 & E3 & F3 & M3 & H3). rewrite E3. cbn [bind].
  intros H. injection H as <-. unfold unknowns. cbn [hs_num hs_pat]. intros i j Hp. destruct F3 as (L & _ & Q). split.
  { destruct Hp as (w & G & _). pose proof (zget_Some_range _ _ _ G). lia. }
  assert (IR : forall k n, 0 <= k < zlen g -> In n (row g nm k) -> 0 <= n < nm_total nm).
  { intros k n Hk Hn. apply (In_row g nm k n Hk) in Hn. destruct Hn as (r & Hh & ->). apply (num_range g bc nm ST k r Hh). }
  destruct (Q i j Hp) as [[(-> & R)|(k & Hk & _ & Hj)]|(k & r & k' & r' & (d1 & d2 & (Hh & _) & (Hh' & _) & _) & _ & X)].
  - exact R.
  - apply (IR k j Hk Hj).
  - destruct X as [(_ & X)|[(-> & _)|(-> & _)]]; [apply (IR k' j); [apply Hh'|exact X]|apply (num_range g bc nm ST k r Hh)..].
Qed.

(* ---- and all other entries are zero ---- *)
Definition offzero (s : hsys) : Prop := forall i j, sy_has s i j = false -> sy_val s i j = 0%R.
Lemma put_off s i j v s' : sy_put s i j v = Ok s' -> offzero s -> offzero s'.
Proof.
  unfold sy_put. destruct (sy_has s i j) eqn:E; [|discriminate]. intros H Z a b. injection H as <-. cbn. intros Hab. change (sy_has s a b = false) in Hab.
  destruct (Z.eqb_spec a i) as [->|]; [|apply Z; exact Hab]. destruct (Z.eqb_spec b j) as [->|]; cbn [andb]; [congruence|apply Z; exact Hab].
Qed.
Lemma add_off s i j v s' : sy_add s i j v = Ok s' -> offzero s -> offzero s'.
Proof. apply put_off. Qed.
Lemma rput_off s i v s' : rhs_put s i v = Ok s' -> offzero s -> offzero s'.
Proof. unfold rhs_put. intros H. apply bind_Ok in H. destruct H as (r & _ & E). injection E as <-. intros Z. exact Z. Qed.
Lemma radd_off s i v s' : rhs_add s i v = Ok s' -> offzero s -> offzero s'.
Proof. unfold rhs_add. intros H. apply bind_Ok in H. destruct H as (r & _ & E). apply (rput_off _ _ _ _ E). Qed.
Ltac step_off := match goal with
  | H : bind _ _ = Ok _ |- _ => apply bind_Ok in H; destruct H as (? & ? & H)
  | H : Ok _ = Ok _ |- _ => injection H; clear H; intros; subst
  | H : (_, _) = (_, _) |- _ => injection H; clear H; intros; subst
  | H : sy_add _ _ _ _ = Ok _, Z : offzero _ |- _ => pose proof (add_off _ _ _ _ _ H Z); clear H Z
  | H : sy_put _ _ _ _ = Ok _, Z : offzero _ |- _ => pose proof (put_off _ _ _ _ _ H Z); clear H Z
  | H : rhs_add _ _ _ = Ok _, Z : offzero _ |- _ => pose proof (radd_off _ _ _ _ H Z); clear H Z
  | H : rhs_put _ _ _ = Ok _, Z : offzero _ |- _ => pose proof (rput_off _ _ _ _ H Z); clear H Z
  end.
Lemma fold_pres {A T} (f : T -> A -> res T) (P : T -> Prop) : (forall s a s', f s a = Ok s' -> P s -> P s') -> forall l s s', foldM f l s = Ok s' -> P s -> P s'.
Proof. intros Hf. induction l as [|a l IH]; intros s s' H Hs; cbn [foldM] in H; [injection H as <-; exact Hs|]. apply bind_Ok in H. destruct H as (s1 & E & H). apply (IH s1 s' H). apply (Hf s a s1 E Hs). Qed.
Lemma col_off S e r ii s cj s' : add_col S e r ii s cj = Ok s' -> offzero s -> offzero s'.
Proof.
  destruct cj as (c & jj). unfold add_col. intros H Z. apply bind_Ok in H. destruct H as (t & Et & H). destruct t; repeat step_off; auto.
  destruct (_ <? jj); repeat step_off; auto.
Qed.
Lemma row_off S e rhs l2g s ri s' : add_row S e rhs l2g s ri = Ok s' -> offzero s -> offzero s'.
Proof.
  destruct ri as (r & i). unfold add_row. intros H Z. apply bind_Ok in H. destruct H as (t & Et & H).
  assert (Q : forall (s0 : hsys) ii s', (let* s := foldM (add_col S e r ii) (combine (zrange 0 (zlen l2g)) l2g) s0 in let* h := rget rhs r in rhs_add s ii h) = Ok s' -> offzero s0 -> offzero s').
  { intros s0 ii s2 X Z0. apply bind_Ok in X. destruct X as (s3 & X1 & X2). pose proof (fold_pres _ offzero (fun a b c => col_off S e r ii a b c) _ _ _ X1 Z0). repeat step_off. assumption. }
  destruct t.
  - cbn [bind] in H. apply (Q s i s' H Z).
  - repeat step_off; auto.
  - cbn [bind] in H. apply (Q s i s' H Z).
  - apply bind_Ok in H. destruct H as ((s1 & ii) & E & H). apply (Q s1 ii s' H). repeat step_off. assumption.
Qed.
Lemma cell_off S e rhs l2g s s' : add_cell S e rhs l2g s = Ok s' -> offzero s -> offzero s'.
Proof. apply fold_pres. intros a b c. apply row_off. Qed.
Lemma assemble_off g bc st ip src s d : assemble g bc st ip src = Ok (s, d) -> offzero s.
Proof.
  unfold assemble. intros H. apply (fold_pres _ (fun sd => offzero (fst sd))) in H; [exact H| |intros i j _; reflexivity]. clear. intros (s & d) c (s' & d') H Z. cbn [fst] in *. unfold assemble_cell in H.
  do 5 (apply bind_Ok in H; destruct H as (? & _ & H)). apply bind_Ok in H. destruct H as (((((Sc & rhs) & F) & L) & gg) & _ & H). do 3 (apply bind_Ok in H; destruct H as (? & _ & H)). apply bind_Ok in H. destruct H as (s2 & E & H). injection H as <- _.
  apply (cell_off _ _ _ _ _ _ E Z).
Qed.

(* ---- diagonal entries are positive ---- *)
Lemma quad_unit n (A : Z -> Z -> R) i : 0 <= i < n -> quad n A (ident i) = A i i.
Proof.
  intros Hi. unfold quad, dot, mvec. rewrite (Sum_ident_l n i (fun k => Sum n (fun j => A k j * ident i j)%R) Hi).
  rewrite (Sum_ext n _ (fun j => ident i j * A i j)%R) by (intros; ring). apply (Sum_ident_l n i (fun j => A i j) Hi).
Qed.
Section Start.
Variables (g : list hcell) (bc : hbc) (ip : hip) (src : list R).
Hypothesis PB : problem g bc ip src.
Hypothesis SP : ip_spd g ip.
Variables (st : hstruct) (s : hsys) (d : hdyn).
Hypothesis DI : discretised g bc ip src st s d.
Notation N := (num st).
Notation total := (unknowns st).
Lemma diag_positive i : 0 <= i < total -> (0 < sy_val s i i)%R.
Proof.
  intros Hi. pose proof (d_HS _ _ _ _ PB _ _ _ DI) as HS. destruct (d_all _ _ _ _ PB _ _ _ DI) as (_ & _ & HR). pose proof (psd_ok _ _ _ _ PB _ _ _ DI SP (ident i)) as Q. rewrite (quad_unit total (sy_val s) i Hi) in Q.
  destruct (Rle_lt_or_eq_dec _ _ Q) as [|E]; [assumption|]. exfalso.
  destruct (kernel g bc st ip src s HS HR (d_HI _ _ _ _ PB) SP (ident i)) as (t & Ht & _). { change (nm_total (hs_num st)) with total. rewrite (quad_unit total (sy_val s) i Hi). symmetry. exact E. }
  destruct (num_onto g bc st HS i Hi) as (k & r & Hh & En). destruct (SP k (proj1 Hh)) as (N2 & _). set (r' := if r =? 0 then 1 else 0). assert (Hh' : half g k r') by (split; [apply Hh|unfold r'; destruct (r =? 0); lia]).
  assert (Ne : N k r' <> i). { intros E2. rewrite <- En in E2. pose proof (row_NoDup g bc (hs_num st) (HST g bc st HS) k (proj1 Hh)) as Nd.
    pose proof (Ieul_Proofs4.NoDup_zget_inj _ r' r (N k r) Nd) as J. unfold num in *. rewrite (row_nth g (hs_num st) k r' (proj2 Hh')), (row_nth g (hs_num st) k r (proj2 Hh)) in J. specialize (J (f_equal Some E2) eq_refl). unfold r' in J. destruct (Z.eqb_spec r 0); lia. }
  pose proof (Ht k r Hh) as T1. pose proof (Ht k r' Hh') as T2. rewrite En in T1. unfold ident in T1, T2. rewrite Z.eqb_refl in T1. destruct (Z.eqb_spec i (N k r')); [congruence|]. lra.
Qed.
Lemma diag_stored i : 0 <= i < total -> sy_has s i i = true.
Proof.
  intros Hi. pose proof (d_HS _ _ _ _ PB _ _ _ DI) as HS. destruct (num_onto g bc st HS i Hi) as (k & r & Hh & En). unfold sy_has. destruct (d_all _ _ _ _ PB _ _ _ DI) as ((-> & _) & _). destruct HS as (_ & _ & _ & _ & P & _).
  destruct (P k r r Hh Hh) as (row & G & I). rewrite En in G, I. rewrite G. apply existsb_In. exact I.
Qed.
Lemma dirichlet_row k r p : half g k r -> cond_at g bc k r = Some (CDirichlet p) -> (forall j, 0 <= j < total -> j <> N k r -> sy_val s (N k r) j = 0%R) /\ nthR (sy_rhs s) (N k r) = (sy_val s (N k r) (N k r) * p)%R.
Proof.
  intros Hh Ec. pose proof (d_HS _ _ _ _ PB _ _ _ DI) as HS. destruct (d_all _ _ _ _ PB _ _ _ DI) as (_ & _ & HR).
  assert (Nb : nbr g k r = None) by (unfold cond_at in Ec; destruct (nbr g k r); [discriminate|reflexivity]).
  assert (X : forall x, rsd total s x (N k r) = (Sk g ip k r r * (x (N k r) - p))%R).
  { intros x. rewrite HR, (eq_single g bc st ip src HS x k r Hh Nb) by (intros dd (_ & E); congruence). unfold contrib. rewrite Ec. unfold ident. rewrite Z.eqb_refl. ring. }
  pose proof (nrange g bc st HS k r Hh) as Hn. change (nm_total (hs_num st)) with total in Hn.
  assert (V : forall j, 0 <= j < total -> sy_val s (N k r) j = (Sk g ip k r r * ident j (N k r))%R) by (intros j Hj; rewrite <- (rsd_e total s (N k r) j Hj), !X; ring).
  split; [intros j Hj Nj; rewrite (V j Hj); unfold ident; destruct (Z.eqb_spec j (N k r)); [contradiction|ring]|].
  pose proof (rsd_0 total s (N k r)) as R0. rewrite X in R0. rewrite (V _ Hn). unfold ident. rewrite Z.eqb_refl. lra.
Qed.
Lemma pat_at i : 0 <= i < total -> exists row, zget (sy_pat s) i = Some row.
Proof. intros Hi. destruct (pat_len _ _ _ _ _ _ _ PB DI) as (L & _). apply zget_in_range. lia. Qed.
(* a system that differs from s at most by a doubled first diagonal entry *)
Variable s' : hsys.
Hypothesis RG : sy_pat s' = sy_pat s /\ sy_rhs s' = sy_rhs s /\ forall i j, sy_val s' i j = sy_val s i j \/ (i = j /\ sy_val s' i j = (sy_val s i j * 2)%R).
Lemma diag' i : 0 <= i < total -> (0 < sy_val s' i i)%R.
Proof. intros Hi. pose proof (diag_positive i Hi). destruct RG as (_ & _ & V). destruct (V i i) as [->|(_ & ->)]; lra. Qed.
Lemma decoupled_alone i row : zget (sy_pat s') i = Some row -> (decoupled s' i row = true <-> alone (matrix_of s') total i).
Proof.
  intros G. destruct RG as (Ep & _ & V). rewrite Ep in G. destruct PB as (W & C & PO & _). pose proof (pattern_range g bc st W C PO (proj1 DI)) as PR. pose proof (assemble_off _ _ _ _ _ _ _ (proj2 DI)) as OZ. destruct (pat_len _ _ _ _ _ _ _ PB DI) as (_ & _ & Eh).
  unfold decoupled. rewrite forallb_forall. split.
  - intros H j Hj Nj. cbn [lm_val matrix_of]. destruct (existsb (Z.eqb j) row) eqn:Ex.
    + apply existsb_In in Ex. specialize (H j Ex). destruct (Z.eqb_spec j i); [contradiction|]. cbn [orb] in H. destruct (Req_EM_T (sy_val s' i j) 0); [assumption|discriminate].
    + destruct (V i j) as [->|(E & _)]; [|congruence]. apply OZ. unfold sy_has. rewrite G. exact Ex.
  - intros H j Hj. destruct (Z.eqb_spec j i) as [|Nj]; [reflexivity|]. cbn [orb]. assert (Pj : phas (hs_pat st) i j) by (exists row; rewrite <- Eh; split; assumption).
    specialize (H j (proj2 (PR i j Pj)) Nj). cbn [lm_val matrix_of] in H. destruct (Req_EM_T (sy_val s' i j) 0); [reflexivity|contradiction].
Qed.
Lemma guess_ok : exists x, start_guess s' = Ok x /\ zlen x = total /\ forall i, 0 <= i < total ->
  (alone (matrix_of s') total i -> (sy_val s' i i * nthR x i)%R = nthR (sy_rhs s') i) /\ (~ alone (matrix_of s') total i -> nthR x i = 0%R).
Proof.
  destruct (pat_len _ _ _ _ _ _ _ PB DI) as (Lp & Lr & Eh). pose proof RG as (Ep & Er & V). unfold start_guess.
  match goal with |- exists x, foldM ?f _ ?x0 = _ /\ _ => destruct (combine_loop f (fun k x => zlen x = total /\ forall i, 0 <= i < total ->
     (i < k -> alone (matrix_of s') total i -> (sy_val s' i i * nthR x i)%R = nthR (sy_rhs s') i) /\ (k <= i \/ ~ alone (matrix_of s') total i -> nthR x i = 0%R)) (sy_pat s') x0) as (x & Ex & Lx & Hx) end.
  - rewrite Er, Lr. split; [apply zlen_zrepeat; rewrite <- Lr; apply zlen_nonneg|]. intros i Hi. split; [lia|]. intros _. apply nthR_zrepeat_0.
  - intros i row x G (Lx & Hx). pose proof (decoupled_alone i row G) as DA. pose proof (zget_Some_range _ _ _ G) as Hi. rewrite Ep, Lp in Hi. destruct (decoupled s' i row).
    + assert (Hh : sy_has s' i i = true) by (unfold sy_has; rewrite Ep; apply (diag_stored i Hi)). rewrite Hh. destruct (zget_in_range (sy_rhs s') i ltac:(rewrite Er; lia)) as (b & Gb). rewrite (proj2 (rget_Ok _ _ _) Gb). cbn [bind].
      pose proof (diag' i Hi) as Dp. unfold mdiv, fdiv. destruct (Req_EM_T (sy_val s' i i) 0) as [Z0|_]; [lra|]. cbn [bind].
      destruct (rset_exists x i (b / sy_val s' i i)%R ltac:(lia)) as (x' & Ex' & _). exists x'. split; [exact Ex'|]. destruct (rset_nthR _ _ _ _ Ex') as (L0 & _ & RN & _).
      assert (L' : zlen x' = total) by (rewrite <- Lx; exact L0). split; [exact L'|]. intros j Hj. rewrite (RN j). destruct (Z.eqb_spec j i) as [->|Nj].
      * split; [intros _ _|intros [K|K]; [lia|exfalso; apply K, DA; reflexivity]]. rewrite (nthR_get _ _ _ Gb). field. lra.
      * destruct (Hx j Hj) as (H1 & H2). split; [intros; apply H1; [lia|assumption]|intros [K|K]; apply H2; [left; lia|right; exact K]].
    + exists x. split; [reflexivity|]. split; [exact Lx|]. intros j Hj. destruct (Hx j Hj) as (H1 & H2). destruct (Z.eq_dec j i) as [->|Nj].
      * split; [intros _ A; apply DA in A; discriminate|intros _; apply H2; left; lia].
      * split; [intros; apply H1; [lia|assumption]|intros [K|K]; apply H2; [left; lia|right; exact K]].
  - exists x. split; [exact Ex|]. split; [exact Lx|]. intros i Hi. destruct (Hx i Hi) as (H1 & H2). rewrite Ep, Lp in H1. split; [apply H1; lia|intros A; apply H2; right; exact A].
Qed.
End Start.
