From Coq Require Import FunctionalExtensionality.
From Verif Require Import BaseFacts RBaseFacts Lin_Facts Steady_Proofs Euler_Proofs2 Impl_Proofs Matx_Proofs Hnum_Proofs Hnum_Proofs2 Hyb_Proofs Hyb_Proofs2 Hyb_Proofs3 Hyb_Proofs4 Hyb_Proofs5 Hyb_Proofs6 Hyb_Proofs7 Hyb_Proofs8 Lsv_Spec Lsv_Proofs.
Open Scope Z_scope.

(* ---- boundary values do not enter the matrix ---- *)
Lemma kinds_structure g bc bc' : same_kinds bc bc' -> init_structure g bc = init_structure g bc'.
Proof.
  intros H. assert (E1 : per_face bc = per_face bc').
  { extensionality f. unfold per_face. destruct (hf_nb f); [reflexivity|]. destruct (H (hf_bid f)) as (K & _). destruct (hb_cond bc (hf_bid f)), (hb_cond bc' (hf_bid f)); cbn in K; try contradiction; reflexivity. }
  assert (E2 : hb_partner bc = hb_partner bc') by (extensionality b; apply H).
  unfold init_structure, bc_map, bc_partners, alloc_bc, set_bc, per_pair. rewrite E1, E2. reflexivity.
Qed.
Lemma kinds_at g bc bc' k r : same_kinds bc bc' -> match cond_at g bc k r, cond_at g bc' k r with Some a, Some b => same_kind a b | None, None => True | _, _ => False end.
Proof. intros H. unfold cond_at. destruct (nbr g k r); [exact I|]. apply H. Qed.
Lemma kinds_zv g bc bc' st k x c : same_kinds bc bc' -> zv g bc st k x c = zv g bc' st k x c.
Proof. intros H. pose proof (kinds_at g bc bc' k c H) as K. unfold zv. destruct (cond_at g bc k c) as [[p|d|q]|], (cond_at g bc' k c) as [[p'|d'|q']|]; cbn in K; try contradiction; reflexivity. Qed.
Lemma matrix_kinds g bc bc' ip src src' st s d s' d' : problem g bc ip src -> problem g bc' ip src' -> same_kinds bc bc' ->
  discretised g bc ip src st s d -> discretised g bc' ip src' st s' d' ->
  sy_pat s = sy_pat s' /\ dy_reg d = dy_reg d' /\ forall i j, 0 <= j < unknowns st -> sy_val s i j = sy_val s' i j.
Proof.
  intros P P' H D D'. pose proof (d_all _ _ _ _ P _ _ _ D) as (A1 & _ & R1). pose proof (d_all _ _ _ _ P' _ _ _ D') as (A2 & _ & R2).
  pose proof (d_HS _ _ _ _ P _ _ _ D) as S1. pose proof (d_HS _ _ _ _ P' _ _ _ D') as S2'. split; [destruct A1, A2; congruence|]. split.
  { pose proof (reg_iff _ _ _ _ P _ _ _ D) as I1. pose proof (reg_iff _ _ _ _ P' _ _ _ D') as I2.
    assert (Q : forall b1 b2, same_kinds b1 b2 -> no_dirichlet g b1 -> no_dirichlet g b2).
    { intros b1 b2 Hk Nd k r p Hh E. pose proof (kinds_at g b1 b2 k r Hk) as K. rewrite E in K. destruct (cond_at g b1 k r) as [[p1|?|?]|] eqn:E1; cbn in K; try contradiction. exact (Nd k r p1 Hh E1). }
    assert (H' : same_kinds bc' bc) by (intros b; destruct (H b) as (K & ->); split; [|reflexivity]; destruct (hb_cond bc b), (hb_cond bc' b); cbn in *; auto).
    destruct (dy_reg d) eqn:Ed, (dy_reg d') eqn:Ed'; try reflexivity.
    - exfalso. assert (X : false = true) by (apply I2, (Q bc bc' H), I1; reflexivity). discriminate.
    - exfalso. assert (X : false = true) by (apply I1, (Q bc' bc H'), I2; reflexivity). discriminate. }
  intros i j Hj. rewrite <- (rsd_e _ s i j Hj), <- (rsd_e _ s' i j Hj), !R1, !R2, <- !S2_minus. apply S2_ext. intros k r Hh.
  assert (RW : (rowres g bc st ip src k r (ident j) - rowres g bc st ip src k r (fun _ => 0) = rowres g bc' st ip src' k r (ident j) - rowres g bc' st ip src' k r (fun _ => 0))%R).
  { rewrite (row_lin g bc st ip src s S1 R1 k r (ident j) Hh), (row_lin g bc' st ip src' s' S2' R2 k r (ident j) Hh). apply Sum_ext. intros c _. rewrite (kinds_zv g bc bc' st k (ident j) c H). reflexivity. }
  pose proof (kinds_at g bc bc' k r H) as K. unfold contrib.
  destruct (cond_at g bc k r) as [[p|dd|q]|], (cond_at g bc' k r) as [[p'|dd'|q']|]; cbn in K; try contradiction.
  - ring.
  - match goal with |- (?a * ?b1 + ?c * ?e1 - (?a * ?b2 + ?c * ?e2) = ?a * ?b3 + ?c * ?e3 - (?a * ?b4 + ?c * ?e4))%R => transitivity (a * (b1 - b2) + c * (e1 - e2))%R; [ring|transitivity (a * (b3 - b4) + c * (e3 - e4))%R; [rewrite RW; ring|ring]] end.
  - rewrite <- !Rmult_minus_distr_l. rewrite RW. reflexivity.
  - rewrite <- !Rmult_minus_distr_l. rewrite RW. reflexivity.
Qed.
Lemma values_matrix : forall g bc bc' ip src src', problem g bc ip src -> problem g bc' ip src' -> same_kinds bc bc' ->
  init_structure g bc' = init_structure g bc /\
  forall st s d s' d', discretised g bc ip src st s d -> assemble g bc' st ip src' = Ok (s', d') -> same_matrices (unknowns st) (matrix_of s) (matrix_of s').
Proof.
  intros g bc bc' ip src src' P P' H. split; [symmetry; apply kinds_structure; exact H|]. intros st s d s' d' D E. assert (D' : discretised g bc' ip src' st s' d').
  { split; [rewrite <- (kinds_structure g bc bc' H); apply D|exact E]. }
  destruct (matrix_kinds _ _ _ _ _ _ _ _ _ _ _ P P' H D D') as (A & _ & B). split; [exact A|]. intros i j Hi Hj. apply B; exact Hj.
Qed.

(* ---- the system handed to the iterative solver ---- *)
Definition regular (d : hdyn) (s s' : hsys) : Prop := sy_pat s' = sy_pat s /\ sy_rhs s' = sy_rhs s /\ forall i j, sy_val s' i j = if dy_reg d && (i =? 0) && (j =? 0) then (sy_val s 0 0 * 2)%R else sy_val s i j.
Lemma regularise_inv s d s' : regularise s d = Ok s' -> regular d s s'.
Proof. unfold regularise. destruct (dy_reg d) eqn:E; [|intros H; injection H as <-; repeat split; intros; rewrite E; reflexivity]. unfold sy_put. destruct (sy_has s 0 0); [|discriminate]. intros H. injection H as <-. repeat split. intros i j. rewrite E. reflexivity. Qed.
Lemma solve_call K sv c sv' lc r g st s d : sv_grid sv = Some (g, st) -> assemble g (sc_bc c) st (sc_ip c) (sc_src c) = Ok (s, d) -> sv_solve K sv c = (sv', [lc], r) ->
  exists s', lc_type lc = sc_type c /\ lc_op lc = matrix_of s' /\ lc_rhs lc = sy_rhs s' /\ lc_maxit lc = iterations (sc_maxit c) (zlen (sy_pat s')) /\
  (if (sc_type c =? 0) || negb (sc_same c) then regularise s d = Ok s' /\ lc_new lc = true else s' = s /\ lc_new lc = false) /\
  (if sc_type c =? 0 then lc_start lc = zrepeat 0%R (zlen (sy_rhs s')) else start_guess s' = Ok (lc_start lc)) /\ (lc_new lc = true -> lc_prec lc = lc_op lc).
Proof.
  intros Eg Ea H. unfold sv_solve in H. rewrite Eg, Ea in H. destruct (lin_call _ _ _ _ _ _) as (p & r0) eqn:El.
  assert (E0 : r0 = Ok lc). { destruct r0 as [lc'| |]; [|discriminate..]. destruct (apply_solver K lc') as [x| |]; [destruct (recover _ _ _ _ _)|..]; injection H as _ <- _; reflexivity. }
  subst r0. clear H. unfold lin_call in El. destruct (Z.eqb_spec (sc_type c) 0) as [T0|T0].
  - injection El as <- El. unfold ilu_call in El. destruct (regularise s d) as [s'| |]; cbn [bind] in El; [|discriminate..]. injection El as <-. exists s'. cbn. rewrite T0. repeat split; auto.
  - destruct ((1 <=? sc_type c) && (sc_type c <=? 3)); [|discriminate]. unfold amg_call in El. destruct (sc_same c); cbn [negb orb].
    + injection El as <- El. unfold use_precond in El. destruct (sv_prec sv) as [q|]; [|discriminate]. destruct (Z.eqb_spec (lp_type q) (sc_type c)); [|discriminate]. destruct (start_guess s) as [x| |] eqn:Ex; cbn [bind] in El; [|discriminate..]. injection El as <-. exists s. cbn. repeat split; auto. intros; discriminate.
    + destruct (regularise s d) as [s'| |]; [|discriminate..]. injection El as <- El. cbn [use_precond lp_type lp_mat] in El. rewrite Z.eqb_refl in El. destruct (start_guess s') as [x| |] eqn:Ex; cbn [bind] in El; [|discriminate..]. injection El as <-. exists s'. cbn. repeat split; auto.
Qed.
Lemma pat_len g bc ip src st s d : problem g bc ip src -> discretised g bc ip src st s d -> zlen (sy_pat s) = unknowns st /\ zlen (sy_rhs s) = unknowns st /\ sy_pat s = hs_pat st.
Proof. intros P D. destruct (d_all _ _ _ _ P _ _ _ D) as ((A & B) & _). destruct (d_HS _ _ _ _ P _ _ _ D) as (_ & _ & _ & L & _). rewrite A. repeat split; assumption. Qed.

Lemma handed_system : forall g bc ip src, problem g bc ip src -> forall st s d, discretised g bc ip src st s d ->
  forall K sv c sv' lc r, sv_grid sv = Some (g, st) -> call_for c bc ip src -> sv_solve K sv c = (sv', [lc], r) ->
  lc_type lc = sc_type c /\ lc_rhs lc = sy_rhs s /\ lm_pat (lc_op lc) = sy_pat s /\ lc_maxit lc = (if 0 <? sc_maxit c then sc_maxit c else unknowns st) /\
  (lc_new lc = true <-> sc_type c = 0 \/ sc_same c = false) /\ (lc_new lc = true -> lc_prec lc = lc_op lc) /\
  (~ no_dirichlet g bc \/ lc_new lc = false -> forall i j, lm_val (lc_op lc) i j = sy_val s i j) /\
  (no_dirichlet g bc -> lc_new lc = true -> forall i j, lm_val (lc_op lc) i j = if (i =? 0) && (j =? 0) then (2 * sy_val s i j)%R else sy_val s i j) /\
  (sc_type c = 0 -> lc_start lc = zrepeat 0%R (unknowns st)).
Proof.
  intros g bc ip src P st s d D K sv c sv' lc r Eg (Eb & Ei & Es) H. destruct D as (Di & Da). rewrite <- Eb, <- Ei, <- Es in Da. destruct (solve_call K sv c sv' lc r g st s d Eg Da H) as (s' & A & B & C & M & G & G2 & G3).
  rewrite Eb, Ei, Es in Da. destruct (pat_len g bc ip src st s d P (conj Di Da)) as (Lp & Lr & _). pose proof (reg_iff _ _ _ _ P _ _ _ (conj Di Da)) as RI.
  assert (X : sy_pat s' = sy_pat s /\ sy_rhs s' = sy_rhs s /\ (lc_new lc = true <-> sc_type c = 0 \/ sc_same c = false) /\ (lc_new lc = true -> regular d s s') /\ (lc_new lc = false -> s' = s)).
  { destruct (Z.eqb_spec (sc_type c) 0) as [T|T]; cbn [orb] in G; [|destruct (sc_same c) eqn:Esm; cbn [negb] in G]; destruct G as (Gr & Gn); rewrite Gn.
    - pose proof (regularise_inv _ _ _ Gr) as Q. repeat split; auto; [apply Q..|congruence].
    - subst s'. split; [reflexivity|]. split; [reflexivity|]. split; [split; [intros X; discriminate X|intros [X|X]; [contradiction|discriminate X]]|]. split; [intros X; discriminate X|reflexivity].
    - pose proof (regularise_inv _ _ _ Gr) as Q. repeat split; auto; [apply Q..|congruence]. }
  destruct X as (X1 & X2 & X3 & X4 & X5). split; [exact A|]. split; [congruence|]. split; [rewrite B; exact X1|]. split; [rewrite M, X1, Lp; reflexivity|]. split; [exact X3|]. split; [exact G3|]. split; [|split].
  - intros [Nd|Nn] i j; rewrite B; cbn [lm_val matrix_of].
    + destruct (lc_new lc) eqn:En; [|rewrite (X5 eq_refl); reflexivity]. destruct (X4 eq_refl) as (_ & _ & V). rewrite V. destruct (dy_reg d) eqn:Ed; [exfalso; apply Nd, RI; reflexivity|reflexivity].
    + rewrite (X5 Nn). reflexivity.
  - intros Nd Nn i j. rewrite B. cbn [lm_val matrix_of]. destruct (X4 Nn) as (_ & _ & V). rewrite V, (proj2 RI Nd). cbn [andb]. destruct (Z.eqb_spec i 0) as [->|]; [|reflexivity]. destruct (Z.eqb_spec j 0) as [->|]; cbn [andb]; [ring|reflexivity].
  - intros T. rewrite T in G2. cbn in G2. rewrite G2, X2, Lr. reflexivity.
Qed.

Lemma exact_solve : forall g bc ip src, problem g bc ip src -> forall st s d, discretised g bc ip src st s d -> ip_spd g ip -> 0 < zlen g ->
  (no_dirichlet g bc -> connected g bc /\ balanced g bc src) ->
  forall K sv c sv' lc x, sv_grid sv = Some (g, st) -> call_for c bc ip src -> sv_solve K sv c = (sv', [lc], Ok tt) ->
  K (lc_type lc) (lc_op lc) (lc_prec lc) (lc_rhs lc) (lc_start lc) (lc_maxit lc) = (x, true) -> zlen x = unknowns st -> solved lc (unknowns st) x ->
  exists ps vs, sv_sol sv' = (ps, vs) /\ darcy_law g ip st x ps vs /\ conserving g src vs /\ flow_conditions g bc st x vs.
Proof.
  intros g bc ip src P st s d D Sp Hg Nb K sv c sv' lc x Eg Ec H EK Lx Hx. pose proof Ec as (Eb & Ei & Es). pose proof D as (Di & Da).
  destruct (success_converged K sv c sv' [lc] H) as (g1 & st1 & s1 & d1 & lc1 & x1 & E1 & _ & E2 & E3 & E4 & E5). rewrite Eg in E1. injection E1 as <- <-. injection E3 as <-. rewrite EK in E4. injection E4 as <-.
  rewrite Eb, Ei, Es, Da in E2. injection E2 as <- <-. rewrite Ei in E5. destruct (sv_sol sv') as (ps & vs) eqn:Esol. exists ps, vs. split; [reflexivity|].
  destruct (conserve_ok _ _ _ _ P _ _ _ D x Lx) as (ps' & vs' & E6 & _ & _ & Dl & Cn). rewrite E5 in E6. injection E6 as <- <-. split; [exact Dl|]. split; [exact Cn|].
  apply (solves_iff _ _ _ _ P _ _ _ D Sp x ps vs Lx E5).
  destruct (handed_system g bc ip src P st s d D K sv c sv' lc (Ok tt) Eg Ec H) as (_ & Er & _ & _ & _ & _ & V1 & V2 & _).
  assert (Same : (forall i j, lm_val (lc_op lc) i j = sy_val s i j) -> solves s (unknowns st) (nthR x)).
  { intros V i Hi. rewrite <- Er, <- (Hx i Hi). apply Sum_ext. intros j _. rewrite V. reflexivity. }
  destruct (lc_new lc) eqn:En; [|apply Same, V1; right; reflexivity]. pose proof (reg_iff _ _ _ _ P _ _ _ D) as RI. destruct (dy_reg d) eqn:Ed.
  - assert (Nd : no_dirichlet g bc) by (apply RI; reflexivity). destruct (Nb Nd) as (Cn' & Bal). destruct (reg_pd _ _ _ _ P _ _ _ D Sp Hg Nd Cn') as (s' & Rg & _ & Eq). destruct (regularise_inv _ _ _ Rg) as (_ & R1 & R2).
    apply (Eq (nthR x)); [|exact Bal]. intros i Hi. rewrite R1, <- Er, <- (Hx i Hi). apply Sum_ext. intros j _. rewrite R2, Ed, (V2 Nd eq_refl). cbn [andb]. destruct (Z.eqb_spec i 0) as [->|]; [|reflexivity]. destruct (Z.eqb_spec j 0) as [->|]; cbn [andb]; [ring|reflexivity].
  - apply Same, V1. left. intros Nd. apply RI in Nd. discriminate.
Qed.
