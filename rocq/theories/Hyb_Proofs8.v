From Verif Require Import BaseFacts RBaseFacts Lin_Facts Steady_Proofs Euler_Proofs2 Impl_Proofs Impl_Proofs5 Matx_Proofs Matx_Proofs2 Matx_Proofs3 Mim_Proofs Mim_Proofs2 Hnum_Proofs Hnum_Proofs2 Hyb_Spec Hyb_Proofs Hyb_Proofs2 Hyb_Proofs3 Hyb_Proofs4 Hyb_Proofs5 Hyb_Proofs6 Hyb_Proofs7.
Open Scope Z_scope.

Lemma finite_choice n (P : Z -> R -> Prop) : 0 <= n -> (forall i, 0 <= i < n -> exists y, P i y) -> exists l, zlen l = n /\ forall i, 0 <= i < n -> P i (nthR l i).
Proof.
  intros Hn. pattern n. apply natlike_ind; [|clear n Hn; intros n Hn IH H|exact Hn].
  - intros _. exists []. split; [reflexivity|intros; lia].
  - destruct IH as (l & L & Hl); [intros i Hi; apply H; lia|]. destruct (H n ltac:(lia)) as (y & Hy). exists (l ++ [y]). split; [rewrite zlen_app, L; reflexivity|]. intros i Hi.
    destruct (Z.eq_dec i n) as [->|Ni].
    + replace (nthR (l ++ [y]) n) with y; [exact Hy|]. symmetry. apply nthR_get. rewrite zget_app_r by lia. replace (n - zlen l) with 0 by lia. reflexivity.
    + destruct (zget_in_range l i ltac:(lia)) as (z & Gz). replace (nthR (l ++ [y]) i) with (nthR l i); [apply Hl; lia|]. rewrite (nthR_get _ _ _ Gz). symmetry. apply nthR_get. rewrite zget_app_l by lia. exact Gz.
Qed.

Lemma nthR_ext l l' : zlen l = zlen l' -> (forall i, 0 <= i < zlen l -> nthR l i = nthR l' i) -> l = l'.
Proof.
  intros L H. apply zlist_ext; [exact L|]. intros i Hi. destruct (zget_in_range l i Hi) as (a & Ga). destruct (zget_in_range l' i ltac:(lia)) as (b & Gb). rewrite Ga, Gb. f_equal. rewrite <- (nthR_get _ _ _ Ga), <- (nthR_get _ _ _ Gb). apply H. exact Hi.
Qed.
Lemma Sum_1 f : Sum 1 f = f 0.
Proof. apply (Sum_pick 1 0 f); [lia|intros; lia]. Qed.
Section Main.
Variables (g : list hcell) (bc : hbc) (ip : hip) (src : list R).
Hypothesis PB : problem g bc ip src.
Lemma disc_ex : exists st s d, discretised g bc ip src st s d.
Proof. destruct PB as (A & B & C & D & E). destruct (init_ok g bc A B C) as (st & E1 & HS). destruct (assemble_ok g bc st ip src HS D E) as (s & d & E2 & _). exists st, s, d. split; assumption. Qed.
Variables (st : hstruct) (s : hsys) (d : hdyn).
Hypothesis DI : discretised g bc ip src st s d.
Notation N := (num st).
Notation total := (unknowns st).
Lemma d_HS : structured g bc st.
Proof. destruct PB as (A & B & C & D & E). destruct (init_ok g bc A B C) as (st' & E1 & HS). destruct DI as (Q & _). rewrite E1 in Q. injection Q as ->. exact HS. Qed.
Lemma d_HI : ip_shaped g ip. Proof. apply PB. Qed.
Lemma d_all : sysok total (hs_pat st) s /\ dynok g bc ip src (zlen g) d /\ forall x i, rsd total s x i = S2 g (fun k r => contrib g bc st ip src k r x i).
Proof. destruct PB as (A & B & C & D & E). destruct (assemble_ok g bc st ip src d_HS D E) as (s' & d' & E2 & H). destruct DI as (_ & Q). rewrite E2 in Q. injection Q as -> ->. exact H. Qed.
Lemma d_rec soln : zlen soln = total -> exists ps vs, recover g st ip d soln = Ok (ps, vs) /\ zlen ps = zlen g /\ half_table g vs /\
  (forall k, 0 <= k < zlen g -> nthR ps k = prs g st ip src (nthR soln) k) /\ (forall k r, half g k r -> at2 vs k r = flx g st ip src (nthR soln) k r).
Proof. apply (recover_ok g bc st ip src d d_HS d_HI (proj1 (proj2 d_all))). Qed.
Lemma d_rec' soln ps vs : zlen soln = total -> recover g st ip d soln = Ok (ps, vs) -> zlen ps = zlen g /\ half_table g vs /\
  (forall k, 0 <= k < zlen g -> nthR ps k = prs g st ip src (nthR soln) k) /\ (forall k r, half g k r -> at2 vs k r = flx g st ip src (nthR soln) k r).
Proof. intros L E. destruct (d_rec soln L) as (ps' & vs' & E' & H). rewrite E' in E. injection E as -> ->. exact H. Qed.
(* C66 *)
Lemma conserve_ok soln : zlen soln = total -> exists ps vs, recover g st ip d soln = Ok (ps, vs) /\ zlen ps = zlen g /\ half_table g vs /\ darcy_law g ip st soln ps vs /\ conserving g src vs.
Proof.
  intros L. destruct (d_rec soln L) as (ps & vs & E & A & B & C & D). exists ps, vs. split; [exact E|]. split; [exact A|]. split; [exact B|]. split.
  - intros k r Hh. rewrite (D k r Hh). rewrite (C k) by apply Hh. reflexivity.
  - intros k Hk. rewrite (Sum_ext (nfaces g k) _ (flx g st ip src (nthR soln) k)) by (intros r Hr; apply D; split; assumption). apply flx_sum; [exact d_HI|exact Hk].
Qed.
Lemma reg_ok : 0 < total -> exists s', regularise s d = Ok s' /\ sy_rhs s' = sy_rhs s /\ forall i j, sy_val s' i j = if dy_reg d && (i =? 0) && (j =? 0) then (sy_val s 0 0 * 2)%R else sy_val s i j.
Proof.
  intros H0. unfold regularise. destruct (dy_reg d); [|exists s; auto]. unfold sy_put. assert (P : sy_has s 0 0 = true).
  { unfold sy_has. destruct d_all as ((-> & _) & _). destruct (num_onto g bc st d_HS 0 ltac:(unfold unknowns in H0; lia)) as (k & r & Hh & E). destruct d_HS as (_ & _ & _ & _ & P & _). destruct (P k r r Hh Hh) as (row & G & I). rewrite E in G, I. rewrite G. apply existsb_In. exact I. }
  rewrite P. eexists. split; [reflexivity|]. split; [reflexivity|]. intros i j. reflexivity.
Qed.
(* C66 for the whole solve *)
Lemma solve_conserves lt same lin : 0 <= lt <= 3 -> 0 < total -> (forall s, zlen (lin s) = total) -> exists ps vs, hybrid_solve g bc st ip src lt same lin = Ok (ps, vs) /\ conserving g src vs.
Proof.
  intros Hl H0 HL. unfold hybrid_solve. destruct DI as (_ & ->). cbn [bind]. destruct (reg_ok H0) as (s' & Er & _). 
  assert (X : exists s2, (if lt =? 0 then regularise s d else if (1 <=? lt) && (lt <=? 3) then if same then Ok s else regularise s d else Throw) = Ok s2).
  { destruct (Z.eqb_spec lt 0); [exists s'; exact Er|]. replace ((1 <=? lt) && (lt <=? 3)) with true by (symmetry; apply andb_true_intro; lia). destruct same; eexists; [reflexivity|exact Er]. }
  destruct X as (s2 & ->). cbn [bind]. destruct (conserve_ok (lin s2) (HL s2)) as (ps & vs & E & _ & _ & _ & C). exists ps, vs. split; [exact E|exact C].
Qed.
Lemma solve_unknown lt same lin : lt < 0 \/ 3 < lt -> hybrid_solve g bc st ip src lt same lin = Throw.
Proof.
  intros Hl. unfold hybrid_solve. destruct DI as (_ & ->). cbn [bind]. destruct (Z.eqb_spec lt 0); [lia|]. replace ((1 <=? lt) && (lt <=? 3)) with false by (symmetry; apply andb_false_iff; lia). reflexivity.
Qed.
Lemma sym_ok : symmetric total (sy_val s). Proof. intros i j. apply (matrix_sym g bc st ip src s d_HS (proj2 (proj2 d_all))). Qed.
Hypothesis SP : ip_spd g ip.
Lemma cond_solves x :
  (forall k r k' r', half g k r -> half g k' r' -> twins g k r k' r' -> (flx g st ip src x k r + flx g st ip src x k' r' = 0)%R) ->
  (forall k r p, half g k r -> cond_at g bc k r = Some (CDirichlet p) -> x (N k r) = p) ->
  (forall k r q, half g k r -> cond_at g bc k r = Some (CNeumann q) -> flx g st ip src x k r = q) ->
  (forall k r k' r' d, partners g bc k r k' r' -> cond_at g bc k r = Some (CPeriodic d) -> (x (N k r) - x (N k' r') = d)%R /\ (flx g st ip src x k r + flx g st ip src x k' r' = 0)%R) ->
  solves s total x.
Proof.
  intros C1 C2 C3 C4 n Hn. pose proof d_HS as HS. pose proof (HST g bc st HS) as ST. assert (Z0 : rsd total s x n = 0%R); [|unfold rsd in Z0; lra]. destruct d_all as (_ & _ & ->). destruct (num_onto g bc st HS n Hn) as (k & r & Hh & <-).
  assert (Y : forall k c, half g k c -> yv g bc st k x c = x (N k c)).
  { intros k1 c Hc. unfold yv. destruct (cond_at g bc k1 c) as [[p|dd|q]|] eqn:Ec; [symmetry; apply (C2 k1 c p Hc Ec)| |reflexivity|reflexivity].
    destruct (pfn_per g bc st HS k1 c dd (conj Hc Ec)) as (k' & r' & P & Epf & _). rewrite Epf. destruct (_ <? _); [|reflexivity]. destruct (C4 k1 c k' r' dd P Ec) as (J & _). lra. }
  assert (F : forall k r, half g k r -> rowres g bc st ip src k r x = (qv_of g bc k r - flx g st ip src x k r)%R) by (intros k1 r1 H1; rewrite (flx_rowres g bc st ip src d_HI SP x k1 r1 H1) by (intros c Hc; apply Y; exact Hc); ring).
  destruct (nbr g k r) as [c|] eqn:Nb.
  - destruct ST as ((_ & _ & Sy & _) & _). destruct (Sy k r c Hh Nb) as (_ & k' & r' & Hh' & Ei & Nb'). assert (T : twins g k r k' r') by (split; [rewrite Ei; exact Nb|exact Nb']).
    rewrite (eq_inner g bc st ip src HS x k r k' r' Hh Hh' T), !F by assumption. pose proof (C1 _ _ _ _ Hh Hh' T). unfold qv_of, cond_at. destruct T as (-> & ->). lra.
  - destruct (per_dec g bc _ ST k r Hh) as [(k' & r' & P)|Np].
    + pose proof P as (dd & d' & Pd & Pd' & _). destruct (C4 k r k' r' dd P (proj2 Pd)) as (J & W). rewrite (eq_pair g bc st ip src HS x k r k' r' dd _ P Pd) by auto. rewrite !F by (apply Pd || apply Pd'). unfold qv_of. rewrite (proj2 Pd), (proj2 Pd').
      replace (x (N k r) - x (N k' r') - dd)%R with 0%R by lra. replace (0 - flx g st ip src x k r + (0 - flx g st ip src x k' r'))%R with 0%R by lra. ring.
    + rewrite (eq_single g bc st ip src HS x k r Hh Nb Np). unfold contrib. destruct (cond_at g bc k r) as [[p|dd|q]|] eqn:Ec.
      * rewrite (C2 k r p Hh Ec). ring.
      * exfalso. exact (Np dd (conj Hh Ec)).
      * change (ident (N k r) (N k r) * rowres g bc st ip src k r x = 0)%R. rewrite F by exact Hh. unfold qv_of. rewrite Ec, (C3 k r q Hh Ec). ring.
      * unfold cond_at in Ec. rewrite Nb in Ec. discriminate.
Qed.
(* C67, C68 *)
Lemma solves_iff soln ps vs : zlen soln = total -> recover g st ip d soln = Ok (ps, vs) -> (solves s total (nthR soln) <-> flow_conditions g bc st soln vs).
Proof.
  intros L E. destruct (d_rec' soln ps vs L E) as (_ & _ & _ & D). pose proof d_HS as HS. destruct d_all as (_ & _ & Hrs). split.
  - intros Hx. split; [|split; [|split]].
    + intros k r k' r' Hh Hh' T. rewrite !D by assumption. apply (sol_inner g bc st ip src HS d_HI SP s _ Hrs Hx); assumption.
    + intros k r p Hh Ec. apply (sol_dirichlet g bc st ip src HS d_HI SP s _ Hrs Hx); assumption.
    + intros k r q Hh Ec. rewrite D by exact Hh. apply (sol_neumann g bc st ip src HS d_HI SP s _ Hrs Hx); assumption.
    + intros k r k' r' dd P Ec. pose proof (partners_half g bc _ _ _ _ P) as (Hh & Hh' & _). rewrite !D by assumption. split.
      * apply (sol_pair g bc st ip src HS d_HI SP s _ Hrs Hx k r k' r' dd P). split; assumption.
      * apply (sol_pair_flx g bc st ip src HS d_HI SP s _ Hrs Hx); assumption.
  - intros (C1 & C2 & C3 & C4). apply cond_solves.
    + intros k r k' r' Hh Hh' T. rewrite <- !D by assumption. apply C1; assumption.
    + exact C2.
    + intros k r q Hh Ec. rewrite <- D by exact Hh. apply C3; assumption.
    + intros k r k' r' dd P Ec. pose proof (partners_half g bc _ _ _ _ P) as (Hh & Hh' & _). rewrite <- !D by assumption. apply C4; assumption.
Qed.
Lemma psd_ok : nonneg_form total (sy_val s). Proof. apply (matrix_psd g bc st ip src s d_HS (proj2 (proj2 d_all)) d_HI SP). Qed.
Lemma pd_ok : anchored g bc -> positive_form total (sy_val s). Proof. apply (matrix_definite g bc st ip src s d_HS (proj2 (proj2 d_all)) d_HI SP). Qed.
(* two solutions *)
Lemma diff_quad x y : solves s total x -> solves s total y -> quad total (sy_val s) (fun i => x i - y i)%R = 0%R.
Proof.
  intros Hx Hy. unfold quad, dot. apply Sum_zero. intros i Hi. unfold mvec. rewrite (Sum_ext total _ (fun j => sy_val s i j * x j - sy_val s i j * y j)%R) by (intros; ring). rewrite Sum_minus, (Hx i Hi), (Hy i Hi). ring.
Qed.
Lemma flux_unique x y : solves s total x -> solves s total y -> forall k r, half g k r -> flx g st ip src x k r = flx g st ip src y k r.
Proof.
  intros Hx Hy k r (Hk & Hr). destruct (kernel g bc st ip src s d_HS (proj2 (proj2 d_all)) d_HI SP _ (diff_quad x y Hx Hy)) as (t & Ht & _). cbn beta in Ht.
  assert (Q : (prs g st ip src x k - prs g st ip src y k = t k)%R).
  { unfold prs. pose proof (Lk_nz g ip d_HI k Hk) as NL. assert (E : (Sum (nfaces g k) (fun r => Fk g ip k r * x (N k r)) - Sum (nfaces g k) (fun r => Fk g ip k r * y (N k r)) = t k * Lk g ip k)%R).
    { rewrite <- Sum_minus. rewrite (Sum_ext (nfaces g k) _ (fun r => t k * Fk g ip k r)%R); [rewrite Sum_scal; reflexivity|]. intros c Hc. rewrite <- (Ht k c (conj Hk Hc)). ring. }
    set (A := Sum (nfaces g k) (fun r => Fk g ip k r * x (N k r))%R) in *. set (B := Sum (nfaces g k) (fun r => Fk g ip k r * y (N k r))%R) in *. replace A with (B + t k * Lk g ip k)%R by lra. field. exact NL. }
  unfold flx. f_equal. apply Sum_ext. intros c Hc. pose proof (Ht k c (conj Hk Hc)). f_equal. lra.
Qed.
Lemma fluxes_unique x y ps vs ps' vs' : zlen x = total -> zlen y = total -> solves s total (nthR x) -> solves s total (nthR y) -> recover g st ip d x = Ok (ps, vs) -> recover g st ip d y = Ok (ps', vs') ->
  (forall k r, half g k r -> at2 vs k r = at2 vs' k r) /\ (anchored g bc -> x = y /\ ps = ps').
Proof.
  intros Lx Ly Hx Hy Ex Ey. destruct (d_rec' x ps vs Lx Ex) as (_ & _ & _ & D). destruct (d_rec' y ps' vs' Ly Ey) as (_ & _ & _ & D'). split.
  - intros k r Hh. rewrite D, D' by exact Hh. apply flux_unique; assumption.
  - intros An. assert (X : x = y); [|split; [exact X|]; subst y; rewrite Ex in Ey; injection Ey as -> _; reflexivity]. apply nthR_ext; [congruence|]. intros i Hi. 
    destruct (Req_EM_T (nthR x i) (nthR y i)) as [E|Ne]; [exact E|]. exfalso. pose proof (pd_ok An (fun i => nthR x i - nthR y i)%R) as P. cbn beta in P. rewrite (diff_quad _ _ Hx Hy) in P. assert (0 < 0)%R; [|lra]. apply P. exists i. split; [lia|lra].
Qed.
(* C71, C72 are above; C114 *)
Lemma reg_iff : dy_reg d = true <-> no_dirichlet g bc.
Proof. destruct d_all as (_ & (_ & _ & _ & _ & _ & ->) & _). split; [intros H k r p Hh; apply (H k r p); [apply Hh|exact Hh]|intros H k r p _ Hh; apply H; exact Hh]. Qed.
Lemma total_pos : 0 < zlen g -> 0 < total.
Proof. intros Hz. pose proof (total_2 g bc st ip d_HS SP Hz). unfold unknowns. lia. Qed.
Lemma reg_dirichlet : ~ no_dirichlet g bc -> regularise s d = Ok s.
Proof. intros Nd. unfold regularise. destruct (dy_reg d) eqn:E; [|reflexivity]. exfalso. apply Nd, reg_iff. exact E. Qed.
Lemma reg_pd : 0 < zlen g -> no_dirichlet g bc -> connected g bc -> exists s', regularise s d = Ok s' /\ positive_form total (sy_val s') /\
  forall x, solves s' total x -> (solves s total x <-> Sum (zlen g) (fun k => nthR src (idx g k)) = Sum (zlen g) (fun k => Sum (nfaces g k) (outflux_at g bc k))) /\ (solves s total x -> x 0 = 0%R).
Proof.
  intros Hz Nd Co. pose proof (total_pos Hz) as T0. destruct (reg_ok T0) as (s' & E & Er & Ev). rewrite (proj2 reg_iff Nd) in Ev. cbn [andb] in Ev. exists s'. split; [exact E|].
  destruct d_all as (_ & _ & Hrs). split.
  - apply (reg_definite g bc st ip src s d_HS Hrs d_HI SP s' Ev T0 Co).
  - intros x Hx. apply (reg_solution g bc st ip src s d_HS Hrs d_HI SP s' Ev Er Nd T0 x Co Hx).
Qed.
Lemma reg_compat s' x y : 0 < zlen g -> connected g bc -> regularise s d = Ok s' -> solves s total y -> solves s' total x -> solves s total x.
Proof.
  intros Hz Co E Hy Hx. destruct (dy_reg d) eqn:Ed; [|unfold regularise in E; rewrite Ed in E; injection E as <-; exact Hx]. pose proof (proj1 reg_iff Ed) as Nd. destruct (reg_pd Hz Nd Co) as (s2 & E2 & _ & H). rewrite E2 in E. injection E as ->. destruct (H x Hx) as (I & _). apply I. clear I H.
  pose proof (rhs_total g bc st ip src s d_HS (proj2 (proj2 d_all)) d_HI SP Nd) as R. assert (Z0 : Sum total (nthR (sy_rhs s)) = 0%R).
  { rewrite <- (Sum_ext total (fun i => Sum total (fun j => sy_val s i j * y j))%R) by (intros i Hi; apply Hy; exact Hi). rewrite Sum_swap. apply Sum_zero. intros j Hj. rewrite Sum_scal_r. unfold unknowns. rewrite (const_kernel_col g bc st ip src s d_HS (proj2 (proj2 d_all)) d_HI SP j Nd Hj). ring. }
  unfold unknowns in Z0. rewrite Z0 in R. unfold S2 in R. lra.
Qed.
End Main.

(* C115: the patch test *)
Section Patch.
Variables (dim : Z) (orth : mat -> mat) (g : list hcell) (bc : hbc) (geo : Z -> mcell) (K : mat) (mob : R) (ip : hip) (p0 : R) (a : Z -> R).
Hypothesis HG : geometry dim g geo.
Hypothesis HH : homogeneous dim orth g geo K mob ip.
Lemma two_faces k : 0 <= k < zlen g -> 2 <= nfaces g k.
Proof.
  intros Hk. destruct HG as (G & _). destruct (G k Hk) as ((D0 & _ & V & _) & Cl & L & S0). pose proof (Cl 0 0 ltac:(lia) ltac:(lia)) as C. rewrite L in C. specialize (S0 0 ltac:(lia)). unfold ident in C. cbn [Z.eqb] in C.
  assert (0 <= nfaces g k) by apply zlen_nonneg. destruct (Z.eq_dec (nfaces g k) 0) as [E|]; [exfalso; rewrite E in C; change (Sum 0 _) with 0%R in C; lra|]. destruct (Z.eq_dec (nfaces g k) 1) as [E|]; [exfalso|lia].
  rewrite E in *. rewrite Sum_1 in C. rewrite Sum_1 in S0. rewrite S0 in C. lra.
Qed.
Lemma hom_cell k : 0 <= k < zlen g -> shaped (ip_binv ip (idx g k)) FOrd (nfaces g k) (nfaces g k) /\ symmetric (nfaces g k) (Bk g ip k) /\ positive_form (nfaces g k) (Bk g ip k) /\
  forall i, 0 <= i < nfaces g k -> mvec (nfaces g k) (Bk g ip k) (pressure_drop dim (geo k) p0 a) i = darcy_flux dim (geo k) mob (entry K) a i.
Proof.
  intros Hk. destruct HG as (G & _). destruct (G k Hk) as (Wf & Cl & L & _). destruct HH as (SK & KS & KP & Mp & HC). destruct (HC k Hk) as (La & (Binv & fa & T1 & T2 & out & B & S1 & S2 & S3 & S4 & S5 & EB & Ei) & _). unfold Bk. rewrite Ei. rewrite <- L in *.
  destruct (matrix_ok dim orth (geo k) K Wf La Binv fa T1 T2 out mob SK S1 S2 S3 S4 S5) as (q & B0 & E0 & _ & _ & Sh & _). rewrite EB in E0. injection E0 as <-.
  destruct (iso_symmetric dim orth (geo k) K Binv fa T1 T2 out mob Wf La SK S1 S2 S3 S4 S5 KS) as (B1 & E1 & Sy). rewrite EB in E1. injection E1 as <-.
  destruct (iso_pd dim orth (geo k) K Binv fa T1 T2 out mob Wf La SK S1 S2 S3 S4 S5 Cl KP Mp) as (B2 & E2 & Pd). rewrite EB in E2. injection E2 as <-.
  destruct (iso_exact dim orth (geo k) K Binv fa T1 T2 out mob Wf La SK S1 S2 S3 S4 S5 Cl) as (B3 & E3 & Ex). rewrite EB in E3. injection E3 as <-.
  split; [exact Sh|]. split; [exact Sy|]. split; [exact Pd|]. intros i Hi. apply Ex. exact Hi.
Qed.
Lemma hom_spd : ip_spd g ip.
Proof. intros k Hk. split; [apply two_faces; exact Hk|]. destruct (hom_cell k Hk) as (_ & A & B & _). split; assumption. Qed.
Lemma hom_shaped : ip_shaped g ip.
Proof.
  intros k Hk. destruct (hom_cell k Hk) as (A & _ & B & _). split; [exact A|]. split.
  - destruct HH as (_ & _ & _ & _ & HC). destruct (HC k Hk) as (_ & _ & ->). apply zlen_zrepeat. apply zlen_nonneg.
  - pose proof (two_faces k Hk) as T2. specialize (B (fun _ => 1%R)). assert (P : (0 < quad (nfaces g k) (Bk g ip k) (fun _ => 1))%R) by (apply B; exists 0; split; [lia|lra]).
    unfold quad, dot, mvec in P. intros Q. rewrite (Sum_ext (nfaces g k) _ (fun i => Sum (nfaces g k) (Bk g ip k i))) in P; [lra|]. intros i Hi. rewrite Rmult_1_l. apply Sum_ext. intros; ring.
Qed.
Hypothesis Hc : conforming g.
Hypothesis Hn : counts_agree g.
Hypothesis Hp : periodic_ok g bc.
Hypothesis HB : linear_bc dim g bc geo K mob p0 a.
Notation src := (zrepeat 0%R (zlen g)).
Lemma hom_problem : problem g bc ip src.
Proof. split; [exact Hc|]. split; [exact Hn|]. split; [exact Hp|]. split; [exact hom_shaped|]. apply zlen_zrepeat. apply zlen_nonneg. Qed.
Variables (st : hstruct) (s : hsys) (d : hdyn).
Hypothesis DI : discretised g bc ip src st s d.
Notation lp := (linear_pressure dim p0 a).
Definition exact_at (x : Z -> R) : Prop := forall k r, half g k r -> x (num st k r) = lp (mf_cen (face (geo k) r)).
Lemma darcy_opp k r k' r' : (forall b, 0 <= b < dim -> areavec (geo k) r b = (- areavec (geo k') r' b)%R) -> (darcy_flux dim (geo k) mob (entry K) a r + darcy_flux dim (geo k') mob (entry K) a r' = 0)%R.
Proof.
  intros H. unfold darcy_flux, dot. rewrite (Sum_ext dim (fun i => areavec (geo k) r i * mvec dim (entry K) a i)%R (fun i => - (areavec (geo k') r' i * mvec dim (entry K) a i))%R) by (intros b Hb; rewrite H by exact Hb; ring). rewrite Sum_opp. ring.
Qed.
Lemma exact_prs x k : exact_at x -> 0 <= k < zlen g -> prs g st ip src x k = lp (mc_cen (geo k)) /\ forall r, half g k r -> flx g st ip src x k r = darcy_flux dim (geo k) mob (entry K) a r.
Proof.
  intros Hx Hk. destruct (hom_cell k Hk) as (_ & Sy & _ & Ex). pose proof (Lk_nz g ip hom_shaped k Hk) as NL.
  assert (G0 : forall r, 0 <= r < nfaces g k -> gfl g ip k r = 0%R).
  { intros r Hr. unfold gfl. destruct HH as (_ & _ & _ & _ & HC). destruct (HC k Hk) as (_ & _ & ->). apply nthR_get. apply zget_zrepeat. exact Hr. }
  assert (Gz : Gk g ip src k = 0%R).
  { unfold Gk. rewrite Sum_zero by exact G0. rewrite (nthR_get _ _ 0%R); [ring|]. apply zget_zrepeat. apply Hc. exact Hk. }
  assert (D0 : Sum (nfaces g k) (darcy_flux dim (geo k) mob (entry K) a) = 0%R).
  { unfold darcy_flux. rewrite Sum_opp, Sum_scal. unfold dot. rewrite Sum_swap. rewrite Sum_zero; [ring|]. intros b Hb. rewrite Sum_scal_r. destruct HG as (G & _). destruct (G k Hk) as (_ & _ & _ & S0). rewrite S0 by exact Hb. ring. }
  assert (P : prs g st ip src x k = lp (mc_cen (geo k))).
  { unfold prs. rewrite Gz. apply Rmult_eq_reg_r with (Lk g ip k); [|exact NL]. unfold Rdiv. rewrite Rmult_assoc, Rinv_l, Rmult_1_r, Rplus_0_l by exact NL.
    apply Rminus_diag_uniq. rewrite <- Ropp_0, <- D0, <- Sum_opp. 
    rewrite (Sum_ext (nfaces g k) (fun i => - darcy_flux dim (geo k) mob (entry K) a i)%R (fun i => Sum (nfaces g k) (fun c => Bk g ip k i c * (x (num st k c) - lp (mc_cen (geo k)))))%R).
    2:{ intros i Hi. rewrite <- (Ex i Hi). unfold mvec. rewrite <- Sum_opp. apply Sum_ext. intros c Hcc. rewrite (Hx k c (conj Hk Hcc)). unfold pressure_drop, linear_pressure. ring. }
    rewrite Sum_swap. unfold Lk, Ll. rewrite <- Sum_scal, <- Sum_minus. apply Sum_ext. intros c Hcc. rewrite Sum_scal_r. unfold Fk, Fl. ring. }
  split; [exact P|]. intros r (_ & Hr). unfold flx. rewrite (G0 r Hr), P, Rplus_0_l. rewrite <- (Ex r Hr). unfold mvec. apply Sum_ext. intros c Hcc. rewrite (Hx k c (conj Hk Hcc)). reflexivity.
Qed.
Lemma exact_solves x : exact_at x -> solves s (unknowns st) x.
Proof.
  intros Hx. assert (F : forall k r, half g k r -> flx g st ip src x k r = darcy_flux dim (geo k) mob (entry K) a r) by (intros k r Hh; apply (exact_prs x k Hx (proj1 Hh)); exact Hh).
  destruct HB as (B1 & B2 & B3). apply (cond_solves g bc ip src hom_problem st s d DI hom_spd).
  - intros k r k' r' Hh Hh' T. rewrite !F by assumption. apply darcy_opp. destruct HG as (_ & G). apply (G k r k' r' Hh Hh' T).
  - intros k r p Hh Ec. rewrite (Hx k r Hh). symmetry. apply (B1 k r p Hh Ec).
  - intros k r q Hh Ec. rewrite F by exact Hh. symmetry. apply (B2 k r q Hh Ec).
  - intros k r k' r' dd P Ec. pose proof (partners_half g bc _ _ _ _ P) as (Hh & Hh' & _). destruct (B3 k r k' r' dd P Ec) as (E & O). rewrite (Hx k r Hh), (Hx k' r' Hh'). split; [symmetry; exact E|]. rewrite !F by assumption. apply darcy_opp. exact O.
Qed.
Lemma exact_ex : exists x, zlen x = unknowns st /\ exact_at (nthR x).
Proof.
  pose proof (d_HS g bc ip src hom_problem st s d DI) as HS. pose proof (HST g bc st HS) as ST. destruct (finite_choice (unknowns st) (fun n y => forall k r, half g k r -> num st k r = n -> y = lp (mf_cen (face (geo k) r)))) as (x & L & H).
  - apply ST.
  - intros n Hn0. destruct (num_onto g bc st HS n Hn0) as (k & r & Hh & E). exists (lp (mf_cen (face (geo k) r))). intros k' r' Hh' E'. destruct (num_same g bc _ ST k r k' r' Hh Hh') as [(-> & ->)|T]; [unfold num in *; congruence|reflexivity|]. destruct HG as (_ & G). destruct (G k r k' r' Hh Hh' T) as (-> & _). reflexivity.
  - exists x. split; [exact L|]. intros k r Hh. apply (H (num st k r)); [apply (nrange g bc st HS); exact Hh|exact Hh|reflexivity].
Qed.
Lemma patch_ok : (exists x, zlen x = unknowns st /\ solves s (unknowns st) (nthR x)) /\
  forall x ps vs, zlen x = unknowns st -> solves s (unknowns st) (nthR x) -> recover g st ip d x = Ok (ps, vs) ->
    (forall k r, half g k r -> at2 vs k r = darcy_flux dim (geo k) mob (entry K) a r) /\
    (anchored g bc -> (forall k, 0 <= k < zlen g -> nthR ps k = lp (mc_cen (geo k))) /\ (forall k r, half g k r -> nthR x (num st k r) = lp (mf_cen (face (geo k) r)))).
Proof.
  destruct exact_ex as (y & Ly & Ey). pose proof (exact_solves _ Ey) as Sy. split; [exists y; auto|]. intros x ps vs Lx Sx E.
  destruct (d_rec g bc ip src hom_problem st s d DI y Ly) as (ps' & vs' & E' & _ & _ & Pp & D). destruct (fluxes_unique g bc ip src hom_problem st s d DI hom_spd x y ps vs ps' vs' Lx Ly Sx Sy E E') as (A & B). split.
  - intros k r Hh. rewrite A, D by exact Hh. apply (exact_prs _ k Ey (proj1 Hh)). exact Hh.
  - intros An. destruct (B An) as (-> & ->). split; [intros k Hk; rewrite Pp by exact Hk; apply (exact_prs _ k Ey Hk)|exact Ey].
Qed.
Lemma patch_reg s' x ps vs : 0 < zlen g -> connected g bc -> regularise s d = Ok s' -> zlen x = unknowns st -> solves s' (unknowns st) (nthR x) -> recover g st ip d x = Ok (ps, vs) ->
  forall k r, half g k r -> at2 vs k r = darcy_flux dim (geo k) mob (entry K) a r.
Proof.
  intros Hz Co E Lx Sx Er. destruct patch_ok as ((y & _ & Sy) & H). apply (H x ps vs Lx); [|exact Er]. apply (reg_compat g bc ip src hom_problem st s d DI hom_spd s' _ _ Hz Co E Sy Sx).
Qed.
End Patch.
