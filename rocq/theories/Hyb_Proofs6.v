From Verif Require Import BaseFacts RBaseFacts Lin_Facts Steady_Proofs Euler_Proofs2 Impl_Proofs Impl_Proofs5 Matx_Proofs Matx_Proofs2 Matx_Proofs3 Mim_Proofs Mim_Proofs2 Hnum_Proofs Hnum_Proofs2 Hyb_Spec Hyb_Proofs Hyb_Proofs2 Hyb_Proofs3 Hyb_Proofs4 Hyb_Proofs5.
Open Scope Z_scope.

Lemma Rminus_eq_iff a b : a = b <-> (a - b = 0)%R.
Proof. split; intros; lra. Qed.
Section Form.
Variables (g : list hcell) (bc : hbc) (st : hstruct) (ip : hip) (src : list R) (s : hsys).
Hypothesis HS : structured g bc st.
Notation N := (num st).
Notation total := (nm_total (hs_num st)).
Notation pfn := (pf (hs_pp st)).
Notation repn := (rep (hs_pp st)).
Notation nf := (nfaces g).
Notation Sk := (Sk g ip).
Notation contrib := (contrib g bc st ip src). Notation rowres := (rowres g bc st ip src). Notation yv := (yv g bc st).
Hypothesis Hrs : forall x i, rsd total s x i = S2 g (fun k r => contrib k r x i).
Definition zv (k : Z) (x : Z -> R) (c : Z) : R := match cond_at g bc k c with Some (CDirichlet _) => 0%R | _ => x (repn (N k c)) end.
Lemma yv_lin k x c : half g k c -> (yv k x c - yv k (fun _ => 0) c)%R = zv k x c.
Proof.
  intros Hh. unfold yv, Hyb_Proofs4.yv, zv. destruct (cond_at g bc k c) as [[p|d|q]|] eqn:Ec; [ring| |rewrite (rep_other g bc st HS k c Hh) by (rewrite Ec; discriminate); ring..].
  destruct (pfn_per g bc st HS k c d (conj Hh Ec)) as (k' & r' & P & Epf & _ & Er & _). rewrite Epf, Er. destruct (Z.ltb_spec (N k' r') (N k c)); [rewrite Z.min_r by lia|rewrite Z.min_l by lia]; ring.
Qed.
Definition extra (k r : Z) (u x : Z -> R) : R :=
  match cond_at g bc k r with
  | Some (CDirichlet _) => (Sk k r r * (u (N k r) * x (N k r)))%R
  | Some (CPeriodic _) => (Sk k r r * ((u (N k r) - u (pfn (N k r))) * (x (N k r) - x (pfn (N k r)))))%R
  | _ => 0%R
  end.
Lemma row_lin k r x : half g k r -> (rowres k r x - rowres k r (fun _ => 0))%R = Sum (nf k) (fun c => Sk k r c * zv k x c)%R.
Proof.
  intros Hh. unfold rowres, Hyb_Proofs4.rowres. rewrite (Sum_ext (nf k) (fun c => Sk k r c * zv k x c)%R (fun c => Sk k r c * yv k x c - Sk k r c * yv k (fun _ => 0%R) c)%R).
  - rewrite Sum_minus. ring.
  - intros c Hc. rewrite <- yv_lin by (split; [apply Hh|exact Hc]). ring.
Qed.
Lemma Sum_pt u i (a : R) : 0 <= i < total -> Sum total (fun j => u j * (ident j i * a))%R = (u i * a)%R.
Proof. intros Hi. rewrite (Sum_ext total _ (fun j => (u j * a) * ident j i)%R) by (intros; ring). rewrite (Sum_ident_r total i (fun j => u j * a)%R) by exact Hi. reflexivity. Qed.
Lemma contrib_form k r u x : half g k r -> Sum total (fun i => u i * (contrib k r x i - contrib k r (fun _ => 0) i))%R = (extra k r u x + zv k u r * Sum (nf k) (fun c => Sk k r c * zv k x c))%R.
Proof.
  intros Hh. pose proof (nrange g bc st HS k r Hh) as Rn. pose proof (row_lin k r x Hh) as RL. unfold extra, zv at 1. unfold contrib, Hyb_Proofs4.contrib. fold (rowres k r x). fold (rowres k r (fun _ => 0%R)).
  destruct (cond_at g bc k r) as [[p|d|q]|] eqn:Ec.
  - rewrite (Sum_ext total _ (fun i => u i * (ident i (N k r) * (Sk k r r * x (N k r))))%R) by (intros; ring). rewrite Sum_pt by exact Rn. ring.
  - destruct (pfn_per g bc st HS k r d (conj Hh Ec)) as (k' & r' & P & Epf & Hh' & Er & _). pose proof (nrange g bc st HS k' r' Hh') as Rn'. rewrite Epf. pose proof (rrange g bc st HS k r Hh) as Rr.
    rewrite <- RL. rewrite (Sum_ext total _ (fun i => (u i * (ident i (N k r) * (Sk k r r * (x (N k r) - x (N k' r')))) + u i * (ident i (N k' r') * - (Sk k r r * (x (N k r) - x (N k' r'))))) + u i * (ident i (repn (N k r)) * (rowres k r x - rowres k r (fun _ => 0))))%R) by (intros; ring).
    rewrite !Sum_plus, !Sum_pt by assumption. ring.
  - rewrite (rep_other g bc st HS k r Hh) by (rewrite Ec; discriminate). rewrite (Sum_ext total _ (fun i => u i * (ident i (N k r) * (rowres k r x - rowres k r (fun _ => 0))))%R) by (intros; ring). rewrite Sum_pt, RL by exact Rn. ring.
  - rewrite (rep_other g bc st HS k r Hh) by (rewrite Ec; discriminate). rewrite (Sum_ext total _ (fun i => u i * (ident i (N k r) * (rowres k r x - rowres k r (fun _ => 0))))%R) by (intros; ring). rewrite Sum_pt, RL by exact Rn. ring.
Qed.
Lemma lin_rsd x i : Sum total (fun j => sy_val s i j * x j)%R = (rsd total s x i - rsd total s (fun _ => 0) i)%R.
Proof. rewrite rsd_0. unfold rsd. ring. Qed.
(* the bilinear form of the assembled matrix *)
Lemma form_ok u x : Sum total (fun i => u i * Sum total (fun j => sy_val s i j * x j))%R =
  (S2 g (fun k r => extra k r u x) + Sum (zlen g) (fun k => Sum (nf k) (fun r => zv k u r * Sum (nf k) (fun c => Sk k r c * zv k x c))))%R.
Proof.
  rewrite (Sum_ext total _ (fun i => S2 g (fun k r => u i * (contrib k r x i - contrib k r (fun _ => 0%R) i)))%R).
  - rewrite <- (S2_Sum g total (fun k r i => u i * (contrib k r x i - contrib k r (fun _ => 0%R) i))%R). rewrite (S2_ext g _ (fun k r => extra k r u x + zv k u r * Sum (nf k) (fun c => Sk k r c * zv k x c))%R) by (intros; apply contrib_form; assumption).
    rewrite S2_plus. reflexivity.
  - intros i Hi. rewrite lin_rsd, !Hrs, <- S2_minus, <- S2_scal. reflexivity.
Qed.
Lemma form_sym u x : Sum total (fun i => u i * Sum total (fun j => sy_val s i j * x j))%R = Sum total (fun i => x i * Sum total (fun j => sy_val s i j * u j))%R.
Proof.
  rewrite !form_ok. f_equal.
  - apply S2_ext. intros k r _. unfold extra. destruct (cond_at g bc k r) as [[p|d|q]|]; ring.
  - apply Sum_ext. intros k Hk. 
    rewrite (Sum_ext (nf k) _ (fun r => Sum (nf k) (fun c => zv k u r * (Sk k r c * zv k x c))%R)) by (intros; symmetry; apply Sum_scal).
    rewrite Sum_swap. apply Sum_ext. intros c Hc. rewrite <- Sum_scal. apply Sum_ext. intros r Hr. unfold Sk, Hyb_Proofs4.Sk. rewrite (Sl_sym _ _ r c). ring.
Qed.
Lemma matrix_sym i j : 0 <= i < total -> 0 <= j < total -> sy_val s i j = sy_val s j i.
Proof.
  intros Hi Hj. assert (E : forall i j, 0 <= i < total -> 0 <= j < total -> Sum total (fun a => ident i a * Sum total (fun b => sy_val s a b * ident j b))%R = sy_val s i j).
  { intros a b Ha Hb. rewrite (Sum_ident_l total a (fun c => Sum total (fun b0 => sy_val s c b0 * ident b b0)%R)) by exact Ha. rewrite (Sum_ext total _ (fun c => ident b c * sy_val s a c)%R) by (intros; ring). apply Sum_ident_l. exact Hb. }
  rewrite <- (E i j Hi Hj), <- (E j i Hj Hi). apply form_sym.
Qed.

Hypothesis HI : ip_shaped g ip.
Hypothesis HP : ip_spd g ip.
Lemma extra_nonneg k r u : half g k r -> (0 <= extra k r u u)%R.
Proof.
  intros Hh. pose proof (Sk_diag g ip HI HP k r Hh) as D. unfold extra. destruct (cond_at g bc k r) as [[p|d|q]|]; try lra; apply Rmult_le_pos; try lra; [apply Rle_0_sqr|apply Rle_0_sqr].
Qed.
Lemma cell_quad k u : 0 <= k < zlen g -> Sum (nf k) (fun r => zv k u r * Sum (nf k) (fun c => Sk k r c * zv k u c))%R = quad (nf k) (Bk g ip k) (fun r => zv k u r - tz (nf k) (Bk g ip k) (zv k u))%R.
Proof. intros Hk. destruct (HP k Hk) as (_ & Sy & _). rewrite <- (quad_Sl (nf k) (Bk g ip k) Sy (zv k u)); [reflexivity|]. exact (Lk_nz g ip HI k Hk). Qed.
Lemma Sum_nonneg_zero n f : (forall i, 0 <= i < n -> (0 <= f i)%R) -> Sum n f = 0%R -> forall i, 0 <= i < n -> f i = 0%R.
Proof.
  intros Hf E i Hi. assert (Q : Sum n (fun j => sqrt (f j) * sqrt (f j))%R = 0%R) by (rewrite <- E; apply Sum_ext; intros j Hj; apply sqrt_sqrt, Hf, Hj).
  pose proof (Sum_sq_zero n _ Q i Hi) as R0. rewrite <- (sqrt_sqrt (f i)) by (apply Hf; exact Hi). rewrite R0. ring.
Qed.
Lemma quad_matrix u : quad total (sy_val s) u = (S2 g (fun k r => extra k r u u) + Sum (zlen g) (fun k => quad (nf k) (Bk g ip k) (fun r => zv k u r - tz (nf k) (Bk g ip k) (zv k u))))%R.
Proof. unfold quad at 1, dot, mvec. rewrite form_ok. f_equal. apply Sum_ext. intros k Hk. apply cell_quad. exact Hk. Qed.
Lemma extra_S2_nonneg u : (0 <= S2 g (fun k r => extra k r u u))%R.
Proof. apply Sum_nonneg. intros k Hk. apply Sum_nonneg. intros r Hr. apply extra_nonneg. split; assumption. Qed.
Lemma quads_nonneg u k : 0 <= k < zlen g -> (0 <= quad (nf k) (Bk g ip k) (fun r => zv k u r - tz (nf k) (Bk g ip k) (zv k u)))%R.
Proof. intros Hk. destruct (HP k Hk) as (_ & _ & Pd). apply (quad_nonneg (nf k) (Bk g ip k) Pd). Qed.
Lemma matrix_psd : nonneg_form total (sy_val s).
Proof.
  intros u. rewrite quad_matrix. apply Rplus_le_le_0_compat; [apply extra_S2_nonneg|]. apply Sum_nonneg. intros k Hk. apply quads_nonneg. exact Hk.
Qed.
(* vectors the form vanishes on: constant on every cell, equal over periodic pairs, zero at Dirichlet faces *)
Lemma kernel u : quad total (sy_val s) u = 0%R -> exists t, (forall k r, half g k r -> u (N k r) = t k) /\ forall k r p, half g k r -> cond_at g bc k r = Some (CDirichlet p) -> u (N k r) = 0%R.
Proof.
  intros Q. rewrite quad_matrix in Q. pose proof (extra_S2_nonneg u) as A. assert (B : (0 <= Sum (zlen g) (fun k => quad (nf k) (Bk g ip k) (fun r => zv k u r - tz (nf k) (Bk g ip k) (zv k u))%R))%R) by (apply Sum_nonneg; intros; apply quads_nonneg; assumption).
  assert (A0 : S2 g (fun k r => extra k r u u) = 0%R) by lra. assert (B0 : Sum (zlen g) (fun k => quad (nf k) (Bk g ip k) (fun r => zv k u r - tz (nf k) (Bk g ip k) (zv k u))%R) = 0%R) by lra.
  assert (Ex : forall k r, half g k r -> extra k r u u = 0%R).
  { intros k r (Hk & Hr). apply (Sum_nonneg_zero (nf k) (fun r => extra k r u u)); [intros r' Hr'; apply extra_nonneg; split; assumption| |exact Hr].
    apply (Sum_nonneg_zero (zlen g) (fun k => Sum (nf k) (fun r => extra k r u u))); [|exact A0|exact Hk]. intros k' Hk'. apply Sum_nonneg. intros r' Hr'. apply extra_nonneg. split; assumption. }
  assert (Qz : forall k r, half g k r -> zv k u r = tz (nf k) (Bk g ip k) (zv k u)).
  { intros k r (Hk & Hr). destruct (HP k Hk) as (_ & _ & Pd). pose proof (Sum_nonneg_zero (zlen g) _ (quads_nonneg u) B0 k Hk) as Q0. cbn beta in Q0.
    destruct (quad_nonneg (nf k) (Bk g ip k) Pd (fun r => zv k u r - tz (nf k) (Bk g ip k) (zv k u))%R) as (_ & Q1). specialize (Q1 Q0 r Hr). lra. }
  assert (D0 : forall k r p, half g k r -> cond_at g bc k r = Some (CDirichlet p) -> u (N k r) = 0%R).
  { intros k r p Hh Ec. pose proof (Ex k r Hh) as E0. unfold extra in E0. rewrite Ec in E0. pose proof (Sk_diag g ip HI HP k r Hh). apply Rmult_integral in E0. destruct E0 as [E0|E0]; [lra|]. apply Rmult_integral in E0. destruct E0; assumption. }
  exists (fun k => tz (nf k) (Bk g ip k) (zv k u)). split; [|exact D0]. intros k r Hh. rewrite <- (Qz k r Hh). unfold zv. destruct (cond_at g bc k r) as [[p|d|q]|] eqn:Ec; [apply (D0 k r p Hh Ec)| |rewrite (rep_other g bc st HS k r Hh) by (rewrite Ec; discriminate); reflexivity..].
  pose proof (Ex k r Hh) as E0. unfold extra in E0. rewrite Ec in E0. pose proof (Sk_diag g ip HI HP k r Hh). destruct (pfn_per g bc st HS k r d (conj Hh Ec)) as (k' & r' & P & Epf & _ & Er & _). rewrite Epf in E0. rewrite Er.
  apply Rmult_integral in E0. destruct E0 as [E0|E0]; [lra|]. apply Rmult_integral in E0. assert (E1 : u (N k r) = u (N k' r')) by (destruct E0; lra).
  destruct (Z.min_spec (N k r) (N k' r')) as [(_ & ->)|(_ & ->)]; auto.
Qed.
Lemma kernel_joined u t : quad total (sy_val s) u = 0%R -> (forall k r, half g k r -> u (N k r) = t k) -> forall k r k' r', joined g bc k r k' r' -> t k = t k'.
Proof.
  intros Q Ht k r k' r' (Hh & Hh' & [T|P]).
  - rewrite <- (Ht k r Hh), <- (Ht k' r' Hh'). f_equal. apply (HST g bc st HS); [exact Hh|exact Hh'|right; exact T].
  - destruct (kernel u Q) as (t' & Ht' & _). (* the pair carries the same value *)
    pose proof P as (d & d' & Pd & _). rewrite <- (Ht k r Hh), <- (Ht k' r' Hh').
    rewrite quad_matrix in Q. pose proof (extra_S2_nonneg u) as A. assert (B : (0 <= Sum (zlen g) (fun k => quad (nf k) (Bk g ip k) (fun r => zv k u r - tz (nf k) (Bk g ip k) (zv k u))%R))%R) by (apply Sum_nonneg; intros; apply quads_nonneg; assumption).
    assert (A0 : S2 g (fun k r => extra k r u u) = 0%R) by lra. destruct Hh as (Hk & Hr).
    assert (E0 : extra k r u u = 0%R).
    { apply (Sum_nonneg_zero (nf k) (fun r => extra k r u u)); [intros r2 Hr2; apply extra_nonneg; split; assumption| |exact Hr].
      apply (Sum_nonneg_zero (zlen g) (fun k => Sum (nf k) (fun r => extra k r u u))); [|exact A0|exact Hk]. intros k2 Hk2. apply Sum_nonneg. intros r2 Hr2. apply extra_nonneg. split; assumption. }
    unfold extra in E0. rewrite (proj2 Pd) in E0. pose proof (Sk_diag g ip HI HP k r (conj Hk Hr)). destruct (pfn_per g bc st HS k r d Pd) as (k2 & r2 & P2 & Epf & _). destruct (partners_fun g bc _ (HST g bc st HS) _ _ _ _ _ _ P2 P) as (-> & ->). rewrite Epf in E0.
    apply Rmult_integral in E0. destruct E0 as [E0|E0]; [lra|]. apply Rmult_integral in E0. destruct E0; lra.
Qed.
Lemma kernel_linked u t : quad total (sy_val s) u = 0%R -> (forall k r, half g k r -> u (N k r) = t k) -> forall k k', linked g bc k k' -> t k = t k'.
Proof. intros Q Ht k k' L. induction L as [k|k r k1 r1 k2 J _ IH]; [reflexivity|]. rewrite (kernel_joined u t Q Ht _ _ _ _ J). exact IH. Qed.
Lemma num_onto n : 0 <= n < total -> exists k r, half g k r /\ N k r = n.
Proof. intros Hn. destruct (HST g bc st HS) as (_ & _ & _ & _ & _ & _ & (_ & O & _)). apply O. exact Hn. Qed.
Lemma matrix_definite : anchored g bc -> positive_form total (sy_val s).
Proof.
  intros An u (n & Hn & Nz). destruct (Rle_lt_or_eq_dec _ _ (matrix_psd u)) as [H|H]; [exact H|]. exfalso. symmetry in H. destruct (kernel u H) as (t & Ht & D0). destruct (num_onto n Hn) as (k & r & Hh & En).
  destruct (An k (proj1 Hh)) as (k' & r' & p & L & Hh' & Ec). apply Nz. rewrite <- En, (Ht k r Hh), (kernel_linked u t H Ht k k' L), <- (Ht k' r' Hh'). exact (D0 k' r' p Hh' Ec).
Qed.
(* constants without Dirichlet faces *)
Lemma const_kernel i : no_dirichlet g bc -> Sum total (fun j => sy_val s i j)%R = 0%R.
Proof.
  intros Nd. rewrite (Sum_ext total _ (fun j => sy_val s i j * 1)%R) by (intros; ring). rewrite (lin_rsd (fun _ => 1%R)), !Hrs, <- S2_minus. apply S2_zero. intros k r Hh.
  assert (Rz : (rowres k r (fun _ => 1) - rowres k r (fun _ => 0))%R = 0%R).
  { rewrite row_lin by exact Hh. destruct Hh as (Hk & Hr). destruct (HP k Hk) as (_ & Sy & _). pose proof (Lk_nz g ip HI k Hk) as NL.
    rewrite (Sum_ext (nf k) _ (fun c => Sk k r c * 1)%R).
    - change (Sum (nf k) (fun c => Sk k r c * 1)%R) with (mvec (nf k) (Sl (nf k) (Bk g ip k)) (fun _ => 1%R) r). rewrite mvec_Sl by assumption. unfold mvec, tz. rewrite (Sum_ext (nf k) _ (Bk g ip k r)) by (intros; ring). rewrite F_row by assumption.
      rewrite (Sum_ext (nf k) _ (Fl (nf k) (Bk g ip k))) by (intros; ring). change (Sum (nf k) (Fl (nf k) (Bk g ip k))) with (Ll (nf k) (Bk g ip k)). change (Ll (nf k) (Bk g ip k) <> 0%R) in NL. field. exact NL.
    - intros c Hc. unfold zv. destruct (cond_at g bc k c) as [[p|d|q]|] eqn:Ec; try reflexivity. exfalso. exact (Nd k c p (conj Hk Hc) Ec). }
  unfold contrib, Hyb_Proofs4.contrib. fold (rowres k r (fun _ => 1%R)). fold (rowres k r (fun _ => 0%R)). destruct (cond_at g bc k r) as [[p|d|q]|] eqn:Ec; [exfalso; exact (Nd k r p Hh Ec)| | |].
  - set (a := rowres k r (fun _ => 1%R)) in *. set (b := rowres k r (fun _ => 0%R)) in *. replace a with b by lra. ring.
  - set (a := rowres k r (fun _ => 1%R)) in *. set (b := rowres k r (fun _ => 0%R)) in *. replace a with b by lra. ring.
  - set (a := rowres k r (fun _ => 1%R)) in *. set (b := rowres k r (fun _ => 0%R)) in *. replace a with b by lra. ring.
Qed.
Lemma const_kernel_col j : no_dirichlet g bc -> 0 <= j < total -> Sum total (fun i => sy_val s i j)%R = 0%R.
Proof. intros Nd Hj. rewrite (Sum_ext total _ (fun i => sy_val s j i)) by (intros; apply matrix_sym; assumption). apply const_kernel. exact Nd. Qed.
(* the right-hand sides add up to sources minus outfluxes *)
Lemma rhs_total : no_dirichlet g bc -> Sum total (nthR (sy_rhs s)) = (Sum (zlen g) (fun k => nthR src (idx g k)) - S2 g (outflux_at g bc))%R.
Proof.
  intros Nd. rewrite (Sum_ext total _ (fun i => - S2 g (fun k r => contrib k r (fun _ => 0) i))%R) by (intros i Hi; rewrite <- Hrs, rsd_0; ring). rewrite Sum_opp.
  rewrite <- (S2_Sum g total (fun k r i => contrib k r (fun _ => 0%R) i)).
  assert (E : S2 g (fun k r => Sum total (fun i => contrib k r (fun _ => 0%R) i)) = S2 g (fun k r => rowres k r (fun _ => 0%R))).
  { apply S2_ext. intros k r Hh. pose proof (nrange g bc st HS k r Hh) as Rn. unfold contrib, Hyb_Proofs4.contrib. fold (rowres k r (fun _ => 0%R)).
    assert (Pt : forall i a, 0 <= i < total -> Sum total (fun j => ident j i * a)%R = a) by (intros i a Hi; rewrite (Sum_ext total _ (fun j => (fun _ => 1%R) j * (ident j i * a))%R) by (intros; ring); rewrite Sum_pt by exact Hi; ring).
    destruct (cond_at g bc k r) as [[p|d|q]|] eqn:Ec; [exfalso; exact (Nd k r p Hh Ec)| |apply Pt; exact Rn|apply Pt; exact Rn].
    destruct (pfn_per g bc st HS k r d (conj Hh Ec)) as (k' & r' & P & Epf & Hh' & Er & _). pose proof (nrange g bc st HS k' r' Hh') as Rn'. rewrite Epf. pose proof (rrange g bc st HS k r Hh) as Rr.
    set (J := (Sk k r r * (0 - 0 - d))%R). rewrite (Sum_ext total _ (fun j => (ident j (N k r) * J + ident j (N k' r') * (- J)) + ident j (repn (N k r)) * rowres k r (fun _ => 0%R))%R) by (intros; ring). rewrite !Sum_plus, !Pt by assumption. ring. }
  rewrite E. unfold S2. rewrite <- Sum_minus, <- Sum_opp. apply Sum_ext. intros k Hk. destruct (HP k Hk) as (_ & Sy & _). pose proof (Lk_nz g ip HI k Hk) as NL.
  unfold rowres, Hyb_Proofs4.rowres. rewrite Sum_minus. rewrite Sum_swap.
  rewrite (Sum_zero (nf k) (fun j => Sum (nf k) (fun i => Sk k i j * yv k (fun _ => 0%R) j)%R)).
  - unfold hk. rewrite (Sum_plus (nf k) (fun i => gfl g ip k i - qv_of g bc k i)%R), Sum_minus, Sum_scal. change (Sum (nf k) (Fk g ip k)) with (Lk g ip k). unfold Gk. change (Sum (nf k) (outflux_at g bc k)) with (Sum (nf k) (qv_of g bc k)). change (Sum (nf k) (fun i => gfl g ip k i)) with (Sum (nf k) (gfl g ip k)). field. exact NL.
  - intros c Hc. rewrite Sum_scal_r. rewrite (Sum_ext (nf k) _ (fun i => Sk k c i * 1)%R) by (intros i Hi; unfold Sk, Hyb_Proofs4.Sk; rewrite (Sl_sym _ _ i c); ring).
    change (Sum (nf k) (fun i => Sk k c i * 1)%R) with (mvec (nf k) (Sl (nf k) (Bk g ip k)) (fun _ => 1%R) c). rewrite mvec_Sl by assumption. unfold mvec, tz. rewrite (Sum_ext (nf k) _ (Bk g ip k c)) by (intros; ring). rewrite F_row by assumption.
    rewrite (Sum_ext (nf k) _ (Fl (nf k) (Bk g ip k))) by (intros; ring). change (Sum (nf k) (Fl (nf k) (Bk g ip k))) with (Ll (nf k) (Bk g ip k)). change (Ll (nf k) (Bk g ip k) <> 0%R) in NL. unfold Rdiv. rewrite Rinv_r by exact NL. ring.
Qed.
(* the regularised matrix *)
Section Reg.
Variable s' : hsys.
Hypothesis Hv : forall i j, sy_val s' i j = if (i =? 0) && (j =? 0) then (sy_val s 0 0 * 2)%R else sy_val s i j.
Hypothesis Hr : sy_rhs s' = sy_rhs s.
Hypothesis Nd : no_dirichlet g bc.
Hypothesis T0 : 0 < total.
Lemma reg_apply x i : Sum total (fun j => sy_val s' i j * x j)%R = (Sum total (fun j => sy_val s i j * x j) + ident i 0 * (sy_val s 0%Z 0%Z * x 0%Z))%R.
Proof.
  rewrite <- (Sum_ident_l total 0 (fun j => ident i 0 * (sy_val s 0 0 * x j))%R) by lia. rewrite <- Sum_plus. apply Sum_ext. intros j Hj. rewrite Hv. unfold ident. rewrite (Z.eqb_sym 0 j). destruct (Z.eqb_spec i 0) as [->|], (Z.eqb_spec j 0) as [->|]; cbn [andb]; ring.
Qed.
Lemma total_2 : 0 < zlen g -> 1 < total.
Proof.
  intros Hz. destruct (HP 0 ltac:(lia)) as (H2 & _). pose proof (nrange g bc st HS 0 0 ltac:(split; lia)) as R0. pose proof (nrange g bc st HS 0 1 ltac:(split; lia)) as R1.
  assert (N 0 0 <> N 0 1); [|lia]. intros Q. pose proof (HST g bc st HS) as ST. pose proof (row_NoDup g bc _ ST 0 ltac:(lia)) as Nq.
  assert (0 = 1) by (eapply (zget_NoDup (row g (hs_num st) 0)); [exact Nq|apply row_nth; lia|rewrite row_nth by lia; f_equal; symmetry; exact Q]). lia.
Qed.
Lemma diag_pos' : connected g bc -> (0 < sy_val s 0 0)%R.
Proof.
  intros Co. assert (Hz : 0 < zlen g) by (destruct (num_onto 0 ltac:(lia)) as (k & r & (Hk & _) & _); lia). pose proof (total_2 Hz) as T1. 
  assert (E : quad total (sy_val s) (ident 0) = sy_val s 0 0).
  { unfold quad, dot. rewrite Sum_ident_l by lia. unfold mvec. rewrite (Sum_ext total _ (fun j => ident 0 j * sy_val s 0 j)%R) by (intros; ring). apply Sum_ident_l. lia. }
  rewrite <- E. destruct (Rle_lt_or_eq_dec _ _ (matrix_psd (ident 0))) as [H|H]; [exact H|]. exfalso. symmetry in H. destruct (kernel _ H) as (t & Ht & _).
  destruct (num_onto 0 ltac:(lia)) as (k & r & Hh & En). destruct (num_onto 1 ltac:(lia)) as (k' & r' & Hh' & En'). pose proof (kernel_linked _ t H Ht k k' (Co k k' (proj1 Hh) (proj1 Hh'))) as Q. rewrite <- (Ht k r Hh), <- (Ht k' r' Hh'), En, En' in Q. unfold ident in Q. cbn in Q. lra.
Qed.
Lemma reg_definite : connected g bc -> positive_form total (sy_val s').
Proof.
  intros Co u (n & Hn & Nz). pose proof (diag_pos' Co) as D.
  assert (E : quad total (sy_val s') u = (quad total (sy_val s) u + sy_val s 0%Z 0%Z * (u 0%Z * u 0%Z))%R).
  { unfold quad, dot, mvec. rewrite (Sum_ext total _ (fun i => u i * Sum total (fun j => sy_val s i j * u j) + u i * (ident i 0 * (sy_val s 0%Z 0%Z * u 0%Z)))%R) by (intros i Hi; rewrite reg_apply; ring). rewrite Sum_plus, Sum_pt by lia. ring. }
  rewrite E. pose proof (matrix_psd u) as A. pose proof (Rle_0_sqr (u 0%Z)) as A2. unfold Rsqr in A2. assert (A3 : (0 <= sy_val s 0%Z 0%Z * (u 0%Z * u 0%Z))%R) by (apply Rmult_le_pos; lra).
  destruct (Rle_lt_or_eq_dec _ _ (Rplus_le_le_0_compat _ _ A A3)) as [H|H]; [exact H|]. exfalso. assert (Q : quad total (sy_val s) u = 0%R) by lra. assert (U0 : u 0%Z = 0%R). { assert (Z0 : (sy_val s 0%Z 0%Z * (u 0%Z * u 0%Z) = 0)%R) by lra. apply Rmult_integral in Z0. destruct Z0 as [Z0|Z0]; [lra|]. apply Rmult_integral in Z0. destruct Z0; assumption. }
  destruct (kernel u Q) as (t & Ht & _). destruct (num_onto n Hn) as (k & r & Hh & En). destruct (num_onto 0 ltac:(lia)) as (k0 & r0 & Hh0 & En0). apply Nz.
  rewrite <- En, (Ht k r Hh), (kernel_linked u t Q Ht k k0 (Co k k0 (proj1 Hh) (proj1 Hh0))), <- (Ht k0 r0 Hh0), En0. exact U0.
Qed.
Lemma reg_solution x : connected g bc -> solves s' total x ->
  (solves s total x <-> Sum (zlen g) (fun k => nthR src (idx g k)) = S2 g (outflux_at g bc)) /\ (solves s total x -> x 0 = 0%R).
Proof.
  intros Co Hx. pose proof (diag_pos' Co) as D. rewrite (Rminus_eq_iff (Sum (zlen g) (fun k => nthR src (idx g k)))). rewrite <- (rhs_total Nd).
  assert (K : Sum total (fun i => Sum total (fun j => sy_val s i j * x j))%R = 0%R).
  { rewrite Sum_swap. apply Sum_zero. intros j Hj. rewrite Sum_scal_r, const_kernel_col by assumption. ring. }
  assert (T : Sum total (nthR (sy_rhs s)) = (sy_val s 0%Z 0%Z * x 0%Z)%R).
  { rewrite <- (Sum_ext total (fun i => Sum total (fun j => sy_val s i j * x j) + ident i 0 * (sy_val s 0%Z 0%Z * x 0%Z))%R); [|intros i Hi; rewrite <- reg_apply, <- Hr; apply Hx; exact Hi].
    rewrite Sum_plus, K. rewrite (Sum_ext total (fun i => ident i 0 * _)%R (fun i => (fun _ => 1%R) i * (ident i 0 * (sy_val s 0%Z 0%Z * x 0%Z)))%R) by (intros; ring). rewrite Sum_pt by lia. ring. }
  assert (X0 : solves s total x -> x 0%Z = 0%R).
  { intros Hs. assert (Q : (sy_val s 0%Z 0%Z * x 0%Z = 0)%R). { rewrite <- T. rewrite <- K. apply Sum_ext. intros i Hi. symmetry. apply Hs. exact Hi. } apply Rmult_integral in Q. destruct Q; [lra|assumption]. }
  split; [|exact X0]. split.
  - intros Hs. rewrite T, (X0 Hs). ring.
  - intros E i Hi. rewrite T in E. rewrite <- Hr, <- (Hx i Hi), reg_apply, E. ring.
Qed.
End Reg.
End Form.
