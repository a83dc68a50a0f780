(* Proofs about the upscaled elastic stiffness: symmetry and bounds. *)
From Coq Require Import Lra.
From Verif Require Import RBaseFacts BaseFacts Lin_Facts Steady_Proofs Euler_Proofs2 Mim_Proofs Matx_Proofs Smat_Proofs Asm_Proofs Asm_Proofs2 Asm_Proofs3 Asm_Proofs4 Asm_Proofs5 Asm_Proofs6 Shape_Proofs2 Elast_Proofs Elast_Proofs3 Elast_Proofs4 Elast_Proofs5 Elast_Spec.
Open Scope Z_scope.

Lemma extract_like s t u verts : like s t -> extract_values 3 t u verts = extract_values 3 s u verts.
Proof. intros (L1 & L2 & L3 & _). unfold extract_values. rewrite L1, L2, L3. reflexivity. Qed.
Section Upscaled.
Variables (nodes : Z) (cells : list cellg) (M : mpcmap) (F : fixmap) (fuel : nat) (s : asm) (color : list (list (list cellg))) (Cm : cellg -> fmat).
Hypothesis HG : grid_ok 3 nodes (map cg_verts cells) M F.
Hypothesis HW : wf_mpcs 3 M.
Hypothesis HF : forall d, is_fixed 3 F d -> fixed_val 3 F d = 0%R.
Hypothesis HE : init_assembly fuel 3 nodes (map cg_verts cells) M F = Some (Ok s).
Hypothesis HP : Permutation (concat (concat color)) cells.
Hypothesis HC : forall c, In c cells -> zlen (cg_verts c) = 8 /\ matrix_of (cg_mat c) (Cm c) /\ symmetric 6 (Cm c).
Variables (C0 C1 C2 : fmat) (s1 : asm) (Escale Emin : R) (u : Z -> list R) (sig : fmat).
Hypothesis HA : assemble color (-1) true C0 s = Ok s1.
Hypothesis HL : load_cases color cells Escale Emin C1 C2 s1 u sig.
Let HI : inited 3 nodes (map cg_verts cells) M F s := init_inv _ _ _ _ _ _ _ HG HW HE.
Lemma u_cells c : In c (concat (concat color)) -> In (cg_verts c) (map cg_verts cells) /\ matrix_of (cg_mat c) (Cm c).
Proof using HC HP. clear -HC HP. intros Hc. apply (Permutation_in _ HP) in Hc. split; [apply in_map; exact Hc|apply HC; exact Hc]. Qed.
Lemma u_like : like s s1 /\ forall e f, 0 <= e -> 0 <= f -> coef (as_A s1) e f = Rsum (map (fun c => el_matrix 3 s (stiff_elem Cm c) e f) cells).
Proof using HG HW HF HE HP HC HA.
  destruct (assemble_like nodes _ M F s HG HI color Cm u_cells s (-1) true C0 (like_refl _ _ _ _ _ HI)) as (t & E & L & A & B). rewrite HA in E. injection E as <-. split; [exact L|]. intros e f He Hf. rewrite A by assumption. apply Rsum_perm. apply Permutation_map. exact HP.
Qed.
Lemma u_neq : as_neq s1 = as_neq s. Proof using HG HW HF HE HP HC HA. apply u_like. Qed.
Lemma u_form z y : bilin (as_neq s) (coef (as_A s1)) z y = form Cm cells (field s z) (field s y).
Proof using HG HW HF HE HP HC HA.
  unfold form. rewrite integral_cells. unfold bilin. rewrite (Sum_ext (as_neq s) _ (fun e => Sum (as_neq s) (fun f => z e * Rsum (map (fun c => el_matrix 3 s (stiff_elem Cm c) e f) cells) * y f))%R) by (intros e He; apply Sum_ext; intros f Hf; rewrite (proj2 u_like) by lia; reflexivity).
  change (Sum (as_neq s) (fun e => Sum (as_neq s) (fun f => z e * Rsum (map (fun c => el_matrix 3 s (stiff_elem Cm c) e f) cells) * y f))%R) with (bilin (as_neq s) (fun e f => Rsum (map (fun c => (fun c e f => el_matrix 3 s (stiff_elem Cm c) e f) c e f) cells)) z y).
  rewrite bilin_sum. apply Rsum_map_ext. intros c Hc. apply bilin_cell. apply HC. exact Hc.
Qed.
Lemma u_load i si z : 0 <= i -> assemble color i false C1 s1 = Ok si -> Sum (as_neq s) (fun e => z e * nthR (as_b si) e)%R = (- form Cm cells (field s z) (fun _ _ => unit_strain i))%R.
Proof using HG HW HF HE HP HC HA.
  intros Hi Ei. destruct (assemble_like nodes _ M F s HG HI color Cm u_cells s1 i false C1 (proj1 u_like)) as (t & E & L & A & B). rewrite Ei in E. injection E as <-.
  rewrite (Sum_ext (as_neq s) _ (fun e => Rsum (map (fun c => z e * el_load 3 s (load_elem Cm i c) e)%R cells))).
  - rewrite (Sum_Rsum (as_neq s) (fun c e => z e * el_load 3 s (load_elem Cm i c) e)%R). unfold form. rewrite integral_cells. replace (- Rsum (map (cint (fun c x => dot 6 (field s z c x) (mvec 6 (Cm c) (unit_strain i)))) cells))%R with (-1 * Rsum (map (cint (fun c x => dot 6 (field s z c x) (mvec 6 (Cm c) (unit_strain i)))) cells))%R by ring.
    rewrite <- Rsum_map_scale. apply Rsum_map_ext. intros c Hc. rewrite load_cell by (apply HC; exact Hc). ring.
  - intros e He. rewrite B by lia. replace (-1 <? i) with true by (symmetry; apply Z.ltb_lt; lia). rewrite (Rsum_perm _ _ (Permutation_map _ HP)). rewrite <- Rsum_map_scale. reflexivity.
Qed.
(* the equilibrium *)
Definition total (i : Z) : cellg -> (Z -> R) -> Z -> R := fun c x k => (field s (nthR (u i)) c x k + unit_strain i k)%R.
Lemma u_equilibrium i z : 0 <= i < 6 -> form Cm cells (field s z) (total i) = 0%R.
Proof using HG HW HF HE HP HC HA HL.
  intros Hi. destruct (HL i Hi) as (si & Ei & (Lu & Su) & _). unfold total. rewrite (form_plus_r Cm cells (field s z) (field s (nthR (u i))) (fun _ _ => unit_strain i)). rewrite <- u_form. pose proof (u_load i si z ltac:(lia) Ei) as HB. rewrite u_neq in Su, Lu.
  rewrite (Sum_ext (as_neq s) _ (fun e => Sum (as_neq s) (fun f => z e * coef (as_A s1) e f * nthR (u i) f)))%R in HB by (intros e He; rewrite <- Su by exact He; rewrite <- Sum_scal; apply Sum_ext; intros; ring).
  unfold bilin. rewrite HB. ring.
Qed.
Lemma u_values w c : zlen w = as_neq s -> In c cells -> exists l, extract_values 3 s1 w (cg_verts c) = Ok l /\ forall a, 0 <= a < 24 -> vec_at l a = vals s (nthR w) c a.
Proof using HG HW HF HE HP HC HA.
  intros Lu Hc. rewrite (extract_like s s1) by apply u_like.
  destruct (expanded 3 nodes (map cg_verts cells) M F fuel s w HG HW HE Lu) as (r & _ & Lr & R1 & R2 & R3). eexists. split; [apply R3; apply in_map; exact Hc|]. destruct (HC c Hc) as (H8 & _ & _). rewrite H8. change (8 * 3) with 24. intros a Ha.
  rewrite (vec_at_map (fun a => nthR r (cell_dof 3 (cg_verts c) a))) by exact Ha. unfold vals. set (d := cell_dof 3 (cg_verts c) a).
  assert (0 <= d < nodes * 3) as Rd.
  { unfold d, cell_dof. assert (0 <= a / 3 < 8) as R8 by (split; [apply Z.div_pos; lia|apply Z.div_lt_upper_bound; lia]). destruct (zget_in_range (cg_verts c) (a / 3)) as (n & En); [lia|]. rewrite En. pose proof HG as (_ & _ & HV & _). pose proof (HV (cg_verts c) n (in_map _ _ _ Hc) (zget_In _ _ _ En)). pose proof (Z.mod_pos_bound a 3 ltac:(lia)). lia. }
  destruct (fx_flag F (d / 3) (d mod 3)) eqn:EF; [|apply R2; [exact Rd|unfold is_fixed; congruence]]. rewrite R1 by (assumption || exact EF). rewrite HF by exact EF.
  unfold displacement. symmetry. apply Sum_zero. intros e He. assert (trans 3 (as_mpcs s) (as_meqn s) d e = 0%R) as ->; [|ring]. unfold trans.
  destruct (mm_find (as_mpcs s) d) as [p|] eqn:Em.
  - destruct (slave_not_fixed 3 nodes (map cg_verts cells) M F s HG HI d p Em) as [_ NF]. congruence.
  - rewrite (e_not_free 3 nodes (map cg_verts cells) M F s HI d Rd) by (intros [_ Hx]; congruence). destruct (Z.eqb_spec (-1) e); [lia|reflexivity].
Qed.
Lemma u_extract i c : 0 <= i < 6 -> In c cells -> exists l, extract_values 3 s1 (u i) (cg_verts c) = Ok l /\ forall a, 0 <= a < 24 -> vec_at l a = vals s (nthR (u i)) c a.
Proof using HG HW HF HE HP HC HA HL. intros Hi Hc. destruct (HL i Hi) as (si & _ & (Lu & _) & _). rewrite u_neq in Lu. apply u_values; assumption. Qed.
Lemma unit_dot j y : 0 <= j < 6 -> dot 6 (unit_strain j) y = y j.
Proof. clear. intros Hj. unfold dot. rewrite (Sum_pick 6 j); [unfold unit_strain; rewrite Z.eqb_refl; ring|exact Hj|]. intros i _ N. unfold unit_strain. rewrite (proj2 (Z.eqb_neq i j)) by exact N. ring. Qed.
Lemma u_sig i j : 0 <= i < 6 -> 0 <= j < 6 -> volume cells <> 0%R /\ factor Escale Emin <> 0%R /\ (sig i j * (factor Escale Emin * volume cells))%R = form Cm cells (total j) (total i).
Proof using HG HW HF HE HP HC HA HL.
  intros Hi Hj. destruct (HL i Hi) as (si & _ & _ & sg & Es & Hs).
  destruct (average_inv s1 (u i) cells i Escale Emin C2 sg Cm (vals s (nthR (u i))) (fun c Hc => proj1 (proj2 (HC c Hc))) (fun c Hc => u_extract i c Hi Hc) Hi Es) as (NV & NF & Hint). split; [exact NV|]. split; [exact NF|]. rewrite <- Hs, Hint by exact Hj.
  unfold total at 1. rewrite (form_plus_l Cm cells (field s (nthR (u j))) (fun _ _ => unit_strain j) (total i)). rewrite u_equilibrium by exact Hi. rewrite Rplus_0_l. apply integral_ext. intros c x w _ _. rewrite unit_dot by exact Hj. reflexivity.
Qed.
Lemma u_symc c : In c cells -> symmetric 6 (Cm c). Proof using HC. clear -HC. intros Hc. apply HC. exact Hc. Qed.
Lemma u_symmetric : symmetric 6 sig.
Proof using HG HW HF HE HP HC HA HL.
  intros i j Hi Hj. destruct (u_sig i j Hi Hj) as (NV & NF & E1). destruct (u_sig j i Hj Hi) as (_ & _ & E2). rewrite (form_sym Cm cells u_symc) in E1. rewrite <- E2 in E1. apply Rmult_eq_reg_r in E1; [exact E1|]. apply Rmult_integral_contrapositive_currified; assumption.
Qed.
(* a combination of load cases *)
Definition comb (x : Z -> R) : Z -> R := fun e => Sum 6 (fun i => x i * nthR (u i) e)%R.
Lemma total_comb x c y k : 0 <= k < 6 -> Sum 6 (fun i => x i * total i c y k)%R = (field s (comb x) c y k + x k)%R.
Proof.
  intros Hk. unfold comb. rewrite field_lin. unfold total. rewrite (Sum_ext 6 _ (fun i => x i * field s (nthR (u i)) c y k + x i * unit_strain i k)%R) by (intros; ring). rewrite Sum_plus. f_equal. rewrite (Sum_pick 6 k); [unfold unit_strain; rewrite Z.eqb_refl; ring|exact Hk|]. intros i _ N. unfold unit_strain. rewrite (proj2 (Z.eqb_neq k i)) by lia. ring.
Qed.
Definition whole (x : Z -> R) : cellg -> (Z -> R) -> Z -> R := fun c y k => (field s (comb x) c y k + x k)%R.
Lemma whole_alt x p : form Cm cells p (whole x) = Sum 6 (fun i => x i * form Cm cells p (total i))%R.
Proof. rewrite <- (form_lin_r Cm cells 6 x p total). apply form_ext; [reflexivity|]. intros c y w k _ _ Hk. unfold whole. rewrite total_comb by exact Hk. reflexivity. Qed.
Lemma u_quad x : (quad 6 sig x * (factor Escale Emin * volume cells))%R = form Cm cells (whole x) (whole x).
Proof using HG HW HF HE HP HC HA HL.
  rewrite whole_alt. unfold quad, dot. rewrite <- Sum_scal_r. apply Sum_ext. intros i Hi. rewrite Rmult_assoc. f_equal. rewrite (form_sym Cm cells u_symc), whole_alt. unfold mvec. rewrite <- Sum_scal_r. apply Sum_ext. intros j Hj.
  destruct (u_sig i j Hi Hj) as (_ & _ & E1). rewrite (form_sym Cm cells u_symc), <- E1. ring.
Qed.
Lemma u_whole x z : form Cm cells (field s z) (whole x) = 0%R.
Proof using HG HW HF HE HP HC HA HL. rewrite whole_alt. apply Sum_zero. intros i Hi. rewrite u_equilibrium by exact Hi. ring. Qed.
Lemma u_upper x : form Cm cells (fun _ _ => x) (fun _ _ => x) = (form Cm cells (whole x) (whole x) + bilin (as_neq s) (coef (as_A s1)) (comb x) (comb x))%R.
Proof using HG HW HF HE HP HC HA HL.
  rewrite u_form. set (f := field s (comb x)). assert (form Cm cells f (whole x) = 0)%R as Z1 by apply u_whole.
  pose proof (form_plus_l Cm cells f (fun _ _ => x) (whole x) : form Cm cells (whole x) (whole x) = _) as E1.
  pose proof (form_plus_r Cm cells (fun _ _ => x) f (fun _ _ => x) : form Cm cells (fun _ _ => x) (whole x) = _) as E2.
  pose proof (form_plus_r Cm cells f f (fun _ _ => x) : form Cm cells f (whole x) = _) as E3.
  rewrite (form_sym Cm cells u_symc (fun _ _ => x) f) in E2. lra.
Qed.
Lemma mean_form x : form Cm cells (fun _ _ => x) (fun _ _ => x) = (Sum 6 (fun i => Sum 6 (fun j => x i * x j * integral cells (fun c _ => Cm c i j))))%R.
Proof.
  clear. unfold form. rewrite (integral_ext cells _ (fun c y => Sum 6 (fun i => Sum 6 (fun j => x i * x j * Cm c i j)))%R) by (intros; unfold dot, mvec; apply Sum_ext; intros i _; rewrite <- Sum_scal; apply Sum_ext; intros; ring).
  rewrite (integral_Sum cells 6 (fun i c y => Sum 6 (fun j => x i * x j * Cm c i j)%R)). apply Sum_ext. intros i _. rewrite (integral_Sum cells 6 (fun j c y => x i * x j * Cm c i j)%R). apply Sum_ext. intros j _. apply (integral_scal cells (x i * x j) (fun c _ => Cm c i j)).
Qed.
Lemma mean_quad x : volume cells <> 0%R -> (quad 6 (mean Cm cells) x * volume cells)%R = form Cm cells (fun _ _ => x) (fun _ _ => x).
Proof.
  clear. intros NV. rewrite mean_form. unfold quad, dot, mvec, mean. rewrite <- Sum_scal_r. apply Sum_ext. intros i _. rewrite Rmult_assoc, <- Sum_scal_r, <- Sum_scal. apply Sum_ext. intros j _. field. exact NV.
Qed.
Lemma u_bounds : nonneg cells -> (forall c, In c cells -> psd 6 (Cm c)) -> (0 < factor Escale Emin)%R -> psd 6 sig /\ forall x, (quad 6 sig x * factor Escale Emin <= quad 6 (mean Cm cells) x)%R.
Proof using HG HW HF HE HP HC HA HL.
  intros HN HPS HF0. destruct (u_sig 0 0 ltac:(lia) ltac:(lia)) as (NV & _ & _). assert (0 < volume cells)%R as HV.
  { assert (0 <= volume cells)%R by (apply integral_nonneg; [exact HN|intros; lra]). lra. }
  assert (forall x, 0 <= form Cm cells x x)%R as NN by (intros p; apply form_nonneg; assumption). split; intros x.
  - pose proof (u_quad x) as E. pose proof (NN (whole x)) as H. rewrite <- E in H. apply (Rmult_le_reg_r (factor Escale Emin * volume cells)); [apply Rmult_lt_0_compat; assumption|]. lra.
  - pose proof (u_quad x) as E. pose proof (u_upper x) as U. rewrite u_form in U. pose proof (NN (field s (comb x))) as H. rewrite <- mean_quad in U by exact NV. apply (Rmult_le_reg_r (volume cells)); [exact HV|]. lra.
Qed.
(* the energy that the displacements take away *)
Lemma u_energy i j : 0 <= i < 6 -> 0 <= j < 6 -> (sig i j * factor Escale Emin)%R = (mean Cm cells i j - bilin (as_neq s) (coef (as_A s1)) (nthR (u i)) (nthR (u j)) / volume cells)%R.
Proof using HG HW HF HE HP HC HA HL.
  intros Hi Hj. destruct (u_sig i j Hi Hj) as (NV & NF & E). rewrite (form_sym Cm cells u_symc) in E. unfold total in E at 1. rewrite (form_plus_l Cm cells (field s (nthR (u i))) (fun _ _ => unit_strain i)), u_equilibrium, Rplus_0_l in E by exact Hj.
  unfold total in E. rewrite (form_plus_r Cm cells _ (field s (nthR (u j))) (fun _ _ => unit_strain j)) in E.
  rewrite (form_sym Cm cells u_symc (fun _ _ => unit_strain i)) in E. pose proof (u_equilibrium i (nthR (u j)) Hi) as Q. unfold total in Q. rewrite (form_plus_r Cm cells _ (field s (nthR (u i))) (fun _ _ => unit_strain i)), (form_sym Cm cells u_symc) in Q. rewrite u_form.
  assert (form Cm cells (fun _ _ => unit_strain i) (fun _ _ => unit_strain j) = integral cells (fun c _ => Cm c i j)) as EC.
  { apply integral_ext. intros c x w _ _. rewrite unit_dot by exact Hi. unfold mvec. rewrite (Sum_pick 6 j); [unfold unit_strain; rewrite Z.eqb_refl; ring|exact Hj|]. intros k _ N. unfold unit_strain. rewrite (proj2 (Z.eqb_neq k j)) by exact N. ring. }
  rewrite EC in E. unfold mean. apply (Rmult_eq_reg_r (volume cells)); [|exact NV]. unfold Rdiv. rewrite Rmult_minus_distr_r, !Rmult_assoc, Rinv_l by exact NV. lra.
Qed.
End Upscaled.
