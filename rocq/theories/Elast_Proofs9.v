(* Statements for the properties of the elastic problem. *)
From Coq Require Import Lra.
From Verif Require Import RBaseFacts BaseFacts Lin_Facts Steady_Proofs Euler_Proofs2 Mim_Proofs Matx_Proofs Smat_Proofs Asm_Proofs Asm_Proofs2 Asm_Proofs3 Asm_Proofs4 Asm_Proofs5 Asm_Proofs6 Shape_Proofs2 Elast_Proofs Elast_Proofs2 Elast_Proofs3 Elast_Proofs4 Elast_Proofs5 Elast_Proofs6 Elast_Proofs8 Hyb_Proofs8 Elast_Spec.
Open Scope Z_scope.

Lemma bilin_unit n A a b : 0 <= a < n -> 0 <= b < n -> bilin n A (ident a) (ident b) = A a b.
Proof.
  intros Ha Hb. unfold bilin. rewrite (Sum_pick n a); [|exact Ha|].
  - rewrite (Sum_pick n b); [unfold ident; rewrite !Z.eqb_refl; ring|exact Hb|]. intros k _ Nk. unfold ident at 2. rewrite (proj2 (Z.eqb_neq b k)) by lia. ring.
  - intros k _ Nk. apply Sum_zero. intros f _. unfold ident at 1. rewrite (proj2 (Z.eqb_neq a k)) by lia. ring.
Qed.
Lemma bilin_quad n A z : bilin n A z z = quad n A z.
Proof. unfold bilin, quad, dot, mvec. apply Sum_ext. intros e _. rewrite <- Sum_scal. apply Sum_ext. intros; ring. Qed.
Lemma upscaled_exists nodes cells M F s color Cm Escale Emin C0 C1 C2 : elastic_problem nodes cells M F s color Cm -> nonneg cells -> (forall c, In c cells -> psd 6 (Cm c)) -> volume cells <> 0%R -> ((0 < Escale)%R -> Emin <> 0%R) ->
  exists s1, assemble color (-1) true C0 s = Ok s1 /\ exists u sig, load_cases color cells Escale Emin C1 C2 s1 u sig.
Proof.
  intros (HG & HW & HF & (fuel & HE) & HP & HC) HN HPS NV NE. pose proof (init_inv _ _ _ _ _ _ _ HG HW HE) as HI.
  assert (forall c, In c (concat (concat color)) -> In (cg_verts c) (map cg_verts cells) /\ matrix_of (cg_mat c) (Cm c)) as HU by (intros c Hc; exact (u_cells cells color Cm HP HC c Hc)).
  destruct (assemble_like nodes _ M F s HG HI color Cm HU s (-1) true C0 (like_refl _ _ _ _ _ HI)) as (s1 & E1 & L1 & _). exists s1. split; [exact E1|].
  pose proof (u_form nodes cells M F fuel s color Cm HG HW HF HE HP HC C0 s1 E1) as FM. set (n := as_neq s) in *.
  assert (forall c, In c cells -> symmetric 6 (Cm c)) as SC by (intros c Hc; apply HC; exact Hc).
  assert (0 <= n) as Hn by apply HI.
  assert (symmetric n (coef (as_A s1))) as SA by (intros a b Ha Hb; rewrite <- (bilin_unit n (coef (as_A s1)) a b), <- (bilin_unit n (coef (as_A s1)) b a) by assumption; rewrite !FM; apply form_sym; exact SC).
  assert (psd n (coef (as_A s1))) as PA by (intros z; rewrite <- bilin_quad, FM; apply form_nonneg; assumption).
  assert (as_neq s1 = n) as N1 by apply L1.
  assert (forall i, 0 <= i < 6 -> exists us : list R * (Z -> R), exists si, assemble color i false C1 s1 = Ok si /\ solves (as_neq s1) (as_A s1) (fst us) (as_b si) /\ average_stress s1 (fst us) cells i Escale Emin C2 = Ok (Some (snd us))) as EX.
  { intros i Hi. destruct (assemble_like nodes _ M F s HG HI color Cm HU s1 i false C1 L1) as (si & Ei & _).
    destruct (fredholm n Hn (coef (as_A s1)) (nthR (as_b si)) SA PA) as (z & Hz).
    - intros z Hz. pose proof (u_load nodes cells M F fuel s color Cm HG HW HF HE HP HC C0 C1 s1 E1 i si z ltac:(lia) Ei) as HB. fold n in HB. rewrite (Sum_ext n _ (fun e => z e * nthR (as_b si) e)%R) by (intros; ring). rewrite HB. rewrite form_kernel; try assumption; [ring|].
      rewrite <- FM, bilin_quad. unfold quad, dot. apply Sum_zero. intros e He. rewrite Hz by exact He. ring.
    - set (w := map z (zrange 0 n)). assert (zlen w = n) as Lw by (unfold w; rewrite zlen_map, zlen_zrange; lia).
      destruct (average_total s1 w cells i Escale Emin C2 Cm (vals s (nthR w)) (fun c Hc => proj1 (proj2 (HC c Hc)))) as (sg & Es); try assumption.
      { intros c Hc. apply (u_values nodes cells M F fuel s color Cm HG HW HF HE HP HC C0 s1 E1); assumption. }
      exists (w, sg), si. split; [exact Ei|]. split; [|exact Es]. rewrite N1. split; [exact Lw|]. intros e He. cbn [fst]. rewrite <- Hz by exact He. apply Sum_ext. intros f Hf. unfold w. rewrite nthR_tab by exact Hf. reflexivity. }
  assert (exists g : Z -> list R * (Z -> R), forall i, 0 <= i < 6 -> exists si, assemble color i false C1 s1 = Ok si /\ solves (as_neq s1) (as_A s1) (fst (g i)) (as_b si) /\ average_stress s1 (fst (g i)) cells i Escale Emin C2 = Ok (Some (snd (g i)))) as (g & Hg).
  { destruct (EX 0 ltac:(lia)) as (g0 & H0). destruct (EX 1 ltac:(lia)) as (g1 & H1). destruct (EX 2 ltac:(lia)) as (g2 & H2). destruct (EX 3 ltac:(lia)) as (g3 & H3). destruct (EX 4 ltac:(lia)) as (g4 & H4). destruct (EX 5 ltac:(lia)) as (g5 & H5).
    exists (fun i => if i =? 0 then g0 else if i =? 1 then g1 else if i =? 2 then g2 else if i =? 3 then g3 else if i =? 4 then g4 else g5). intros i Hi. all6 i Hi; assumption. }
  exists (fun i => fst (g i)), (fun i => snd (g i)). intros i Hi. destruct (Hg i Hi) as (si & A1 & A2 & A3). exists si. split; [exact A1|]. split; [exact A2|]. exists (snd (g i)). split; [exact A3|reflexivity].
Qed.
Lemma upscaled_symmetric nodes cells M F s color Cm C0 C1 C2 s1 Escale Emin u sig : elastic_problem nodes cells M F s color Cm -> assemble color (-1) true C0 s = Ok s1 -> load_cases color cells Escale Emin C1 C2 s1 u sig -> symmetric 6 sig /\ symmetric 6 (clamped sig).
Proof.
  intros (HG & HW & HF & (fuel & HE) & HP & HC) HA HL. assert (symmetric 6 sig) as H by exact (u_symmetric nodes cells M F fuel s color Cm HG HW HF HE HP HC C0 C1 C2 s1 Escale Emin u sig HA HL). split; [exact H|]. intros i j Hi Hj. unfold clamped. rewrite H by assumption. reflexivity.
Qed.
Lemma upscaled_bounds nodes cells M F s color Cm C0 C1 C2 s1 Escale Emin u sig : elastic_problem nodes cells M F s color Cm -> assemble color (-1) true C0 s = Ok s1 -> load_cases color cells Escale Emin C1 C2 s1 u sig ->
  nonneg cells -> (forall c, In c cells -> psd 6 (Cm c)) -> (0 < factor Escale Emin)%R -> psd 6 sig /\ forall x, (quad 6 sig x * factor Escale Emin <= quad 6 (mean Cm cells) x)%R.
Proof. intros (HG & HW & HF & (fuel & HE) & HP & HC) HA HL. exact (u_bounds nodes cells M F fuel s color Cm HG HW HF HE HP HC C0 C1 C2 s1 Escale Emin u sig HA HL). Qed.
Lemma upscaled_energy nodes cells M F s color Cm C0 C1 C2 s1 Escale Emin u sig : elastic_problem nodes cells M F s color Cm -> assemble color (-1) true C0 s = Ok s1 -> load_cases color cells Escale Emin C1 C2 s1 u sig ->
  forall i j, 0 <= i < 6 -> 0 <= j < 6 -> (sig i j * factor Escale Emin)%R = (mean Cm cells i j - Sum (as_neq s) (fun e => Sum (as_neq s) (fun f => nthR (u i) e * coef (as_A s1) e f * nthR (u j) f)) / volume cells)%R.
Proof. intros (HG & HW & HF & (fuel & HE) & HP & HC) HA HL. exact (u_energy nodes cells M F fuel s color Cm HG HW HF HE HP HC C0 C1 C2 s1 Escale Emin u sig HA HL). Qed.
(* another solution, another order of the cells, other stale matrices: the same result *)
Lemma upscaled_unique nodes cells M F s color color' Cm C0 C1 C2 D0 D1 D2 s1 t1 Escale Emin u w sig tau : elastic_problem nodes cells M F s color Cm -> elastic_problem nodes cells M F s color' Cm ->
  assemble color (-1) true C0 s = Ok s1 -> load_cases color cells Escale Emin C1 C2 s1 u sig -> assemble color' (-1) true D0 s = Ok t1 -> load_cases color' cells Escale Emin D1 D2 t1 w tau -> same 6 sig tau.
Proof.
  intros (HG & HW & HF & (fuel & HE) & HP & HC) (_ & _ & _ & _ & HP' & _) HA HL HA' HL' i j Hi Hj.
  destruct (u_sig nodes cells M F fuel s color Cm HG HW HF HE HP HC C0 C1 C2 s1 Escale Emin u sig HA HL i j Hi Hj) as (NV & NF & E).
  destruct (u_sig nodes cells M F fuel s color' Cm HG HW HF HE HP' HC D0 D1 D2 t1 Escale Emin w tau HA' HL' i j Hi Hj) as (_ & _ & E').
  assert (forall c, In c cells -> symmetric 6 (Cm c)) as SC by (intros c Hc; apply HC; exact Hc).
  pose proof (fun i z => u_equilibrium nodes cells M F fuel s color Cm HG HW HF HE HP HC C0 C1 C2 s1 Escale Emin u sig HA HL i z) as Q.
  pose proof (fun i z => u_equilibrium nodes cells M F fuel s color' Cm HG HW HF HE HP' HC D0 D1 D2 t1 Escale Emin w tau HA' HL' i z) as Q'.
  apply (Rmult_eq_reg_r (factor Escale Emin * volume cells)); [|apply Rmult_integral_contrapositive_currified; assumption]. rewrite E, E'. unfold total in *.
  set (f := fun i => field s (nthR (u i))) in *. set (g := fun i => field s (nthR (w i))) in *. set (e := fun i (_ : cellg) (_ : Z -> R) => unit_strain i).
  pose proof (form_plus_l Cm cells (f j) (e j) (fun c x k => f i c x k + e i c x k)%R) as X1. pose proof (form_plus_l Cm cells (g j) (e j) (fun c x k => g i c x k + e i c x k)%R) as X2.
  pose proof (Q i (nthR (u j)) Hi) as Y1. pose proof (Q' i (nthR (w j)) Hi) as Y2. fold (f j) in Y1. fold (g j) in Y2.
  pose proof (form_plus_r Cm cells (e j) (f i) (e i)) as X3. pose proof (form_plus_r Cm cells (e j) (g i) (e i)) as X4.
  pose proof (form_sym Cm cells SC (e j) (f i)) as S1. pose proof (form_sym Cm cells SC (e j) (g i)) as S2.
  pose proof (Q j (nthR (u i)) Hj) as Y3. pose proof (Q' j (nthR (w i)) Hj) as Y4. pose proof (Q j (nthR (w i)) Hj) as Y5. pose proof (Q' j (nthR (u i)) Hj) as Y6. pose proof (Q i (nthR (w j)) Hi) as Y7. pose proof (Q' i (nthR (u j)) Hi) as Y8.
  fold (f i) in Y3, Y6. fold (g i) in Y4, Y5. fold (g j) in Y7. fold (f j) in Y8. 
  pose proof (form_plus_r Cm cells (f i) (f j) (e j)) as X5. pose proof (form_plus_r Cm cells (g i) (g j) (e j)) as X6. pose proof (form_plus_r Cm cells (g i) (f j) (e j)) as X7. pose proof (form_plus_r Cm cells (f i) (g j) (e j)) as X8.
  pose proof (form_plus_r Cm cells (f j) (f i) (e i)) as X9. pose proof (form_plus_r Cm cells (g j) (g i) (e i)) as X10. pose proof (form_plus_r Cm cells (g j) (f i) (e i)) as X11. pose proof (form_plus_r Cm cells (f j) (g i) (e i)) as X12.
  pose proof (form_sym Cm cells SC (f i) (f j)) as S3. pose proof (form_sym Cm cells SC (g i) (g j)) as S4. pose proof (form_sym Cm cells SC (f i) (g j)) as S5. pose proof (form_sym Cm cells SC (g i) (f j)) as S6.
  unfold e in *. unfold f, g in *. lra.
Qed.
