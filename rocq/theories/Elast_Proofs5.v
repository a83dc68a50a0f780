(* Proofs about the upscaled elastic stiffness. *)
From Coq Require Import Lra.
From Verif Require Import RBaseFacts BaseFacts Lin_Facts Steady_Proofs Euler_Proofs2 Mim_Proofs Matx_Proofs Smat_Proofs Asm_Proofs Asm_Proofs2 Asm_Proofs3 Asm_Proofs4 Asm_Proofs5 Asm_Proofs6 Shape_Proofs2 Elast_Proofs Elast_Proofs3 Elast_Proofs4 Elast_Spec.
Open Scope Z_scope.

(* ---- integrals *)
Definition cint (f : cellg -> (Z -> R) -> R) (c : cellg) : R := Rsum (map (fun r => f c (fst r) * (cg_det c (fst r) * snd r))%R (cg_rule c)).
Lemma integral_cells cells f : integral cells f = Rsum (map (cint f) cells).
Proof.
  unfold integral, points. induction cells as [|c cells IH]; [reflexivity|]. cbn [flat_map map]. rewrite map_app, Rsum_app, Rsum_cons, IH. f_equal. rewrite map_map. reflexivity.
Qed.
Lemma integral_ext cells f g : (forall c x w, In c cells -> In (x, w) (cg_rule c) -> f c x = g c x) -> integral cells f = integral cells g.
Proof. intros H. rewrite !integral_cells. apply Rsum_map_ext. intros c Hc. apply Rsum_map_ext. intros [x w] Hr. cbn [fst snd]. rewrite (H c x w Hc Hr). reflexivity. Qed.
Lemma integral_plus cells f g : integral cells (fun c x => f c x + g c x)%R = (integral cells f + integral cells g)%R.
Proof. unfold integral. rewrite <- Rsum_map_plus. apply Rsum_map_ext. intros p _. ring. Qed.
Lemma integral_scal cells k f : integral cells (fun c x => k * f c x)%R = (k * integral cells f)%R.
Proof. unfold integral. rewrite <- Rsum_map_scale. apply Rsum_map_ext. intros p _. ring. Qed.
Lemma integral_Sum cells n f : integral cells (fun c x => Sum n (fun i => f i c x)) = Sum n (fun i => integral cells (f i)).
Proof. unfold integral. rewrite Sum_Rsum. apply Rsum_map_ext. intros p _. rewrite Sum_scal_r. reflexivity. Qed.
Lemma integral_perm cells cells' f : Permutation cells cells' -> integral cells f = integral cells' f.
Proof. intros H. rewrite !integral_cells. apply Rsum_perm. apply Permutation_map. exact H. Qed.
Lemma integral_nonneg cells f : nonneg cells -> (forall c x, In c cells -> (0 <= f c x)%R) -> (0 <= integral cells f)%R.
Proof. intros HN H. rewrite integral_cells. apply Rsum_map_nonneg. intros c Hc. apply Rsum_map_nonneg. intros [x w] Hr. cbn [fst snd]. apply Rmult_le_pos; [apply H; exact Hc|apply HN; assumption]. Qed.

(* ---- averageStress *)
Section Stress.
Variables (s : asm) (u : list R) (eps : Z -> R) (Cm : cellg -> fmat) (V : cellg -> Z -> R).
Definition stress_at (c : cellg) (x : Z -> R) (i : Z) : R := mvec 6 (Cm c) (fun k => mvec 24 (bmat c x) (V c) k + eps k)%R i.
Lemma stress_same C c x v i : same 6 C (Cm c) -> (forall a, 0 <= a < 24 -> v a = V c a) -> 0 <= i < 6 -> stress 6 24 v eps (bmat c x) C i = stress_at c x i.
Proof.
  intros HS HV Hi. unfold stress, stress_at, mvec. rewrite dsum_Sum. apply Sum_ext. intros k Hk. rewrite HS by assumption. f_equal. f_equal. rewrite dsum_Sum. apply Sum_ext. intros a Ha. rewrite HV by exact Ha. reflexivity.
Qed.
Lemma cell_stress c st C0 : (exists C', constitutive6 (cg_mat c) C0 false = Ok (true, C') /\ same 6 C' (Cm c)) -> (exists l, extract_values 3 s u (cg_verts c) = Ok l /\ forall a, 0 <= a < 24 -> vec_at l a = V c a) ->
  exists sg C', stress_cell s u eps (fst st, snd st, C0) c = Ok (sg, (snd st + cint (fun _ _ => 1) c)%R, C') /\ forall i, 0 <= i < 6 -> sg i = (fst st i + cint (fun c x => stress_at c x i) c)%R.
Proof.
  intros (C' & EC & SC) (l & El & Hl). unfold stress_cell. rewrite EC. cbn [bind snd]. rewrite El. cbn [bind]. unfold cint. destruct st as [sg vol]. cbn [fst snd].
  assert (forall rule sg vol, exists sg', foldM (fun st r => let '(sigma, volume, C) := st in
      let detJ := cg_det c (fst r) in
      let volume := (volume + detJ * snd r)%R in
      let* lB := bmatrix 3 (fst r) (cg_jit c (fst r)) in
      let sv := stress 6 24 (vec_at l) eps lB C in
      Ok ((fun i => sigma i + sv i * (detJ * snd r))%R, volume, C)) rule (sg, vol, C') = Ok (sg', (vol + Rsum (map (fun r => 1 * (cg_det c (fst r) * snd r)) rule))%R, C') /\
      forall i, 0 <= i < 6 -> sg' i = (sg i + Rsum (map (fun r => stress_at c (fst r) i * (cg_det c (fst r) * snd r)) rule))%R) as H.
  { induction rule as [|r rule IH]; intros sg0 vol0; cbn [foldM map].
    - exists sg0. split; [rewrite Rsum_nil, Rplus_0_r; reflexivity|]. intros; rewrite Rsum_nil; ring.
    - rewrite bmat_ok. cbn [bind]. edestruct IH as (sg' & E & HS). exists sg'. split; [rewrite E; do 3 f_equal; rewrite Rsum_cons; ring|]. intros i Hi. rewrite HS by exact Hi. rewrite Rsum_cons, stress_same by assumption. ring. }
  destruct (H (cg_rule c) sg vol) as (sg' & E & HS). exists sg', C'. split; [exact E|exact HS].
Qed.
Lemma cells_stress cells : (forall c, In c cells -> matrix_of (cg_mat c) (Cm c)) -> (forall c, In c cells -> exists l, extract_values 3 s u (cg_verts c) = Ok l /\ forall a, 0 <= a < 24 -> vec_at l a = V c a) ->
  forall sg vol C0, exists sg' C', foldM (stress_cell s u eps) cells (sg, vol, C0) = Ok (sg', (vol + volume cells)%R, C') /\ forall i, 0 <= i < 6 -> sg' i = (sg i + integral cells (fun c x => stress_at c x i))%R.
Proof.
  unfold volume. setoid_rewrite integral_cells. induction cells as [|c cells IH]; intros HM HE sg vol C0; cbn [foldM map].
  - exists sg, C0. split; [rewrite Rsum_nil, Rplus_0_r; reflexivity|]. intros; rewrite Rsum_nil; ring.
  - destruct (cell_stress c (sg, vol) C0 (HM c (or_introl eq_refl) C0) (HE c (or_introl eq_refl))) as (sg1 & C1 & E1 & S1). cbn [fst snd] in *. rewrite E1. cbn [bind].
    destruct (IH (fun d Hd => HM d (or_intror Hd)) (fun d Hd => HE d (or_intror Hd)) sg1 (vol + cint (fun _ _ => 1) c)%R C1) as (sg2 & C2 & E2 & S2). exists sg2, C2. split; [rewrite E2; do 3 f_equal; rewrite Rsum_cons; ring|].
    intros i Hi. rewrite S2, S1 by exact Hi. rewrite Rsum_cons. ring.
Qed.
End Stress.
Lemma average_inv s u cells i Escale Emin C0 sg Cm V : (forall c, In c cells -> matrix_of (cg_mat c) (Cm c)) -> (forall c, In c cells -> exists l, extract_values 3 s u (cg_verts c) = Ok l /\ forall a, 0 <= a < 24 -> vec_at l a = V c a) ->
  0 <= i < 6 -> average_stress s u cells i Escale Emin C0 = Ok (Some sg) -> volume cells <> 0%R /\ factor Escale Emin <> 0%R /\
  forall j, 0 <= j < 6 -> (sg j * (factor Escale Emin * volume cells))%R = integral cells (fun c x => stress_at (unit_strain i) Cm V c x j).
Proof.
  intros HM HE Hi. unfold average_stress. replace ((i <? 0) || (5 <? i)) with false by (destruct (Z.ltb_spec i 0); destruct (Z.ltb_spec 5 i); lia || reflexivity).
  destruct (cells_stress s u (unit_strain i) Cm V cells HM HE (fun _ => 0%R) 0%R C0) as (sg' & C' & E & HS). rewrite E. cbn [bind]. rewrite Rplus_0_l. destruct (Req_EM_T (volume cells) 0) as [|NV]; [discriminate|]. unfold factor.
  unfold Rltb. destruct (Rlt_dec 0 Escale) as [P|P].
  - unfold mdiv, fdiv. destruct (Req_EM_T Emin 0) as [|NE]; [discriminate|]. cbn [bind]. intros [= <-]. split; [exact NV|]. assert (Escale / Emin <> 0)%R as NF by (unfold Rdiv; apply Rmult_integral_contrapositive_currified; [lra|apply Rinv_neq_0_compat; exact NE]).
    split; [exact NF|]. intros j Hj. rewrite HS by exact Hj. field. repeat split; (assumption || lra).
  - cbn [bind]. intros [= <-]. split; [exact NV|]. split; [lra|]. intros j Hj. rewrite HS by exact Hj. field. exact NV.
Qed.

(* ---- the bilinear form of the energy *)
Definition form (Cm : cellg -> fmat) (cells : list cellg) (p q : cellg -> (Z -> R) -> Z -> R) : R := integral cells (fun c x => dot 6 (p c x) (mvec 6 (Cm c) (q c x))).
Lemma dot_ext n x y x' y' : (forall i, 0 <= i < n -> x i = x' i) -> (forall i, 0 <= i < n -> y i = y' i) -> dot n x y = dot n x' y'.
Proof. intros H1 H2. apply Sum_ext. intros i Hi. rewrite H1, H2 by exact Hi. reflexivity. Qed.
Lemma mvec_ext n A x y i : (forall j, 0 <= j < n -> x j = y j) -> mvec n A x i = mvec n A y i.
Proof. intros H. apply Sum_ext. intros j Hj. rewrite H by exact Hj. reflexivity. Qed.
Lemma mvec_plus n A x y i : mvec n A (fun k => x k + y k)%R i = (mvec n A x i + mvec n A y i)%R.
Proof. unfold mvec. rewrite <- Sum_plus. apply Sum_ext. intros; ring. Qed.
Lemma mvec_lin m n A (k : Z -> R) x i : mvec n A (fun j => Sum m (fun p => k p * x p j))%R i = Sum m (fun p => k p * mvec n A (x p) i)%R.
Proof. unfold mvec. rewrite (Sum_ext n _ (fun j => Sum m (fun p => k p * (A i j * x p j)))%R) by (intros j _; rewrite <- Sum_scal; apply Sum_ext; intros; ring). rewrite Sum_swap. apply Sum_ext. intros p _. rewrite Sum_scal. reflexivity. Qed.
Section Form.
Variables (Cm : cellg -> fmat) (cells : list cellg).
Hypothesis SYM : forall c, In c cells -> symmetric 6 (Cm c).
Notation form := (form Cm cells).
Lemma form_sym p q : form p q = form q p.
Proof using SYM.
  apply integral_ext. intros c x w Hc _. rewrite dot_mvec, dot_sym. apply dot_ext; [reflexivity|]. intros i Hi. unfold mvec. apply Sum_ext. intros j Hj. rewrite (SYM c Hc i j) by assumption. reflexivity.
Qed.
Lemma form_ext p p' q q' : (forall c x w k, In c cells -> In (x, w) (cg_rule c) -> 0 <= k < 6 -> p c x k = p' c x k) -> (forall c x w k, In c cells -> In (x, w) (cg_rule c) -> 0 <= k < 6 -> q c x k = q' c x k) -> form p q = form p' q'.
Proof. clear SYM. intros H1 H2. apply integral_ext. intros c x w Hc Hx. apply dot_ext; [intros i Hi; apply (H1 c x w i Hc Hx Hi)|]. intros i Hi. apply mvec_ext. intros j Hj. apply (H2 c x w j Hc Hx Hj). Qed.
Lemma form_plus_r p q r : form p (fun c x k => q c x k + r c x k)%R = (form p q + form p r)%R.
Proof. clear SYM. unfold Elast_Proofs5.form. rewrite <- integral_plus. apply integral_ext. intros c x w _ _. unfold dot. rewrite <- Sum_plus. apply Sum_ext. intros i _. rewrite mvec_plus. ring. Qed.
Lemma form_plus_l p q r : form (fun c x k => p c x k + q c x k)%R r = (form p r + form q r)%R.
Proof. clear SYM. unfold Elast_Proofs5.form. rewrite <- integral_plus. apply integral_ext. intros c x w _ _. unfold dot. rewrite <- Sum_plus. apply Sum_ext. intros i _. ring. Qed.
Lemma form_lin_r m k p q : form p (fun c x j => Sum m (fun a => k a * q a c x j))%R = Sum m (fun a => k a * form p (q a))%R.
Proof.
  clear SYM. unfold Elast_Proofs5.form. rewrite (integral_ext cells _ (fun c x => Sum m (fun a => k a * dot 6 (p c x) (mvec 6 (Cm c) (q a c x)))%R)).
  - rewrite integral_Sum. apply Sum_ext. intros a _. apply integral_scal.
  - intros c x w _ _. unfold dot. rewrite (Sum_ext 6 _ (fun i => Sum m (fun a => k a * (p c x i * mvec 6 (Cm c) (q a c x) i)))%R) by (intros i _; rewrite (mvec_lin m 6 (Cm c) k (fun a => q a c x) i), <- Sum_scal; apply Sum_ext; intros; ring). rewrite Sum_swap. apply Sum_ext. intros a _. rewrite Sum_scal. reflexivity.
Qed.
Lemma form_nonneg p : nonneg cells -> (forall c, In c cells -> psd 6 (Cm c)) -> (0 <= form p p)%R.
Proof. clear SYM. intros HN HP. apply integral_nonneg; [exact HN|]. intros c x Hc. apply (HP c Hc). Qed.
End Form.

(* ---- the assembled system in terms of the form *)
Definition bilin (n : Z) (A : Z -> Z -> R) (z y : Z -> R) : R := Sum n (fun e => Sum n (fun f => z e * A e f * y f))%R.
Definition vals (s : asm) (z : Z -> R) (c : cellg) (a : Z) : R := displacement 3 s z (cell_dof 3 (cg_verts c) a).
Definition field (s : asm) (z : Z -> R) : cellg -> (Z -> R) -> Z -> R := fun c x => mvec 24 (bmat c x) (vals s z c).
Lemma bilin_el s K Sv verts z y : zlen verts = 8 -> bilin (as_neq s) (fun e f => el_matrix 3 s (mkElem verts K Sv) e f) z y =
  Sum 24 (fun a => Sum 24 (fun b => displacement 3 s z (cell_dof 3 verts a) * kval K a b * displacement 3 s y (cell_dof 3 verts b)))%R.
Proof.
  intros HL. unfold bilin, el_matrix, el_dofs. cbn [el_verts el_K]. rewrite HL. change (8 * 3) with 24. set (T := trans 3 (as_mpcs s) (as_meqn s)). set (n := as_neq s).
  rewrite (Sum_ext n _ (fun e => Sum n (fun f => z e * Sum 24 (fun a => T (cell_dof 3 verts a) e * Sum 24 (fun b => kval K a b * T (cell_dof 3 verts b) f)) * y f))%R).
  - rewrite (quad_form n 24 (fun a e => T (cell_dof 3 verts a) e) (fun a f => Sum 24 (fun b => kval K a b * T (cell_dof 3 verts b) f)%R) z y). apply Sum_ext. intros a _. unfold displacement. fold T n.
    rewrite (Sum_ext n (fun f => Sum 24 (fun b => kval K a b * T (cell_dof 3 verts b) f) * y f)%R (fun f => Sum 24 (fun b => kval K a b * (T (cell_dof 3 verts b) f * y f)))%R) by (intros f _; rewrite <- Sum_scal_r; apply Sum_ext; intros; ring).
    rewrite Sum_swap. rewrite <- Sum_scal. apply Sum_ext. intros b _. rewrite Sum_scal. ring.
  - intros e _. apply Sum_ext. intros f _. f_equal. f_equal. apply Sum_ext. intros a _. rewrite <- Sum_scal. apply Sum_ext. intros; ring.
Qed.
Lemma bilin_cell s Cm c z y : zlen (cg_verts c) = 8 -> bilin (as_neq s) (fun e f => el_matrix 3 s (stiff_elem Cm c) e f) z y = cint (fun c x => dot 6 (field s z c x) (mvec 6 (Cm c) (field s y c x))) c.
Proof.
  intros HL. unfold stiff_elem. rewrite bilin_el by exact HL. cbn [kval]. unfold cint.
  rewrite (Sum_ext 24 _ (fun a => Sum 24 (fun b => Rsum (map (fun r => vals s z c a * stiffness 6 (bmat c (fst r)) (Cm c) (cg_det c (fst r) * snd r) a b * vals s y c b)%R (cg_rule c))))).
  - rewrite (Sum_ext 24 _ (fun a => Rsum (map (fun r => Sum 24 (fun b => vals s z c a * stiffness 6 (bmat c (fst r)) (Cm c) (cg_det c (fst r) * snd r) a b * vals s y c b)%R) (cg_rule c)))) by (intros a _; apply (Sum_Rsum 24 (fun r b => vals s z c a * stiffness 6 (bmat c (fst r)) (Cm c) (cg_det c (fst r) * snd r) a b * vals s y c b)%R)).
    rewrite (Sum_Rsum 24 (fun r a => Sum 24 (fun b => vals s z c a * stiffness 6 (bmat c (fst r)) (Cm c) (cg_det c (fst r) * snd r) a b * vals s y c b)%R)). apply Rsum_map_ext. intros r _.
    cbv beta. rewrite (Rmult_comm (dot _ _ _)). unfold field. rewrite <- stiff_bilinear. unfold dot. apply Sum_ext. intros a _. unfold mvec. rewrite <- Sum_scal. apply Sum_ext. intros; ring.
  - intros a _. apply Sum_ext. intros b _. unfold cell_stiffness. fold (vals s z c a). fold (vals s y c b). rewrite <- Rsum_map_scale, <- Rsum_map_scale_r. apply Rsum_map_ext. intros r _. rewrite stiff_entry. ring.
Qed.
Lemma load_cell s Cm j c z : zlen (cg_verts c) = 8 -> Sum (as_neq s) (fun e => z e * el_load 3 s (load_elem Cm j c) e)%R = (- cint (fun c x => dot 6 (field s z c x) (mvec 6 (Cm c) (unit_strain j))) c)%R.
Proof.
  intros HL. unfold el_load, el_dofs, load_elem. cbn [el_verts el_S sval]. rewrite HL. change (8 * 3) with 24.
  rewrite (Sum_ext (as_neq s) _ (fun e => Sum 24 (fun a => cell_load (Cm c) c (unit_strain j) a * (trans 3 (as_mpcs s) (as_meqn s) (cell_dof 3 (cg_verts c) a) e * z e)))%R) by (intros e _; rewrite <- Sum_scal; apply Sum_ext; intros; ring).
  rewrite Sum_swap. rewrite (Sum_ext 24 _ (fun a => Rsum (map (fun r => vals s z c a * (- (cg_det c (fst r) * snd r) * Sum 6 (fun k => Sum 6 (fun l => bmat c (fst r) k a * Cm c k l * unit_strain j l)))) (cg_rule c)))%R).
  - rewrite (Sum_Rsum 24 (fun r a => vals s z c a * (- (cg_det c (fst r) * snd r) * Sum 6 (fun k => Sum 6 (fun l => bmat c (fst r) k a * Cm c k l * unit_strain j l)))))%R. unfold cint.
    match goal with |- _ = (- ?x)%R => replace (- x)%R with (-1 * x)%R by ring end. rewrite <- Rsum_map_scale. apply Rsum_map_ext. intros r _. unfold field, dot.
    rewrite (Sum_ext 6 _ (fun k => Sum 24 (fun a => bmat c (fst r) k a * vals s z c a * mvec 6 (Cm c) (unit_strain j) k))%R) by (intros k _; rewrite Sum_scal_r; reflexivity). rewrite Sum_swap.
    rewrite <- Sum_scal_r, <- Sum_scal. apply Sum_ext. intros a _. rewrite (Sum_ext 6 (fun k => Sum 6 _) (fun k => bmat c (fst r) k a * mvec 6 (Cm c) (unit_strain j) k)%R) by (intros k _; unfold mvec; rewrite <- Sum_scal; apply Sum_ext; intros; ring).
    rewrite (Sum_ext 6 (fun i => bmat c (fst r) i a * vals s z c a * mvec 6 (Cm c) (unit_strain j) i)%R (fun k => vals s z c a * (bmat c (fst r) k a * mvec 6 (Cm c) (unit_strain j) k))%R) by (intros; ring). rewrite Sum_scal. ring.
  - intros a _. rewrite Sum_scal. unfold cell_load. rewrite Rmult_comm. fold (displacement 3 s z (cell_dof 3 (cg_verts c) a)). fold (vals s z c a). rewrite <- Rsum_map_scale. reflexivity.
Qed.
Lemma vals_lin s m (k : Z -> R) (z : Z -> Z -> R) c a : vals s (fun e => Sum m (fun p => k p * z p e))%R c a = Sum m (fun p => k p * vals s (z p) c a)%R.
Proof. unfold vals, displacement. apply (mvec_lin m (as_neq s) (fun d e => trans 3 (as_mpcs s) (as_meqn s) d e) k z). Qed.
Lemma field_lin s m (k : Z -> R) (z : Z -> Z -> R) c x i : field s (fun e => Sum m (fun p => k p * z p e))%R c x i = Sum m (fun p => k p * field s (z p) c x i)%R.
Proof. unfold field. rewrite <- (mvec_lin m 24 (bmat c x) k (fun p => vals s (z p) c) i). apply mvec_ext. intros a _. apply vals_lin. Qed.
Lemma bilin_sum n {B} (A : B -> Z -> Z -> R) l z y : bilin n (fun e f => Rsum (map (fun c => A c e f) l)) z y = Rsum (map (fun c => bilin n (A c) z y) l).
Proof.
  unfold bilin. rewrite (Sum_ext n _ (fun e => Rsum (map (fun c => Sum n (fun f => z e * A c e f * y f)%R) l))).
  - apply (Sum_Rsum n (fun c e => Sum n (fun f => z e * A c e f * y f)%R)).
  - intros e _. rewrite <- (Sum_Rsum n (fun c f => z e * A c e f * y f)%R). apply Sum_ext. intros f _. rewrite <- Rsum_map_scale, <- Rsum_map_scale_r. reflexivity.
Qed.
