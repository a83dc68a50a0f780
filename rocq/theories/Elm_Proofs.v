(* Proofs: the upscaled stiffness as a minimum of the energy; comparison of materials; the lower bound. *)
From Coq Require Import Lra.
From Verif Require Import RBaseFacts BaseFacts Lin_Facts Steady_Proofs Euler_Proofs2 Mim_Proofs Matx_Proofs Smat_Proofs Asm_Proofs5 Elast_Proofs Elast_Proofs3 Elast_Proofs4 Elast_Proofs5 Elast_Proofs6 Elast_Proofs8 Elast_Proofs9 Elm_Spec.
Open Scope Z_scope.

(* ---- matrices *)
Lemma quad_unit A i : 0 <= i < 6 -> quad 6 A (ident i) = A i i.
Proof. intros Hi. rewrite <- bilin_quad. apply bilin_unit; assumption. Qed.
Lemma dot_plus_l n x y z : dot n (fun k => x k + y k)%R z = (dot n x z + dot n y z)%R.
Proof. unfold dot. rewrite <- Sum_plus. apply Sum_ext. intros; ring. Qed.
Lemma dot_plus_r n x y z : dot n z (fun k => x k + y k)%R = (dot n z x + dot n z y)%R.
Proof. unfold dot. rewrite <- Sum_plus. apply Sum_ext. intros; ring. Qed.
Lemma dot_sym_mvec A x y : symmetric 6 A -> dot 6 x (mvec 6 A y) = dot 6 y (mvec 6 A x).
Proof. intros HS. rewrite dot_mvec, dot_sym. apply dot_ext; [reflexivity|]. intros i Hi. unfold mvec. apply Sum_ext. intros j Hj. rewrite (HS i j) by assumption. reflexivity. Qed.
Lemma quad_plus A x y : symmetric 6 A -> quad 6 A (fun k => x k + y k)%R = (quad 6 A x + 2 * dot 6 x (mvec 6 A y) + quad 6 A y)%R.
Proof.
  intros HS. unfold quad. rewrite (dot_ext 6 (fun k => x k + y k)%R (mvec 6 A (fun k => x k + y k)%R) (fun k => x k + y k)%R (fun k => mvec 6 A x k + mvec 6 A y k)%R) by (intros; try apply mvec_plus; reflexivity).
  rewrite dot_plus_l, !dot_plus_r, (dot_sym_mvec A y x HS). ring.
Qed.
Lemma quad_same A B : symmetric 6 A -> symmetric 6 B -> (forall x, quad 6 A x = quad 6 B x) -> same 6 A B.
Proof.
  intros SA SB H i j Hi Hj. pose proof (H (fun k => ident i k + ident j k)%R) as E. rewrite !quad_plus, (H (ident i)), (H (ident j)) in E by assumption.
  assert (forall C, dot 6 (ident i) (mvec 6 C (ident j)) = C i j) as U.
  { intros C. rewrite <- (bilin_unit 6 C i j) by assumption. unfold dot, mvec, bilin. apply Sum_ext. intros k _. rewrite <- Sum_scal. apply Sum_ext. intros; ring. }
  rewrite !U in E. lra.
Qed.
Lemma quad_scale k A x : quad 6 (fun i j => k * A i j)%R x = (k * quad 6 A x)%R.
Proof. unfold quad, dot, mvec. rewrite <- Sum_scal. apply Sum_ext. intros i _. rewrite (Sum_ext 6 _ (fun j => k * (A i j * x j))%R) by (intros; ring). rewrite Sum_scal. ring. Qed.
Lemma quad_ext A B x : same 6 A B -> quad 6 A x = quad 6 B x.
Proof. intros H. unfold quad. apply dot_ext; [reflexivity|]. intros i Hi. unfold mvec. apply Sum_ext. intros j Hj. rewrite H by assumption. reflexivity. Qed.
Lemma mvec_inv A B y i : same 6 (mmul 6 A B) ident -> 0 <= i < 6 -> mvec 6 A (mvec 6 B y) i = y i.
Proof.
  intros H Hi. unfold mvec. rewrite (Sum_ext 6 _ (fun j => Sum 6 (fun l => A i j * B j l * y l))%R) by (intros j _; rewrite <- Sum_scal; apply Sum_ext; intros; ring). rewrite Sum_swap.
  rewrite (Sum_ext 6 _ (fun l => ident i l * y l)%R). 2:{ intros l Hl. rewrite <- (H i l) by assumption. unfold mmul. rewrite <- Sum_scal_r. reflexivity. }
  rewrite (Sum_pick 6 i); [unfold ident; rewrite Z.eqb_refl; ring|exact Hi|]. intros k _ N. unfold ident. rewrite (proj2 (Z.eqb_neq i k)) by lia. ring.
Qed.
(* 2 e.y - y^T K y <= e^T C e for inverse matrices *)
Lemma dual_point C K e y : symmetric 6 C -> psd 6 C -> inverses 6 C K -> (2 * dot 6 e y - quad 6 K y <= quad 6 C e)%R.
Proof.
  intros HS HP (HI & _). set (t := mvec 6 K y). pose proof (HP (fun k => e k + - t k)%R) as H. rewrite (quad_plus C e (fun k => - t k)%R HS) in H.
  assert (forall i, 0 <= i < 6 -> mvec 6 C t i = y i) as T by (intros i Hi; apply mvec_inv; assumption).
  assert (forall i, 0 <= i < 6 -> mvec 6 C (fun k => - t k)%R i = (- y i)%R) as T'.
  { intros i Hi. rewrite <- T by exact Hi. unfold mvec. replace (- Sum 6 (fun j => C i j * t j))%R with ((-1) * Sum 6 (fun j => C i j * t j))%R by ring. rewrite <- Sum_scal. apply Sum_ext. intros; ring. }
  assert (dot 6 e (mvec 6 C (fun k => - t k)%R) = - dot 6 e y)%R as E1.
  { unfold dot. replace (- Sum 6 (fun i => e i * y i))%R with ((-1) * Sum 6 (fun i => e i * y i))%R by ring. rewrite <- Sum_scal. apply Sum_ext. intros i Hi. rewrite T' by exact Hi. ring. }
  assert (quad 6 C (fun k => - t k)%R = quad 6 K y) as E2.
  { unfold quad, dot. apply Sum_ext. intros i Hi. rewrite T' by exact Hi. unfold t. ring. }
  rewrite E1, E2 in H. lra.
Qed.

(* ---- fields *)
Definition strained (s : asm) (z x : Z -> R) : cellg -> (Z -> R) -> Z -> R := fun c p k => (field s z c p k + x k)%R.
Lemma field_minus s y z c p k : field s (fun e => y e - z e)%R c p k = (field s y c p k - field s z c p k)%R.
Proof.
  unfold field, mvec. replace (Sum 24 (fun j => bmat c p k j * vals s y c j) - Sum 24 (fun j => bmat c p k j * vals s z c j))%R with (Sum 24 (fun j => bmat c p k j * vals s y c j) + (-1) * Sum 24 (fun j => bmat c p k j * vals s z c j))%R by ring.
  rewrite <- Sum_scal, <- Sum_plus. apply Sum_ext. intros j _. assert (vals s (fun e => y e - z e)%R c j = vals s y c j + (-1) * vals s z c j)%R as ->; [|ring].
  unfold vals, displacement. rewrite <- Sum_scal, <- Sum_plus. apply Sum_ext. intros; ring.
Qed.
Lemma field_shape s z c c' p : same_shape c c' -> field s z c p = field s z c' p.
Proof. intros (E1 & _ & E3 & _). unfold field, vals, bmat. rewrite E1, E3. reflexivity. Qed.
Lemma form_order k Cm Cm' cells cells' p : softer k Cm Cm' cells cells' -> nonneg cells -> (forall c c' x, same_shape c c' -> p c x = p c' x) -> (form Cm cells p p <= k * form Cm' cells' p p)%R.
Proof.
  intros H HN Hp. unfold form. rewrite !integral_cells, <- Rsum_map_scale. induction H as [|c c' l l' (HS & HA) _ IH]; [cbn; lra|].
  cbn [map]. rewrite !Rsum_cons. apply Rplus_le_compat; [|apply IH; intros d x w Hd; apply HN; right; exact Hd].
  unfold cint. rewrite <- Rsum_map_scale. pose proof HS as (E1 & E2 & E3 & E4). rewrite <- E2, <- E4.
  assert (forall x w, In (x, w) (cg_rule c) -> (0 <= cg_det c x * w)%R) as W by (intros x w Hx; apply (HN c x w); [left; reflexivity|exact Hx]).
  clear E2. induction (cg_rule c) as [|[x w] r IHr]; [cbn; lra|]. cbn [map fst snd]. rewrite !Rsum_cons. apply Rplus_le_compat; [|apply IHr; intros; apply W; right; assumption].
  rewrite <- (Hp c c' x HS). rewrite <- (Rmult_assoc k). apply Rmult_le_compat_r; [apply W; left; reflexivity|]. apply HA.
Qed.
Lemma volume_shape k Cm Cm' cells cells' : softer k Cm Cm' cells cells' -> volume cells = volume cells'.
Proof.
  intros H. unfold volume. rewrite !integral_cells. induction H as [|c c' l l' ((E1 & E2 & E3 & E4) & _) _ IH]; [reflexivity|]. cbn [map]. rewrite !Rsum_cons, IH. f_equal. unfold cint. rewrite E2, E4. reflexivity.
Qed.
Lemma volume_pos cells : nonneg cells -> volume cells <> 0%R -> (0 < volume cells)%R.
Proof. intros HN NV. assert (0 <= volume cells)%R by (apply integral_nonneg; [exact HN|intros; lra]). lra. Qed.

(* ---- the upscaled stiffness is the minimum of the energy *)
Lemma upscaled_facts nodes cells M F s Cm Escale Emin sig : upscaled nodes cells M F s Cm Escale Emin sig -> (forall c, In c cells -> symmetric 6 (Cm c)) /\ symmetric 6 sig /\ volume cells <> 0%R /\ factor Escale Emin <> 0%R /\
  forall x, exists z, (quad 6 sig x * (factor Escale Emin * volume cells))%R = form Cm cells (strained s z x) (strained s z x) /\ forall y, form Cm cells (field s y) (strained s z x) = 0%R.
Proof.
  intros (color & C0 & C1 & C2 & s1 & u & (HG & HW & HF & (fuel & HE) & HP & HC) & HA & HL). split; [intros c Hc; apply HC; exact Hc|].
  split; [exact (u_symmetric nodes cells M F fuel s color Cm HG HW HF HE HP HC C0 C1 C2 s1 Escale Emin u sig HA HL)|].
  destruct (u_sig nodes cells M F fuel s color Cm HG HW HF HE HP HC C0 C1 C2 s1 Escale Emin u sig HA HL 0 0 ltac:(lia) ltac:(lia)) as (NV & NF & _). split; [exact NV|]. split; [exact NF|].
  intros x. exists (comb u x). split.
  - exact (u_quad nodes cells M F fuel s color Cm HG HW HF HE HP HC C0 C1 C2 s1 Escale Emin u sig HA HL x).
  - intros y. exact (u_whole nodes cells M F fuel s color Cm HG HW HF HE HP HC C0 C1 C2 s1 Escale Emin u sig HA HL x y).
Qed.
Lemma energy_least Cm cells s z x : (forall c, In c cells -> symmetric 6 (Cm c)) -> (forall c, In c cells -> psd 6 (Cm c)) -> nonneg cells -> (forall y, form Cm cells (field s y) (strained s z x) = 0%R) ->
  forall y, (form Cm cells (strained s z x) (strained s z x) <= form Cm cells (strained s y x) (strained s y x))%R.
Proof.
  intros HS HP HN HZ y. set (d := field s (fun e => y e - z e)%R).
  rewrite (form_ext Cm cells (strained s y x) (fun c p k => strained s z x c p k + d c p k)%R (strained s y x) (fun c p k => strained s z x c p k + d c p k)%R) by (intros; unfold strained, d; rewrite field_minus; ring).
  rewrite (form_plus_l Cm cells (strained s z x) d), !(form_plus_r Cm cells _ (strained s z x) d), (form_sym Cm cells HS (strained s z x) d). rewrite !(HZ (fun e => y e - z e)%R : form Cm cells d (strained s z x) = 0%R).
  pose proof (form_nonneg Cm cells d HN HP). lra.
Qed.
(* softer materials, a softer block *)
Lemma stiffness_order nodes cells cells' M F s k Cm Cm' Escale Emin Escale' Emin' sig tau : upscaled nodes cells M F s Cm Escale Emin sig -> upscaled nodes cells' M F s Cm' Escale' Emin' tau ->
  softer k Cm Cm' cells cells' -> nonneg cells -> (forall c, In c cells -> psd 6 (Cm c)) -> forall x, (quad 6 sig x * factor Escale Emin <= k * (quad 6 tau x * factor Escale' Emin'))%R.
Proof.
  intros H H' HO HN HP x. destruct (upscaled_facts _ _ _ _ _ _ _ _ _ H) as (SC & _ & NV & _ & HX). destruct (upscaled_facts _ _ _ _ _ _ _ _ _ H') as (_ & _ & _ & _ & HX').
  destruct (HX x) as (z & Ez & Oz). destruct (HX' x) as (w & Ew & _). pose proof (volume_pos cells HN NV) as VP. rewrite <- (volume_shape k Cm Cm' cells cells' HO) in Ew.
  pose proof (energy_least Cm cells s z x SC HP HN Oz w) as L1.
  pose proof (form_order k Cm Cm' cells cells' (strained s w x) HO HN ltac:(intros c c' p HS; unfold strained; rewrite (field_shape s w c c' p HS); reflexivity)) as L2.
  rewrite <- Ew in L2. rewrite <- Ez in L1. apply (Rmult_le_reg_r (volume cells)); [exact VP|]. lra.
Qed.
(* other units *)
Lemma stiffness_scaled nodes cells cells' M F s k Cm Cm' Escale Emin Escale' Emin' sig tau : upscaled nodes cells M F s Cm Escale Emin sig -> upscaled nodes cells' M F s Cm' Escale' Emin' tau -> (0 < k)%R ->
  Forall2 (fun c c' => same_shape c c' /\ same 6 (Cm' c') (fun i j => k * Cm c i j)%R) cells cells' -> nonneg cells -> (forall c, In c cells -> psd 6 (Cm c)) ->
  forall i j, 0 <= i < 6 -> 0 <= j < 6 -> (tau i j * factor Escale' Emin' = k * (sig i j * factor Escale Emin))%R.
Proof.
  intros H H' Hk HR HN HP.
  assert (softer (/ k) Cm Cm' cells cells') as O1.
  { clear H H' HN HP. induction HR as [|c c' l l' (HS & HM) _ IH]; constructor; [|exact IH]. split; [exact HS|]. intros x. rewrite (quad_ext _ _ x HM), quad_scale. right. field. lra. }
  assert (softer k Cm' Cm cells' cells) as O2.
  { clear O1 H H' HN HP. induction HR as [|c c' l l' (HS & HM) _ IH]; constructor; [|exact IH]. split; [destruct HS as (E1 & E2 & E3 & E4); repeat split; symmetry; assumption|]. intros x. rewrite (quad_ext _ _ x HM), quad_scale. right. reflexivity. }
  assert (nonneg cells' /\ forall c, In c cells' -> psd 6 (Cm' c)) as (HN' & HP').
  { clear O1 O2 H H'. induction HR as [|c c' l l' ((E1 & E2 & E3 & E4) & HM) _ IH]; [split; [intros c x w []|intros c []]|]. destruct IH as (I1 & I2); [intros d x w Hd; apply HN; right; exact Hd|intros d Hd; apply HP; right; exact Hd|].
    split; [intros d x w [<-|Hd] Hx; [rewrite <- E4; apply (HN c x w); [left; reflexivity|rewrite E2; exact Hx]|apply (I1 d x w Hd Hx)]|]. intros d [<-|Hd]; [|apply I2; exact Hd]. intros x. rewrite (quad_ext _ _ x HM), quad_scale. apply Rmult_le_pos; [lra|apply HP; left; reflexivity]. }
  pose proof (stiffness_order _ _ _ _ _ _ _ _ _ _ _ _ _ _ _ H H' O1 HN HP) as L1. pose proof (stiffness_order _ _ _ _ _ _ _ _ _ _ _ _ _ _ _ H' H O2 HN' HP') as L2.
  destruct (upscaled_facts _ _ _ _ _ _ _ _ _ H) as (_ & SS & _). destruct (upscaled_facts _ _ _ _ _ _ _ _ _ H') as (_ & ST & _).
  set (f := factor Escale Emin) in *. set (f' := factor Escale' Emin') in *. intros i j Hi Hj.
  rewrite (Rmult_comm (tau i j)), (Rmult_comm (sig i j)), <- Rmult_assoc.
  apply (quad_same (fun i j => f' * tau i j)%R (fun i j => k * f * sig i j)%R); try assumption; [intros a b Ha Hb; rewrite ST by assumption; reflexivity|intros a b Ha Hb; rewrite SS by assumption; reflexivity|].
  intros x. rewrite !quad_scale. specialize (L1 x). specialize (L2 x). apply Rle_antisym; [lra|]. apply (Rmult_le_compat_l k) in L1; [|lra]. rewrite <- (Rmult_assoc k (/ k)), Rinv_r in L1 by lra. lra.
Qed.

(* ---- displacements without mean strain *)
Lemma strained_mean s cells z x k : mean_free s cells -> 0 <= k < 6 -> integral cells (fun c p => strained s z x c p k) = (x k * volume cells)%R.
Proof.
  intros HM Hk. unfold strained. rewrite (integral_plus cells (fun c p => field s z c p k) (fun _ _ => x k)). rewrite (HM z k Hk : integral cells (fun c p => field s z c p k) = 0%R).
  unfold volume. rewrite <- integral_scal, Rplus_0_l. apply integral_ext. intros; ring.
Qed.
Lemma strained_dot s cells z x y : mean_free s cells -> integral cells (fun c p => dot 6 (strained s z x c p) y) = (dot 6 x y * volume cells)%R.
Proof.
  intros HM. unfold dot. rewrite (integral_Sum cells 6 (fun k c p => strained s z x c p k * y k)%R). rewrite <- Sum_scal_r. apply Sum_ext. intros k Hk.
  rewrite (integral_ext cells _ (fun c p => y k * strained s z x c p k)%R) by (intros; ring). rewrite (integral_scal cells (y k) (fun c p => strained s z x c p k)), strained_mean by assumption. ring.
Qed.
Lemma stiffness_lower nodes cells M F s Cm Km Escale Emin sig : upscaled nodes cells M F s Cm Escale Emin sig -> nonneg cells -> mean_free s cells -> (forall c, In c cells -> psd 6 (Cm c) /\ inverses 6 (Cm c) (Km c)) ->
  forall x y, (2 * dot 6 x y - quad 6 (mean Km cells) y <= quad 6 sig x * factor Escale Emin)%R.
Proof.
  intros H HN HM HI x y. destruct (upscaled_facts _ _ _ _ _ _ _ _ _ H) as (SC & _ & NV & _ & HX). destruct (HX x) as (z & Ez & _). pose proof (volume_pos cells HN NV) as VP.
  apply (Rmult_le_reg_r (volume cells)); [exact VP|]. rewrite Rmult_assoc, Ez.
  assert (0 <= integral cells (fun c p => dot 6 (strained s z x c p) (mvec 6 (Cm c) (strained s z x c p)) + (-2) * dot 6 (strained s z x c p) y + dot 6 y (mvec 6 (Km c) y)))%R as L.
  { apply integral_nonneg; [exact HN|]. intros c p Hc. destruct (HI c Hc) as (P1 & I1). pose proof (dual_point (Cm c) (Km c) (strained s z x c p) y (SC c Hc) P1 I1) as D. unfold quad in D. lra. }
  rewrite (integral_plus cells (fun c p => dot 6 (strained s z x c p) (mvec 6 (Cm c) (strained s z x c p)) + (-2) * dot 6 (strained s z x c p) y)%R (fun c p => dot 6 y (mvec 6 (Km c) y))) in L.
  rewrite (integral_plus cells (fun c p => dot 6 (strained s z x c p) (mvec 6 (Cm c) (strained s z x c p))) (fun c p => (-2) * dot 6 (strained s z x c p) y)%R), (integral_scal cells (-2) (fun c p => dot 6 (strained s z x c p) y)), strained_dot in L by exact HM.
  pose proof (mean_quad cells Km y NV) as E. unfold form in E at 1. unfold form. rewrite Rmult_minus_distr_r, E. lra.
Qed.
Lemma stiffness_harmonic nodes cells M F s Cm Km H0 Escale Emin sig : upscaled nodes cells M F s Cm Escale Emin sig -> nonneg cells -> mean_free s cells -> (forall c, In c cells -> psd 6 (Cm c) /\ inverses 6 (Cm c) (Km c)) ->
  inverses 6 (mean Km cells) H0 -> forall x, (quad 6 H0 x <= quad 6 sig x * factor Escale Emin)%R.
Proof.
  intros H HN HM HI (I1 & _) x. pose proof (stiffness_lower _ _ _ _ _ _ _ _ _ _ H HN HM HI x (mvec 6 H0 x)) as L. fold (quad 6 H0 x) in L.
  assert (quad 6 (mean Km cells) (mvec 6 H0 x) = quad 6 H0 x) as E.
  { unfold quad. rewrite (dot_ext 6 (mvec 6 H0 x) (mvec 6 (mean Km cells) (mvec 6 H0 x)) (mvec 6 H0 x) x); [apply dot_sym|reflexivity|]. intros i Hi. apply mvec_inv; assumption. }
  rewrite E in L. lra.
Qed.
Lemma stiffness_positive nodes cells M F s Cm Km Escale Emin sig : upscaled nodes cells M F s Cm Escale Emin sig -> nonneg cells -> mean_free s cells -> (forall c, In c cells -> psd 6 (Cm c) /\ inverses 6 (Cm c) (Km c)) ->
  (0 < factor Escale Emin)%R -> pos_def 6 sig.
Proof.
  intros H HN HM HI FP x (i & Hi & Nx). destruct (upscaled_facts _ _ _ _ _ _ _ _ _ H) as (SC & _ & NV & _ & HX). destruct (HX x) as (z & Ez & _). pose proof (volume_pos cells HN NV) as VP.
  assert (forall c, In c cells -> psd 6 (Cm c)) as HP by (intros c Hc; apply HI; exact Hc). pose proof (form_nonneg Cm cells (strained s z x) HN HP) as N0.
  destruct (Req_dec (form Cm cells (strained s z x) (strained s z x)) 0) as [Z0|NZ].
  - exfalso. pose proof (form_kernel Cm cells (strained s z x) (fun c _ => mvec 6 (Km c) (ident i)) SC HP HN Z0) as K0. unfold form in K0.
    rewrite (integral_ext cells _ (fun c p => dot 6 (strained s z x c p) (ident i))) in K0 by (intros c p w Hc _; apply dot_ext; [reflexivity|]; intros k Hk; apply mvec_inv; [apply HI; exact Hc|exact Hk]).
    rewrite strained_dot in K0 by exact HM. apply Rmult_integral in K0. destruct K0 as [K0|K0]; [|lra]. apply Nx. rewrite <- K0. unfold dot. rewrite (Sum_pick 6 i); [unfold ident; rewrite Z.eqb_refl; ring|exact Hi|]. intros k _ N. unfold ident. rewrite (proj2 (Z.eqb_neq i k)) by lia. ring.
  - rewrite <- Ez in N0, NZ. apply (Rmult_lt_reg_r (factor Escale Emin * volume cells)); [apply Rmult_lt_0_compat; assumption|]. lra.
Qed.
(* one material *)
Lemma stiffness_uniform nodes cells M F s Cm C Escale Emin sig : upscaled nodes cells M F s Cm Escale Emin sig -> nonneg cells -> mean_free s cells -> symmetric 6 C -> psd 6 C -> (forall c, In c cells -> same 6 (Cm c) C) ->
  forall i j, 0 <= i < 6 -> 0 <= j < 6 -> (sig i j * factor Escale Emin)%R = C i j.
Proof.
  intros H HN HM SC0 PC HC i j Hi Hj. destruct (upscaled_facts _ _ _ _ _ _ _ _ _ H) as (SC & SS & NV & _ & HX). pose proof (volume_pos cells HN NV) as VP.
  assert (forall c, In c cells -> psd 6 (Cm c)) as HP by (intros c Hc x; rewrite (quad_ext _ _ x (HC c Hc)); apply PC).
  assert (forall p q, form Cm cells p q = form (fun _ => C) cells p q) as FE.
  { intros p q. apply integral_ext. intros c x w Hc _. apply dot_ext; [reflexivity|]. intros k Hk. unfold mvec. apply Sum_ext. intros l Hl. rewrite (HC c Hc) by assumption. reflexivity. }
  set (f := factor Escale Emin) in *. rewrite Rmult_comm. apply (quad_same (fun i j => f * sig i j)%R C); try assumption; [intros a b Ha Hb; rewrite SS by assumption; reflexivity|]. intros x. rewrite quad_scale. destruct (HX x) as (z & Ez & Oz). fold f in Ez.
  apply (Rmult_eq_reg_r (volume cells)); [|exact NV].
  assert (form (fun _ => C) cells (fun _ _ => x) (fun _ _ => x) = quad 6 C x * volume cells)%R as EX.
  { unfold form, volume. rewrite <- integral_scal. apply integral_ext. intros. unfold quad. ring. }
  assert (form Cm cells (field s z) (fun _ _ => x) = 0)%R as Z1.
  { rewrite FE. unfold form, dot. rewrite (integral_Sum cells 6 (fun k c p => field s z c p k * mvec 6 C x k)%R). apply Sum_zero. intros k Hk. rewrite (integral_ext cells _ (fun c p => mvec 6 C x k * field s z c p k)%R) by (intros; ring).
    rewrite (integral_scal cells (mvec 6 C x k) (fun c p => field s z c p k)), (HM z k Hk : integral cells (fun c p => field s z c p k) = 0%R). ring. }
  pose proof (Oz z) as O1. unfold strained in O1. rewrite (form_plus_r Cm cells (field s z) (field s z) (fun _ _ => x)), Z1 in O1.
  rewrite <- EX, <- FE. replace (f * quad 6 sig x * volume cells)%R with (quad 6 sig x * (f * volume cells))%R by ring. rewrite Ez. unfold strained.
  rewrite (form_plus_l Cm cells (field s z) (fun _ _ => x)), !(form_plus_r Cm cells _ (field s z) (fun _ _ => x)), (form_sym Cm cells SC (fun _ _ => x) (field s z)), Z1. lra.
Qed.
