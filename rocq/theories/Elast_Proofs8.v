(* The load cases of the elastic problem: solvability, uniqueness of the upscaled matrix; an example; statements for the properties. *)
From Coq Require Import Lra.
From Verif Require Import RBaseFacts BaseFacts Lin_Facts Steady_Proofs Euler_Proofs2 Mim_Proofs Matx_Proofs Smat_Proofs Asm_Proofs Asm_Proofs2 Asm_Proofs3 Asm_Proofs4 Asm_Proofs5 Asm_Proofs6 Shape_Proofs2 Elast_Proofs Elast_Proofs2 Elast_Proofs3 Elast_Proofs4 Elast_Proofs5 Elast_Proofs6 Elast_Spec.
Open Scope Z_scope.

(* ---- symmetric positive semidefinite systems: solvable if the right hand side is orthogonal to the kernel *)
Definition ext (n : Z) (z : Z -> R) (v : R) : Z -> R := fun e => if e =? n then v else z e.
Lemma ext_at n z v : ext n z v n = v. Proof. unfold ext. rewrite Z.eqb_refl. reflexivity. Qed.
Lemma ext_lt n z v e : e < n -> ext n z v e = z e. Proof. intros H. unfold ext. rewrite (proj2 (Z.eqb_neq e n)) by lia. reflexivity. Qed.
Lemma Sum_ext_S n (w : Z -> R) z v : 0 <= n -> Sum (n + 1) (fun e => w e * ext n z v e)%R = (Sum n (fun e => w e * z e) + w n * v)%R.
Proof. intros Hn. rewrite Sum_S by exact Hn. rewrite ext_at. f_equal. apply Sum_ext. intros e He. rewrite ext_lt by lia. reflexivity. Qed.
Lemma mvec_ext_S n A z v i : 0 <= n -> mvec (n + 1) A (ext n z v) i = (mvec n A z i + A i n * v)%R.
Proof. intros Hn. apply (Sum_ext_S n (A i)). exact Hn. Qed.
Lemma quad_ext_S n A z v : 0 <= n -> symmetric (n + 1) A -> quad (n + 1) A (ext n z v) = (quad n A z + 2 * v * mvec n A z n + A n n * v * v)%R.
Proof.
  intros Hn HS. unfold quad, dot. rewrite Sum_S by exact Hn. rewrite ext_at, mvec_ext_S by exact Hn. rewrite (Sum_ext n _ (fun e => z e * mvec n A z e + v * (A n e * z e))%R).
  - rewrite Sum_plus, Sum_scal. unfold mvec at 2 3. fold (mvec n A z n). unfold mvec. ring.
  - intros e He. rewrite ext_lt, mvec_ext_S, (HS e n) by lia. ring.
Qed.
Lemma fredholm n : 0 <= n -> forall A b, symmetric n A -> psd n A -> (forall z, (forall e, 0 <= e < n -> mvec n A z e = 0%R) -> Sum n (fun e => b e * z e)%R = 0%R) ->
  exists u, forall e, 0 <= e < n -> mvec n A u e = b e.
Proof.
  revert n. apply (natlike_ind (fun n => forall A b, symmetric n A -> psd n A -> (forall z, (forall e, 0 <= e < n -> mvec n A z e = 0%R) -> Sum n (fun e => b e * z e)%R = 0%R) -> exists u, forall e, 0 <= e < n -> mvec n A u e = b e)).
  - intros A b _ _ _. exists (fun _ => 0%R). intros; lia.
  - intros n Hn IH A b HS HP HK. unfold Z.succ in *. assert (symmetric n A) as Sn by (intros i j Hi Hj; apply HS; lia). destruct (Req_dec (A n n) 0) as [A0|A0].
    + assert (forall j, 0 <= j < n -> A n j = 0%R) as R0.
      { intros j Hj. destruct (Req_dec (A n j) 0) as [|NZ]; [assumption|exfalso]. pose proof (HP (ext n (fun e => ident j e) (- (A j j + 1) / (2 * A n j))%R)) as Q. rewrite quad_ext_S, A0 in Q by assumption.
        assert (forall i, mvec n A (fun e => ident j e) i = A i j) as Em. { intros i. unfold mvec. rewrite (Sum_pick n j); [unfold ident; rewrite Z.eqb_refl; ring|exact Hj|]. intros k _ Nk. unfold ident. rewrite (proj2 (Z.eqb_neq j k)) by lia. ring. }
        rewrite Em in Q. unfold quad, dot in Q. rewrite (Sum_pick n j) in Q; [|exact Hj|intros k _ Nk; unfold ident; rewrite (proj2 (Z.eqb_neq j k)) by lia; ring]. rewrite Em in Q. unfold ident in Q. rewrite Z.eqb_refl in Q.
        replace (2 * (- (A j j + 1) / (2 * A n j)) * A n j)%R with (- (A j j + 1))%R in Q by (field; exact NZ). lra. }
      assert (forall j, 0 <= j < n -> A j n = 0%R) as C0 by (intros j Hj; rewrite HS by lia; apply R0; exact Hj).
      assert (b n = 0)%R as B0.
      { specialize (HK (ext n (fun _ => 0%R) 1%R)). rewrite Sum_ext_S in HK by exact Hn. rewrite Sum_zero in HK by (intros; ring). rewrite Rplus_0_l, Rmult_1_r in HK. apply HK. intros e He. rewrite mvec_ext_S by exact Hn. unfold mvec. rewrite Sum_zero by (intros; ring). destruct (Z.eq_dec e n) as [->|]; [rewrite A0; ring|rewrite C0 by lia; ring]. }
      destruct (IH A b Sn) as (u & Hu).
      * intros z. pose proof (HP (ext n z 0%R)) as Q. rewrite quad_ext_S in Q by assumption. lra.
      * intros z Hz. specialize (HK (ext n z 0%R)). rewrite Sum_ext_S in HK by exact Hn. rewrite Rmult_0_r, Rplus_0_r in HK. apply HK. intros e He. rewrite mvec_ext_S by exact Hn. destruct (Z.eq_dec e n) as [->|]; [|rewrite Hz by lia; ring]. unfold mvec. rewrite Sum_zero; [ring|]. intros j Hj. rewrite R0 by exact Hj. ring.
      * exists (ext n u 0%R). intros e He. rewrite mvec_ext_S by exact Hn. destruct (Z.eq_dec e n) as [->|]; [|rewrite Hu by lia; ring]. rewrite B0. unfold mvec. rewrite Sum_zero; [ring|]. intros j Hj. rewrite R0 by exact Hj. ring.
    + set (a := A n n) in *. set (A' := fun i j => (A i j - A i n * A n j / a)%R). set (b' := fun i => (b i - A i n * b n / a)%R).
      assert (forall z i, mvec n A' z i = (mvec n A z i - A i n * mvec n A z n / a)%R) as Em.
      { intros z i. unfold mvec, A'. rewrite (Sum_ext n _ (fun j => A i j * z j + (- A i n / a) * (A n j * z j))%R) by (intros; field; exact A0). rewrite Sum_plus, Sum_scal. field. exact A0. }
      assert (forall z, quad n A' z = quad (n + 1) A (ext n z (- mvec n A z n / a)%R)) as Eq.
      { intros z. rewrite quad_ext_S by assumption. fold a. unfold quad, dot. rewrite (Sum_ext n _ (fun i => z i * mvec n A z i + (- mvec n A z n / a) * (A n i * z i))%R) by (intros i Hi; rewrite Em, (HS i n) by lia; field; exact A0). rewrite Sum_plus, Sum_scal. change (Sum n (fun i => A n i * z i)%R) with (mvec n A z n). field. exact A0. }
      destruct (IH A' b') as (u & Hu).
      * intros i j Hi Hj. unfold A'. rewrite (HS i j), (HS i n), (HS n j) by lia. unfold Rdiv. ring.
      * intros z. rewrite Eq. apply HP.
      * intros z Hz. specialize (HK (ext n z (- mvec n A z n / a)%R)). rewrite Sum_ext_S in HK by exact Hn. rewrite (Sum_ext n _ (fun i => b i * z i + (- b n / a) * (A n i * z i))%R) by (intros i Hi; unfold b'; rewrite (HS i n) by lia; field; exact A0). rewrite Sum_plus, Sum_scal. change (Sum n (fun i => A n i * z i)%R) with (mvec n A z n). rewrite <- HK; [field; exact A0|].
        intros e He. rewrite mvec_ext_S by exact Hn. destruct (Z.eq_dec e n) as [->|]; [fold a; field; exact A0|]. specialize (Hz e ltac:(lia)). rewrite Em in Hz. rewrite <- Hz. field. exact A0.
      * exists (ext n u ((b n - mvec n A u n) / a)%R). intros e He. rewrite mvec_ext_S by exact Hn. destruct (Z.eq_dec e n) as [->|]; [fold a; field; exact A0|]. specialize (Hu e ltac:(lia)). rewrite Em in Hu. unfold b' in Hu. apply (Rplus_eq_compat_r (A e n * b n / a)) in Hu. replace (b e - A e n * b n / a + A e n * b n / a)%R with (b e) in Hu by ring. rewrite <- Hu. field. exact A0.
Qed.

(* ---- averageStress does not fail *)
Lemma average_total s u cells i Escale Emin C0 Cm V : (forall c, In c cells -> matrix_of (cg_mat c) (Cm c)) -> (forall c, In c cells -> exists l, extract_values 3 s u (cg_verts c) = Ok l /\ forall a, 0 <= a < 24 -> vec_at l a = V c a) ->
  0 <= i < 6 -> volume cells <> 0%R -> ((0 < Escale)%R -> Emin <> 0%R) -> exists sg, average_stress s u cells i Escale Emin C0 = Ok (Some sg).
Proof.
  intros HM HE Hi NV NE. unfold average_stress. replace ((i <? 0) || (5 <? i)) with false by (destruct (Z.ltb_spec i 0); destruct (Z.ltb_spec 5 i); lia || reflexivity).
  destruct (cells_stress s u (unit_strain i) Cm V cells HM HE (fun _ => 0%R) 0%R C0) as (sg' & C' & E & HS). rewrite E. cbn [bind]. rewrite Rplus_0_l. destruct (Req_EM_T (volume cells) 0) as [|_]; [contradiction|].
  unfold Rltb. destruct (Rlt_dec 0 Escale) as [P|P]; [|eexists; reflexivity]. rewrite mdiv_ok by (apply NE; exact P). cbn [bind]. eexists. reflexivity.
Qed.
(* semidefinite: a field without energy is orthogonal to all fields *)
Lemma form_kernel Cm cells p q : (forall c, In c cells -> symmetric 6 (Cm c)) -> (forall c, In c cells -> psd 6 (Cm c)) -> nonneg cells -> form Cm cells p p = 0%R -> form Cm cells p q = 0%R.
Proof.
  intros HS HP HN H0. set (a := form Cm cells p q). set (d := form Cm cells q q). assert (0 <= d)%R as Hd by (apply form_nonneg; assumption).
  assert (forall t, (0 <= 2 * t * a + t * t * d)%R) as Q.
  { intros t. pose proof (form_nonneg Cm cells (fun c x k => p c x k + t * q c x k)%R HN HP) as H. rewrite (form_plus_l Cm cells p (fun c x k => t * q c x k)%R), !(form_plus_r Cm cells _ p (fun c x k => t * q c x k)%R) in H.
    assert (forall r, form Cm cells r (fun c x k => t * q c x k)%R = (t * form Cm cells r q)%R) as Sc.
    { intros r. unfold form. rewrite <- integral_scal. apply integral_ext. intros c x w _ _. unfold dot. rewrite <- Sum_scal. apply Sum_ext. intros k _. unfold mvec. rewrite (Sum_ext 6 _ (fun j => t * (Cm c k j * q c x j))%R) by (intros; ring). rewrite Sum_scal. ring. }
    rewrite !Sc in H. rewrite (form_sym Cm cells HS (fun c x k => t * q c x k)%R p), (form_sym Cm cells HS (fun c x k => t * q c x k)%R q), !Sc in H. fold a d in H. rewrite H0 in H. lra. }
  destruct (Req_dec a 0) as [|NA]; [assumption|exfalso]. destruct (Req_dec d 0) as [Z0|ND].
  - pose proof (Q (- a)%R) as H. rewrite Z0 in H. assert (0 < a * a)%R by (apply Rsqr_pos_lt; exact NA). lra.
  - pose proof (Q (- a / d)%R) as H. assert (0 < a * a)%R by (apply Rsqr_pos_lt; exact NA). replace (2 * (- a / d) * a + - a / d * (- a / d) * d)%R with (- (a * a / d))%R in H by (field; exact ND). assert (0 < a * a / d)%R by (apply Rmult_lt_0_compat; [assumption|apply Rinv_0_lt_compat; lra]). lra.
Qed.
Lemma nthR_tab (f : Z -> R) n e : 0 <= e < n -> nthR (map f (zrange 0 n)) e = f e.
Proof. intros He. unfold nthR. rewrite zget_map, zget_zrange by lia. reflexivity. Qed.
