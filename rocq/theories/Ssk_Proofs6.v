From Verif Require Import BaseFacts RBaseFacts Lin_Facts Steady_Proofs Euler_Proofs2 Impl_Proofs Eld_Proofs2 Matx_Proofs Matx_Proofs3 Mim_Proofs2 Rpc_Proofs Rpc_Proofs4 Tens_Proofs6 Tens_Proofs9 Tens_Proofs12 Ssk_Spec Ssk_Proofs.
Open Scope Z_scope.

(* ---- closed top and bottom: the single-phase tensor has no inverse ---- *)
Lemma singular_UB K eff mu : shaped K COrd 3 3 -> entry K 2 2 = 0%R -> relperm_tensor eff K mu = UB.
Proof.
  intros Sh H0. unfold relperm_tensor, inverse3x3. assert (G : forall i j, 0 <= i < 3 -> 0 <= j < 3 -> mget K i j = Ok (entry K i j)) by (intros i j Hi Hj; exact (holds_get _ _ _ _ _ _ _ Sh Hi Hj)). rewrite !G by lia. cbn [bind]. rewrite H0. unfold mdiv at 1. unfold fdiv at 1. destruct (Req_EM_T 0 0) as [_|N]; [reflexivity|destruct (N eq_refl)].
Qed.
Lemma plane_singular srt g geo ip low hi cols d eff mu : upscaled_by srt g geo ip 2 true low hi cols -> tensor_data cols = Ok d -> relperm_tensor eff (mkMat 3 3 COrd d) mu = UB.
Proof.
  intros U E. destruct (periodic_symmetric _ _ _ _ _ _ _ _ U) as (k & Tk & _). destruct (data_ok cols d E (ex_intro _ k Tk)) as (L & T). destruct (periodic_plane _ _ _ _ _ _ _ _ U _ T eq_refl) as (Z0 & _). apply singular_UB; [apply shaped_3; first [reflexivity|exact L]|]. destruct (Z0 2 ltac:(lia)) as (Q & _). exact Q.
Qed.
Lemma plane_refuted : exists g geo ip low hi cols d, upscaled_by same_list g geo ip 2 true low hi cols /\ permeability g geo ip (fun _ => ident) /\ tensor_data cols = Ok d /\ forall eff mu, relperm_tensor eff (mkMat 3 3 COrd d) mu = UB.
Proof.
  destruct (cube_plane 0 bcs_empty fresh ltac:(lia)) as (S & s & _ & U & PL & _ & T). destruct (data_total _ _ T) as (d & Ed). exists one_cell, cube_at, (rock_ip unit_K), low_half, hi_half, (ts_cols s), d. split; [exact U|]. split; [|split; [exact Ed|intros eff mu; exact (plane_singular _ _ _ _ _ _ _ _ eff mu U Ed)]].
  intros k Hk. destruct (PL k Hk) as (A & B & C). assert (X : forall i j, 0 <= i < 3 -> 0 <= j < 3 -> (1 * entry unit_K i j)%R = ident i j) by (intros i j Hi Hj; rewrite unit_entry by assumption; apply Rmult_1_l). split; [intros i j Hi Hj; rewrite <- !X by assumption; apply A; assumption|]. split; [intros x Hx; rewrite <- (quad_ext 3 _ _ x X); apply B; exact Hx|].
  intros p0 a i Hi. rewrite (C p0 a i Hi). unfold darcy_flux, dot. do 2 f_equal. apply Sum_ext. intros j Hj. f_equal. apply mvec_mat. intros l Hl. apply X; assumption.
Qed.
