From Verif Require Import BaseFacts RBaseFacts Lin_Facts Steady_Proofs Matx_Proofs3 Hyb_Proofs8 Mim_Proofs2 Tens_Proofs5 Tens_Proofs10 Tens_Proofs9 Tens_Spec.
Open Scope Z_scope.

(* ---- linear conditions on the cubic cell ---- *)
Lemma linear_linear K d bc : like d 1 bc -> linear_bc 3 one_cell bc cube_at K 1 (1/2) (Tens_Proofs9.slope d) /\ ~ no_dirichlet one_cell bc.
Proof.
  intros L. pose proof L as (Hd & C). cbn [Z.eqb Pos.eqb] in C. unfold flat_cond in C. cbn [Z.eqb Pos.eqb] in C. split.
  - split; [|split; [|intros k r k' r' v P; destruct (like_no_partners 1 _ _ _ _ _ _ eq_refl L P)]]; intros k r p H E; apply one_half in H; destruct H as (-> & Hr); rewrite one_cond, C in E by exact Hr.
    + unfold cube_at. rewrite cube_pressure by assumption. injection E as <-. reflexivity.
    + discriminate.
  - intros Nd. apply (Nd 0 0 (1/2 - cube_off 0 d)%R); [apply one_half; lia|]. rewrite one_cond by lia. rewrite (C 0 ltac:(lia)). reflexivity.
Qed.
Lemma cube_linear K ty b sv : good_rock K -> 0 <= ty <= 3 -> exists S s, flow_tensor S same_list one_cell cube_at (rock_ip K) 1 false ty 0 6 b sv = Ok s /\
  upscaled_by same_list one_cell cube_at (rock_ip K) 1 false low_half hi_half (ts_cols s) /\ permeability one_cell cube_at (rock_ip K) (fun _ i j => 1 * entry K i j)%R /\
  linear_ready one_cell cube_at low_half hi_half /\ tensor_is (ts_cols s) (entry K).
Proof.
  intros G Ht. destruct (cube_upscaled K 1 (fun _ => 1/2)%R ty b sv G (or_intror (or_introl eq_refl)) Ht) as (s & E & U & PL).
  { intros d bc L. destruct (linear_linear K d bc L) as (A & B). auto. }
  eexists _, s. split; [exact E|]. split; [exact U|]. split; [exact PL|]. split; [exact one_ready|].
  destruct (linear_finite _ _ _ _ _ _ _ _ U one_ready) as (k & Tk). apply (tensor_ext _ _ _ Tk). apply (linear_uniform _ _ _ _ _ _ _ (fun _ i j => 1 * entry K i j)%R (entry K) k U one_ready PL ltac:(intros; apply Rmult_1_l) Tk).
Qed.
