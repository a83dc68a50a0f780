(* Two layers, one unit cube each: bottom and top do not move, the middle moves as a whole. *)
From Coq Require Import Lra.
From Verif Require Import RBaseFacts BaseFacts Lin_Facts Steady_Proofs Euler_Proofs2 Mim_Proofs Matx_Proofs Smat_Proofs Asm_Proofs Asm_Proofs2 Asm_Proofs3 Asm_Proofs4 Asm_Proofs5 Asm_Proofs6 Shape_Proofs2 Elast_Proofs Elast_Proofs3 Elast_Proofs5 Elast_Proofs6 Elast_Proofs7 Elast_Proofs8 Elast_Proofs9 Elast_Proofs10 Elast_Proofs2 Elm_Proofs Elm_Spec.
Open Scope Z_scope.

Definition lay_cells (m1 m2 : material) : list cellg := [cube [0; 1; 2; 3; 4; 5; 6; 7] m1; cube [4; 5; 6; 7; 8; 9; 10; 11] m2].
Definition lay_M : mpcmap := [(15, mkMpc (mkMdof 5 1 0) [mkMdof 4 1 1]); (16, mkMpc (mkMdof 5 2 0) [mkMdof 4 2 1]); (17, mkMpc (mkMdof 5 3 0) [mkMdof 4 3 1]);
  (18, mkMpc (mkMdof 6 1 0) [mkMdof 4 1 1]); (19, mkMpc (mkMdof 6 2 0) [mkMdof 4 2 1]); (20, mkMpc (mkMdof 6 3 0) [mkMdof 4 3 1]);
  (21, mkMpc (mkMdof 7 1 0) [mkMdof 4 1 1]); (22, mkMpc (mkMdof 7 2 0) [mkMdof 4 2 1]); (23, mkMpc (mkMdof 7 3 0) [mkMdof 4 3 1])].
Definition lay_F : fixmap := map (fun n => (n, (7, [0; 0; 0]%R))) [0; 1; 2; 3; 8; 9; 10; 11].
Definition mid_mpc (k : Z) : mpc := mkMpc (mkMdof (k / 3) (k mod 3 + 1) 0) [mkMdof 4 (k mod 3 + 1) 1].
Lemma lay_find k : mm_find lay_M k = if (15 <=? k) && (k <? 24) then Some (mid_mpc k) else None.
Proof.
  unfold lay_M. cbn [mm_find]. repeat match goal with |- context [?a =? k] => destruct (Z.eqb_spec a k) as [<-|]; [reflexivity|] end.
  destruct (Z.leb_spec 15 k); [|reflexivity]. destruct (Z.ltb_spec k 24); [lia|reflexivity].
Qed.
Lemma lay_some k p : mm_find lay_M k = Some p -> 15 <= k < 24 /\ p = mid_mpc k.
Proof. rewrite lay_find. destruct (Z.leb_spec 15 k); [|discriminate]. destruct (Z.ltb_spec k 24); [|discriminate]. cbn. intros [= <-]. split; [lia|reflexivity]. Qed.
Lemma lay_couples k x c : couples 3 lay_M k x c -> 15 <= k < 24 /\ x = 12 + k mod 3 /\ c = 1%R.
Proof. intros (p & m & Hp & Hm & Hx & Hc). apply lay_some in Hp. destruct Hp as (Hk & ->). destruct Hm as [<-|[]]. unfold dof_key in Hx. cbn [md_node md_dof md_coeff] in Hx, Hc. split; [exact Hk|]. split; [lia|congruence]. Qed.
Lemma lay_chain k x c : chain 3 lay_M k x c -> 15 <= k < 24 /\ 12 <= x < 15 /\ c = 1%R.
Proof.
  induction 1 as [a b d H|a y b d e H _ IH]; apply lay_couples in H; destruct H as (H1 & H2 & H3).
  - pose proof (Z.mod_pos_bound a 3). subst. lia || (repeat split; lia).
  - pose proof (Z.mod_pos_bound a 3). lia.
Qed.
Lemma lay_flag n i : 0 <= i < 3 -> fx_flag lay_F n i = ((0 <=? n) && (n <? 4)) || ((8 <=? n) && (n <? 12)).
Proof.
  intros Hi. unfold fx_flag, lay_F. cbn [map fx_find]. assert (Z.testbit 7 i = true) as T by (assert (i = 0 \/ i = 1 \/ i = 2) as [-> | [-> | ->]] by lia; reflexivity).
  repeat match goal with |- context [?a =? n] => destruct (Z.eqb_spec a n) as [<-|]; [exact T|] end.
  destruct (Z.leb_spec 0 n), (Z.ltb_spec n 4), (Z.leb_spec 8 n), (Z.ltb_spec n 12); cbn; reflexivity || lia.
Qed.
Lemma lay_value d : fixed_val 3 lay_F d = 0%R.
Proof.
  unfold fixed_val, lay_F. cbn [map fx_find]. assert (forall k, nthR [0; 0; 0]%R k = 0%R) as Z0.
  { intros k. unfold nthR. destruct (zget [0; 0; 0]%R k) as [x|] eqn:E; [|reflexivity]. apply zget_In in E. destruct E as [<-|[<-|[<-|[]]]]; reflexivity. }
  repeat match goal with |- context [?a =? d / 3] => destruct (a =? d / 3); [apply Z0|] end. reflexivity.
Qed.
Lemma lay_grid m1 m2 : grid_ok 3 12 (map cg_verts (lay_cells m1 m2)) lay_M lay_F.
Proof.
  split; [lia|]. split; [lia|]. split.
  - intros v n [<-|[<-|[]]]; cbn [cg_verts cube In]; intros Hn; repeat (destruct Hn as [<-|Hn]; [lia|]); destruct Hn.
  - split; [intros k x c H; apply lay_couples in H; pose proof (Z.mod_pos_bound k 3); lia|]. split.
    + intros k Hk. destruct (mm_find lay_M k) as [p|] eqn:E; [|contradiction]. apply lay_some in E. split; [lia|]. rewrite lay_flag by (apply Z.mod_pos_bound; lia).
      pose proof (Z.div_mod k 3). pose proof (Z.mod_pos_bound k 3). destruct (Z.leb_spec 0 (k / 3)), (Z.ltb_spec (k / 3) 4), (Z.leb_spec 8 (k / 3)), (Z.ltb_spec (k / 3) 12); cbn; reflexivity || lia.
    + intros n d v H. unfold lay_F in H. cbn [map fx_find] in H. repeat match type of H with context [?a =? n] => destruct (a =? n); [inversion H; reflexivity|] end. discriminate.
Qed.
Lemma lay_wf : wf_mpcs 3 lay_M.
Proof.
  pose proof tol_small as T. split; [cbn; repeat split; intros; lia|]. intros k p Hp. apply lay_some in Hp. destruct Hp as (Hk & ->). pose proof (Z.mod_pos_bound k 3). pose proof (Z.div_mod k 3). split; [unfold dof_key, mid_mpc; cbn [mp_slave md_node md_dof]; lia|]. intros m [<-|[]]. cbn [md_dof md_coeff]. split; [lia|]. rewrite Rabs_pos_eq; lra.
Qed.
Lemma lay_acyclic : ~ cyclic 3 lay_M.
Proof. intros (k & c & H). apply lay_chain in H. lia. Qed.
Lemma lay_problem m1 m2 Cm : (forall m c, In (m, c) (combine [m1; m2] (lay_cells m1 m2)) -> matrix_of m (Cm c) /\ symmetric 6 (Cm c)) ->
  exists s, elastic_problem 12 (lay_cells m1 m2) lay_M lay_F s [[lay_cells m1 m2]] Cm.
Proof.
  intros HC. destruct (init_total 3 12 (map cg_verts (lay_cells m1 m2)) lay_M lay_F (lay_grid m1 m2) lay_wf lay_acyclic) as (fuel & Hf). destruct (Hf fuel (le_n _)) as (s & Es). exists s.
  split; [apply lay_grid|]. split; [exact lay_wf|]. split; [intros d _; apply lay_value|]. split; [exists fuel; exact Es|]. split; [apply Permutation_refl|].
  intros c [<-|[<-|[]]]; (split; [reflexivity|]); apply HC; cbn; auto.
Qed.
(* the displacements *)
Section Lay.
Variables (m1 m2 : material) (fuel : nat) (s : asm).
Hypothesis HE : init_assembly fuel 3 12 (map cg_verts (lay_cells m1 m2)) lay_M lay_F = Some (Ok s).
Lemma lay_fixed z d : 0 <= d < 12 \/ 24 <= d < 36 -> displacement 3 s z d = 0%R.
Proof using HE.
  intros Hd. pose proof (init_inv _ _ _ _ _ _ _ (lay_grid m1 m2) lay_wf HE) as HI. unfold displacement. apply Sum_zero. intros e He. assert (trans 3 (as_mpcs s) (as_meqn s) d e = 0%R) as ->; [|ring]. unfold trans.
  destruct (mm_find (as_mpcs s) d) as [p|] eqn:Ep.
  - exfalso. assert (slaveof lay_M d) as HS by (apply HI; unfold slaveof; congruence). unfold slaveof in HS. destruct (mm_find lay_M d) as [q|] eqn:Eq; [|contradiction]. apply lay_some in Eq. lia.
  - rewrite (e_not_free 3 12 (map cg_verts (lay_cells m1 m2)) lay_M lay_F s HI d); [destruct (Z.eqb_spec (-1) e); [lia|reflexivity]|lia|]. intros [_ Hx]. rewrite lay_flag in Hx by (apply Z.mod_pos_bound; lia).
    pose proof (Z.div_mod d 3). pose proof (Z.mod_pos_bound d 3). destruct (Z.leb_spec 0 (d / 3)), (Z.ltb_spec (d / 3) 4), (Z.leb_spec 8 (d / 3)), (Z.ltb_spec (d / 3) 12); cbn in Hx; discriminate || lia.
Qed.
Lemma lay_middle z d : 12 <= d < 24 -> displacement 3 s z d = displacement 3 s z (12 + d mod 3).
Proof using HE.
  intros Hd. pose proof (init_inv _ _ _ _ _ _ _ (lay_grid m1 m2) lay_wf HE) as HI. assert (0 <= as_neq s) as Hn by apply HI. set (w := map z (zrange 0 (as_neq s))).
  assert (zlen w = as_neq s) as Lw by (unfold w; rewrite zlen_map, zlen_zrange; lia).
  assert (forall d, displacement 3 s z d = displacement 3 s (nthR w) d) as DW by (intros x; unfold displacement; apply Sum_ext; intros e He; unfold w; rewrite nthR_tab by exact He; reflexivity).
  destruct (expanded 3 12 _ _ _ fuel s w (lay_grid m1 m2) lay_wf HE Lw) as (r & Er & _ & _ & R2 & _).
  assert (forall x, 12 <= x < 24 -> nthR r x = displacement 3 s z x) as R3.
  { intros x Hx. rewrite DW. apply R2; [lia|]. unfold is_fixed. rewrite lay_flag by (apply Z.mod_pos_bound; lia). pose proof (Z.div_mod x 3). pose proof (Z.mod_pos_bound x 3). destruct (Z.leb_spec 0 (x / 3)), (Z.ltb_spec (x / 3) 4), (Z.leb_spec 8 (x / 3)), (Z.ltb_spec (x / 3) 12); cbn; discriminate || lia. }
  pose proof tol_small as T. pose proof (Z.mod_pos_bound d 3) as MB. destruct (Z_lt_le_dec d 15) as [L|L].
  { f_equal. assert (d = 12 \/ d = 13 \/ d = 14) as [-> | [-> | ->]] by lia; reflexivity. }
  assert (obeys 3 lay_M (nthR r)) as O.
  { apply (expanded_homogeneous 3 12 _ _ lay_F fuel s w r (lay_grid m1 m2) lay_wf HE Lw); [intros k x c H; apply lay_chain in H; destruct H as (_ & _ & ->); rewrite Rabs_pos_eq; lra| |exact Er].
    split; [intros k p Hp; apply lay_some in Hp; destruct Hp as (_ & ->); reflexivity|intros x _; apply lay_value]. }
  rewrite <- !R3 by lia. rewrite (O d (mid_mpc d)); [|rewrite lay_find; replace ((15 <=? d) && (d <? 24)) with true by (destruct (Z.leb_spec 15 d), (Z.ltb_spec d 24); reflexivity || lia); reflexivity].
  unfold mpc_value, mid_mpc. cbn [mp_slave mp_master md_coeff map]. rewrite Rsum_cons, Rsum_nil. unfold dof_key. cbn [md_node md_dof]. replace (4 * 3 + (d mod 3 + 1) - 1) with (12 + d mod 3) by lia. ring.
Qed.
(* a translation has no strain *)
Lemma translation x J d i : 0 <= i < 6 -> exists B, bmatrix 3 x J = Ok B /\ mvec 24 B (fun a => d (a mod 3)) i = 0%R.
Proof.
  clear. intros Hi. destruct (bmatrix_strain 3 x J (or_intror eq_refl)) as (B & EB & HB). exists B. split; [exact EB|]. change 24 with (3 * 2 ^ 3). rewrite HB by exact Hi.
  assert (forall k l, 0 <= k < 3 -> 0 <= l < 3 -> disp_gradient 3 (phys_gradient 3 J (grad_of 3 x)) (fun a => d (a mod 3)) k l = 0%R) as HG.
  { intros k l Hk Hl. unfold disp_gradient. rewrite (Sum_ext (2 ^ 3) _ (fun a => d k * phys_gradient 3 J (grad_of 3 x) a l)%R).
    - rewrite Sum_scal. assert (Sum (2 ^ 3) (fun a => phys_gradient 3 J (grad_of 3 x) a l) = 0%R) as ->; [|ring]. unfold phys_gradient, mvec. rewrite Sum_swap. apply Sum_zero. intros m Hm. rewrite Sum_scal, grad_sum by auto. ring.
    - intros a _. rewrite (Z.mul_comm 3 a), Z.add_comm, Z_mod_plus_full, Z.mod_small by exact Hk. reflexivity. }
  rewrite (strain_ext 3 _ (fun _ _ => 0%R) i (or_intror eq_refl) Hi HG). unfold strain. cbn [Z.eqb Pos.eqb]. destruct (i <? 3); [reflexivity|]. destruct (i =? 3); [ring|]. destruct (i =? 4); ring.
Qed.
Lemma lay_dofs a : 0 <= a < 24 -> cell_dof 3 [0; 1; 2; 3; 4; 5; 6; 7] a = a /\ cell_dof 3 [4; 5; 6; 7; 8; 9; 10; 11] a = 12 + a.
Proof.
  clear. intros Ha. pose proof (Z.div_mod a 3). pose proof (Z.mod_pos_bound a 3). unfold cell_dof. assert (0 <= a / 3 < 8) as Hq by lia.
  assert (zget [0; 1; 2; 3; 4; 5; 6; 7] (a / 3) = Some (a / 3) /\ zget [4; 5; 6; 7; 8; 9; 10; 11] (a / 3) = Some (4 + a / 3)) as (-> & ->); [|lia].
  set (q := a / 3) in *. assert (q = 0 \/ q = 1 \/ q = 2 \/ q = 3 \/ q = 4 \/ q = 5 \/ q = 6 \/ q = 7) as [-> | [-> | [-> | [-> | [-> | [-> | [-> | ->]]]]]]] by lia; split; reflexivity.
Qed.
Lemma lay_mean_free : mean_free s (lay_cells m1 m2).
Proof using HE.
  intros z k Hk. unfold integral, points, lay_cells. cbn [flat_map map cube cg_rule app fst snd cg_det]. rewrite !Rsum_cons, Rsum_nil. set (mid := (fun _ : Z => 1 / 2)%R).
  destruct (translation mid ident (fun j => displacement 3 s z (12 + j)) k Hk) as (B & EB & HB).
  unfold strain_at, bmat. cbn [cg_jit cg_verts cube]. rewrite EB. etransitivity; [|exact HB]. unfold mvec.
  replace (Sum 24 (fun j => B k j * displacement 3 s z (12 + j mod 3)%Z))%R with (Sum 24 (fun j => B k j * displacement 3 s z (cell_dof 3 [0; 1; 2; 3; 4; 5; 6; 7]%Z j) + B k j * displacement 3 s z (cell_dof 3 [4; 5; 6; 7; 8; 9; 10; 11]%Z j)))%R.
  - rewrite Sum_plus. ring.
  - apply Sum_ext. intros j Hj. destruct (lay_dofs j Hj) as (-> & ->). destruct (Z_lt_le_dec j 12) as [L|L].
    + rewrite (lay_fixed z j) by lia. rewrite (lay_middle z (12 + j)) by lia. replace ((12 + j) mod 3) with (j mod 3) by (replace (12 + j) with (j + 4 * 3) by lia; rewrite Z_mod_plus_full; reflexivity). ring.
    + rewrite (lay_fixed z (12 + j)) by lia. rewrite (lay_middle z j) by lia. ring.
Qed.
End Lay.
Lemma lay_nonneg m1 m2 : nonneg (lay_cells m1 m2).
Proof. intros c x w [<-|[<-|[]]] [E|[]]; inversion E; cbn; lra. Qed.
Lemma lay_volume m1 m2 : volume (lay_cells m1 m2) = 2%R.
Proof. unfold volume, integral. cbn. rewrite ?Rsum_cons, ?Rsum_nil. lra. Qed.
(* the compliances of isotropic layers *)
Definition lay_K (c : cellg) : fmat := match cg_mat c with MIso E nu _ => fun i j => (if (i <? 3) && (j <? 3) then (if i =? j then 1 / E else - nu / E) else if i =? j then (2 + 2 * nu) / E else 0)%R | _ => fzero end.
Lemma lay_case a b : (0 < a)%R -> (0 < b)%R -> exists s sig, let cells := lay_cells (MIso a 0 1) (MIso b 0 1) in upscaled 12 cells lay_M lay_F s ex_C 0 1 sig /\ nonneg cells /\ mean_free s cells /\
  forall c, In c cells -> psd 6 (ex_C c) /\ inverses 6 (ex_C c) (lay_K c).
Proof.
  intros Ha Hb. set (cells := lay_cells (MIso a 0 1) (MIso b 0 1)).
  assert (forall E, (0 < E)%R -> psd 6 (lame 3 (E * 0 / ((1 + 0) * (1 - 2 * 0))) (E / (2 * (1 + 0))))) as PS.
  { intros E HE. apply lame_psd; [apply Rlt_le; apply Rdiv_lt_0_compat; lra|]. replace (E * 0 / ((1 + 0) * (1 - 2 * 0)))%R with 0%R by (field; lra). assert (0 < E / (2 * (1 + 0)))%R by (apply Rdiv_lt_0_compat; lra). lra. }
  destruct (lay_problem (MIso a 0 1) (MIso b 0 1) ex_C) as (s & HPb).
  { intros m c Hc. cbn in Hc. destruct Hc as [E|[E|[]]]; injection E as <- <-; (split; [apply iso_matrix; unfold okn; lra|apply lame_sym6]). }
  assert (forall c, In c cells -> psd 6 (ex_C c)) as HPS by (intros c [<-|[<-|[]]]; apply PS; assumption).
  destruct (upscaled_exists 12 cells lay_M lay_F s _ ex_C 0 1 fzero fzero fzero HPb (lay_nonneg _ _) HPS) as (s1 & E1 & u & sig & HL); [unfold cells; rewrite lay_volume; lra|lra|].
  exists s, sig. split; [exists [[cells]], fzero, fzero, fzero, s1, u; split; [exact HPb|]; split; assumption|]. split; [apply lay_nonneg|]. split.
  - destruct HPb as (_ & _ & _ & (fuel & HE) & _). exact (lay_mean_free _ _ fuel s HE).
  - intros c Hc. split; [apply HPS; exact Hc|].
    assert (forall E, (0 < E)%R -> forall v, inverses 6 (ex_C (cube v (MIso E 0 1))) (lay_K (cube v (MIso E 0 1)))) as IV.
    { intros E HE v. unfold ex_C, lay_K. cbn [cg_mat cube]. replace (E * 0 / ((1 + 0) * (1 - 2 * 0)))%R with 0%R by (field; lra). replace (E / (2 * (1 + 0)))%R with (E / 2)%R by (field; lra).
      split; intros i j Hi Hj; unfold mmul; rewrite Sum_6; all6 i Hi; all6 j Hj; unfold lame, ident; cbn; field; lra. }
    destruct Hc as [<-|[<-|[]]]; apply IV; assumption.
Qed.
