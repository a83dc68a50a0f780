(* Statements for the material properties and examples. *)
From Coq Require Import Lra String.
From Verif Require Import RBaseFacts BaseFacts Lin_Facts Steady_Proofs Euler_Proofs2 Mim_Proofs Matx_Proofs Smat_Proofs Asm_Proofs Asm_Proofs2 Asm_Proofs3 Asm_Proofs4 Asm_Proofs5 Asm_Proofs6 Shape_Proofs Shape_Proofs2 Elast_Proofs Elast_Proofs2 Elast_Proofs3 Elast_Proofs4 Elast_Proofs5 Elast_Proofs6 Elast_Proofs7 Elast_Proofs8 Elast_Proofs9 Elast_Spec.
Open Scope Z_scope.
Open Scope string_scope.
Open Scope Z_scope.

Lemma aniso_file l rho : zlen l = 21 -> exists m, create_file (Some (rock_file "anisotropic" l rho)) = Ok m /\ density m = 0%R /\ matrix_of m (fun i j => nthR l (tri (exch i) (exch j))).
Proof. intros H. rewrite file_aniso by exact H. eexists. split; [reflexivity|]. split; [reflexivity|]. apply (sym_matrix l). apply sym_new_ok. lia. Qed.
Lemma ti_file a b c d e rho : exists m, create_file (Some (rock_file "ti" [a; b; c; d; e] rho)) = Ok m /\ density m = 0%R /\ matrix_of m (fun i j => ti_matrix a b c d e (exch i) (exch j)).
Proof.
  rewrite file_ti. eexists. split; [reflexivity|]. split; [reflexivity|]. intros C0. destruct (sym_matrix [a; a - 2 * e; b; 0; 0; 0; a; b; 0; 0; 0; c; 0; 0; 0; d; 0; 0; d; 0; e]%R _ eq_refl C0) as (C & EC & SC). exists C. split; [exact EC|].
  intros i j Hi Hj. rewrite SC by assumption. assert (0 <= exch i < 6) as Ri by (all6 i Hi; unfold exch; cbn; lia). assert (0 <= exch j < 6) as Rj by (all6 j Hj; unfold exch; cbn; lia). exact (ti_entries a b c d e (exch i) (exch j) Ri Rj).
Qed.
Lemma en_file E nu rho : okn nu -> exists m, create_file (Some (rock_file "en" [E; nu] rho)) = Ok m /\ density m = rho /\ matrix_of m (lame 3 (E * nu / ((1 + nu) * (1 - 2 * nu))) (E / (2 * (1 + nu)))).
Proof. intros H. exists (MIso E nu rho). split; [apply file_en; unfold okn in H; lra|]. split; [reflexivity|]. apply iso_matrix. exact H. Qed.
Lemma rigid dim x J X c G gr : dim = 2 \/ dim = 3 -> (forall a m, 0 <= a < 2 ^ dim -> p1_grad dim a x m = Ok (gr a m)) -> jacobian_of dim X gr J -> (forall k l, 0 <= k < dim -> 0 <= l < dim -> G k l = (- G l k)%R) ->
  exists B, bmatrix dim x J = Ok B /\ forall i, 0 <= i < comps dim -> mvec (dim * 2 ^ dim) B (affine_disp dim X c G) i = 0%R.
Proof.
  intros Hd Hg HJ HG. destruct (patch dim x J Hd) as (B & gr' & EB & Hg' & _ & HA). exists B. split; [exact EB|]. intros i Hi. rewrite HA; [apply rigid_strain; assumption| |exact Hi].
  intros k l Hk Hl. rewrite <- (HJ k l Hk Hl). apply Sum_ext. intros m Hm. f_equal. apply Sum_ext. intros a Ha. f_equal. pose proof (Hg a m Ha) as E1. rewrite (Hg' a m Ha) in E1. injection E1 as ->. reflexivity.
Qed.
(* ---- two cubes, one above the other: the bottom is held, one displacement on the top follows another one *)
Definition cube (v : list Z) (m : material) : cellg := mkCellg v m [((fun _ => 1 / 2)%R, 1%R)] (fun _ => ident) (fun _ => 1%R).
Definition ex_cells : list cellg := [cube [0; 1; 2; 3; 4; 5; 6; 7] (MIso 1 (1 / 4) 2); cube [4; 5; 6; 7; 8; 9; 10; 11] (MIso 2 0 1)].
Definition ex_color : list (list (list cellg)) := [[[cube [4; 5; 6; 7; 8; 9; 10; 11] (MIso 2 0 1)]; [cube [0; 1; 2; 3; 4; 5; 6; 7] (MIso 1 (1 / 4) 2)]]].
Definition ex_M : mpcmap := [(33, mkMpc (mkMdof 11 1 0) [mkMdof 8 1 1])].
Definition ex_F : fixmap := [(0, (7, [0; 0; 0]%R)); (1, (7, [0; 0; 0]%R)); (2, (7, [0; 0; 0]%R)); (3, (7, [0; 0; 0]%R))].
Definition ex_C (c : cellg) : fmat := match cg_mat c with MIso E nu _ => lame 3 (E * nu / ((1 + nu) * (1 - 2 * nu))) (E / (2 * (1 + nu))) | _ => fzero end.
Lemma exM_couples k x c : couples 3 ex_M k x c -> k = 33 /\ x = 24 /\ c = 1%R.
Proof. unfold couples, ex_M. cbn [mm_find]. intros (p & m & Hp & Hm & Hx & Hc). destruct (Z.eqb_spec 33 k) as [<-|]; [|discriminate]. injection Hp as <-. destruct Hm as [<-|[]]. cbn in Hx, Hc. subst. auto. Qed.
Lemma exM_acyclic : ~ cyclic 3 ex_M.
Proof.
  intros (k & c & H). assert (forall k x c, chain 3 ex_M k x c -> k = 33 /\ x = 24) as E.
  { induction 1 as [a b d H'|a y b d e H' _ IH]; apply exM_couples in H'; destruct H' as (-> & -> & _); [auto|]. destruct IH. lia. }
  apply E in H. lia.
Qed.
Lemma ex_problem : exists s, elastic_problem 12 ex_cells ex_M ex_F s ex_color ex_C.
Proof.
  pose proof tol_small as T.
  assert (grid_ok 3 12 (map cg_verts ex_cells) ex_M ex_F) as HG.
  { split; [lia|]. split; [lia|]. split.
    - intros v n [<-|[<-|[]]]; cbn [cg_verts cube In]; intros Hn; repeat (destruct Hn as [<-|Hn]; [lia|]); destruct Hn.
    - split; [intros k x c H; apply exM_couples in H; lia|]. split.
      + intros k Hk. assert (k = 33) as ->; [|split; [lia|reflexivity]]. unfold slaveof, ex_M in Hk. cbn [mm_find] in Hk. destruct (Z.eqb_spec 33 k); [lia|]. congruence.
      + intros n d v H. unfold ex_F in H. cbn [fx_find] in H. destruct (0 =? n), (1 =? n), (2 =? n), (3 =? n); inversion H; reflexivity. }
  assert (wf_mpcs 3 ex_M) as HW.
  { split; [cbn; repeat split; intros; lia|]. intros k p. unfold ex_M. cbn [mm_find]. destruct (Z.eqb_spec 33 k) as [<-|]; [|discriminate]. intros [= <-]. split; [reflexivity|]. intros m [<-|[]]. cbn. split; [lia|]. rewrite Rabs_pos_eq; lra. }
  destruct (init_total 3 12 (map cg_verts ex_cells) ex_M ex_F HG HW exM_acyclic) as (fuel & Hf). destruct (Hf fuel (le_n _)) as (s & Es). exists s.
  split; [exact HG|]. split; [exact HW|]. split.
  { intros d _. unfold fixed_val. unfold ex_F. cbn [fx_find]. assert (forall k, nthR [0; 0; 0]%R k = 0%R) as Z0.
    { intros k. unfold nthR. destruct (zget [0; 0; 0]%R k) as [x|] eqn:E; [|reflexivity]. apply zget_In in E. destruct E as [<-|[<-|[<-|[]]]]; reflexivity. }
    destruct (0 =? d / 3), (1 =? d / 3), (2 =? d / 3), (3 =? d / 3); auto. }
  split; [exists fuel; exact Es|]. split; [apply perm_swap|]. intros c [<-|[<-|[]]]; (split; [reflexivity|]); (split; [|apply lame_sym6]); apply iso_matrix; unfold okn; lra.
Qed.
Lemma ex_case : (exists s, elastic_problem 12 ex_cells ex_M ex_F s ex_color ex_C) /\ nonneg ex_cells /\ (forall c, In c ex_cells -> psd 6 (ex_C c)) /\ volume ex_cells <> 0%R.
Proof.
  split; [exact ex_problem|]. split; [intros c x w [<-|[<-|[]]] [E|[]]; inversion E; cbn; lra|]. split.
  - intros c [<-|[<-|[]]]; apply lame_psd; lra.
  - unfold volume, integral. cbn. rewrite ?Rsum_cons, ?Rsum_nil. lra.
Qed.
Lemma ex_iso : okn (1 / 4) /\ inverses 6 ident ident.
Proof.
  split; [unfold okn; lra|]. assert (same 6 (mmul 6 ident ident) ident) as H; [|split; exact H]. intros i j Hi Hj. unfold mmul. rewrite (Sum_pick 6 i); [unfold ident at 1; rewrite Z.eqb_refl; ring|exact Hi|]. intros k _ Nk. unfold ident at 1. rewrite (proj2 (Z.eqb_neq i k)) by lia. ring.
Qed.
Lemma ex_km : (0 < 1)%R /\ (2 * 1 <= 3 * 5)%R. Proof. lra. Qed.
Definition square_corners (a k : Z) : R := if k =? 0 then (if a mod 2 =? 0 then 0 else 1)%R else (if a / 2 =? 0 then 0 else 1)%R.
Lemma ex_square : exists gr, (forall a m, 0 <= a < 2 ^ 2 -> p1_grad 2 a (fun _ => 1 / 2)%R m = Ok (gr a m)) /\ jacobian_of 2 square_corners gr ident.
Proof.
  exists (grad_of 2 (fun _ => 1 / 2)%R). split; [intros; apply grad_of_ok; auto|]. intros k l Hk Hl. change (2 ^ 2) with 4. rewrite Sum_2, !Sum_4.
  assert (k = 0 \/ k = 1) as [->| ->] by lia; (assert (l = 0 \/ l = 1) as [->| ->] by lia); unfold square_corners, ident; cbn [Z.eqb Pos.eqb Z.modulo Z.div_eucl]; unfold grad_of, lin_grad, lin_eval, c0_of, c1_of; change (zrange 0 2) with [0; 1]; cbn [fold_left Z.eqb Pos.eqb]; unfold Z.testbit, Pos.testbit, Z.odd; cbn; lra.
Qed.
Lemma file_missing : create_file None = Ok (MIso 100 (38 / 100) 3).
Proof. reflexivity. Qed.
Lemma file_no_density kind p1 p2 w t : kind <> "ti" -> kind <> "anisotropic" -> w <> "density" -> create_file (Some (RWord kind :: RNum p1 :: RNum p2 :: RWord w :: t)%list) = Throw.
Proof.
  intros H1 H2 H3. unfold create_file. cbn [rd_word rd_num]. apply String.eqb_neq in H1, H2, H3. rewrite H1, H2, H3. reflexivity.
Qed.
Lemma plane_other m C inv : (forall E nu rho, m <> MIso E nu rho) -> constitutive3 m C inv = Ok (false, C).
Proof. intros H. destruct m; [exfalso; eapply H; reflexivity|reflexivity|reflexivity]. Qed.
Lemma clamp_close C i j : (Rabs (clamped C i j - C i j) < 1 / 10000)%R /\ (clamped C i j = C i j \/ clamped C i j = 0%R) /\ ((1 / 10000 <= Rabs (C i j))%R -> clamped C i j = C i j).
Proof.
  unfold clamped, clamp. unfold Rltb. destruct (Rlt_dec (Rabs (C i j)) (1 / 10000)) as [H|H].
  - split; [replace (0 - C i j)%R with (- C i j)%R by ring; rewrite Rabs_Ropp; exact H|]. split; [right; reflexivity|lra].
  - split; [replace (C i j - C i j)%R with 0%R by ring; rewrite Rabs_R0; lra|]. split; [left; reflexivity|reflexivity].
Qed.
