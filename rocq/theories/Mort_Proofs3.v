From Coq Require Import Lra.
From Verif Require Import BaseFacts RBaseFacts Lin_Facts Steady_Proofs Smat_Proofs Smat_Proofs2 Mort_Proofs Mort_Proofs2 Mort_Spec.
Open Scope Z_scope.

(* one displacement unknown, one multiplier *)
Definition ex_A : smat := mkSmat 1 1 [[(0, 2%R)]].
Definition ex_B : smat := mkSmat 1 1 [[(0, 1%R)]].
Definition ex_inner : solver := fun _ b => (map (fun v => v / 2)%R b, map (fun _ => 0%R) b).
Definition ex_outer : solver := fun _ b => (map (fun v => 2 * v)%R b, map (fun _ => 0%R) b).
Lemma ex_wf v : wf_smat (mkSmat 1 1 [[(0, v)]]).
Proof.
  split; [reflexivity|]. split; [cbn; lia|]. intros row [<-|[]]. cbn. split; [split; [intros y []|exact I]|]. intros e [<-|[]]. cbn. lia.
Qed.
Lemma ex_coupled : coupled ex_A ex_B 1 1.
Proof. split; [apply ex_wf|]. split; [apply ex_wf|]. split; split; reflexivity. Qed.
Lemma mvec_1 a x i : mvec 1 a x i = (a i 0%Z * x 0%Z)%R.
Proof. unfold mvec. change 1 with (0 + 1). rewrite Sum_S, Sum_0 by lia. ring. Qed.
Lemma ex_coefs : coef ex_A 0 0 = 2%R /\ coef ex_B 0 0 = 1%R.
Proof. split; reflexivity. Qed.
Lemma one_elem (l : list R) : zlen l = 1 -> exists v, l = [v].
Proof. destruct l as [|a [|b t]]; intros H; [discriminate|exists a; reflexivity|]. unfold zlen in H. cbn in H. lia. Qed.
Lemma ex_inner_exact : exact_for 1 (coef ex_A) ex_inner (fun _ => True).
Proof.
  intros b L _. apply one_elem in L as (v & ->). split; [reflexivity|]. intros i Hi. assert (i = 0) by lia. subst i. rewrite mvec_1.
  change (coef ex_A 0 0) with 2%R. cbn. unfold nthR. cbn. field.
Qed.
Lemma ex_outer_exact : outer_exact 1 1 ex_B ex_inner ex_outer.
Proof.
  intros r L _. apply one_elem in L as (v & ->). split; [reflexivity|]. intros init y Ly.
  destruct (block_inverse_ok ex_inner ex_B 1 1 init (fst (ex_outer (zrepeat 0%R 1) [v])) y (ex_wf 1)) as (t & q & Lt & Pt & E & _ & P).
  { split; reflexivity. } { intros b Hb. apply one_elem in Hb as (w & ->). reflexivity. } { cbn. lia. } { lia. }
  exists q. split; [exact E|]. intros j Hj. assert (j = 0) by lia. subst j. rewrite P, mvec_1. unfold transpose. change (coef ex_B 0 0) with 1%R.
  apply one_elem in Lt as (w & ->). specialize (Pt 0 ltac:(lia)). rewrite mvec_1 in Pt. change (coef ex_B 0 0) with 1%R in Pt. unfold nthR in Pt |- *. cbn in Pt |- *. rewrite Pt. field.
Qed.
Lemma ex_uzawa : coupled ex_A ex_B 1 1 /\ (forall i j, 0 <= i < 1 -> 0 <= j < 1 -> coef ex_A i j = coef ex_A j i) /\ exact_for 1 (coef ex_A) ex_inner (fun _ => True) /\ outer_exact 1 1 ex_B ex_inner ex_outer.
Proof.
  split; [exact ex_coupled|]. split; [intros i j Hi Hj; replace i with 0 by lia; replace j with 0 by lia; reflexivity|]. split; [exact ex_inner_exact|exact ex_outer_exact].
Qed.
(* y + 2 M x is not what applyscaleadd gives: 2 * (2 * 0 + 1 * 1) = 2, but the result is 1 *)
Lemma ex_scaleadd : exists y', mortar_scaleadd 2 ex_A ex_B [0; 1]%R [0; 0]%R = Ok y' /\ nthR y' 0 = 1%R /\
  mvec 2 (saddle 1 (coef ex_A) (coef ex_B)) (nthR [0; 1]%R) 0 = 1%R.
Proof.
  destruct (mortar_scaleadd_ok 2 ex_A ex_B 1 1 [0; 1]%R [0; 0]%R ex_coupled) as (y' & E & L & P); [reflexivity..|].
  exists y'. split; [exact E|].
  assert (V : mvec 2 (saddle 1 (coef ex_A) (coef ex_B)) (nthR [0; 1]%R) 0 = 1%R).
  { change 2 with (1 + 1) at 1. rewrite saddle_top by lia. rewrite !mvec_1. change (coef ex_A 0 0) with 2%R. change (coef ex_B 0 0) with 1%R. change (nthR [0; 1]%R 0) with 0%R. change (nthR [0; 1]%R (1 + 0)) with 1%R. ring. }
  split; [|exact V]. rewrite P by lia. change (1 + 1) with 2. rewrite V. cbn [Z.ltb Z.compare]. rewrite mvec_1. change (coef ex_B 0 0) with 1%R. change (nthR [0; 0]%R 0) with 0%R. change (nthR [0; 1]%R (1 + 0)) with 1%R. ring.
Qed.
(* a preconditioner that halves *)
Definition ex_half : applier := mkApplier (fun x b => (x, b)) (fun _ b => map (fun v => v / 2)%R b) (fun x => x).
Lemma ex_multiplies : multiplies_by 1 (fun _ _ => 1 / 2)%R ex_half.
Proof.
  split; [reflexivity|]. split; [reflexivity|]. intros b L. apply one_elem in L as (v & ->). split; [reflexivity|].
  intros i Hi. assert (i = 0) by lia. subst i. rewrite mvec_1. unfold nthR. cbn. field.
Qed.
Definition ex_tri : smat := mkSmat 2 2 [[(0, 2%R); (1, (-1)%R)]; [(0, (-1)%R); (1, 2%R)]].
Lemma ex_diag : wf_smat ex_tri /\ dims ex_tri 2 2 /\ stored ex_tri 0 0 /\ coef ex_tri 0 0 <> 0%R /\ Sum 2 (fun j => if j =? 0 then 0 else Rabs (coef ex_tri 0 j))%R <> 0%R.
Proof.
  split. { split; [reflexivity|]. split; [cbn; lia|]. intros row [<-|[<-|[]]]; cbn; (split; [split; [intros y [<-|[]]; lia|split; [intros y []|exact I]]|intros e [<-|[<-|[]]]; cbn; lia]). }
  split; [split; reflexivity|]. split. { exists [(0, 2%R); (1, (-1)%R)], 2%R. split; [reflexivity|left; reflexivity]. }
  split. { change (coef ex_tri 0 0) with 2%R. lra. }
  change 2 with (0 + 1 + 1). rewrite !Sum_S, Sum_0 by lia. cbn [Z.add Z.eqb]. change (coef ex_tri 0 1) with (-1)%R. rewrite Rabs_left by lra. lra.
Qed.
