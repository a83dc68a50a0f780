From Coq Require Import Lra.
From Verif Require Import BaseFacts RBaseFacts Steady_Proofs Euler_Proofs2 Impl_Proofs5 Lin_Facts Matx_Spec Matx_Proofs.
Open Scope Z_scope.

Lemma two_cases i : 0 <= i < 2 -> i = 0 \/ i = 1.
Proof. lia. Qed.
Lemma three_cases i : 0 <= i < 3 -> i = 0 \/ i = 1 \/ i = 2.
Proof. lia. Qed.
Lemma mdiv_Ok x y : y <> 0%R -> mdiv x y = Ok (x / y)%R.
Proof. intros H. unfold mdiv. rewrite fdiv_Some by exact H. reflexivity. Qed.
Lemma mdiv_0 x : mdiv x 0 = UB.
Proof. unfold mdiv. rewrite fdiv_None. reflexivity. Qed.
Lemma Sum2 x : Sum 2 x = (x 0%Z + x 1%Z)%R.
Proof. unfold Sum. change (zrange 0 2) with [0; 1]. cbn [map]. rewrite !Rsum_cons, Rsum_nil. ring. Qed.
Lemma Sum3 x : Sum 3 x = (x 0%Z + x 1%Z + x 2%Z)%R.
Proof. unfold Sum. change (zrange 0 3) with [0; 1; 2]. cbn [map]. rewrite !Rsum_cons, Rsum_nil. ring. Qed.

Ltac setm H := match goal with
  | |- context [mset ?m ?r ?c ?v] =>
      let m' := fresh "m" in let E := fresh "E" in let H' := fresh "H" in
      destruct (holds_set m _ _ _ _ r c v H ltac:(lia) ltac:(lia)) as (m' & E & H'); rewrite E; cbn [bind]
  end.

Lemma map_div_ok m o rows cols f x : holds m o rows cols f -> x <> 0%R ->
  exists d, mapM (fun y => mdiv y x) (m_data m) = Ok d /\ holds (mkMat rows cols o d) o rows cols (fun r c => f r c / x)%R.
Proof.
  intros (E1 & E2 & E3 & P1 & P2 & L & G) Hx. exists (map (fun y => y / x)%R (m_data m)). split.
  - apply mapM_all_Ok. intros. apply mdiv_Ok. exact Hx.
  - repeat split; cbn [m_data m_ord m_rows m_cols]; try assumption; [rewrite zlen_map; exact L|]. intros r c Hr Hc. rewrite <- (G r c Hr Hc). unfold nthR. rewrite zget_map.
    destruct (zget_in_range (m_data m) (pos o rows cols r c)) as (y & Ey); [rewrite L; apply pos_range; assumption|]. unfold pos in Ey. rewrite Ey. reflexivity.
Qed.
Lemma inverse2_ok m o f : holds m o 2 2 f ->
  (det2 f <> 0%R -> exists mi g, inverse2x2 m = Ok mi /\ holds mi o 2 2 g /\
     forall i j, 0 <= i < 2 -> 0 <= j < 2 -> mmul 2 g f i j = ident i j /\ mmul 2 f g i j = ident i j) /\
  (det2 f = 0%R -> inverse2x2 m = UB).
Proof.
  intros H. unfold inverse2x2. pose proof H as (Eo & _). rewrite Eo.
  rewrite (holds_get m o 2 2 f 0 0 H), (holds_get m o 2 2 f 0 1 H), (holds_get m o 2 2 f 1 0 H), (holds_get m o 2 2 f 1 1 H) by lia. cbn [bind].
  pose proof (holds_new o 2 2 ltac:(lia) ltac:(lia)) as H0. setm H0. setm H1. setm H2. setm H3.
  change (f 0%Z 0%Z * f 1%Z 1%Z - f 0%Z 1%Z * f 1%Z 0%Z)%R with (det2 f). split.
  - intros D. destruct (map_div_ok _ _ _ _ _ (det2 f) H4 D) as (d & Ed & Hd). rewrite Ed. cbn [bind].
    eexists _, _. split; [reflexivity|]. split; [exact Hd|].
    unfold det2 in *. intros i j Hi Hj. destruct (two_cases i Hi) as [-> | ->], (two_cases j Hj) as [-> | ->]; unfold mmul; rewrite !Sum2; cbn -[IZR]; unfold ident; cbn -[IZR]; split; field; exact D.
  - intros D. rewrite D. destruct H4 as (_ & _ & _ & _ & _ & L & _). destruct (m_data m3) as [|x l]; [cbn in L; lia|]. cbn [mapM]. rewrite mdiv_0. reflexivity.
Qed.
Lemma inverse3_ok m o f : holds m o 3 3 f ->
  (det3 f <> 0%R -> f 2 2 <> 0%R -> exists mi g, inverse3x3 m = Ok mi /\ holds mi o 3 3 g /\
     forall i j, 0 <= i < 3 -> 0 <= j < 3 -> mmul 3 g f i j = ident i j /\ mmul 3 f g i j = ident i j) /\
  (det3 f = 0%R \/ f 2 2 = 0%R -> inverse3x3 m = UB).
Proof.
  intros H. unfold inverse3x3. pose proof H as (Eo & _). rewrite Eo.
  rewrite (holds_get m o 3 3 f 0 0 H), (holds_get m o 3 3 f 0 1 H), (holds_get m o 3 3 f 0 2 H), (holds_get m o 3 3 f 1 0 H), (holds_get m o 3 3 f 1 1 H),
    (holds_get m o 3 3 f 1 2 H), (holds_get m o 3 3 f 2 0 H), (holds_get m o 3 3 f 2 1 H), (holds_get m o 3 3 f 2 2 H) by lia. cbn [bind].
  destruct (Req_dec (f 2 2) 0) as [Z0|NZ].
  { split; [intros _ X; contradiction|]. intros _. rewrite Z0, mdiv_0. reflexivity. }
  rewrite !(mdiv_Ok _ _ NZ). cbn [bind].
  set (x := ((f 0%Z 0%Z - f 0%Z 2%Z * f 2%Z 0%Z / f 2%Z 2%Z) * (f 1%Z 1%Z - f 1%Z 2%Z * f 2%Z 1%Z / f 2%Z 2%Z) - (f 0%Z 2%Z * f 2%Z 1%Z / f 2%Z 2%Z - f 0%Z 1%Z) * (f 1%Z 2%Z * f 2%Z 0%Z / f 2%Z 2%Z - f 1%Z 0%Z))%R).
  assert (Ex : (x = det3 f / f 2%Z 2%Z)%R) by (unfold x, det3; field; exact NZ).
  split.
  - intros D _. assert (Nx : x <> 0%R) by (rewrite Ex; unfold Rdiv; apply Rmult_integral_contrapositive_currified; [exact D|apply Rinv_neq_0_compat; exact NZ]).
    assert (Nix : (f 2%Z 2%Z * x <> 0)%R) by (apply Rmult_integral_contrapositive_currified; assumption).
    assert (Niix : (f 2%Z 2%Z * f 2%Z 2%Z * x <> 0)%R) by (apply Rmult_integral_contrapositive_currified; [apply Rmult_integral_contrapositive_currified|]; assumption).
    rewrite !(mdiv_Ok _ _ Nx), !(mdiv_Ok _ _ Nix), !(mdiv_Ok _ _ Niix). cbn [bind].
    pose proof (holds_new o 3 3 ltac:(lia) ltac:(lia)) as H0. setm H0. setm H1. setm H2. setm H3. setm H4. setm H5. setm H6. setm H7.
    match goal with |- context [mset ?m ?r ?c ?v] => destruct (holds_set m _ _ _ _ r c v H8 ltac:(lia) ltac:(lia)) as (m9 & E9 & H9) end.
    rewrite E9. eexists _, _. split; [reflexivity|]. split; [exact H9|].
    clear -NZ D Ex Nx. intros i j Hi Hj.
    set (a := f 0 0) in *. set (b := f 0 1) in *. set (c := f 0 2) in *. set (d := f 1 0) in *. set (e := f 1 1) in *. set (p := f 1 2) in *. set (g := f 2 0) in *. set (h := f 2 1) in *. set (q := f 2 2) in *.
    assert (D' : (a * (e * q - p * h) - b * (d * q - p * g) + c * (d * h - e * g) <> 0)%R) by exact D.
    assert (X' : (x = (a * (e * q - p * h) - b * (d * q - p * g) + c * (d * h - e * g)) / q)%R) by exact Ex. clear Ex D. clearbody x.
    destruct (three_cases i Hi) as [-> | [-> | ->]], (three_cases j Hj) as [-> | [-> | ->]]; unfold mmul; rewrite !Sum3; cbn -[IZR]; unfold ident; cbn -[IZR];
      change (f 0 0) with a; change (f 0 1) with b; change (f 0 2) with c; change (f 1 0) with d; change (f 1 1) with e; change (f 1 2) with p; change (f 2 0) with g; change (f 2 1) with h; change (f 2 2) with q;
      rewrite X'; split; field; split; assumption.
  - intros [D|D]; [|contradiction]. assert (x = 0%R) as ->. { rewrite Ex, D. unfold Rdiv. ring. } rewrite mdiv_0. reflexivity.
Qed.
(* an invertible matrix with a zero in the last corner *)
Lemma inverse3_refuted : exists m f, holds m COrd 3 3 f /\ det3 f <> 0%R /\ inverse3x3 m = UB.
Proof.
  exists (mkMat 3 3 COrd [1; 0; 0; 0; 0; 1; 0; 1; 0]%R), (fun r c : Z => if (r =? 0) && (c =? 0) then 1%R else if r + c =? 3 then 1%R else 0%R).
  match goal with |- ?A /\ _ => assert (H : A) end.
  { repeat split; try (cbn; lia). intros r c Hr Hc. destruct (three_cases r Hr) as [-> | [-> | ->]], (three_cases c Hc) as [-> | [-> | ->]]; reflexivity. }
  split; [exact H|]. split.
  - unfold det3. cbn. lra.
  - apply (proj2 (inverse3_ok _ _ _ H)). right. reflexivity.
Qed.

(* ---- averages *)
Open Scope R_scope.
Lemma averages_ok a b : 0 < a -> 0 < b ->
  Rmin a b <= harmonic_average a b <= geometric_average a b /\ geometric_average a b <= arithmetic_average a b <= Rmax a b /\
  harmonic_average a b = 2 / (/ a + / b) /\ geometric_average a b * geometric_average a b = a * b /\ 0 < geometric_average a b /\ arithmetic_average a b = (a + b) / 2.
Proof.
  intros Ha Hb. unfold harmonic_average, geometric_average, arithmetic_average. assert (P : 0 < a * b) by nra. destruct (Rleb_spec (a * b) 0); [lra|].
  pose proof (sqrt_lt_R0 _ P) as Sp. pose proof (sqrt_sqrt (a * b) ltac:(lra)) as S2. set (s := sqrt (a * b)) in *. clearbody s.
  assert (HS : 0 < a + b) by lra.
  assert (K : (2 * s <= a + b)). { apply Rnot_lt_le. intros L. assert ((a + b) * (a + b) < 2 * s * (2 * s)) by (apply Rmult_gt_0_lt_compat; lra). pose proof (Rle_0_sqr (a - b)) as Q. unfold Rsqr in Q. nra. }
  assert (HH : 2 * a * b / (a + b) * (a + b) = 2 * a * b) by (field; lra). set (h := 2 * a * b / (a + b)) in *.
  split; [split|split; [split|split; [|split; [|split]]]].
  - unfold Rmin. destruct (Rle_dec a b); apply Rmult_le_reg_r with (a + b); nra.
  - apply Rmult_le_reg_r with (a + b); [lra|]. nra.
  - lra.
  - unfold Rmax. destruct (Rle_dec a b); lra.
  - unfold h. field. lra.
  - exact S2.
  - exact Sp.
  - field.
Qed.
Lemma averages_sym a b : arithmetic_average a b = arithmetic_average b a /\ geometric_average a b = geometric_average b a /\ harmonic_average a b = harmonic_average b a.
Proof.
  unfold harmonic_average, geometric_average, arithmetic_average. rewrite (Rmult_comm b a), (Rplus_comm b a). split; [ring|]. split; [reflexivity|].
  destruct (Rleb (a * b) 0); [reflexivity|]. f_equal. ring.
Qed.
Lemma averages_same a : 0 < a -> arithmetic_average a a = a /\ geometric_average a a = a /\ harmonic_average a a = a.
Proof.
  intros H. unfold harmonic_average, geometric_average, arithmetic_average. assert (0 < a * a) by nra. destruct (Rleb_spec (a * a) 0); [lra|]. split; [field|]. split; [apply sqrt_square; lra|field; lra].
Qed.
Lemma averages_nonpos a b : a * b <= 0 -> geometric_average a b = 0 /\ harmonic_average a b = 0.
Proof. intros H. unfold harmonic_average, geometric_average. destruct (Rleb_spec (a * b) 0); [split; reflexivity|lra]. Qed.
