(* Tensor products, Legendre polynomials, Lobatto grids. *)
From Verif Require Import RBaseFacts BaseFacts Lin_Facts Steady_Proofs Euler_Proofs2 Impl_Proofs5 Mim_Proofs Matx_Proofs Shape_Proofs Shape_Proofs2 Shape_Spec.
From Coq Require Import Lra.
Open Scope Z_scope.

Lemma zget_flat {A B} (f : A -> list B) n l : forall k i a, (forall x, In x l -> zlen (f x) = n) -> zget l k = Some a -> 0 <= i < n -> zget (flat_map f l) (k * n + i) = zget (f a) i.
Proof.
  induction l as [|x l IH]; intros k i a HL Hk Hi; [apply zget_Some_range in Hk; unfold zlen in Hk; cbn in Hk; lia|]. cbn [flat_map]. pose proof (zget_Some_range _ _ _ Hk) as Rk. destruct (Z.eq_dec k 0) as [->|N].
  - change (zget (x :: l) 0) with (Some x) in Hk. injection Hk as ->. rewrite Z.mul_0_l, Z.add_0_l. apply zget_app_l. rewrite HL by now left. lia.
  - replace (zget (x :: l) k) with (zget l (k - 1)) in Hk. 2: { symmetry. apply (zget_app_r [x] l k). unfold zlen. cbn. lia. }
    rewrite zget_app_r by (rewrite HL by (now left); nia). rewrite HL by now left. replace (k * n + i - n) with ((k - 1) * n + i) by ring. apply IH; [intros y Hy; apply HL; now right|exact Hk|exact Hi].
Qed.
Lemma zlen_flat {A B} (f : A -> list B) n l : (forall x, In x l -> zlen (f x) = n) -> zlen (flat_map f l) = zlen l * n.
Proof.
  induction l as [|x l IH]; intros H; [reflexivity|]. cbn [flat_map]. rewrite zlen_app, H, IH by (try (now left); intros y Hy; apply H; now right). change (zlen (x :: l)) with (zlen ([x] ++ l)). rewrite zlen_app. change (zlen [x]) with 1. ring.
Qed.
Lemma tp2 g1 i g2 j x a b : card_eval g1 i (x 0) = Ok a -> card_eval g2 j (x 1) = Ok b -> tp_eval [(g1, i); (g2, j)] x = Ok (a * b)%R.
Proof. intros Ha Hb. unfold tp_eval. change (zrange 0 (zlen [(g1, i); (g2, j)])) with [0; 1]. cbn [foldM]. change (rget [(g1, i); (g2, j)] 0) with (Ok (g1, i)). change (rget [(g1, i); (g2, j)] 1) with (Ok (g2, j)). cbn [bind fst snd]. rewrite Ha. cbn [bind]. rewrite Hb. cbn [bind]. f_equal. ring. Qed.
Lemma tp3 g1 i g2 j g3 k x a b c : card_eval g1 i (x 0) = Ok a -> card_eval g2 j (x 1) = Ok b -> card_eval g3 k (x 2) = Ok c -> tp_eval [(g1, i); (g2, j); (g3, k)] x = Ok (a * b * c)%R.
Proof. intros Ha Hb Hc. unfold tp_eval. change (zrange 0 (zlen [(g1, i); (g2, j); (g3, k)])) with [0; 1; 2]. cbn [foldM]. change (rget [(g1, i); (g2, j); (g3, k)] 0) with (Ok (g1, i)). change (rget [(g1, i); (g2, j); (g3, k)] 1) with (Ok (g2, j)). change (rget [(g1, i); (g2, j); (g3, k)] 2) with (Ok (g3, k)). cbn [bind fst snd]. rewrite Ha. cbn [bind]. rewrite Hb. cbn [bind]. rewrite Hc. cbn [bind]. f_equal. ring. Qed.
Lemma pn_two grid n1 n2 : 0 <= n1 -> 0 <= n2 -> exists fs, pn_set grid [n1; n2] = Ok fs /\ zlen fs = n1 * n2 /\
  forall i j, 0 <= i < n1 -> 0 <= j < n2 -> exists f, zget fs (j * n1 + i) = Some f /\ forall x a b, card_eval (grid n1) i (x 0) = Ok a -> card_eval (grid n2) j (x 1) = Ok b -> tp_eval f x = Ok (a * b)%R.
Proof.
  intros H1 H2. eexists. split; [reflexivity|]. assert (forall j, In j (zrange 0 n2) -> zlen (map (fun i => [(grid n1, i); (grid n2, j)]) (zrange 0 n1)) = n1) as L by (intros j _; rewrite zlen_map, zlen_zrange; lia).
  split; [rewrite (zlen_flat _ n1) by exact L; rewrite zlen_zrange; lia|]. intros i j Hi Hj. exists [(grid n1, i); (grid n2, j)]. split; [|intros; apply tp2; assumption].
  rewrite (zget_flat _ n1 _ j i j L); [|rewrite zget_zrange by lia; f_equal; lia|exact Hi]. rewrite zget_map, zget_zrange by lia. cbn [option_map]. reflexivity.
Qed.
Lemma pn_three grid n1 n2 n3 : 0 <= n1 -> 0 <= n2 -> 0 <= n3 -> exists fs, pn_set grid [n1; n2; n3] = Ok fs /\ zlen fs = n1 * n2 * n3 /\
  forall i j k, 0 <= i < n1 -> 0 <= j < n2 -> 0 <= k < n3 -> exists f, zget fs ((k * n2 + j) * n1 + i) = Some f /\
    forall x a b c, card_eval (grid n1) i (x 0) = Ok a -> card_eval (grid n2) j (x 1) = Ok b -> card_eval (grid n3) k (x 2) = Ok c -> tp_eval f x = Ok (a * b * c)%R.
Proof.
  intros H1 H2 H3. eexists. split; [reflexivity|]. assert (forall k j, In j (zrange 0 n2) -> zlen (map (fun i => [(grid n1, i); (grid n2, j); (grid n3, k)]) (zrange 0 n1)) = n1) as L by (intros k j _; rewrite zlen_map, zlen_zrange; lia).
  assert (forall k, In k (zrange 0 n3) -> zlen (flat_map (fun j => map (fun i => [(grid n1, i); (grid n2, j); (grid n3, k)]) (zrange 0 n1)) (zrange 0 n2)) = n2 * n1) as L2 by (intros k _; rewrite (zlen_flat _ n1) by apply L; rewrite zlen_zrange; lia).
  split; [rewrite (zlen_flat _ (n2 * n1)) by exact L2; rewrite zlen_zrange; nia|]. intros i j k Hi Hj Hk. exists [(grid n1, i); (grid n2, j); (grid n3, k)]. split; [|intros; apply tp3; assumption].
  replace ((k * n2 + j) * n1 + i) with (k * (n2 * n1) + (j * n1 + i)) by ring. rewrite (zget_flat _ (n2 * n1) _ k (j * n1 + i) k L2); [|rewrite zget_zrange by lia; f_equal; lia|nia].
  rewrite (zget_flat _ n1 _ j i j (L k)); [|rewrite zget_zrange by lia; f_equal; lia|exact Hi]. rewrite zget_map, zget_zrange by lia. cbn [option_map]. reflexivity.
Qed.

(* ---- Legendre polynomials: P_n, P_{n+1} and their derivatives *)
Definition bonnet (k x a b : R) : R := ((2 * k + 1) / (k + 1) * x * b - k / (k + 1) * a)%R.
Fixpoint leg2 (n : nat) (x : R) : R * R := match n with O => (1%R, x) | S m => let '(a, b) := leg2 m x in (b, bonnet (INR (S m)) x a b) end.
Fixpoint der2 (n : nat) (x : R) : R * R := match n with O => (0%R, 1%R) | S m => let '(c, d) := der2 m x in let b := snd (leg2 m x) in
  (d, ((2 * INR (S m) + 1) / (INR (S m) + 1) * (b + x * d) - INR (S m) / (INR (S m) + 1) * c)%R) end.
Definition Lp (n : nat) (x : R) : R := fst (leg2 n x).
Definition Dp (n : nat) (x : R) : R := fst (der2 n x).
Lemma leg2_S n x : snd (leg2 n x) = Lp (S n) x.
Proof. unfold Lp. cbn [leg2]. destruct (leg2 n x). reflexivity. Qed.
Lemma der2_S n x : snd (der2 n x) = Dp (S n) x.
Proof. unfold Dp. cbn [der2]. destruct (der2 n x). reflexivity. Qed.
Lemma Lp_rec n x : Lp (S (S n)) x = bonnet (INR (S n)) x (Lp n x) (Lp (S n) x).
Proof. rewrite <- leg2_S. cbn [leg2]. rewrite (surjective_pairing (leg2 n x)). cbn [snd]. rewrite leg2_S. reflexivity. Qed.
Lemma Dp_rec n x : Dp (S (S n)) x = ((2 * INR (S n) + 1) / (INR (S n) + 1) * (Lp (S n) x + x * Dp (S n) x) - INR (S n) / (INR (S n) + 1) * Dp n x)%R.
Proof. rewrite <- der2_S. cbn [der2]. rewrite (surjective_pairing (der2 n x)). cbn [snd]. rewrite der2_S, leg2_S. reflexivity. Qed.
Lemma two_step (P : nat -> Prop) : P 0%nat -> P 1%nat -> (forall n, P n -> P (S n) -> P (S (S n))) -> forall n, P n.
Proof. intros H0 H1 H n. enough (P n /\ P (S n)) by tauto. induction n as [|n [IH1 IH2]]; split; auto. Qed.
Lemma pos_S n : (0 < INR (S n) + 1)%R.
Proof. pose proof (pos_INR (S n)). lra. Qed.
Lemma Lp_derivative n x : derivable_pt_lim (Lp n) x (Dp n x).
Proof.
  revert x. apply (two_step (fun n => forall x, derivable_pt_lim (Lp n) x (Dp n x))); clear n.
  - intros x. apply (derivable_pt_lim_const 1%R).
  - intros x. apply (derivable_pt_lim_id x).
  - intros n H0 H1 x. rewrite Dp_rec. set (p := ((2 * INR (S n) + 1) / (INR (S n) + 1))%R). set (q := (INR (S n) / (INR (S n) + 1))%R).
    assert (derivable_pt_lim (minus_fct (mult_real_fct p (mult_fct id (Lp (S n)))) (mult_real_fct q (Lp n))) x (p * (1 * Lp (S n) x + id x * Dp (S n) x) - q * Dp n x)%R) as D.
    { apply derivable_pt_lim_minus; [apply derivable_pt_lim_scal, derivable_pt_lim_mult; [apply derivable_pt_lim_id|apply H1]|apply derivable_pt_lim_scal, H0]. }
    unfold id in D at 2. rewrite Rmult_1_l in D. intros eps He. destruct (D eps He) as (del & Hd). exists del. intros h Hh Ha. specialize (Hd h Hh Ha). rewrite !Lp_rec. unfold bonnet. fold p q. unfold minus_fct, mult_real_fct, mult_fct, id in Hd. rewrite !Rmult_assoc. exact Hd.
Qed.
(* x P_n' - P_{n-1}' = n P_n and P_n' - x P_{n-1}' = n P_{n-1} *)
Lemma Dp_relations n x : (x * Dp (S n) x - Dp n x = INR (S n) * Lp (S n) x /\ Dp (S n) x - x * Dp n x = INR (S n) * Lp n x)%R.
Proof.
  induction n as [|n [IA IB]]; [unfold Dp, Lp; cbn; split; ring|]. rewrite Dp_rec, Lp_rec. unfold bonnet. pose proof (pos_S n) as HP. rewrite (S_INR (S n)). set (k := INR (S n)) in *. set (L1 := Lp (S n) x) in *. set (L0 := Lp n x) in *. set (D1 := Dp (S n) x) in *. set (D0 := Dp n x) in *.
  assert (D0 = x * D1 - k * L1)%R as -> by lra.
  assert (((2 * k + 1) / (k + 1) * (L1 + x * D1) - k / (k + 1) * (x * D1 - k * L1)) = (k + 1) * L1 + x * D1)%R as E by (field; lra). rewrite E. split; [|ring].
  assert (D1 - x * (x * D1 - k * L1) = k * L0)%R as IB' by lra. clear E IB IA.
  assert ((k + 1) * ((2 * k + 1) / (k + 1) * x * L1 - k / (k + 1) * L0) = (2 * k + 1) * x * L1 - k * L0)%R as -> by (field; lra). rewrite <- IB'. ring.
Qed.
Lemma Dp_formula n x : ((1 - x * x) * Dp (S n) x = INR (S n) * (Lp n x - x * Lp (S n) x))%R.
Proof. destruct (Dp_relations n x) as [A B]. nra. Qed.
Lemma legendre_ode n x : derivable_pt_lim (fun t => (1 - t * t) * Dp (S n) t)%R x (- (INR (S n) * (INR (S n) + 1)) * Lp (S n) x)%R.
Proof.
  assert (derivable_pt_lim (mult_real_fct (INR (S n)) (minus_fct (Lp n) (mult_fct id (Lp (S n))))) x (INR (S n) * (Dp n x - (1 * Lp (S n) x + id x * Dp (S n) x)))%R) as D.
  { apply derivable_pt_lim_scal, derivable_pt_lim_minus; [apply Lp_derivative|]. apply derivable_pt_lim_mult; [apply derivable_pt_lim_id|apply Lp_derivative]. }
  replace (- (INR (S n) * (INR (S n) + 1)) * Lp (S n) x)%R with (INR (S n) * (Dp n x - (1 * Lp (S n) x + id x * Dp (S n) x)))%R.
  - intros eps He. destruct (D eps He) as (del & Hd). exists del. intros h Hh Ha. specialize (Hd h Hh Ha). rewrite !Dp_formula. exact Hd.
  - destruct (Dp_relations n x) as [A _]. unfold id. nra.
Qed.
Lemma Lp_at_ends n x : (x * x = 1 -> Lp n x = x ^ n)%R.
Proof.
  intros H. revert n. apply two_step; [reflexivity|unfold Lp; cbn; ring|]. intros n H0 H1. rewrite Lp_rec, H0, H1. unfold bonnet. pose proof (pos_S n) as HP. cbn [pow]. replace (x * (x * x ^ n))%R with (x ^ n)%R by (rewrite <- Rmult_assoc, H; ring).
  replace ((2 * INR (S n) + 1) / (INR (S n) + 1) * x * (x * x ^ n))%R with ((2 * INR (S n) + 1) / (INR (S n) + 1) * (x * x) * x ^ n)%R by ring. rewrite H. field. lra.
Qed.
Lemma Dp_at_ends n x : (x * x = 1 -> Dp (S n) x = x ^ n * INR (S n) * (INR (S n) + 1) / 2)%R.
Proof.
  intros H. induction n as [|n IH]; [unfold Dp; cbn; field|]. destruct (Dp_relations (S n) x) as [_ B]. rewrite (Lp_at_ends (S n) x H) in B. replace (Dp (S (S n)) x) with (x * Dp (S n) x + INR (S (S n)) * x ^ S n)%R by lra. rewrite IH. rewrite (S_INR (S n)). cbn [pow]. field.
Qed.
(* ---- the code computes them *)
Lemma leg_loop n x Ln : 1 <= n -> zlen Ln = n + 1 -> nthR Ln 0 = 1%R -> nthR Ln 1 = x ->
  exists Ln', foldM (fun Ln i => let* a := rget Ln i in let* b := rget Ln (i - 1) in rset Ln (i + 1) ((2 * IZR i + 1) / (IZR i + 1) * x * a - IZR i / (IZR i + 1) * b)%R) (zrange 1 n) Ln = Ok Ln' /\
    zlen Ln' = n + 1 /\ forall j, 0 <= j <= n -> nthR Ln' j = Lp (Z.to_nat j) x.
Proof.
  intros Hn L H0 H1. apply (zloop _ (fun k Ln => zlen Ln = n + 1 /\ forall j, 0 <= j <= k -> nthR Ln j = Lp (Z.to_nat j) x) 1 n); [lia| |].
  - split; [exact L|]. intros j Hj. assert (j = 0 \/ j = 1) as [-> | ->] by lia; [rewrite H0; reflexivity|rewrite H1; reflexivity].
  - intros i s Hi [Ls Hs]. rewrite !rget_at by lia. cbn [bind]. match goal with |- exists _, rset s (i + 1) ?v = _ /\ _ => destruct (rset_exists s (i + 1) v) as (s' & E & _); [lia|] end. destruct (rset_nthR _ _ _ _ E) as (L' & _ & G & _). exists s'. split; [exact E|]. split; [lia|]. intros j Hj. rewrite G. destruct (Z.eqb_spec j (i + 1)) as [->|N]; [|apply Hs; lia].
    rewrite !Hs by lia. replace (Z.to_nat (i + 1)) with (S (S (Z.to_nat (i - 1)))) by lia. rewrite Lp_rec. replace (S (Z.to_nat (i - 1))) with (Z.to_nat i) by lia. unfold bonnet. rewrite INR_IZR_INZ, Z2Nat.id by lia. reflexivity.
Qed.
Lemma leg_start n x : 1 <= n -> exists Ln0 Ln, rset (zrepeat 0%R (n + 1)) 0 1%R = Ok Ln0 /\ rset Ln0 1 x = Ok Ln /\ zlen Ln = n + 1 /\ nthR Ln 0 = 1%R /\ nthR Ln 1 = x.
Proof.
  intros Hn. destruct (rset_exists (zrepeat 0%R (n + 1)) 0 1%R) as (a & Ea & _); [rewrite zlen_zrepeat; lia|]. destruct (rset_nthR _ _ _ _ Ea) as (La & _ & Ga & _). rewrite zlen_zrepeat in La by lia. destruct (rset_exists a 1 x) as (b & Eb & _); [lia|]. destruct (rset_nthR _ _ _ _ Eb) as (Lb & _ & Gb & _). exists a, b. split; [exact Ea|]. split; [exact Eb|]. split; [lia|].
  rewrite !Gb, !Ga. split; reflexivity.
Qed.
Lemma legendre_value x n : 1 <= n -> legendre x n = Ok (Lp (Z.to_nat n) x).
Proof.
  intros Hn. unfold legendre, leg_table. destruct (leg_start n x Hn) as (a & b & -> & E & L & H0 & H1). cbn [bind]. rewrite E. cbn [bind]. destruct (leg_loop n x b Hn L H0 H1) as (c & -> & Lc & Hc). cbn [bind]. rewrite rget_at by lia. rewrite Hc by lia. reflexivity.
Qed.
Lemma legendre_derivative_value x n : 1 <= n -> legendre_derivative x n = Ok (Dp (Z.to_nat n) x).
Proof.
  intros Hn. unfold legendre_derivative. destruct (leg_start n x Hn) as (a & b & -> & E & L & H0 & H1). cbn [bind]. rewrite E. cbn [bind]. replace (Z.to_nat n) with (S (Z.to_nat (n - 1))) by lia. assert (INR (S (Z.to_nat (n - 1))) = IZR n) as EI by (rewrite INR_IZR_INZ; f_equal; lia).
  destruct (Req_EM_T x 1) as [->|N1]; [f_equal; rewrite Dp_at_ends by ring; rewrite EI; reflexivity|]. destruct (Req_EM_T x (-1)) as [->|N2]; [f_equal; rewrite Dp_at_ends by ring; rewrite EI; reflexivity|].
  assert (1 - x * x <> 0)%R as NZ by (intros C; assert ((1 - x) * (1 + x) = 0)%R as C2 by (rewrite <- C; ring); apply Rmult_integral in C2; destruct C2; [apply N1|apply N2]; lra).
  destruct (leg_loop n x b Hn L H0 H1) as (c & -> & Lc & Hc). cbn [bind]. rewrite !rget_at by lia. cbn [bind]. rewrite !Hc by lia. rewrite !mdiv_ok by exact NZ. cbn [bind]. f_equal. pose proof (Dp_formula (Z.to_nat (n - 1)) x) as F. replace (Z.to_nat n) with (S (Z.to_nat (n - 1))) by lia. rewrite EI in F.
  apply (Rmult_eq_reg_l (1 - x * x)); [|exact NZ]. rewrite F. field. exact NZ.
Qed.
Lemma legendre_ok n : 1 <= n -> exists P D : R -> R, (forall x, legendre x n = Ok (P x)) /\ (forall x, legendre_derivative x n = Ok (D x)) /\ (forall x, derivable_pt_lim P x (D x)) /\
  (forall x, derivable_pt_lim (fun t => (1 - t * t) * D t)%R x (- (IZR n * (IZR n + 1)) * P x)%R) /\ P 1%R = 1%R.
Proof.
  intros Hn. exists (Lp (Z.to_nat n)), (Dp (Z.to_nat n)). split; [intros x; apply legendre_value; exact Hn|]. split; [intros x; apply legendre_derivative_value; exact Hn|]. split; [intros x; apply Lp_derivative|].
  assert (INR (S (Z.to_nat (n - 1))) = IZR n) as EI by (rewrite INR_IZR_INZ; f_equal; lia). split; [|rewrite Lp_at_ends by ring; apply pow1].
  intros x. replace (Z.to_nat n) with (S (Z.to_nat (n - 1))) by lia. rewrite <- EI. apply legendre_ode.
Qed.
Lemma legendre_zero x : legendre x 0 = UB.
Proof. reflexivity. Qed.
(* ---- Lobatto grids *)
Lemma newton_result fuel : forall n old x y, lobatto_newton fuel n old x = Some (Ok y) -> (y = x /\ (Rabs (old - x) <= / 10 ^ 15)%R) \/ settled n y.
Proof.
  induction fuel as [|fuel IH]; intros n old x y; cbn [lobatto_newton]; destruct (Rltb (/ 10 ^ 15) (Rabs (old - x))) eqn:E; try discriminate.
  - intros [= <-]. left. split; [reflexivity|]. apply Rnot_lt_le. intros C. apply Rltb_true in C. congruence.
  - destruct (legendre x (n - 1)) as [P| |] eqn:EP; cbn [bind]; try discriminate. destruct (legendre_derivative x (n - 1)) as [D| |] eqn:ED; cbn [bind]; try discriminate.
    destruct (mdiv ((1 - x * x) * D) ((IZR n - 1) * IZR n * P)) as [q| |] eqn:EQ; cbn [bind]; try discriminate. intros H. apply IH in H. destruct H as [[-> Hs]|Hs]; [|right; exact Hs]. right. exists x, P, D. split; [exact EP|]. split; [exact ED|].
    assert ((IZR n - 1) * IZR n * P <> 0)%R as NZ by (intros C; rewrite C, mdiv_0 in EQ; discriminate). rewrite mdiv_ok in EQ by exact NZ. injection EQ as <-. split; [ring|]. split; [exact NZ|]. rewrite Rabs_minus_sym. exact Hs.
  - intros [= <-]. left. split; [reflexivity|]. apply Rnot_lt_le. intros C. apply Rltb_true in C. congruence.
Qed.
Lemma lobatto_small fuel gl : lobatto_grid fuel 2 gl = Some (Ok [0; 1]%R) /\ lobatto_grid fuel 3 gl = Some (Ok [0; 1 / 2; 1]%R).
Proof. split; reflexivity. Qed.
Lemma lobatto_large fuel n gl r : 4 <= n -> lobatto_grid fuel n gl = Some (Ok r) -> zlen r = n /\ nthR r 0 = 0%R /\ nthR r (n - 1) = 1%R /\
  forall i, 0 < i < n - 1 -> exists y, nthR r i = ((y + 1) / 2)%R /\ (settled n y \/ (y = (nthR gl (i - 1) + nthR gl i) / 2 /\ Rabs y <= / 10 ^ 15)%R).
Proof.
  intros Hn. unfold lobatto_grid. destruct (Z.leb_spec n 1); [lia|]. destruct (Z.eqb_spec n 3); [lia|]. destruct (Z.ltb_spec n 4); [lia|]. set (r0 := [0%R] ++ zrepeat 0%R (n - 2) ++ [1%R]).
  assert (zlen r0 = n) as L0 by (unfold r0; rewrite !zlen_app, zlen_zrepeat by lia; change (zlen [0%R]) with 1; change (zlen [1%R]) with 1; lia).
  assert (nthR r0 0 = 0%R) as H00 by reflexivity. assert (nthR r0 (n - 1) = 1%R) as H01.
  { apply nthR_get. unfold r0. rewrite zget_app_r by (unfold zlen; cbn; lia). change (zlen [0%R]) with 1. rewrite zget_app_r by (rewrite zlen_zrepeat; lia). rewrite zlen_zrepeat by lia. replace (n - 1 - 1 - (n - 2)) with 0 by lia. reflexivity. }
  set (step := fun (st : option (res (list R))) (i : Z) => _).
  assert (forall k, 1 <= k <= n - 1 -> match fold_left step (zrange 1 k) (Some (Ok r0)) with
    | Some (Ok s) => zlen s = n /\ nthR s 0 = 0%R /\ nthR s (n - 1) = 1%R /\ forall i, 0 < i < k -> exists y, nthR s i = ((y + 1) / 2)%R /\ (settled n y \/ (y = (nthR gl (i - 1) + nthR gl i) / 2 /\ Rabs y <= / 10 ^ 15)%R)
    | _ => True end) as HH.
  { intros k Hk. assert (exists m, k = 1 + Z.of_nat m) as (m & ->) by (exists (Z.to_nat (k - 1)); lia). induction m as [|m IH].
    - change (zrange 1 (1 + Z.of_nat 0)) with (@nil Z). cbn [fold_left]. repeat split; try assumption. intros i Hi. lia.
    - replace (1 + Z.of_nat (S m)) with ((1 + Z.of_nat m) + 1) by lia. rewrite (zrange_app 1 (1 + Z.of_nat m)), (zrange_cons (1 + Z.of_nat m)), (zrange_empty (1 + Z.of_nat m + 1)) by lia. rewrite fold_left_app. cbn [fold_left]. specialize (IH ltac:(lia)). destruct (fold_left step (zrange 1 (1 + Z.of_nat m)) (Some (Ok r0))) as [[s| |]|]; unfold step at 1; cbv beta iota; try exact I. destruct IH as (Ls & S0 & S1 & Si). set (k := 1 + Z.of_nat m) in *.
      destruct (rget gl (k - 1)) as [a| |] eqn:Ea; try exact I. destruct (rget gl k) as [b| |] eqn:Eb; try exact I. destruct (lobatto_newton fuel n 0 ((a + b) / 2)) as [[x| |]|] eqn:EN; try exact I.
      destruct (rset s k ((x + 1) / 2)%R) as [s'| |] eqn:ES; try exact I. destruct (rset_nthR _ _ _ _ ES) as (L' & _ & G & _). split; [lia|]. rewrite !G. destruct (Z.eqb_spec 0 k); [lia|]. destruct (Z.eqb_spec (n - 1) k); [lia|]. split; [exact S0|]. split; [exact S1|].
      intros i Hi. rewrite G. destruct (Z.eqb_spec i k) as [->|Ni]; [|apply Si; lia]. exists x. split; [reflexivity|]. apply rget_Ok in Ea. apply rget_Ok in Eb. destruct (newton_result _ _ _ _ _ EN) as [[-> Hs]|Hs]; [right|left; exact Hs]. rewrite (nthR_get _ _ _ Ea), (nthR_get _ _ _ Eb). split; [reflexivity|]. rewrite Rminus_0_l, Rabs_Ropp in Hs. exact Hs. }
  intros E. specialize (HH (n - 1) ltac:(lia)). rewrite E in HH. tauto.
Qed.
(* ---- cases *)
Definition ex_field (x : Z -> R) : R := (2 + 3 * x 0%Z - x 1%Z * x 2%Z)%R.
Lemma ex_field_ok : multilinear 3 ex_field.
Proof.
  split.
  - intros x y H. unfold ex_field. rewrite !H by lia. reflexivity.
  - intros x k t Hk. assert (k = 0 \/ k = 1 \/ k = 2) as [-> | [-> | ->]] by lia; unfold ex_field, put; cbn [Z.eqb Pos.eqb]; ring.
Qed.
Lemma ex_nodes : NoDup [0; 1 / 2; 1]%R.
Proof. repeat constructor; cbn; intros H; repeat destruct H as [H|H]; try lra; try contradiction. Qed.
Lemma p1_increment dim i x k h : dim = 2 \/ dim = 3 -> 0 <= i < 2 ^ dim -> 0 <= k < dim -> exists v w g, p1_eval dim i x = Ok v /\ p1_grad dim i x k = Ok g /\ p1_eval dim i (put x k (x k + h)) = Ok w /\ w = (v + h * g)%R.
Proof.
  intros HD Hi Hk. rewrite !p1_eval_ok, p1_grad_ok by assumption. do 3 eexists. split; [reflexivity|]. split; [reflexivity|]. split; [reflexivity|]. apply lin_increment. exact Hk.
Qed.
