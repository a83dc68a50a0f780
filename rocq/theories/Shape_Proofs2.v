(* Cardinal functions, their products, Legendre polynomials. *)
From Verif Require Import RBaseFacts BaseFacts Lin_Facts Steady_Proofs Euler_Proofs2 Impl_Proofs5 Mim_Proofs Matx_Proofs Shape_Proofs Shape_Spec.
From Coq Require Import Lra.
Open Scope Z_scope.

Lemma mdiv_ok x y : y <> 0%R -> mdiv x y = Ok (x / y)%R.
Proof. intros H. unfold mdiv, fdiv. destruct (Req_EM_T y 0); [contradiction|reflexivity]. Qed.
Lemma mdiv_0 x : mdiv x 0 = UB.
Proof. unfold mdiv, fdiv. destruct (Req_EM_T 0 0) as [_|N]; [reflexivity|now elim N]. Qed.
(* ---- cardinal functions *)
Definition card (nodes : list R) (node : Z) (x : R) : R :=
  fold_left (fun r i => r * (if Z.eqb i node then 1 else (x - nthR nodes i) / (nthR nodes node - nthR nodes i)))%R (zrange 0 (zlen nodes)) 1%R.
Lemma nodes_distinct nodes i j : NoDup nodes -> 0 <= i < zlen nodes -> 0 <= j < zlen nodes -> nthR nodes i = nthR nodes j -> i = j.
Proof.
  intros ND Hi Hj E. destruct (zget_in_range nodes i Hi) as (a & Ea). destruct (zget_in_range nodes j Hj) as (b & Eb). rewrite (nthR_get _ _ _ Ea), (nthR_get _ _ _ Eb) in E. subst b.
  unfold zget in Ea, Eb. destruct (Z.ltb_spec i 0); [lia|]. destruct (Z.ltb_spec j 0); [lia|]. apply Z2Nat.inj; [lia|lia|]. rewrite NoDup_nth_error in ND. apply ND; [|congruence]. apply nth_error_Some. congruence.
Qed.
Lemma card_eval_ok nodes node x : NoDup nodes -> 0 <= node < zlen nodes -> card_eval nodes node x = Ok (card nodes node x).
Proof.
  intros ND Hn. unfold card_eval, card.
  match goal with |- foldM ?f _ _ = Ok (fold_left ?g _ _) => enough (forall l a, (forall i, In i l -> 0 <= i < zlen nodes) -> foldM f l a = Ok (fold_left g l a)) as H by (apply H; intros i Hi; apply In_zrange in Hi; exact Hi) end.
  induction l as [|i l IH]; intros a HR; cbn [foldM fold_left]; [reflexivity|]. match type of IH with context [foldM ?f l] => set (G := foldM f l) in * end. destruct (Z.eqb_spec i node) as [->|N]; cbn [bind].
  - rewrite Rmult_1_r. apply IH. intros j Hj. apply HR. now right.
  - rewrite !rget_at by (try exact Hn; apply HR; now left). cbn [bind]. rewrite mdiv_ok; [|intros E; apply N; apply (nodes_distinct nodes); [exact ND|apply HR; now left|exact Hn|lra]]. cbn [bind]. apply IH. intros j Hj. apply HR. now right.
Qed.
Lemma prod_zero (f : Z -> R) l k : In k l -> f k = 0%R -> fold_left (fun r i => r * f i)%R l 1%R = 0%R.
Proof.
  induction l as [|i l IH]; intros Hk E; [destruct Hk|]. cbn [fold_left]. rewrite fold_prod_app. destruct Hk as [->|Hk]; [rewrite E; ring|rewrite IH by assumption; ring].
Qed.
Lemma prod_one (f : Z -> R) l : (forall i, In i l -> f i = 1%R) -> fold_left (fun r i => r * f i)%R l 1%R = 1%R.
Proof. induction l as [|i l IH]; intros H; cbn [fold_left]; [reflexivity|]. rewrite fold_prod_app, IH, H; [ring|now left|intros j Hj; apply H; now right]. Qed.
Lemma card_nodal nodes i j : NoDup nodes -> 0 <= i < zlen nodes -> 0 <= j < zlen nodes -> card nodes i (nthR nodes j) = if i =? j then 1%R else 0%R.
Proof.
  intros ND Hi Hj. unfold card. destruct (Z.eqb_spec i j) as [<-|N].
  - apply prod_one. intros k Hk. apply In_zrange in Hk. destruct (Z.eqb_spec k i) as [->|N]; [reflexivity|]. unfold Rdiv. apply Rinv_r. intros E. apply N, (nodes_distinct nodes); [exact ND|exact Hk|exact Hi|lra].
  - apply (prod_zero _ _ j); [apply In_zrange; exact Hj|]. destruct (Z.eqb_spec j i); [congruence|]. unfold Rdiv. rewrite Rminus_diag_eq by reflexivity. ring.
Qed.
(* ---- polynomials *)
Definition poly (n : nat) (f : R -> R) : Prop := exists c, (length c <= n)%nat /\ forall x, f x = peval c x.
Fixpoint padd (a b : list R) : list R := match a, b with [], b => b | a, [] => a | x :: a, y :: b => (x + y)%R :: padd a b end.
Lemma padd_eval a : forall b x, peval (padd a b) x = (peval a x + peval b x)%R.
Proof. induction a as [|y a IH]; intros [|z b] x; cbn [padd peval fold_right]; try (unfold peval; cbn; ring). fold (peval (padd a b) x). rewrite IH. unfold peval. ring. Qed.
Lemma padd_len a : forall b, length (padd a b) = Nat.max (length a) (length b).
Proof. induction a as [|y a IH]; intros [|z b]; cbn; try lia. rewrite IH. lia. Qed.
Lemma pscale_eval k a x : peval (map (Rmult k) a) x = (k * peval a x)%R.
Proof. induction a as [|y a IH]; cbn; [ring|]. fold (peval (map (Rmult k) a) x) (peval a x). rewrite IH. ring. Qed.
Lemma poly_add n f g : poly n f -> poly n g -> poly n (fun x => f x + g x)%R.
Proof. intros (a & La & Ha) (b & Lb & Hb). exists (padd a b). split; [rewrite padd_len; lia|]. intros x. rewrite padd_eval, Ha, Hb. reflexivity. Qed.
Lemma poly_scale n f k : poly n f -> poly n (fun x => k * f x)%R.
Proof. intros (a & La & Ha). exists (map (Rmult k) a). split; [rewrite map_length; exact La|]. intros x. rewrite pscale_eval, Ha. reflexivity. Qed.
Lemma poly_shift n f : poly n f -> poly (S n) (fun x => x * f x)%R.
Proof. intros (a & La & Ha). exists (0%R :: a). split; [cbn; lia|]. intros x. cbn. fold (peval a x). rewrite Ha. ring. Qed.
Lemma poly_more n m f : (n <= m)%nat -> poly n f -> poly m f.
Proof. intros H (a & La & Ha). exists a. split; [lia|exact Ha]. Qed.
Lemma poly_ext n f g : (forall x, f x = g x) -> poly n f -> poly n g.
Proof. intros H (a & La & Ha). exists a. split; [exact La|]. intros x. rewrite <- H. apply Ha. Qed.
Lemma poly_const k : poly 1 (fun _ => k).
Proof. exists [k]. split; [cbn; lia|]. intros x. cbn. ring. Qed.
Lemma poly_linear n f a b : poly n f -> poly (S n) (fun x => f x * ((x - a) / b))%R.
Proof.
  intros H. apply (poly_ext _ (fun x => / b * (x * f x) + - a / b * f x)%R); [intros x; unfold Rdiv; ring|]. apply poly_add; [apply poly_scale, poly_shift, H|apply poly_scale, (poly_more n); [lia|exact H]].
Qed.
Lemma poly_prod (f : Z -> R -> R) l node : (forall i, In i l -> i <> node -> exists a b, forall x, f i x = ((x - a) / b)%R) -> (forall x, f node x = 1%R) -> NoDup l ->
  poly (if in_dec Z.eq_dec node l then length l else S (length l)) (fun x => fold_left (fun r i => r * f i x)%R l 1%R).
Proof.
  intros Hf Hn. induction l as [|i l IH]; intros ND.
  - destruct (in_dec Z.eq_dec node []) as [[]|]. exact (poly_const 1%R).
  - inversion ND as [|? ? Hni ND']; subst. specialize (IH (fun j Hj => Hf j (or_intror Hj)) ND').
    apply (poly_ext _ (fun x => (fold_left (fun r i => r * f i x) l 1) * f i x)%R); [intros x; cbn [fold_left]; rewrite (fold_prod_app (fun i => f i x) l (1 * f i x)%R); ring|].
    destruct (Z.eq_dec i node) as [->|N].
    + destruct (in_dec Z.eq_dec node l) as [C|_]; [contradiction|]. destruct (in_dec Z.eq_dec node (node :: l)) as [_|C]; [|elim C; now left]. eapply poly_ext; [|exact IH]. intros x. cbn beta. rewrite Hn. ring.
    + destruct (Hf i (or_introl eq_refl) N) as (a & b & E). destruct (in_dec Z.eq_dec node l) as [C|C]; (destruct (in_dec Z.eq_dec node (i :: l)) as [D|D]; [|try (elim D; now right)]); try (destruct D as [D|D]; contradiction).
      * eapply poly_ext; [|apply poly_linear, IH]. intros x. cbn beta. rewrite E. reflexivity.
      * eapply poly_ext; [|apply poly_linear, IH]. intros x. cbn beta. rewrite E. reflexivity.
Qed.
Lemma card_poly nodes i : 0 <= i < zlen nodes -> poly (length nodes) (card nodes i).
Proof.
  intros Hi. pose proof (poly_prod (fun k x => if Z.eqb k i then 1 else (x - nthR nodes k) / (nthR nodes i - nthR nodes k))%R (zrange 0 (zlen nodes)) i) as H.
  destruct (in_dec Z.eq_dec i (zrange 0 (zlen nodes))) as [_|C]; [|elim C; apply In_zrange; exact Hi].
  assert (length (zrange 0 (zlen nodes)) = length nodes) as L by (pose proof (zlen_zrange 0 (zlen nodes)) as HL; unfold zlen in *; lia). rewrite L in H. apply H.
  - intros k _ N. exists (nthR nodes k), (nthR nodes i - nthR nodes k)%R. intros x. destruct (Z.eqb_spec k i); [contradiction|reflexivity].
  - intros x. rewrite Z.eqb_refl. reflexivity.
  - apply zrange_NoDup.
Qed.
(* division by x - a *)
Lemma pdiv c a : exists q, (length q <= length c - 1)%nat /\ forall x, peval c x = (peval c a + (x - a) * peval q x)%R.
Proof.
  induction c as [|y c (q & Lq & Hq)]; [exists []; split; [cbn; lia|intros x; cbn; ring]|]. destruct c as [|z c].
  - exists []. split; [cbn; lia|]. intros x. cbn. ring.
  - exists (peval (z :: c) a :: q). split; [cbn [length] in *; lia|]. intros x. change (peval (y :: z :: c) x) with (y + x * peval (z :: c) x)%R. change (peval (y :: z :: c) a) with (y + a * peval (z :: c) a)%R. change (peval (peval (z :: c) a :: q) x) with (peval (z :: c) a + x * peval q x)%R. rewrite (Hq x). ring.
Qed.
Lemma poly_roots nodes : forall f, NoDup nodes -> poly (length nodes) f -> (forall a, In a nodes -> f a = 0%R) -> forall x, f x = 0%R.
Proof.
  induction nodes as [|a l IH]; intros f ND (c & Lc & Hc) HZ x.
  - destruct c; [rewrite Hc; reflexivity|cbn in Lc; lia].
  - inversion ND as [|? ? Hni ND']; subst. destruct (pdiv c a) as (q & Lq & Hq). assert (peval c a = 0)%R as E0 by (rewrite <- Hc; apply HZ; now left).
    assert (forall x, peval q x = 0%R) as Q0.
    { apply IH; [exact ND'|exists q; split; [cbn [length] in Lc; lia|reflexivity]|]. intros b Hb. assert (f b = 0%R) as Eb by (apply HZ; now right). rewrite Hc, Hq, E0 in Eb. assert (b - a <> 0)%R as NZ by (intros C; assert (b = a) by lra; subst; contradiction). assert ((b - a) * peval q b = 0)%R as Em by lra. apply Rmult_integral in Em. tauto. }
    rewrite Hc, Hq, E0, Q0. ring.
Qed.
Lemma poly_Rsum {A} n (g : A -> R -> R) l : (forall i, In i l -> poly n (g i)) -> poly n (fun x => Rsum (map (fun i => g i x) l)).
Proof.
  induction l as [|i l IH]; intros H; cbn [map]; [exists []; split; [cbn; lia|intros x; rewrite Rsum_nil; reflexivity]|].
  apply (poly_ext _ (fun x => g i x + Rsum (map (fun i => g i x) l))%R); [intros x; rewrite Rsum_cons; reflexivity|]. apply poly_add; [apply H; now left|apply IH; intros j Hj; apply H; now right].
Qed.
Lemma card_reproduces nodes x : NoDup nodes -> exists L, (forall i, 0 <= i < zlen nodes -> card_eval nodes i x = Ok (L i)) /\
  forall c, zlen c <= zlen nodes -> Sum (zlen nodes) (fun i => L i * peval c (nthR nodes i))%R = peval c x.
Proof.
  intros ND. exists (fun i => card nodes i x). split; [intros i Hi; apply card_eval_ok; assumption|]. intros c Lc.
  enough (Sum (zlen nodes) (fun i => card nodes i x * peval c (nthR nodes i)) + (-1) * peval c x = 0)%R by lra.
  apply (poly_roots nodes (fun x => Sum (zlen nodes) (fun i => card nodes i x * peval c (nthR nodes i)) + (-1) * peval c x)%R).
  - exact ND.
  - apply poly_add; [|apply poly_scale; exists c; split; [unfold zlen in Lc; lia|reflexivity]]. unfold Sum. apply poly_Rsum. intros i Hi. apply In_zrange in Hi. apply (poly_ext _ (fun x => peval c (nthR nodes i) * card nodes i x)%R); [intros y; ring|]. apply poly_scale, card_poly. exact Hi.
  - intros a Ha. apply In_zget in Ha. destruct Ha as (k & Rk & Hk). pose proof (nthR_get _ _ _ Hk) as Ek. rewrite <- Ek.
    rewrite (Sum_ext (zlen nodes) _ (fun i => ident k i * peval c (nthR nodes i))%R).
    + rewrite Sum_ident_l by exact Rk. ring.
    + intros i Hi. rewrite card_nodal by assumption. unfold ident. rewrite (Z.eqb_sym i k). reflexivity.
Qed.
Lemma card_nodal_eval nodes i j : NoDup nodes -> 0 <= i < zlen nodes -> 0 <= j < zlen nodes -> card_eval nodes i (nthR nodes j) = Ok (if i =? j then 1%R else 0%R).
Proof. intros ND Hi Hj. rewrite card_eval_ok by assumption. rewrite card_nodal by assumption. reflexivity. Qed.
(* the gradient always divides by zero *)
Lemma foldM_no_throw {A S0} (f : S0 -> A -> res S0) l : (forall s a, In a l -> f s a <> Throw) -> forall s, foldM f l s <> Throw.
Proof.
  induction l as [|a l IH]; intros H s; cbn [foldM]; [discriminate|]. specialize (H s a (or_introl eq_refl)) as Ha. destruct (f s a) as [s'| |] eqn:E; cbn [bind]; [|contradiction|discriminate]. apply IH. intros s2 b Hb. apply H. now right.
Qed.
Lemma foldM_UB {A S0} (f : S0 -> A -> res S0) l k : (forall s a, In a l -> f s a <> Throw) -> In k l -> (forall s, f s k = UB) -> forall s, foldM f l s = UB.
Proof.
  induction l as [|a l IH]; intros H Hk HU s; [destruct Hk|]. cbn [foldM]. destruct Hk as [->|Hk]; [rewrite HU; reflexivity|]. specialize (H s a (or_introl eq_refl)) as Ha. destruct (f s a) as [s'| |] eqn:E; cbn [bind]; [|contradiction|reflexivity].
  apply IH; [intros s2 b Hb; apply H; now right|exact Hk|exact HU].
Qed.
Lemma mdiv_nt x y : mdiv x y <> Throw. Proof. unfold mdiv. destruct (fdiv x y); discriminate. Qed.
Lemma rget_nt {A} (l : list A) i : rget l i <> Throw. Proof. unfold rget. destruct (zget l i); discriminate. Qed.
Lemma bind_nt {A B} (r : res A) (f : A -> res B) : r <> Throw -> (forall a, f a <> Throw) -> bind r f <> Throw.
Proof. destruct r; cbn; intros H H2; [apply H2|contradiction|discriminate]. Qed.
Lemma card_grad_UB nodes node x : 0 <= node < zlen nodes -> card_grad nodes node x = UB.
Proof.
  intros Hn. unfold card_grad.
  assert (forall i f, foldM (fun f j => if negb (i =? j) && negb (j =? node) then let* xj := rget nodes j in let* xn := rget nodes node in let* q := mdiv (x - xj) (xn - xj) in Ok (f * q)%R else Ok f) (zrange 0 (zlen nodes)) f <> Throw) as NT.
  { intros i f. apply foldM_no_throw. intros s a _. destruct (negb (i =? a) && negb (a =? node)); [|discriminate]. repeat (apply bind_nt; [apply rget_nt|intros ?]). apply bind_nt; [apply mdiv_nt|discriminate]. }
  apply foldM_UB with node.
  - intros s a _. apply bind_nt; [apply NT|]. intros f. repeat (apply bind_nt; [apply rget_nt|intros ?]). apply bind_nt; [apply mdiv_nt|discriminate].
  - apply In_zrange. exact Hn.
  - intros s. pose proof (NT node 1%R) as N1. destruct (foldM _ (zrange 0 (zlen nodes)) 1%R) as [f| |]; cbn [bind]; [|contradiction|reflexivity]. rewrite !rget_at by exact Hn. cbn [bind]. rewrite Rminus_diag_eq by reflexivity. rewrite mdiv_0. reflexivity.
Qed.
Lemma tp_grad_UB funcs x : tp_grad funcs x = UB.
Proof.
  unfold tp_grad. assert (mapM (fun i => let* f := rget funcs i in card_grad (fst f) (snd f) (x i)) (zrange 0 (zlen funcs)) <> Throw) as H.
  { induction (zrange 0 (zlen funcs)) as [|i l IH]; cbn [mapM]; [discriminate|]. apply bind_nt; [|intros; apply bind_nt; [exact IH|discriminate]]. apply bind_nt; [apply rget_nt|]. intros f. unfold card_grad. apply foldM_no_throw. intros s a _. apply bind_nt.
    - apply foldM_no_throw. intros s2 b _. destruct (negb (a =? b) && negb (b =? snd f)); [|discriminate]. repeat (apply bind_nt; [apply rget_nt|intros ?]). apply bind_nt; [apply mdiv_nt|discriminate].
    - intros g. repeat (apply bind_nt; [apply rget_nt|intros ?]). apply bind_nt; [apply mdiv_nt|discriminate]. }
  destruct (mapM _ _); [reflexivity|contradiction|reflexivity].
Qed.
