(* Proofs about shape functions. *)
From Verif Require Import RBaseFacts BaseFacts Lin_Facts Steady_Proofs Euler_Proofs2 Impl_Proofs5 Mim_Proofs Matx_Proofs Shape_Spec.
From Coq Require Import Lra.
Open Scope Z_scope.

(* ---- linear functions: exact increments *)
Lemma fold_prod_app (f : Z -> R) l : forall a, fold_left (fun r i => r * f i)%R l a = (a * fold_left (fun r i => r * f i) l 1)%R.
Proof. induction l as [|i l IH]; intros a; cbn [fold_left]; [ring|]. rewrite (IH (a * f i)%R), (IH (1 * f i)%R). ring. Qed.
Lemma fold_prod_ext (f g : Z -> R) l : (forall i, In i l -> f i = g i) -> forall a, fold_left (fun r i => r * f i)%R l a = fold_left (fun r i => r * g i)%R l a.
Proof. induction l as [|i l IH]; intros H a; cbn [fold_left]; [reflexivity|]. rewrite (H i) by now left. apply IH. intros j Hj. apply H. now right. Qed.
Lemma lin_grad_alt dim c0 c1 x i : lin_grad dim c0 c1 x i = fold_left (fun r j => r * (if Z.eqb i j then c1 j else (c0 j + c1 j * x j)))%R (zrange 0 dim) 1%R.
Proof.
  unfold lin_grad. generalize 1%R. induction (zrange 0 dim) as [|j l IH]; intros a; cbn [fold_left]; [reflexivity|]. rewrite <- IH. destruct (i =? j); reflexivity.
Qed.
Lemma prod_step (f g d : Z -> R) k h l : NoDup l -> In k l -> (g k = f k + h * d k)%R -> (forall j, In j l -> j <> k -> g j = f j) ->
  fold_left (fun r i => r * g i)%R l 1%R = (fold_left (fun r i => r * f i) l 1 + h * fold_left (fun r j => r * (if Z.eqb k j then d j else f j)) l 1)%R.
Proof.
  induction l as [|i l IH]; intros ND Hk Hg Ho; [destruct Hk|]. inversion ND as [|? ? Hni ND']; subst. cbn [fold_left]. rewrite !(fold_prod_app _ l (1 * _)%R). destruct Hk as [->|Hk].
  - rewrite Z.eqb_refl, Hg. rewrite (fold_prod_ext g f l) by (intros j Hj; apply Ho; [now right|]; intros ->; contradiction).
    rewrite (fold_prod_ext (fun j => if k =? j then d j else f j) f l) by (intros j Hj; destruct (Z.eqb_spec k j) as [->|]; [contradiction|reflexivity]). ring.
  - rewrite (IH ND' Hk Hg) by (intros j Hj; apply Ho; now right). rewrite (Ho i) by (try (now left); intros ->; contradiction). destruct (Z.eqb_spec k i) as [->|]; [contradiction|]. ring.
Qed.
Lemma lin_increment dim c0 c1 x k h : 0 <= k < dim -> lin_eval dim c0 c1 (put x k (x k + h)) = (lin_eval dim c0 c1 x + h * lin_grad dim c0 c1 x k)%R.
Proof.
  intros Hk. rewrite lin_grad_alt. unfold lin_eval. apply (prod_step (fun i => c0 i + c1 i * x i)%R (fun i => c0 i + c1 i * put x k (x k + h) i)%R c1 k h).
  - apply zrange_NoDup.
  - apply In_zrange. exact Hk.
  - unfold put. rewrite Z.eqb_refl. ring.
  - intros j _ N. unfold put. destruct (Z.eqb_spec j k); [contradiction|reflexivity].
Qed.
(* ---- the sets *)
Lemma p1_one : p1_set 1 = UB.
Proof. vm_compute. reflexivity. Qed.
Definition c0_of (i k : Z) : R := if Z.testbit i k then 0%R else 1%R.
Definition c1_of (i k : Z) : R := if Z.testbit i k then 1%R else (-1)%R.
Definition set_of (dim : Z) : list (list R * list R) := map (fun i => (map (c0_of i) (zrange 0 dim), map (c1_of i) (zrange 0 dim))) (zrange 0 (2 ^ dim)).
Lemma p1_two : p1_set 2 = Ok (set_of 2).
Proof. cbv -[IZR]. reflexivity. Qed.
Lemma p1_three : p1_set 3 = Ok (set_of 3).
Proof. cbv -[IZR]. reflexivity. Qed.
Lemma p1_get dim i : dim = 2 \/ dim = 3 -> 0 <= i < 2 ^ dim -> exists c, (let* f := p1_set dim in rget f i) = Ok c /\ (forall k, 0 <= k < dim -> vec_at (fst c) k = c0_of i k) /\ (forall k, 0 <= k < dim -> vec_at (snd c) k = c1_of i k).
Proof.
  intros HD Hi. assert (p1_set dim = Ok (set_of dim)) as -> by (destruct HD as [-> | ->]; [apply p1_two|apply p1_three]). cbn [bind]. unfold set_of.
  eexists. split; [apply rget_Ok; rewrite zget_map, zget_zrange by lia; cbn [option_map]; f_equal|]. cbn [fst snd]. rewrite Z.add_0_l.
  split; intros k Hk; unfold vec_at; rewrite zget_map, zget_zrange by lia; cbn [option_map]; rewrite Z.add_0_l; reflexivity.
Qed.
Lemma lin_eval_ext dim c0 c1 d0 d1 x y : (forall k, 0 <= k < dim -> c0 k = d0 k) -> (forall k, 0 <= k < dim -> c1 k = d1 k) -> (forall k, 0 <= k < dim -> x k = y k) -> lin_eval dim c0 c1 x = lin_eval dim d0 d1 y.
Proof. intros H0 H1 H2. apply fold_prod_ext. intros i Hi. apply In_zrange in Hi. rewrite H0, H1, H2 by exact Hi. reflexivity. Qed.
Lemma lin_grad_ext dim c0 c1 d0 d1 x i : (forall k, 0 <= k < dim -> c0 k = d0 k) -> (forall k, 0 <= k < dim -> c1 k = d1 k) -> lin_grad dim c0 c1 x i = lin_grad dim d0 d1 x i.
Proof. intros H0 H1. rewrite !lin_grad_alt. apply fold_prod_ext. intros j Hj. apply In_zrange in Hj. rewrite H0, H1 by exact Hj. reflexivity. Qed.
Lemma p1_eval_ok dim i x : dim = 2 \/ dim = 3 -> 0 <= i < 2 ^ dim -> p1_eval dim i x = Ok (lin_eval dim (c0_of i) (c1_of i) x).
Proof.
  intros HD Hi. destruct (p1_get dim i HD Hi) as (c & E & H0 & H1). unfold p1_eval. destruct (p1_set dim) as [f| |]; [|discriminate|discriminate]. cbn [bind] in E |- *. rewrite E. cbn [bind]. f_equal. apply lin_eval_ext; auto.
Qed.
Lemma p1_grad_ok dim i x k : dim = 2 \/ dim = 3 -> 0 <= i < 2 ^ dim -> p1_grad dim i x k = Ok (lin_grad dim (c0_of i) (c1_of i) x k).
Proof.
  intros HD Hi. destruct (p1_get dim i HD Hi) as (c & E & H0 & H1). unfold p1_grad. destruct (p1_set dim) as [f| |]; [|discriminate|discriminate]. cbn [bind] in E |- *. rewrite E. cbn [bind]. f_equal. apply lin_grad_ext; auto.
Qed.
Lemma p1_nodal dim i j : dim = 2 \/ dim = 3 -> 0 <= i < 2 ^ dim -> 0 <= j < 2 ^ dim -> p1_eval dim i (corner j) = Ok (if i =? j then 1%R else 0%R).
Proof.
  intros HD Hi Hj. rewrite p1_eval_ok by assumption. f_equal. 
  assert (forall n, 0 <= n < 2 ^ dim -> In n (zrange 0 (2 ^ dim))) as HR by (intros n Hn; apply In_zrange; lia). apply HR in Hi. apply HR in Hj. clear HR.
  destruct HD as [-> | ->]; cbn in Hi, Hj; repeat (destruct Hi as [<-|Hi]; [repeat (destruct Hj as [<-|Hj]; [cbv -[IZR Rplus Rmult Ropp]; ring|]); destruct Hj|]); destruct Hi.
Qed.
Lemma p1_reproduces dim f x : dim = 2 \/ dim = 3 -> multilinear dim f ->
  exists N, (forall i, 0 <= i < 2 ^ dim -> p1_eval dim i x = Ok (N i)) /\ Sum (2 ^ dim) (fun i => N i * f (corner i))%R = f x.
Proof.
  intros HD [He Hm]. exists (fun i => lin_eval dim (c0_of i) (c1_of i) x). split; [intros i Hi; apply p1_eval_ok; assumption|].
  assert (forall y k, f y = f (put y k (y k))) as HP by (intros y k; apply He; intros j _; unfold put; destruct (Z.eqb_spec j k) as [->|]; reflexivity).
  destruct HD as [-> | ->].
  - assert (forall a b, f (put (put x 0 a) 1 b) = f (fun j => if j =? 1 then b else a)) as HC by (intros a b; apply He; intros j Hj; unfold put; destruct (Z.eqb_spec j 1); [reflexivity|]; destruct (Z.eqb_spec j 0); [reflexivity|lia]).
    rewrite (HP x 0), Hm by lia. rewrite (HP (put x 0 0) 1), (HP (put x 0 1) 1). rewrite (Hm (put x 0 0) 1 (put x 0 0 1)), (Hm (put x 0 1) 1 (put x 0 1 1)) by lia. rewrite !HC. replace (put x 0 0 1) with (x 1) by reflexivity. replace (put x 0 1 1) with (x 1) by reflexivity.
    change (2 ^ 2) with 4. unfold Sum. change (zrange 0 4) with [0; 1; 2; 3]. cbn [map]. rewrite !Rsum_cons, Rsum_nil.
    rewrite (He (corner 0) (fun j => if j =? 1 then 0 else 0)%R), (He (corner 1) (fun j => if j =? 1 then 0 else 1)%R), (He (corner 2) (fun j => if j =? 1 then 1 else 0)%R), (He (corner 3) (fun j => if j =? 1 then 1 else 1)%R); try (intros j Hj; assert (j = 0 \/ j = 1) as [-> | ->] by lia; reflexivity).
    unfold lin_eval, c0_of, c1_of. change (zrange 0 2) with [0; 1]. cbn [fold_left]. cbv [Z.testbit Pos.testbit]. cbn. ring.
  - assert (forall a b c, f (put (put (put x 0 a) 1 b) 2 c) = f (fun j => if j =? 2 then c else if j =? 1 then b else a)) as HC by (intros a b c; apply He; intros j Hj; unfold put; destruct (Z.eqb_spec j 2); [reflexivity|]; destruct (Z.eqb_spec j 1); [reflexivity|]; destruct (Z.eqb_spec j 0); [reflexivity|lia]).
    rewrite (HP x 0), Hm by lia. rewrite (HP (put x 0 0) 1), (HP (put x 0 1) 1). rewrite (Hm (put x 0 0) 1 (put x 0 0 1)), (Hm (put x 0 1) 1 (put x 0 1 1)) by lia.
    rewrite (HP (put (put x 0 0) 1 0) 2), (HP (put (put x 0 0) 1 1) 2), (HP (put (put x 0 1) 1 0) 2), (HP (put (put x 0 1) 1 1) 2). rewrite (Hm (put (put x 0 0) 1 0) 2 (put (put x 0 0) 1 0 2)), (Hm (put (put x 0 0) 1 1) 2 (put (put x 0 0) 1 1 2)), (Hm (put (put x 0 1) 1 0) 2 (put (put x 0 1) 1 0 2)), (Hm (put (put x 0 1) 1 1) 2 (put (put x 0 1) 1 1 2)) by lia. rewrite !HC.
    replace (put x 0 0 1) with (x 1) by reflexivity. replace (put x 0 1 1) with (x 1) by reflexivity. repeat match goal with |- context [put (put x 0 ?a) 1 ?b 2] => replace (put (put x 0 a) 1 b 2) with (x 2) by reflexivity end.
    change (2 ^ 3) with 8. unfold Sum. change (zrange 0 8) with [0; 1; 2; 3; 4; 5; 6; 7]. cbn [map]. rewrite !Rsum_cons, Rsum_nil.
    rewrite (He (corner 0) (fun j => if j =? 2 then 0 else if j =? 1 then 0 else 0)%R), (He (corner 1) (fun j => if j =? 2 then 0 else if j =? 1 then 0 else 1)%R), (He (corner 2) (fun j => if j =? 2 then 0 else if j =? 1 then 1 else 0)%R), (He (corner 3) (fun j => if j =? 2 then 0 else if j =? 1 then 1 else 1)%R),
      (He (corner 4) (fun j => if j =? 2 then 1 else if j =? 1 then 0 else 0)%R), (He (corner 5) (fun j => if j =? 2 then 1 else if j =? 1 then 0 else 1)%R), (He (corner 6) (fun j => if j =? 2 then 1 else if j =? 1 then 1 else 0)%R), (He (corner 7) (fun j => if j =? 2 then 1 else if j =? 1 then 1 else 1)%R); try (intros j Hj; assert (j = 0 \/ j = 1 \/ j = 2) as [-> | [-> | ->]] by lia; reflexivity).
    unfold lin_eval, c0_of, c1_of. change (zrange 0 3) with [0; 1; 2]. cbn [fold_left]. cbv [Z.testbit Pos.testbit]. cbn. ring.
Qed.
