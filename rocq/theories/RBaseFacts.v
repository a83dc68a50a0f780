From Coq Require Permutation.
From Verif Require Export RBase BaseFacts.
Open Scope R_scope.

Lemma Rltb_spec x y : reflect (x < y) (Rltb x y).
Proof. unfold Rltb. destruct (Rlt_dec x y); constructor; assumption. Qed.
Lemma Rleb_spec x y : reflect (x <= y) (Rleb x y).
Proof. unfold Rleb. destruct (Rle_dec x y); constructor; assumption. Qed.
Lemma Rltb_true x y : Rltb x y = true <-> x < y.
Proof. destruct (Rltb_spec x y); split; auto; discriminate. Qed.
Lemma Rltb_false x y : Rltb x y = false <-> y <= x.
Proof. destruct (Rltb_spec x y); split; intros; auto; try discriminate; lra. Qed.
Lemma Rleb_true x y : Rleb x y = true <-> x <= y.
Proof. destruct (Rleb_spec x y); split; auto; discriminate. Qed.
Lemma Rleb_false x y : Rleb x y = false <-> y < x.
Proof. destruct (Rleb_spec x y); split; intros; auto; try discriminate; lra. Qed.

Lemma smax_Rmax a b : smax a b = Rmax a b.
Proof. unfold smax, Rmax. destruct (Rltb_spec a b), (Rle_dec a b); lra. Qed.
Lemma smin_Rmin a b : smin a b = Rmin a b.
Proof. unfold smin, Rmin. destruct (Rltb_spec b a), (Rle_dec a b); lra. Qed.

Ltac minmax :=
  rewrite ?smax_Rmax, ?smin_Rmin in *;
  unfold Rmax, Rmin in *;
  repeat match goal with
  | |- context [Rle_dec ?a ?b] => destruct (Rle_dec a b)
  | H : context [Rle_dec ?a ?b] |- _ => destruct (Rle_dec a b)
  end.

Lemma lmax_spec l : l <> [] -> exists m, lmax l = Ok m /\ In m l /\ forall x, In x l -> x <= m.
Proof.
  induction l as [|x t IH]; intros H; [congruence|]. destruct t as [|y t'].
  - exists x. repeat split; [left; reflexivity|]. intros z [->|[]]; lra.
  - destruct IH as [m [E [Hin Hall]]]; [discriminate|].
    change (lmax (x :: y :: t')) with (let* m := lmax (y :: t') in Ok (smax x m)).
    rewrite E. cbn [bind]. exists (smax x m). split; [reflexivity|].
    unfold smax. destruct (Rltb_spec x m).
    + split; [right; exact Hin|]. intros z [->|Hz]; [lra|auto].
    + split; [left; reflexivity|]. intros z [->|Hz]; [lra|]. specialize (Hall z Hz). lra.
Qed.

Lemma lmin_spec l : l <> [] -> exists m, lmin l = Ok m /\ In m l /\ forall x, In x l -> m <= x.
Proof.
  induction l as [|x t IH]; intros H; [congruence|]. destruct t as [|y t'].
  - exists x. repeat split; [left; reflexivity|]. intros z [->|[]]; lra.
  - destruct IH as [m [E [Hin Hall]]]; [discriminate|].
    change (lmin (x :: y :: t')) with (let* m := lmin (y :: t') in Ok (smin x m)).
    rewrite E. cbn [bind]. exists (smin x m). split; [reflexivity|].
    unfold smin. destruct (Rltb_spec m x).
    + split; [right; exact Hin|]. intros z [->|Hz]; [lra|auto].
    + split; [left; reflexivity|]. intros z [->|Hz]; [lra|]. specialize (Hall z Hz). lra.
Qed.

Lemma zslice_In {A} (l : list A) a b x : (0 <= a <= b)%Z -> (b <= zlen l)%Z ->
  In x (zslice l a b) <-> exists i, (a <= i < b)%Z /\ zget l i = Some x.
Proof.
  intros Hab Hb. unfold zslice, zlen in *. split.
  - intros H. apply In_nth_error in H. destruct H as [n Hn].
    assert (n < length (firstn (Z.to_nat (b - a)) (skipn (Z.to_nat a) l)))%nat as Hlt
      by (apply nth_error_Some; congruence).
    rewrite firstn_length, skipn_length in Hlt.
    exists (a + Z.of_nat n)%Z. split; [lia|]. rewrite zget_nth by lia.
    rewrite <- Hn. replace (Z.to_nat (a + Z.of_nat n)) with (Z.to_nat a + n)%nat by lia.
    assert (forall k (l : list A) m, (m < k)%nat -> nth_error (firstn k l) m = nth_error l m) as F.
    { clear. induction k; intros l m Hm; [lia|]. destruct l, m; cbn; auto. apply IHk; lia. }
    rewrite F by lia.
    assert (forall k (l : list A) m, nth_error (skipn k l) m = nth_error l (k + m)) as G.
    { clear. induction k; intros l m; [reflexivity|]. destruct l; cbn; auto. destruct m; reflexivity. }
    rewrite G. reflexivity.
  - intros [i [Hi E]]. rewrite zget_nth in E by lia.
    apply nth_error_In with (n := Z.to_nat (i - a)).
    assert (forall k (l : list A) m, (m < k)%nat -> nth_error (firstn k l) m = nth_error l m) as F.
    { clear. induction k; intros l m Hm; [lia|]. destruct l, m; cbn; auto. apply IHk; lia. }
    rewrite F by lia.
    assert (forall k (l : list A) m, nth_error (skipn k l) m = nth_error l (k + m)) as G.
    { clear. induction k; intros l m; [reflexivity|]. destruct l; cbn; auto. destruct m; reflexivity. }
    rewrite G. rewrite <- E. f_equal. lia.
Qed.

Lemma zslice_nonempty {A} (l : list A) a b : (0 <= a < b)%Z -> (b <= zlen l)%Z -> zslice l a b <> [].
Proof.
  intros Hab Hb E. destruct (zget_in_range l a) as [x Hx]; [lia|].
  assert (In x (zslice l a b)) as H by (apply zslice_In; [lia|lia|]; exists a; split; [lia|exact Hx]).
  rewrite E in H. exact H.
Qed.

Lemma Rsum_cons x l : Rsum (x :: l) = x + Rsum l.
Proof. reflexivity. Qed.
Lemma Rsum_nil : Rsum [] = 0.
Proof. reflexivity. Qed.
Arguments Rsum : simpl never.
Lemma Rsum_app l l' : Rsum (l ++ l') = Rsum l + Rsum l'.
Proof. induction l as [|x t IH]; cbn [app]; rewrite ?Rsum_cons, ?Rsum_nil; [lra|]. rewrite IH. lra. Qed.
Lemma Rsum_map_ext {A} (f g : A -> R) l : (forall x, In x l -> f x = g x) -> Rsum (map f l) = Rsum (map g l).
Proof. induction l as [|x t IH]; intros H; cbn; [reflexivity|].
  rewrite !Rsum_cons. rewrite H by (left; reflexivity). rewrite IH by (intros; apply H; right; assumption). reflexivity. Qed.
Lemma Rsum_map_plus {A} (f g : A -> R) l : Rsum (map (fun x => f x + g x) l) = Rsum (map f l) + Rsum (map g l).
Proof. induction l as [|x t IH]; cbn [map]; rewrite ?Rsum_cons, ?Rsum_nil; [lra|]. rewrite IH. lra. Qed.
Lemma Rsum_map_scale {A} (f : A -> R) c l : Rsum (map (fun x => c * f x) l) = c * Rsum (map f l).
Proof. induction l as [|x t IH]; cbn [map]; rewrite ?Rsum_cons, ?Rsum_nil; [lra|]. rewrite IH. lra. Qed.
Lemma Rsum_map_scale_r {A} (f : A -> R) c l : Rsum (map (fun x => f x * c) l) = Rsum (map f l) * c.
Proof. induction l as [|x t IH]; cbn [map]; rewrite ?Rsum_cons, ?Rsum_nil; [lra|]. rewrite IH. lra. Qed.
Lemma Rsum_map_le {A} (f g : A -> R) l : (forall x, In x l -> f x <= g x) -> Rsum (map f l) <= Rsum (map g l).
Proof. induction l as [|x t IH]; intros H; cbn [map]; rewrite ?Rsum_cons; [lra|].
  assert (f x <= g x) by (apply H; left; reflexivity).
  assert (Rsum (map f t) <= Rsum (map g t)) by (apply IH; intros; apply H; right; assumption). lra. Qed.
Lemma Rsum_map_zero {A} (f : A -> R) l : (forall x, In x l -> f x = 0) -> Rsum (map f l) = 0.
Proof. induction l as [|x t IH]; intros H; cbn [map]; rewrite ?Rsum_cons; [reflexivity|].
  rewrite H by (left; reflexivity). rewrite IH by (intros; apply H; right; assumption). lra. Qed.
Lemma Rsum_map_nonneg {A} (f : A -> R) l : (forall x, In x l -> 0 <= f x) -> 0 <= Rsum (map f l).
Proof. intros H. rewrite <- (Rsum_map_zero (fun _ : A => 0) l) by reflexivity. apply Rsum_map_le. exact H. Qed.
Lemma Rsum_map_pos {A} (f : A -> R) l : l <> [] -> (forall x, In x l -> 0 < f x) -> 0 < Rsum (map f l).
Proof. destruct l as [|x t]; [congruence|]. intros _ H. cbn [map]. rewrite Rsum_cons.
  assert (0 < f x) by (apply H; left; reflexivity).
  assert (0 <= Rsum (map f t)) by (apply Rsum_map_nonneg; intros; apply Rlt_le, H; right; assumption). lra. Qed.
Lemma Rsum_perm l l' : Permutation.Permutation l l' -> Rsum l = Rsum l'.
Proof. induction 1; rewrite ?Rsum_cons; lra. Qed.

(* ---------- accumulation loops, divisions, weighted means *)
Lemma racc_from {A} (f : A -> R) l s : fold_left (fun s x => s + f x) l s = s + Rsum (map f l).
Proof. revert s. induction l as [|a l IH]; intros s; cbn [fold_left map]; [rewrite Rsum_nil; lra|]. rewrite IH, Rsum_cons. lra. Qed.
Lemma racc_sum {A} (f : A -> R) l : racc f l = Rsum (map f l).
Proof. unfold racc. rewrite racc_from. lra. Qed.
Lemma fdiv_Some x y : y <> 0 -> fdiv x y = Some (x / y).
Proof. unfold fdiv. destruct (Req_EM_T y 0); [contradiction|reflexivity]. Qed.
Lemma fdiv_None x : fdiv x 0 = None.
Proof. unfold fdiv. destruct (Req_EM_T 0 0); [reflexivity|lra]. Qed.
Lemma fdiv_inv x y q : fdiv x y = Some q -> y <> 0 /\ q = x / y.
Proof. unfold fdiv. destruct (Req_EM_T y 0); [discriminate|]. intros E; inversion E; auto. Qed.

Lemma mean_bounds {A} (w v : A -> R) l lo hi :
  (forall x, In x l -> 0 <= w x) -> (forall x, In x l -> w x <> 0 -> lo <= v x <= hi) ->
  0 < Rsum (map w l) ->
  lo <= Rsum (map (fun x => w x * v x) l) / Rsum (map w l) <= hi.
Proof.
  intros Hw Hv Hp.
  assert (lo * Rsum (map w l) <= Rsum (map (fun x => w x * v x) l) <= hi * Rsum (map w l)) as [L U].
  { rewrite <- !Rsum_map_scale. split; apply Rsum_map_le; intros x Hx;
    (destruct (Req_EM_T (w x) 0) as [E|E]; [rewrite E; lra|]; specialize (Hw x Hx); specialize (Hv x Hx E); nra). }
  split; apply (Rmult_le_reg_r (Rsum (map w l))); try exact Hp; unfold Rdiv; rewrite Rmult_assoc, Rinv_l; lra.
Qed.
