From Verif Require Import BaseFacts RBaseFacts Icap_Spec.
From Coq Require Import Lra Lia.
Open Scope R_scope.

(* ---- values of the norms *)
Lemma norm_sum_acc l : forall a, 0 <= a -> fold_left (fun x y => Rabs x + Rabs y) l a = a + Rsum (map Rabs l).
Proof.
  induction l as [|x l IH]; intros a Ha; cbn [fold_left map].
  - rewrite Rsum_nil. lra.
  - pose proof (Rabs_pos x). rewrite (Rabs_right a) by lra. rewrite IH by lra. rewrite Rsum_cons. lra.
Qed.
Lemma norm_sum_val v : norm_sum v = Rsum (map Rabs v).
Proof. unfold norm_sum. rewrite norm_sum_acc by lra. lra. Qed.
Lemma norm_euclid_acc l : forall a, 0 <= a -> fold_left (fun x y => Rabs x + Rabs y * Rabs y) l a = a + Rsum (map (fun x => x * x) l).
Proof.
  induction l as [|x l IH]; intros a Ha; cbn [fold_left map].
  - rewrite Rsum_nil. lra.
  - assert (E : Rabs x * Rabs x = x * x) by (unfold Rabs; destruct (Rcase_abs x); ring). rewrite E.
    rewrite (Rabs_right a) by lra. rewrite IH by nra. rewrite Rsum_cons. lra.
Qed.
Lemma norm_euclid_val v : norm_euclid v = sqrt (Rsum (map (fun x => x * x) v)).
Proof. unfold norm_euclid. rewrite norm_euclid_acc by lra. f_equal. lra. Qed.
Lemma norm_max_acc l : forall a, 0 <= a -> let m := fold_left (fun x y => smax (Rabs x) (Rabs y)) l a in
  a <= m /\ (forall x, In x l -> Rabs x <= m) /\ (m = a \/ exists x, In x l /\ m = Rabs x).
Proof.
  induction l as [|x l IH]; intros a Ha; cbn [fold_left]; cbv zeta in *.
  - split; [lra|]. split; [intros x []|auto].
  - rewrite smax_Rmax, (Rabs_right a) by lra. destruct (IH (Rmax a (Rabs x))) as (A & B & C); [eapply Rle_trans; [exact Ha|apply Rmax_l]|].
    split; [eapply Rle_trans; [apply Rmax_l|exact A]|]. split.
    + intros y [<- | I]; [eapply Rle_trans; [apply Rmax_r|exact A]|auto].
    + destruct C as [C|(y & I & C)].
      * rewrite C. unfold Rmax. destruct (Rle_dec a (Rabs x)); [right; exists x; split; [left; reflexivity|reflexivity]|auto].
      * right. exists y. split; [right; exact I|exact C].
Qed.
Lemma norm_max_val v : (forall x, In x v -> Rabs x <= norm_max v) /\ (v <> [] -> exists x, In x v /\ norm_max v = Rabs x) /\ (v = [] -> norm_max v = 0).
Proof.
  destruct (norm_max_acc v 0 ltac:(lra)) as (A & B & C). fold (norm_max v) in A, B, C. split; [exact B|]. split.
  - intros N. destruct C as [C|C]; [|exact C]. destruct v as [|x v]; [congruence|]. exists x. split; [left; reflexivity|].
    specialize (B x (or_introl eq_refl)). pose proof (Rabs_pos x). lra.
  - intros ->. reflexivity.
Qed.

(* ---- they are norms *)
Lemma Rsum_zero_all (f : R -> R) v : (forall x, 0 <= f x) -> (forall x, f x = 0 <-> x = 0) -> (Rsum (map f v) = 0 <-> forall x, In x v -> x = 0).
Proof.
  intros P Z. induction v as [|x v IH]; cbn [map].
  - rewrite Rsum_nil. split; [intros _ x []|auto].
  - rewrite Rsum_cons. pose proof (P x). assert (0 <= Rsum (map f v)) by (apply Rsum_map_nonneg; intros; apply P). split.
    + intros E. assert (f x = 0) by lra. assert (Rsum (map f v) = 0) by lra. intros y [<- | I]; [apply Z; assumption|apply IH; assumption].
    + intros A. rewrite (proj2 (Z x)) by (apply A; left; reflexivity). rewrite (proj2 IH); [lra|]. intros y I. apply A. right. exact I.
Qed.

Lemma sum_norm : is_norm norm_sum.
Proof.
  split; [intros v; rewrite norm_sum_val; apply Rsum_map_nonneg; intros; apply Rabs_pos|]. split.
  - intros v. rewrite norm_sum_val. apply Rsum_zero_all; [apply Rabs_pos|]. intros x. split; [|intros ->; apply Rabs_R0].
    intros E. destruct (Req_dec x 0); [assumption|]. pose proof (Rabs_no_R0 x H). contradiction.
  - split.
    + intros a v. rewrite !norm_sum_val, map_map, <- Rsum_map_scale. apply Rsum_map_ext. intros x _. apply Rabs_mult.
    + intros v. induction v as [|x v IH]; intros w L; destruct w as [|y w]; try discriminate; cbn [combine map].
      * unfold norm_sum. cbn. lra.
      * injection L as L. specialize (IH w L). rewrite !norm_sum_val in *. cbn [map fst snd]. rewrite !Rsum_cons. pose proof (Rabs_triang x y). lra.
Qed.

Lemma cauchy v : forall w, length v = length w ->
  let S := Rsum (map (fun p => fst p * snd p) (combine v w)) in S * S <= Rsum (map (fun x => x * x) v) * Rsum (map (fun x => x * x) w).
Proof.
  induction v as [|x v IH]; intros w L; destruct w as [|y w]; try discriminate; cbn [combine map]; cbv zeta.
  - rewrite !Rsum_nil. lra.
  - injection L as L. specialize (IH w L). cbv zeta in IH. rewrite !Rsum_cons. cbn [fst snd].
    set (S := Rsum (map (fun p => fst p * snd p) (combine v w))) in *. 
    assert (A0 : 0 <= Rsum (map (fun x => x * x) v)) by (apply Rsum_map_nonneg; intros; nra).
    assert (B0 : 0 <= Rsum (map (fun x => x * x) w)) by (apply Rsum_map_nonneg; intros; nra).
    set (A := Rsum (map (fun x => x * x) v)) in *. set (B := Rsum (map (fun x => x * x) w)) in *. clearbody S A B.
    assert (Q : 2 * S * (x * y) <= A * (y * y) + B * (x * x)); [|nra].
    set (u := sqrt A). set (z := sqrt B). assert (Eu : u * u = A) by (apply sqrt_sqrt; exact A0). assert (Ez : z * z = B) by (apply sqrt_sqrt; exact B0).
    assert (U : 0 <= u) by apply sqrt_pos. assert (Z0 : 0 <= z) by apply sqrt_pos.
    assert (Sl : Rabs S <= u * z).
    { apply Rsqr_incr_0_var; [|nra]. rewrite <- Rsqr_abs. unfold Rsqr. replace (u * z * (u * z)) with (u * u * (z * z)) by ring. rewrite Eu, Ez. exact IH. }
    assert (2 * S * (x * y) <= 2 * (u * z) * (Rabs x * Rabs y)).
    { apply Rle_trans with (2 * Rabs S * Rabs (x * y)).
      - replace (2 * S * (x * y)) with (2 * (S * (x * y))) by ring. replace (2 * Rabs S * Rabs (x * y)) with (2 * Rabs (S * (x * y))) by (rewrite Rabs_mult; ring).
        pose proof (Rle_abs (S * (x * y))). lra.
      - rewrite Rabs_mult. pose proof (Rabs_pos x). pose proof (Rabs_pos y). apply Rmult_le_compat_r; [nra|]. lra. }
    assert (Ex : Rabs x * Rabs x = x * x) by (unfold Rabs; destruct (Rcase_abs x); ring).
    assert (Ey : Rabs y * Rabs y = y * y) by (unfold Rabs; destruct (Rcase_abs y); ring).
    rewrite <- Ex, <- Ey, <- Eu, <- Ez. pose proof (Rle_0_sqr (u * Rabs y - z * Rabs x)). unfold Rsqr in *. lra.
Qed.

Lemma euclid_norm : is_norm norm_euclid.
Proof.
  assert (NN : forall v, 0 <= Rsum (map (fun x => x * x) v)) by (intros; apply Rsum_map_nonneg; intros; nra).
  split; [intros v; unfold norm_euclid; apply sqrt_pos|]. split.
  - intros v. rewrite norm_euclid_val. rewrite <- (Rsum_zero_all (fun x => x * x) v) by (intros; try (split; intros); nra). split.
    + intros E. apply sqrt_eq_0 in E; auto.
    + intros ->. apply sqrt_0.
  - split.
    + intros a v. rewrite !norm_euclid_val, map_map. rewrite (Rsum_map_ext _ (fun x => (a * a) * (x * x))) by (intros; ring).
      rewrite Rsum_map_scale, sqrt_mult by (auto; nra). f_equal. replace (a * a) with (Rsqr a) by reflexivity. apply sqrt_Rsqr_abs.
    + intros v w L. rewrite !norm_euclid_val.
      set (A := Rsum (map (fun x => x * x) v)). set (B := Rsum (map (fun x => x * x) w)).
      set (T := Rsum (map (fun p => fst p * snd p) (combine v w))).
      assert (E : Rsum (map (fun x => x * x) (map (fun p => fst p + snd p) (combine v w))) = A + B + 2 * T).
      { unfold A, B, T. clear A B T. revert w L. induction v as [|x v IH]; intros w L; destruct w as [|y w]; try discriminate; cbn [combine map].
        - rewrite !Rsum_nil. lra.
        - injection L as L. cbn [fst snd]. rewrite !Rsum_cons. rewrite IH by exact L. ring. }
      rewrite E. pose proof (cauchy v w L) as C. cbv zeta in C. fold A B T in C.
      pose proof (NN v) as A0. pose proof (NN w) as B0. fold A in A0. fold B in B0. clearbody A B T.
      assert (Eu : sqrt A * sqrt A = A) by (apply sqrt_sqrt; exact A0). assert (Ez : sqrt B * sqrt B = B) by (apply sqrt_sqrt; exact B0).
      pose proof (sqrt_pos A). pose proof (sqrt_pos B).
      assert (Sl : Rabs T <= sqrt A * sqrt B).
      { apply Rsqr_incr_0_var; [|nra]. rewrite <- Rsqr_abs. unfold Rsqr. replace (sqrt A * sqrt B * (sqrt A * sqrt B)) with (sqrt A * sqrt A * (sqrt B * sqrt B)) by ring. rewrite Eu, Ez. exact C. }
      pose proof (Rle_abs T). rewrite <- (sqrt_Rsqr (sqrt A + sqrt B)) by lra. apply sqrt_le_1_alt. unfold Rsqr.
      replace ((sqrt A + sqrt B) * (sqrt A + sqrt B)) with (sqrt A * sqrt A + sqrt B * sqrt B + 2 * (sqrt A * sqrt B)) by ring. rewrite Eu, Ez. lra.
Qed.

Lemma max_norm : is_norm norm_max.
Proof.
  assert (P : forall v, 0 <= norm_max v) by (intros v; destruct (norm_max_acc v 0 ltac:(lra)) as (A & _); exact A).
  split; [exact P|]. split.
  - intros v. destruct (norm_max_val v) as (A & B & C). split.
    + intros E x I. specialize (A x I). rewrite E in A. pose proof (Rabs_pos x). destruct (Req_dec x 0) as [|N]; [assumption|]. pose proof (Rabs_pos_lt x N). lra.
    + intros H. destruct v as [|x v]; [apply C; reflexivity|]. destruct B as (y & I & ->); [discriminate|]. rewrite (H y I). apply Rabs_R0.
  - assert (UB : forall v b, 0 <= b -> (forall x, In x v -> Rabs x <= b) -> norm_max v <= b).
    { intros v b Hb H. destruct (norm_max_val v) as (_ & B & C). destruct v as [|x v]; [rewrite C by reflexivity; exact Hb|].
      destruct B as (y & I & ->); [discriminate|]. apply H. exact I. }
    split.
    + intros a v. destruct (norm_max_val v) as (A & B & C). apply Rle_antisym.
      * apply UB; [pose proof (P v); pose proof (Rabs_pos a); nra|]. intros x I. apply in_map_iff in I. destruct I as (y & <- & I). rewrite Rabs_mult.
        apply Rmult_le_compat_l; [apply Rabs_pos|auto].
      * destruct v as [|x v]; [rewrite C by reflexivity; cbn; unfold norm_max; cbn; lra|]. destruct B as (y & I & E); [discriminate|]. rewrite E, <- Rabs_mult.
        apply (norm_max_val (map (Rmult a) (x :: v))). apply in_map. exact I.
    + intros v w L. apply UB; [pose proof (P v); pose proof (P w); lra|]. intros x I. apply in_map_iff in I. destruct I as ((p & q) & <- & I). cbn [fst snd].
      pose proof (proj1 (norm_max_val v) p (in_combine_l _ _ _ _ I)). pose proof (proj1 (norm_max_val w) q (in_combine_r _ _ _ _ I)).
      pose proof (Rabs_triang p q). lra.
Qed.

Lemma norms_equivalent v : norm_max v <= norm_euclid v /\ norm_euclid v <= norm_sum v /\ norm_sum v <= INR (length v) * norm_max v.
Proof.
  destruct (norm_max_val v) as (A & B & C). split; [|split].
  - destruct v as [|x v]; [rewrite C by reflexivity; apply sqrt_pos|]. destruct B as (y & I & ->); [discriminate|].
    rewrite norm_euclid_val. replace (Rabs y) with (sqrt (Rsqr y)) by apply sqrt_Rsqr_abs. apply sqrt_le_1_alt.
    assert (G : forall l, In y l -> Rsqr y <= Rsum (map (fun x => x * x) l)); [|apply G; exact I].
    induction l as [|z l IH]; intros J; [destruct J|]. cbn [map]. rewrite Rsum_cons.
    assert (0 <= Rsum (map (fun x => x * x) l)) by (apply Rsum_map_nonneg; intros; nra). destruct J as [-> | J]; [unfold Rsqr; lra|]. specialize (IH J). nra.
  - rewrite norm_euclid_val, norm_sum_val. induction v as [|x v IH]; cbn [map].
    + rewrite !Rsum_nil, sqrt_0. lra.
    + rewrite !Rsum_cons. clear A B C. assert (IH' : sqrt (Rsum (map (fun x => x * x) v)) <= Rsum (map Rabs v)) by (apply IH; apply norm_max_val).
      assert (0 <= Rsum (map (fun x => x * x) v)) by (apply Rsum_map_nonneg; intros; nra).
      set (T := Rsum (map Rabs v)) in *. assert (0 <= T) by (apply Rsum_map_nonneg; intros; apply Rabs_pos).
      pose proof (Rabs_pos x). rewrite <- (sqrt_Rsqr (Rabs x + T)) by lra. apply sqrt_le_1_alt. unfold Rsqr.
      assert (Ex : Rabs x * Rabs x = x * x) by (unfold Rabs; destruct (Rcase_abs x); ring).
      assert (Q : sqrt (Rsum (map (fun x => x * x) v)) * sqrt (Rsum (map (fun x => x * x) v)) <= T * T).
      { apply Rmult_le_compat; try assumption; apply sqrt_pos. }
      rewrite sqrt_sqrt in Q by assumption. nra.
  - rewrite norm_sum_val. assert (G : forall l b, (forall x, In x l -> Rabs x <= b) -> Rsum (map Rabs l) <= INR (length l) * b); [|apply G; exact A].
    induction l as [|x l IH]; intros b H; cbn [map length].
    + rewrite Rsum_nil. cbn. lra.
    + rewrite Rsum_cons, S_INR. specialize (IH b (fun y I => H y (or_intror I))). specialize (H x (or_introl eq_refl)). lra.
Qed.
