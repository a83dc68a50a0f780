(* Proofs about elastic materials. *)
From Coq Require Import Lra.
From Verif Require Import RBaseFacts BaseFacts Lin_Facts Steady_Proofs Euler_Proofs2 Matx_Proofs Shape_Proofs Shape_Proofs2 Shape_Proofs3 Elast_Spec.
Open Scope Z_scope.

Lemma dsum_Sum n f : dsum n f = Sum n f.
Proof.
  unfold dsum, Sum. assert (forall l a, fold_left (fun s k => s + f k)%R l a = (a + Rsum (map f l))%R) as H.
  - induction l as [|k l IH]; intros a; cbn [fold_left map]; [rewrite Rsum_nil; ring|]. rewrite IH, Rsum_cons. ring.
  - rewrite H. ring.
Qed.
Lemma Sum_3 f : Sum 3 f = (f 0%Z + f 1%Z + f 2%Z)%R.
Proof. change 3 with (2 + 1). rewrite Sum_S by lia. change 2 with (1 + 1). rewrite Sum_S by lia. change 1 with (0 + 1). rewrite Sum_S by lia. rewrite Sum_0. cbn. ring. Qed.
Lemma Sum_6 f : Sum 6 f = (f 0%Z + f 1%Z + f 2%Z + f 3%Z + f 4%Z + f 5%Z)%R.
Proof. change 6 with (5 + 1). rewrite Sum_S by lia. change 5 with (4 + 1). rewrite Sum_S by lia. change 4 with (3 + 1). rewrite Sum_S by lia. rewrite Sum_3. cbn. ring. Qed.
Lemma in3 i : 0 <= i < 3 -> i = 0 \/ i = 1 \/ i = 2. Proof. lia. Qed.
Lemma in6 i : 0 <= i < 6 -> i = 0 \/ i = 1 \/ i = 2 \/ i = 3 \/ i = 4 \/ i = 5. Proof. lia. Qed.
Ltac all6 i H := destruct (in6 i H) as [-> | [-> | [-> | [-> | [-> | ->]]]]].
Ltac all3 i H := destruct (in3 i H) as [-> | [-> | ->]].

(* ---- the isotropic matrices *)
Lemma range_ok nu : okn nu -> Rltb nu 0 || Rleb (1 / 2) nu = false.
Proof. intros [H1 H2]. unfold Rltb, Rleb. destruct (Rlt_dec nu 0); [lra|]. destruct (Rle_dec (1 / 2) nu); [lra|]. reflexivity. Qed.
Lemma range_bad nu : ~ okn nu -> Rltb nu 0 || Rleb (1 / 2) nu = true.
Proof. intros H. unfold Rltb, Rleb, okn in *. destruct (Rlt_dec nu 0); [reflexivity|]. destruct (Rle_dec (1 / 2) nu); [reflexivity|]. lra. Qed.
Lemma fact_ok E nu : okn nu -> mdiv E ((1 + nu) * (1 - nu - nu)) = Ok (E / ((1 + nu) * (1 - nu - nu)))%R /\ ((1 + nu) * (1 - nu - nu) <> 0)%R.
Proof. intros [H1 H2]. assert (0 < (1 + nu) * (1 - nu - nu))%R by (apply Rmult_lt_0_compat; lra). split; [apply mdiv_ok|]; lra. Qed.
Lemma iso6_stiff E nu : okn nu -> exists C, iso6 E nu false = Ok (true, C) /\ same 6 C (lame 3 (E * nu / ((1 + nu) * (1 - 2 * nu))) (E / (2 * (1 + nu)))).
Proof.
  intros H. destruct (fact_ok E nu H) as [F N]. unfold iso6. rewrite (range_ok nu H), F. cbn [bind]. eexists. split; [reflexivity|].
  destruct H as [H1 H2]. intros i j Hi Hj. all6 i Hi; all6 j Hj; unfold fput, fzero, lame; cbn [Z.eqb Pos.eqb andb Z.ltb Z.compare Pos.compare Pos.compare_cont]; field; lra.
Qed.
Lemma iso6_compl E nu : okn nu -> E <> 0%R -> exists C, iso6 E nu true = Ok (true, C) /\
  same 6 C (fun i j => if (i <? 3) && (j <? 3) then (if i =? j then 1 / E else - nu / E) else if i =? j then (2 + 2 * nu) / E else 0)%R.
Proof.
  intros H HE. destruct (fact_ok E nu H) as [F N]. unfold iso6. rewrite (range_ok nu H), F. cbn [bind]. rewrite !mdiv_ok by exact HE. cbn [bind]. eexists. split; [reflexivity|].
  intros i j Hi Hj. all6 i Hi; all6 j Hj; unfold fput, fzero; cbn [Z.eqb Pos.eqb andb Z.ltb Z.compare Pos.compare Pos.compare_cont]; field; lra.
Qed.
Lemma iso6_bad E nu inv : ~ okn nu -> iso6 E nu inv = Ok (false, fzero).
Proof. intros H. unfold iso6. rewrite (range_bad nu H). reflexivity. Qed.
Lemma iso6_zero nu : okn nu -> iso6 0 nu true = UB.
Proof. intros H. unfold iso6. destruct (fact_ok 0 nu H) as [F N]. rewrite (range_ok nu H), F. cbn [bind]. rewrite mdiv_0. reflexivity. Qed.
(* quadratic forms *)
Lemma quad_same n A B x : same n A B -> quad n A x = quad n B x.
Proof. intros H. unfold quad, dot, mvec. apply Sum_ext. intros i Hi. f_equal. apply Sum_ext. intros j Hj. rewrite H by assumption. reflexivity. Qed.
Lemma quad_lame l m x : quad 6 (lame 3 l m) x = (l * (x 0%Z + x 1%Z + x 2%Z) * (x 0%Z + x 1%Z + x 2%Z) + 2 * m * (x 0%Z * x 0%Z + x 1%Z * x 1%Z + x 2%Z * x 2%Z) + m * (x 3%Z * x 3%Z + x 4%Z * x 4%Z + x 5%Z * x 5%Z))%R.
Proof. unfold quad, dot, mvec. rewrite !Sum_6. unfold lame. cbn [Z.eqb Pos.eqb andb Z.ltb Z.compare Pos.compare Pos.compare_cont]. ring. Qed.
Lemma sq_nn x : (0 <= x * x)%R. Proof. nra. Qed.
Lemma lame_pd l m : (0 <= l)%R -> (0 < m)%R -> pos_def 6 (lame 3 l m).
Proof.
  intros Hl Hm x (i & Hi & Hx). rewrite quad_lame. pose proof (sq_nn (x 0%Z + x 1%Z + x 2%Z)) as S. assert (0 <= l * (x 0%Z + x 1%Z + x 2%Z) * (x 0%Z + x 1%Z + x 2%Z))%R by nra.
  pose proof (sq_nn (x 0%Z)). pose proof (sq_nn (x 1%Z)). pose proof (sq_nn (x 2%Z)). pose proof (sq_nn (x 3%Z)). pose proof (sq_nn (x 4%Z)). pose proof (sq_nn (x 5%Z)).
  assert (0 < x i * x i)%R by nra. assert (0 < x 0%Z * x 0%Z + x 1%Z * x 1%Z + x 2%Z * x 2%Z + x 3%Z * x 3%Z + x 4%Z * x 4%Z + x 5%Z * x 5%Z)%R by (all6 i Hi; lra). nra.
Qed.
Lemma iso_pair E nu : okn nu -> (0 < E)%R -> exists C K, iso6 E nu false = Ok (true, C) /\ iso6 E nu true = Ok (true, K) /\ inverses 6 C K /\ symmetric 6 C /\ symmetric 6 K /\ pos_def 6 C /\ pos_def 6 K.
Proof.
  intros H HE. destruct (iso6_stiff E nu H) as (C & EC & SC). destruct (iso6_compl E nu H ltac:(lra)) as (K & EK & SK). exists C, K. split; [exact EC|]. split; [exact EK|].
  destruct H as [H1 H2]. assert (0 < 1 - 2 * nu)%R as D1 by lra. assert (0 < 1 + nu)%R as D2 by lra.
  split; [split; intros i j Hi Hj; unfold mmul; rewrite Sum_6; rewrite !SC, !SK by lia; all6 i Hi; all6 j Hj; unfold lame, ident; cbn [Z.eqb Pos.eqb andb Z.ltb Z.compare Pos.compare Pos.compare_cont]; field; lra|].
  split; [intros i j Hi Hj; rewrite !SC by assumption; all6 i Hi; all6 j Hj; reflexivity|].
  split; [intros i j Hi Hj; rewrite !SK by assumption; all6 i Hi; all6 j Hj; reflexivity|].
  split.
  - intros x Hx. rewrite (quad_same _ _ _ _ SC). apply lame_pd; [|apply Rdiv_lt_0_compat; lra|exact Hx]. unfold Rdiv. apply Rmult_le_pos; [nra|]. left. apply Rinv_0_lt_compat. nra.
  - intros x (i & Hi & Hx). rewrite (quad_same _ _ _ _ SK). unfold quad, dot, mvec. rewrite !Sum_6. cbn [Z.eqb Pos.eqb andb Z.ltb Z.compare Pos.compare Pos.compare_cont].
    assert (0 < / E)%R as IE by (apply Rinv_0_lt_compat; lra).
    match goal with |- (0 < ?g)%R => replace g with (/ E * ((1 + nu) * (x 0%Z * x 0%Z + x 1%Z * x 1%Z + x 2%Z * x 2%Z) - nu * (x 0%Z + x 1%Z + x 2%Z) * (x 0%Z + x 1%Z + x 2%Z) + (2 + 2 * nu) * (x 3%Z * x 3%Z + x 4%Z * x 4%Z + x 5%Z * x 5%Z)))%R by (field; lra) end.
    apply Rmult_lt_0_compat; [exact IE|].
    pose proof (sq_nn (x 0%Z - x 1%Z)) as Q1. pose proof (sq_nn (x 0%Z - x 2%Z)) as Q2. pose proof (sq_nn (x 1%Z - x 2%Z)) as Q3.
    assert ((x 0%Z + x 1%Z + x 2%Z) * (x 0%Z + x 1%Z + x 2%Z) <= 3 * (x 0%Z * x 0%Z + x 1%Z * x 1%Z + x 2%Z * x 2%Z))%R as Q by nra.
    set (a := ((x 0%Z + x 1%Z + x 2%Z) * (x 0%Z + x 1%Z + x 2%Z))%R) in *. set (b := (x 0%Z * x 0%Z + x 1%Z * x 1%Z + x 2%Z * x 2%Z)%R) in *. set (d := (x 3%Z * x 3%Z + x 4%Z * x 4%Z + x 5%Z * x 5%Z)%R).
    assert (0 <= b)%R by (unfold b; pose proof (sq_nn (x 0%Z)); pose proof (sq_nn (x 1%Z)); pose proof (sq_nn (x 2%Z)); lra).
    assert (0 <= d)%R by (unfold d; pose proof (sq_nn (x 3%Z)); pose proof (sq_nn (x 4%Z)); pose proof (sq_nn (x 5%Z)); lra).
    assert (0 < b + d)%R.
    { assert (0 < x i * x i)%R by nra. unfold b, d. pose proof (sq_nn (x 0%Z)). pose proof (sq_nn (x 1%Z)). pose proof (sq_nn (x 2%Z)). pose proof (sq_nn (x 3%Z)). pose proof (sq_nn (x 4%Z)). pose proof (sq_nn (x 5%Z)). all6 i Hi; lra. }
    replace (nu * (x 0%Z + x 1%Z + x 2%Z) * (x 0%Z + x 1%Z + x 2%Z))%R with (nu * a)%R by (unfold a; ring). clearbody a b d. assert (nu * a <= nu * (3 * b))%R by (apply Rmult_le_compat_l; lra).
    assert (0 <= nu * d)%R by nra. assert (0 <= nu * b)%R by nra. assert ((1 - 2 * nu) * b + 2 * d <= (1 + nu) * b - nu * a + (2 + 2 * nu) * d)%R by nra.
    destruct (Rle_lt_or_eq_dec 0 b) as [Hb|Hb]; [assumption| |]; nra.
Qed.
(* the plane *)
Lemma iso3_ok E nu C0 inv : okn nu -> (0 < E)%R -> exists C, iso3 E nu C0 inv = Ok (true, C) /\
  (forall i j, C i j = if (i =? 0) && (j =? 0) || (i =? 1) && (j =? 1) then (if inv then (1 - nu * nu) / E else E * (1 - nu) / ((1 + nu) * (1 - 2 * nu)))%R
     else if (i =? 0) && (j =? 1) || (i =? 1) && (j =? 0) then (if inv then - (nu + nu * nu) / E else E * nu / ((1 + nu) * (1 - 2 * nu)))%R
     else if (i =? 2) && (j =? 2) then (if inv then (2 + 2 * nu) / E else E / (2 * (1 + nu)))%R else C0 i j).
Proof.
  intros H HE. destruct (fact_ok E nu H) as [F N]. unfold iso3. rewrite (range_ok nu H), F. cbn [bind]. rewrite !mdiv_ok by lra. destruct H as [H1 H2].
  destruct inv; cbn [bind]; (eexists; split; [reflexivity|]); intros i j; unfold fput; cbn [Z.eqb Pos.eqb andb];
    (destruct (Z.eqb_spec i 0); [|destruct (Z.eqb_spec i 1); [|destruct (Z.eqb_spec i 2)]]); (destruct (Z.eqb_spec j 0); [|destruct (Z.eqb_spec j 1); [|destruct (Z.eqb_spec j 2)]]); subst; try lia; cbn [andb orb Z.eqb Pos.eqb]; rewrite ?andb_false_r; try reflexivity; field; lra.
Qed.
Lemma iso3_bad E nu C0 inv : ~ okn nu -> iso3 E nu C0 inv = Ok (false, C0).
Proof. intros H. unfold iso3. rewrite (range_bad nu H). reflexivity. Qed.
Lemma iso3_pair E nu : okn nu -> (0 < E)%R -> exists C K, iso3 E nu fzero false = Ok (true, C) /\ iso3 E nu fzero true = Ok (true, K) /\ same 3 C (lame 2 (E * nu / ((1 + nu) * (1 - 2 * nu))) (E / (2 * (1 + nu)))) /\ inverses 3 C K.
Proof.
  intros H HE. destruct (iso3_ok E nu fzero false H HE) as (C & EC & SC). destruct (iso3_ok E nu fzero true H HE) as (K & EK & SK). exists C, K. split; [exact EC|]. split; [exact EK|].
  destruct H as [H1 H2]. split; [intros i j Hi Hj; rewrite SC; all3 i Hi; all3 j Hj; unfold lame, fzero; cbn [Z.eqb Pos.eqb andb orb Z.ltb Z.compare Pos.compare Pos.compare_cont]; field; lra|].
  split; intros i j Hi Hj; unfold mmul; rewrite Sum_3; rewrite !SC, !SK; all3 i Hi; all3 j Hj; unfold ident, fzero; cbn [Z.eqb Pos.eqb andb orb]; field; lra.
Qed.
