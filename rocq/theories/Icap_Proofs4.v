From Verif Require Import BaseFacts RBaseFacts Lin_Facts Matx_Proofs Matx_Proofs3 Mim_Proofs Icap_Spec Icap_Proofs.
From Coq Require Import Lra Lia.
Open Scope Z_scope.

(* ---- tensors *)
Lemma inverse_symmetric f g : symmetric3 f -> inverse_of f g -> symmetric3 g.
Proof.
  intros Sf H i j Hi Hj.
  assert (A : mmul 3 (fun i j => g j i) f i j = ident i j).
  { unfold mmul. rewrite (Sum_ext 3 _ (fun l => f j l * g l i)%R) by (intros l Hl; cbn; rewrite (Sf l j) by assumption; ring).
    destruct (H j i Hj Hi) as (Q & _). unfold mmul in Q. rewrite Q. unfold ident. rewrite Z.eqb_sym. reflexivity. }
  (* g^T = g^T (f g) = (g^T f) g = g *)
  assert (E1 : mmul 3 (fun i j => g j i) (mmul 3 f g) i j = g j i).
  { change (Sum 3 (fun l => g l i * mmul 3 f g l j)%R = g j i). rewrite (Sum_ext 3 _ (fun l => g l i * ident l j)%R) by (intros l Hl; cbn; f_equal; apply (H l j Hl Hj)).
    exact (Sum_ident_r 3 j (fun l => g l i) Hj). }
  assert (E2 : mmul 3 (mmul 3 (fun i j => g j i) f) g i j = g i j).
  { change (Sum 3 (fun l => mmul 3 (fun i j => g j i) f i l * g l j)%R = g i j). rewrite (Sum_ext 3 _ (fun l => ident i l * g l j)%R).
    - exact (Sum_ident_l 3 i (fun l => g l j) Hi).
    - intros l Hl. f_equal. unfold mmul. rewrite (Sum_ext 3 _ (fun q => f l q * g q i)%R) by (intros q Hq; cbn; rewrite (Sf q l) by assumption; ring).
      destruct (H l i Hl Hi) as (Q & _). unfold mmul in Q. rewrite Q. unfold ident. rewrite Z.eqb_sym. reflexivity. }
  rewrite <- E2, <- E1. symmetry. apply mmul_assoc.
Qed.

Lemma series_symmetric f g t : symmetric3 f -> symmetric3 g -> inverse_of (fun i j => f i j + g i j)%R t -> symmetric3 (mmul 3 (mmul 3 f t) g).
Proof.
  intros Sf Sg H. assert (St : symmetric3 t) by (eapply inverse_symmetric; [|exact H]; intros i j Hi Hj; cbn; rewrite (Sf i j), (Sg i j) by assumption; reflexivity).
  (* f t g = f - f t f *)
  assert (E : forall i j, 0 <= i < 3 -> 0 <= j < 3 -> mmul 3 (mmul 3 f t) g i j = (f i j - mmul 3 (mmul 3 f t) f i j)%R).
  { intros i j Hi Hj. assert (A : mmul 3 (mmul 3 f t) (fun i j => f i j + g i j)%R i j = f i j).
    { rewrite <- mmul_assoc. change (Sum 3 (fun l => f i l * mmul 3 t (fun i j => f i j + g i j)%R l j)%R = f i j). rewrite (Sum_ext 3 _ (fun l => f i l * ident l j)%R) by (intros l Hl; f_equal; apply (H l j Hl Hj)).
      exact (Sum_ident_r 3 j (fun l => f i l) Hj). }
    rewrite <- A at 1. change (Sum 3 (fun l => mmul 3 f t i l * g l j) = Sum 3 (fun l => mmul 3 f t i l * (f l j + g l j)) - Sum 3 (fun l => mmul 3 f t i l * f l j))%R.
    rewrite <- Sum_minus. apply Sum_ext. intros l Hl. ring. }
  intros i j Hi Hj. rewrite !E by assumption. rewrite (Sf i j) by assumption. f_equal.
  rewrite <- mmul_assoc. unfold mmul.
  apply Sum_ext. intros l Hl. rewrite (Sf i l) by assumption. rewrite Rmult_comm. f_equal. apply Sum_ext. intros q Hq.
  rewrite (St l q), (Sf q j) by assumption. ring.
Qed.

Lemma threshold_ok m o f t : holds m o 3 3 f -> exists m', threshold_tensor m t = Ok m' /\
  holds m' o 3 3 (fun i j => if i =? j then Rmax (f i j) t else f i j).
Proof.
  intros H. unfold threshold_tensor. pose proof H as (_ & R3 & C3 & _). rewrite R3, C3.
  change (zrange 0 (Z.min 3 3)) with [0; 1; 2]. cbn [foldM].
  rewrite (holds_get _ _ _ _ _ 0 0 H) by lia. cbn [bind]. destruct (holds_set m o 3 3 f 0 0 (smax (f 0 0) t) H ltac:(lia) ltac:(lia)) as (m1 & -> & H1). cbn [bind].
  rewrite (holds_get _ _ _ _ _ 1 1 H1) by lia. cbn [bind]. match goal with |- context [mset m1 1 1 ?v] => destruct (holds_set m1 o 3 3 _ 1 1 v H1 ltac:(lia) ltac:(lia)) as (m2 & -> & H2) end. cbn [bind].
  rewrite (holds_get _ _ _ _ _ 2 2 H2) by lia. cbn [bind]. match goal with |- context [mset m2 2 2 ?v] => destruct (holds_set m2 o 3 3 _ 2 2 v H2 ltac:(lia) ltac:(lia)) as (m3 & -> & H3) end. cbn [bind].
  exists m3. split; [reflexivity|]. eapply holds_ext; [exact H3|]. intros r c Hr Hc.
  destruct (three_cases r Hr) as [-> | [-> | ->]], (three_cases c Hc) as [-> | [-> | ->]]; cbn -[smax Rmax]; rewrite ?smax_Rmax; reflexivity.
Qed.

Lemma tensor_ok inv m1 m2 o f g : inverts inv -> holds m1 o 3 3 f -> holds m2 o 3 3 g ->
  symmetric3 f -> symmetric3 g -> det3 (fun i j => f i j + g i j)%R <> 0%R ->
  exists m t h, cap_tensor inv m1 m2 = Ok m /\ holds m o 3 3 h /\ symmetric3 h /\ inverse_of (fun i j => f i j + g i j)%R t /\
    (forall i j, 0 <= i < 3 -> 0 <= j < 3 -> h i j = if i =? j then Rmax (mmul 3 (mmul 3 f t) g i j) (/ 10000000000) else mmul 3 (mmul 3 f t) g i j).
Proof.
  intros Hinv H1 H2 S1 S2 D. unfold cap_tensor. destruct (add_ok _ _ _ _ _ _ _ H1 H2) as (tot & -> & Ht). cbn [bind].
  destruct (Hinv _ _ _ Ht D) as (ti & t & -> & Hti & It). cbn [bind].
  destruct (prod_ok _ _ m1 _ _ _ _ _ _ _ _ _ H1 Hti H1) as (a & -> & Ha). cbn [bind].
  destruct (prod_ok _ _ a _ _ _ _ _ _ _ _ _ Ha H2 Ha) as (b & -> & Hb). cbn [bind].
  destruct (threshold_ok _ _ _ cap_floor Hb) as (m & Em & Hm). exists m, t, (fun i j => if i =? j then Rmax (mmul 3 (mmul 3 f t) g i j) cap_floor else mmul 3 (mmul 3 f t) g i j).
  split; [exact Em|]. split; [exact Hm|]. split; [|split; [exact It|]].
  - intros i j Hi Hj. rewrite (Z.eqb_sym j i). destruct (Z.eqb_spec i j) as [-> |]; [reflexivity|]. apply series_symmetric; assumption.
  - intros i j Hi Hj. reflexivity.
Qed.

(* diagonal tensors: every direction by itself *)
Lemma tensor_diagonal inv m1 m2 o f g : inverts inv -> holds m1 o 3 3 f -> holds m2 o 3 3 g ->
  (forall i j, 0 <= i < 3 -> 0 <= j < 3 -> i <> j -> f i j = 0%R /\ g i j = 0%R) -> (forall i, 0 <= i < 3 -> (f i i + g i i <> 0)%R) ->
  exists m, cap_tensor inv m1 m2 = Ok m /\
    holds m o 3 3 (fun i j => if i =? j then Rmax (in_series (f i i) (g i i)) (/ 10000000000) else 0%R).
Proof.
  intros Hinv H1 H2 Hd Hn.
  assert (S1 : symmetric3 f) by (intros i j Hi Hj; destruct (Z.eq_dec i j) as [-> |N]; [reflexivity|]; rewrite (proj1 (Hd i j Hi Hj N)), (proj1 (Hd j i Hj Hi (not_eq_sym N))); reflexivity).
  assert (S2 : symmetric3 g) by (intros i j Hi Hj; destruct (Z.eq_dec i j) as [-> |N]; [reflexivity|]; rewrite (proj2 (Hd i j Hi Hj N)), (proj2 (Hd j i Hj Hi (not_eq_sym N))); reflexivity).
  assert (D : det3 (fun i j => f i j + g i j)%R <> 0%R).
  { unfold det3. destruct (Hd 0 1 ltac:(lia) ltac:(lia) ltac:(lia)) as (-> & ->). destruct (Hd 0 2 ltac:(lia) ltac:(lia) ltac:(lia)) as (-> & ->). destruct (Hd 1 2 ltac:(lia) ltac:(lia) ltac:(lia)) as (-> & ->).
    pose proof (Hn 0 ltac:(lia)). pose proof (Hn 1 ltac:(lia)). pose proof (Hn 2 ltac:(lia)).
    match goal with |- ?e <> _ => replace e with ((f 0%Z 0%Z + g 0%Z 0%Z) * ((f 1%Z 1%Z + g 1%Z 1%Z) * (f 2%Z 2%Z + g 2%Z 2%Z)))%R by ring end.
    apply Rmult_integral_contrapositive_currified; [assumption|]. apply Rmult_integral_contrapositive_currified; assumption. }
  destruct (tensor_ok inv m1 m2 o f g Hinv H1 H2 S1 S2 D) as (m & t & h & Em & Hm & _ & It & V). exists m. split; [exact Em|].
  eapply holds_ext; [exact Hm|]. intros i j Hi Hj. rewrite V by assumption.
  assert (M : mmul 3 (mmul 3 f t) g i j = (f i i * t i j * g j j)%R).
  { change (Sum 3 (fun l => mmul 3 f t i l * g l j)%R = (f i i * t i j * g j j)%R). rewrite (Sum_pick 3 j) by (auto; intros l Hl N; rewrite (proj2 (Hd l j Hl Hj N)); ring).
    unfold mmul. rewrite (Sum_pick 3 i) by (auto; intros l Hl N; rewrite (proj1 (Hd i l Hi Hl (not_eq_sym N))); ring). reflexivity. }
  assert (T : t i j = (ident i j / (f i i + g i i))%R).
  { destruct (It i j Hi Hj) as (Q & _). unfold mmul in Q. rewrite (Sum_pick 3 i) in Q by (auto; intros l Hl N; destruct (Hd i l Hi Hl (not_eq_sym N)) as (-> & ->); ring).
    rewrite <- Q. field. apply Hn. assumption. }
  rewrite M, T. unfold ident. destruct (Z.eqb_spec i j) as [<- |]; [|unfold Rdiv; ring]. f_equal. unfold in_series. field. apply Hn. assumption.
Qed.

(* ---- relative permeability *)
Lemma relperm_ok eff K mu o o' e k : holds eff o 3 3 e -> holds K o' 3 3 k ->
  (det3 k <> 0%R -> k 2 2 <> 0%R ->
     exists m r, upscaled_relperm eff K mu = Ok m /\ holds m o 3 3 r /\
       (forall i j, 0 <= i < 3 -> 0 <= j < 3 -> mmul 3 r k i j = (mu * e i j)%R) /\
       (forall lam, (forall i j, 0 <= i < 3 -> 0 <= j < 3 -> e i j = (lam / mu * k i j)%R) -> mu <> 0%R ->
          forall i j, 0 <= i < 3 -> 0 <= j < 3 -> r i j = if i =? j then lam else 0%R)) /\
  (det3 k = 0%R \/ k 2 2 = 0%R -> upscaled_relperm eff K mu = UB).
Proof.
  intros He Hk. destruct (inverse3_ok _ _ _ Hk) as (A & B). split.
  - intros D N. destruct (A D N) as (mi & g & E & Hg & I). unfold upscaled_relperm. rewrite E. cbn [bind].
    destruct (matprod_ok _ _ _ _ _ _ _ _ _ He Hg) as (l & El & Hl). rewrite El. cbn [bind].
    exists (mscale l mu), (fun r c => mmul 3 e g r c * mu)%R. split; [reflexivity|]. split; [apply scale_ok; exact Hl|].
    split.
    + intros i j Hi Hj. change (Sum 3 (fun q => mmul 3 e g i q * mu * k q j) = mu * e i j)%R. rewrite (Sum_ext 3 _ (fun q => mu * (mmul 3 e g i q * k q j))%R) by (intros; ring). rewrite Sum_scal. f_equal.
      change (mmul 3 (mmul 3 e g) k i j = e i j). rewrite <- mmul_assoc. change (Sum 3 (fun q => e i q * mmul 3 g k q j)%R = e i j).
      rewrite (Sum_ext 3 _ (fun q => e i q * ident q j)%R) by (intros q Hq; f_equal; apply (I q j Hq Hj)). exact (Sum_ident_r 3 j (fun l => e i l) Hj).
    + intros lam Hlam Hmu i j Hi Hj. assert (Q : mmul 3 e g i j = (lam / mu * ident i j)%R).
      { unfold mmul. rewrite (Sum_ext 3 _ (fun q => lam / mu * (k i q * g q j))%R) by (intros q Hq; rewrite Hlam by assumption; ring). rewrite Sum_scal. f_equal. apply (I i j Hi Hj). }
      rewrite Q. unfold ident. destruct (i =? j); field; assumption.
  - intros D. unfold upscaled_relperm. rewrite (B D). reflexivity.
Qed.

(* ---- time parameters *)
Lemma init_given given v u cur : init_times (given ++ [Some v]) u cur = (v * u)%R.
Proof. revert cur. induction given as [|g l IH]; intros cur; cbn [app init_times]; [reflexivity|apply IH]. Qed.
Lemma init_repeated n : forall u cur, init_times (repeat None n) u cur = (cur * u ^ n)%R.
Proof. induction n as [|n IH]; intros u cur; cbn [repeat init_times]; [cbn; ring|]. rewrite IH. unfold init_time. cbn [pow]. ring. Qed.
Lemma init_after_given n v u cur given : init_times (given ++ Some v :: repeat None n) u cur = (v * u ^ (S n))%R.
Proof.
  revert cur. induction given as [|g l IH]; intros cur; cbn [app init_times]; [|apply IH].
  rewrite init_repeated. unfold init_time. cbn [pow]. ring.
Qed.
