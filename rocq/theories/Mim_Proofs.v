From Coq Require Import Lra.
From Verif Require Import BaseFacts RBaseFacts Lin_Facts Steady_Proofs Euler_Proofs2 Impl_Proofs Impl_Proofs5 Matx_Proofs Matx_Proofs2 Matx_Proofs3 Mim_Spec.
Open Scope Z_scope.

(* ---- loops with an invariant ---- *)
Lemma zloop {S} (step : S -> Z -> res S) (P : Z -> S -> Prop) lo n s : lo <= n -> P lo s ->
  (forall i s, lo <= i < n -> P i s -> exists s', step s i = Ok s' /\ P (i + 1) s') -> exists s', foldM step (zrange lo n) s = Ok s' /\ P n s'.
Proof.
  intros Hn. revert s. remember (Z.to_nat (n - lo)) as k eqn:Ek. revert lo Hn Ek. induction k as [|k IH]; intros lo Hn Ek s H0 Hs.
  - assert (n = lo) by lia. subst. rewrite zrange_empty by lia. exists s. auto.
  - rewrite (zrange_cons lo n) by lia. cbn [foldM]. destruct (Hs lo s ltac:(lia) H0) as (s1 & E1 & P1). rewrite E1. cbn [bind].
    apply IH; [lia|lia|exact P1|]. intros i t Hi HP. apply Hs; [lia|exact HP].
Qed.
Lemma combine_loop {A S} (step : S -> Z * A -> res S) (P : Z -> S -> Prop) (l : list A) s : P 0 s ->
  (forall i a s, zget l i = Some a -> P i s -> exists s', step s (i, a) = Ok s' /\ P (i + 1) s') ->
  exists s', foldM step (combine (zrange 0 (zlen l)) l) s = Ok s' /\ P (zlen l) s'.
Proof.
  intros H0 Hs.
  assert (G : forall l2 l1, l = l1 ++ l2 -> forall s, P (zlen l1) s -> exists s', foldM step (combine (zrange (zlen l1) (zlen l)) l2) s = Ok s' /\ P (zlen l) s').
  { induction l2 as [|a l2 IH]; intros l1 E t Ht.
    - rewrite app_nil_r in E. subst l1. rewrite zrange_empty by lia. exists t. auto.
    - assert (L : zlen l = zlen l1 + 1 + zlen l2) by (rewrite E, zlen_app, zlen_cons; lia). pose proof (zlen_nonneg l1). pose proof (zlen_nonneg l2).
      rewrite (zrange_cons (zlen l1)) by lia. cbn [combine foldM].
      destruct (Hs (zlen l1) a t) as (t' & Et & Pt); [rewrite E, zget_app_r by lia; rewrite Z.sub_diag; reflexivity|exact Ht|]. rewrite Et. cbn [bind].
      destruct (IH (l1 ++ [a])) with (s := t') as (s' & Es & Ps); [rewrite E, <- app_assoc; reflexivity|rewrite zlen_app, zlen_cons; change (zlen (@nil A)) with 0; rewrite Z.add_0_r; exact Pt|].
      exists s'. split; [|exact Ps]. rewrite <- Es. f_equal. f_equal. rewrite zlen_app, zlen_cons. change (zlen (@nil A)) with 0. f_equal; lia. }
  apply (G l []); [reflexivity|exact H0].
Qed.

(* ---- vectors ---- *)
Lemma nthR_map2 (op : R -> R -> R) a b i : zlen a = zlen b -> 0 <= i < zlen a -> nthR (map (fun p => op (fst p) (snd p)) (combine a b)) i = op (nthR a i) (nthR b i).
Proof.
  intros L Hi. destruct (zget_in_range a i Hi) as (x & Ex). destruct (zget_in_range b i) as (y & Ey); [lia|].
  rewrite (nthR_get a i x Ex), (nthR_get b i y Ey). apply nthR_get. rewrite zget_map, (zget_combine _ _ _ _ _ Ex Ey). reflexivity.
Qed.
Lemma fv_sub_len a b : zlen a = zlen b -> zlen (fv_sub a b) = zlen a.
Proof. intros L. unfold fv_sub. rewrite zlen_map. unfold zlen in *. rewrite combine_length. lia. Qed.
Lemma fv_scale_len a s : zlen (fv_scale a s) = zlen a.
Proof. apply zlen_map. Qed.
Lemma fv_sub_nth a b i : zlen a = zlen b -> 0 <= i < zlen a -> nthR (fv_sub a b) i = (nthR a i - nthR b i)%R.
Proof. intros. apply (nthR_map2 Rminus); assumption. Qed.
Lemma fv_scale_nth a s i : 0 <= i < zlen a -> nthR (fv_scale a s) i = (nthR a i * s)%R.
Proof.
  intros Hi. destruct (zget_in_range a i Hi) as (x & Ex). rewrite (nthR_get a i x Ex). apply nthR_get. unfold fv_scale. rewrite zget_map, Ex. reflexivity.
Qed.
Lemma list_as_map (l : list R) : l = map (nthR l) (zrange 0 (zlen l)).
Proof.
  assert (L : zlen l = zlen (map (nthR l) (zrange 0 (zlen l)))) by (rewrite zlen_map, zlen_zrange by apply zlen_nonneg; lia).
  apply zlist_ext; [exact L|]. intros i Hi. rewrite zget_map, zget_zrange by lia. cbn [option_map]. rewrite Z.add_0_l. destruct (zget_in_range l i Hi) as (x & Ex). rewrite Ex, (nthR_get l i x Ex). reflexivity.
Qed.
Lemma Rsum_Sum (l : list R) n : zlen l = n -> Rsum l = Sum n (nthR l).
Proof. intros <-. unfold Sum. f_equal. apply list_as_map. Qed.
Lemma fv_dot_sum a b n : zlen a = n -> zlen b = n -> fv_dot a b = Sum n (fun i => nthR a i * nthR b i)%R.
Proof.
  intros La Lb. unfold fv_dot. rewrite (Rsum_Sum _ n) by (rewrite zlen_map; unfold zlen in *; rewrite combine_length; lia).
  apply Sum_ext. intros i Hi. apply (nthR_map2 Rmult); lia.
Qed.

(* ---- the set-up loop ---- *)
Lemma set_row_ok dim i v T rows f : holds T FOrd rows dim f -> 0 <= i < rows -> zlen v = dim ->
  exists T', set_row dim i v T = Ok T' /\ holds T' FOrd rows dim (fun r c => if r =? i then nthR v c else f r c).
Proof.
  intros HT Hi Lv. assert (Hd : 0 <= dim) by (rewrite <- Lv; apply zlen_nonneg). unfold set_row.
  destruct (zloop (fun T j => let* x := rget v j in mset T i j x) (fun k T => holds T FOrd rows dim (fun r c => if (r =? i) && (c <? k) then nthR v c else f r c)) 0 dim T Hd) as (T' & E & H).
  - eapply holds_ext; [exact HT|]. intros r c Hr Hc. cbn beta. destruct (Z.ltb_spec c 0); [lia|]. rewrite andb_false_r. reflexivity.
  - intros k S Hk HS. rewrite rget_at by lia. cbn [bind]. destruct (holds_set S FOrd rows dim _ i k (nthR v k) HS Hi Hk) as (S' & E & H). exists S'. split; [exact E|].
    eapply holds_ext; [exact H|]. intros r c Hr Hc. cbn beta. destruct (Z.eqb_spec r i); cbn [andb]; [|reflexivity].
    destruct (Z.eqb_spec c k); [subst; destruct (Z.ltb_spec k (k + 1)); [reflexivity|lia]|]. destruct (Z.ltb_spec c k), (Z.ltb_spec c (k + 1)); try lia; reflexivity.
  - exists T'. split; [exact E|]. eapply holds_ext; [exact H|]. intros r c Hr Hc. cbn beta. destruct (Z.ltb_spec c dim); [|lia]. rewrite andb_true_r. reflexivity.
Qed.
Lemma face_get c i f : zget (mc_faces c) i = Some f -> face c i = f.
Proof. intros H. pose proof (zget_Some_range _ _ _ H). rewrite zget_nth in H by lia. unfold face. apply nth_error_nth. exact H. Qed.
Lemma wf_face dim c i : wf_cell dim c -> 0 <= i < zlen (mc_faces c) -> (0 < area c i)%R /\ zlen (mf_cen (face c i)) = dim /\ zlen (mf_normal (face c i)) = dim.
Proof. intros (_ & _ & _ & W) Hi. destruct (zget_in_range _ _ Hi) as (f & Ef). unfold area. rewrite (face_get c i f Ef). apply W. eapply zget_In; eassumption. Qed.

Section Setup.
Variables (dim : Z) (c : mcell).
Hypothesis W : wf_cell dim c.
Let nf := zlen (mc_faces c).
Let Hnf : 0 <= nf. Proof. apply zlen_nonneg. Qed.
Let Hdim : 0 < dim. Proof. apply W. Qed.
Lemma setup_ok Binv fa T1 T2 b0 f0 t1 t2 : holds Binv FOrd nf nf b0 -> holds fa FOrd nf nf f0 -> holds T1 FOrd nf dim t1 -> holds T2 FOrd nf dim t2 ->
  exists Binv' fa' T1' T2', setup dim c Binv fa T1 T2 = Ok (Binv', fa', T1', T2') /\
    holds Binv' FOrd nf nf ident /\ holds fa' FOrd nf nf (fun i j => if i =? j then area c i else 0%R) /\
    holds T1' FOrd nf dim (areavec c) /\ holds T2' FOrd nf dim (fun i j => area c i * offset c i j)%R.
Proof.
  intros HB Hf H1 H2. unfold setup.
  destruct (zero_ok Binv _ _ _ _ HB) as (B' & EB & HB'). rewrite EB. cbn [bind].
  destruct (zero_ok T1 _ _ _ _ H1) as (T1' & E1 & H1'). rewrite E1. cbn [bind].
  destruct (zero_ok T2 _ _ _ _ H2) as (T2' & E2 & H2'). rewrite E2. cbn [bind].
  destruct (zero_ok fa _ _ _ _ Hf) as (fa' & Ef & Hf'). rewrite Ef. cbn [bind].
  set (P := fun k (s : mat * mat * mat * mat) => let '(B, A, S1, S2) := s in
     holds B FOrd nf nf (fun i j => if (i <? k) then ident i j else 0%R) /\
     holds A FOrd nf nf (fun i j => if (i <? k) && (i =? j) then area c i else 0%R) /\
     holds S1 FOrd nf dim (fun i j => if i <? k then areavec c i j else 0%R) /\
     holds S2 FOrd nf dim (fun i j => if i <? k then (area c i * offset c i j)%R else 0%R)).
  destruct (combine_loop (setup_face dim (mc_cen c)) P (mc_faces c) (B', fa', T1', T2')) as (s & Es & Ps).
  - unfold P. split; [|split; [|split]]; (eapply holds_ext; [eassumption|]); intros i j Hi Hj; cbn beta; destruct (Z.ltb_spec i 0); try lia; reflexivity.
  - intros i f [[[B A] S1] S2] Gf (PB & PA & P1 & P2). pose proof (zget_Some_range _ _ _ Gf) as Hi. fold nf in Hi.
    destruct (wf_face dim c i W Hi) as (Ha & Lc & Ln). unfold setup_face. rewrite (face_get c i f Gf) in *.
    destruct (holds_set B _ _ _ _ i i 1%R PB Hi Hi) as (B2 & EB2 & HB2). rewrite EB2. cbn [bind].
    destruct (holds_set A _ _ _ _ i i (mf_area f) PA Hi Hi) as (A2 & EA2 & HA2). rewrite EA2. cbn [bind].
    rewrite (holds_get A2 _ _ _ _ i i HA2 Hi Hi). cbn [bind]. rewrite Z.eqb_refl. cbn [andb]. destruct W as (_ & Lcc & _ & _).
    destruct (set_row_ok dim i (fv_scale (mf_normal f) (mf_area f)) S1 nf _ P1 Hi) as (S1' & ES1 & HS1); [rewrite fv_scale_len; exact Ln|]. rewrite ES1. cbn [bind].
    destruct (set_row_ok dim i (fv_scale (fv_sub (mf_cen f) (mc_cen c)) (mf_area f)) S2 nf _ P2 Hi) as (S2' & ES2 & HS2); [rewrite fv_scale_len, fv_sub_len by lia; exact Lc|]. rewrite ES2. cbn [bind].
    eexists. split; [reflexivity|]. unfold P. split; [|split; [|split]]; (eapply holds_ext; [eassumption|]); intros r k Hr Hk; cbn beta.
    + unfold ident. destruct (Z.eqb_spec r i) as [->|]; cbn [andb].
      * destruct (Z.ltb_spec i (i+1)); [|lia]. destruct (Z.ltb_spec i i); [lia|]. destruct (Z.eqb_spec k i), (Z.eqb_spec i k); try lia; reflexivity.
      * destruct (Z.ltb_spec r i), (Z.ltb_spec r (i+1)); try lia; reflexivity.
    + destruct (Z.eqb_spec r i), (Z.eqb_spec k i); cbn [andb]; subst.
      * rewrite Z.eqb_refl. destruct (Z.ltb_spec i (i+1)); [|lia]. cbn [andb]. unfold area. rewrite (face_get c i f Gf). reflexivity.
      * destruct (Z.eqb_spec i k); [lia|]. rewrite !andb_false_r. reflexivity.
      * destruct (Z.ltb_spec r i), (Z.ltb_spec r (i+1)); try lia; reflexivity.
      * destruct (Z.ltb_spec r i), (Z.ltb_spec r (i+1)); try lia; reflexivity.
    + destruct (Z.eqb_spec r i); subst.
      * destruct (Z.ltb_spec i (i+1)); [|lia]. rewrite fv_scale_nth by lia. unfold areavec. rewrite (face_get c i f Gf). ring.
      * destruct (Z.ltb_spec r i), (Z.ltb_spec r (i+1)); try lia; reflexivity.
    + destruct (Z.eqb_spec r i); subst.
      * destruct (Z.ltb_spec i (i+1)); [|lia]. rewrite fv_scale_nth by (rewrite fv_sub_len; lia). rewrite fv_sub_nth by lia. unfold area, offset. rewrite (face_get c i f Gf). ring.
      * destruct (Z.ltb_spec r i), (Z.ltb_spec r (i+1)); try lia; reflexivity.
  - destruct s as [[[B A] S1] S2]. destruct Ps as (PB & PA & P1 & P2). exists B, A, S1, S2. split; [exact Es|].
    fold nf in PB, PA, P1, P2. repeat split; try apply PB; try apply PA; try apply P1; try apply P2; intros r k Hr Hk; cbn beta.
    + destruct PB as (_ & _ & _ & _ & _ & _ & G). rewrite G by assumption. destruct (Z.ltb_spec r nf); [reflexivity|lia].
    + destruct PA as (_ & _ & _ & _ & _ & _ & G). rewrite G by assumption. destruct (Z.ltb_spec r nf); [reflexivity|lia].
    + destruct P1 as (_ & _ & _ & _ & _ & _ & G). rewrite G by assumption. destruct (Z.ltb_spec r nf); [reflexivity|lia].
    + destruct P2 as (_ & _ & _ & _ & _ & _ & G). rewrite G by assumption. destruct (Z.ltb_spec r nf); [reflexivity|lia].
Qed.
(* diag(A) (I - Q Q') diag(A) *)
Local Notation reg := (regular_part dim c).
Lemma regular_ok orth Binv fa T2 : lapack_ok dim orth c ->
  holds Binv FOrd nf nf ident -> holds fa FOrd nf nf (fun i j => if i =? j then area c i else 0%R) -> holds T2 FOrd nf dim (fun i j => area c i * offset c i j)%R ->
  exists q Binv' T2', regular orth Binv fa T2 = Ok (Binv', T2') /\ qr_factor nf dim (fun i j => area c i * offset c i j)%R q /\ holds Binv' FOrd nf nf (reg q) /\ holds T2' FOrd nf dim q.
Proof.
  intros LO HB Hf H2. destruct (LO T2 H2) as (q & Hq & Q). fold nf in Hq, Q. exists q. unfold regular.
  destruct (sym_update_ok (orth T2) Binv nf dim q ident (-1) 1 Hq HB) as (B1 & E1 & H1).
  { intros i j _ _. unfold ident. destruct (Z.eqb_spec i j), (Z.eqb_spec j i); try lia; reflexivity. }
  rewrite E1. cbn [bind].
  destruct (sym_update2_ok fa B1 nf _ _ Hf H1) as (B2 & E2 & HB2).
  { intros i j _ _. cbn beta. unfold ident, mmul. rewrite (Sum_ext dim (fun l => q i l * q j l)%R (fun l => q j l * q i l)%R) by (intros; ring). destruct (Z.eqb_spec i j), (Z.eqb_spec j i); try lia; reflexivity. }
  { intros i j _ _ N. cbn beta. destruct (Z.eqb_spec i j); [lia|reflexivity]. }
  rewrite E2. cbn [bind]. exists B2, (orth T2). split; [reflexivity|]. split; [exact Q|]. split; [|exact Hq].
  eapply holds_ext; [exact HB2|]. intros i j _ _. cbn beta. rewrite !Z.eqb_refl. unfold regular_part. ring.
Qed.
(* (N K N' + 6/dim tr(K) diag(A)(I - Q Q')diag(A)) / vol *)
Local Notation inv_ip := (inverse_ip dim c).
Lemma evaluate_ok orth K Binv fa T1 T2 k b0 f0 t1 t2 : lapack_ok dim orth c ->
  holds K COrd dim dim k -> holds Binv FOrd nf nf b0 -> holds fa FOrd nf nf f0 -> holds T1 FOrd nf dim t1 -> holds T2 FOrd nf dim t2 ->
  exists q B, evaluate dim orth c K Binv fa T1 T2 = Ok B /\ qr_factor nf dim (fun i j => area c i * offset c i j)%R q /\ holds B FOrd nf nf (inv_ip k q).
Proof.
  intros LO HK HB Hf H1 H2. unfold evaluate.
  destruct (setup_ok Binv fa T1 T2 _ _ _ _ HB Hf H1 H2) as (B1 & fa1 & S1 & S2 & E & HB1 & Hfa1 & HS1 & HS2). rewrite E. cbn [bind].
  destruct (regular_ok orth B1 fa1 S2 LO HB1 Hfa1 HS2) as (q & B2 & S3 & E2 & Q & HB2 & HS3). rewrite E2. cbn [bind].
  destruct (NNc_ok S1 K S3 nf dim dim _ _ _ 1 0 HS1 HK HS3) as (S4 & E3 & HS4). rewrite E3. cbn [bind].
  rewrite (trace_ok K _ _ _ _ HK). cbn [bind]. rewrite Z.min_id.
  assert (Hv : mc_vol c <> 0%R) by (destruct W as (_ & _ & Hv & _); lra).
  rewrite !mdiv_Ok by exact Hv. cbn [bind].
  destruct (NT_ok S4 S1 B2 nf nf dim _ _ _ (1 / mc_vol c) (6 * Sum dim (fun a => k a a) / IZR dim / mc_vol c) HS4 HS1 HB2) as (B & E4 & HB4). rewrite E4.
  exists q, B. split; [reflexivity|]. split; [exact Q|]. eapply holds_ext; [exact HB4|]. intros i j _ _. cbn beta. unfold inverse_ip.
  assert (M : mmul dim (fun i j => 1 * mmul dim (areavec c) k i j + 0 * q i j)%R (fun l j => areavec c j l) i j = mmul dim (mmul dim (areavec c) k) (fun l j => areavec c j l) i j).
  { unfold mmul at 1 3. apply Sum_ext. intros. ring. }
  rewrite M. field. split; [|exact Hv]. assert (IZR dim <> 0%R) by (apply not_0_IZR; lia). assumption.
Qed.
Lemma gflux_ok K k grav g0 : holds K COrd dim dim k -> zlen grav = dim -> zlen g0 = nf ->
  exists g, static_gflux dim c K grav g0 = Ok g /\ zlen g = nf /\ forall i, 0 <= i < nf -> nthR g i = mvec dim (areavec c) (mvec dim k (nthR grav)) i.
Proof.
  intros HK Lg L0. unfold static_gflux. destruct (prodv_ok K _ _ _ grav HK Lg) as (y & Ey & Ly & Gy). rewrite Ey. cbn [bind].
  match goal with |- exists g, foldM ?st _ _ = _ /\ _ => destruct (combine_loop st (fun k0 g => zlen g = nf /\ forall i, 0 <= i < k0 -> nthR g i = mvec dim (areavec c) (mvec dim k (nthR grav)) i) (mc_faces c) g0) as (g & Eg & Lgg & Gg) end.
  - split; [exact L0|]. intros; lia.
  - intros i f g Gf (L & G). pose proof (zget_Some_range _ _ _ Gf) as Hi. fold nf in Hi. destruct (wf_face dim c i W Hi) as (_ & _ & Ln). rewrite (face_get c i f Gf) in Ln.
    destruct (rset_exists g i (fv_dot (fv_scale (mf_normal f) (mf_area f)) y)) as (g' & E & Lg' & Gi & Go); [lia|]. exists g'. split; [exact E|]. split; [unfold zlen in *; lia|].
    intros j Hj. destruct (Z.eq_dec j i) as [->|].
    + rewrite (nthR_get g' i _ Gi). rewrite (fv_dot_sum _ _ dim); [|rewrite fv_scale_len; exact Ln|exact Ly].
      unfold mvec at 1. apply Sum_ext. intros b Hb. rewrite fv_scale_nth by lia. rewrite Gy by exact Hb. unfold areavec. rewrite (face_get c i f Gf). ring.
    + assert (nthR g' j = nthR g j) as ->; [|apply G; lia]. unfold nthR. rewrite Go by assumption. reflexivity.
  - exists g. split; [exact Eg|]. split; [exact Lgg|]. exact Gg.
Qed.
Lemma gravity_term_ok grav omega g0 : zlen grav = dim -> zlen g0 = nf ->
  exists g, gravity_term c grav omega g0 = Ok g /\ zlen g = nf /\ forall i, 0 <= i < nf -> nthR g i = (omega * mvec dim (offset c) (nthR grav) i)%R.
Proof.
  intros Lg L0. unfold gravity_term. destruct W as (_ & Lcc & _ & _).
  match goal with |- exists g, foldM ?st _ _ = _ /\ _ => destruct (combine_loop st (fun k0 g => zlen g = nf /\ forall i, 0 <= i < k0 -> nthR g i = (omega * mvec dim (offset c) (nthR grav) i)%R) (mc_faces c) g0) as (g & Eg & Lgg & Gg) end.
  - split; [exact L0|]. intros; lia.
  - intros i f g Gf (L & G). pose proof (zget_Some_range _ _ _ Gf) as Hi. fold nf in Hi. destruct (wf_face dim c i W Hi) as (_ & Lc & _). rewrite (face_get c i f Gf) in Lc.
    destruct (rset_exists g i (omega * fv_dot (fv_sub (mf_cen f) (mc_cen c)) grav)%R) as (g' & E & Lg' & Gi & Go); [lia|]. exists g'. split; [exact E|]. split; [unfold zlen in *; lia|].
    intros j Hj. destruct (Z.eq_dec j i) as [->|].
    + rewrite (nthR_get g' i _ Gi). rewrite (fv_dot_sum _ _ dim); [|rewrite fv_sub_len by lia; exact Lc|exact Lg].
      f_equal. unfold mvec. apply Sum_ext. intros b Hb. rewrite fv_sub_nth by lia. unfold offset. rewrite (face_get c i f Gf). reflexivity.
    + assert (nthR g' j = nthR g j) as ->; [|apply G; lia]. unfold nthR. rewrite Go by assumption. reflexivity.
  - exists g. split; [exact Eg|]. split; [exact Lgg|]. exact Gg.
Qed.

(* ---- consequences of the formula ---- *)
Section Formula.
Variables (k q : Z -> Z -> R).
Hypothesis Q : qr_factor nf dim (fun i j => area c i * offset c i j)%R q.
Let vol := mc_vol c.
Let Hvol : (0 < vol)%R. Proof. apply W. Qed.
Let nvol : vol <> 0%R. Proof. lra. Qed.
Let tK := (6 * Sum dim (fun a => k a a) / IZR dim)%R.

Lemma reg_sym i j : reg q i j = reg q j i.
Proof.
  unfold regular_part, ident, mmul. rewrite (Sum_ext dim (fun l => q i l * q j l)%R (fun l => q j l * q i l)%R) by (intros; ring).
  destruct (Z.eqb_spec i j), (Z.eqb_spec j i); try lia; ring.
Qed.
Lemma inv_ip_sym : symmetric dim k -> symmetric nf (inv_ip k q).
Proof.
  intros S i j Hi Hj. unfold inverse_ip. rewrite (reg_sym i j). f_equal. f_equal.
  unfold mmul.
  rewrite (Sum_ext dim _ (fun l => Sum dim (fun m => areavec c i m * k m l * areavec c j l))%R) by (intros l Hl; rewrite <- Sum_scal_r; reflexivity).
  rewrite Sum_swap. apply Sum_ext. intros l Hl. rewrite <- Sum_scal_r. apply Sum_ext. intros m Hm. rewrite (S l m) by assumption. ring.
Qed.
(* the regularisation vanishes on offsets *)
Lemma qqt_offsets i b : 0 <= i < nf -> 0 <= b < dim -> Sum nf (fun j => mmul dim q (fun l j => q j l) i j * (area c j * offset c j b))%R = (area c i * offset c i b)%R.
Proof.
  intros Hi Hb. destruct Q as (O & T & U & C). unfold mmul.
  rewrite (Sum_ext nf _ (fun j => Sum dim (fun l => q i l * (q j l * Sum dim (fun a => q j a * T a b))))%R).
  2:{ intros j Hj. rewrite (C j b Hj Hb), <- Sum_scal_r. apply Sum_ext. intros; ring. }
  rewrite Sum_swap. rewrite (C i b Hi Hb). apply Sum_ext. intros l Hl. rewrite Sum_scal. f_equal.
  rewrite (Sum_ext nf _ (fun j => Sum dim (fun a => q j l * q j a * T a b))%R) by (intros j _; rewrite <- Sum_scal; apply Sum_ext; intros; ring).
  rewrite Sum_swap. rewrite (Sum_ext dim _ (fun a => ident l a * T a b)%R).
  2:{ intros a Ha. rewrite Sum_scal_r, O by assumption. reflexivity. }
  apply (Sum_ident_l dim l (fun a => T a b)). exact Hl.
Qed.
Lemma reg_offsets i b : 0 <= i < nf -> 0 <= b < dim -> Sum nf (fun j => reg q i j * offset c j b)%R = 0%R.
Proof.
  intros Hi Hb. rewrite (Sum_ext nf _ (fun j => area c i * (ident i j * (area c j * offset c j b)) - area c i * (mmul dim q (fun l j => q j l) i j * (area c j * offset c j b)))%R) by (intros; unfold regular_part; ring).
  rewrite Sum_minus, !Sum_scal, qqt_offsets by assumption. rewrite (Sum_ident_l nf i (fun j => area c j * offset c j b)%R) by exact Hi. ring.
Qed.
Lemma inv_ip_apply x i : mvec nf (inv_ip k q) x i = ((mvec dim (areavec c) (mvec dim k (mvec nf (fun a j => areavec c j a) x)) i + tK * mvec nf (reg q) x i) / vol)%R.
Proof.
  unfold mvec at 1. rewrite (Sum_ext nf _ (fun j => (mmul dim (mmul dim (areavec c) k) (fun l j => areavec c j l) i j * x j + tK * (reg q i j * x j)) * / vol)%R).
  2:{ intros j Hj. unfold inverse_ip. fold vol tK. field. exact nvol. }
  rewrite Sum_scal_r, Sum_plus, Sum_scal. unfold Rdiv. f_equal. f_equal.
  change (Sum nf (fun j => mmul dim (mmul dim (areavec c) k) (fun l j => areavec c j l) i j * x j)%R) with (mvec nf (mmul dim (mmul dim (areavec c) k) (fun l j => areavec c j l)) x i).
  rewrite mvec_mmul. rewrite mvec_mmul. reflexivity.
Qed.
Lemma mvec_ext m a x y i : (forall j, 0 <= j < m -> x j = y j) -> mvec m a x i = mvec m a y i.
Proof. intros H. unfold mvec. apply Sum_ext. intros j Hj. rewrite H by exact Hj. reflexivity. Qed.
Lemma inv_ip_exact g i : closed_cell dim c -> 0 <= i < nf -> mvec nf (inv_ip k q) (mvec dim (offset c) g) i = mvec dim (areavec c) (mvec dim k g) i.
Proof.
  intros Cl Hi. rewrite inv_ip_apply.
  assert (E1 : mvec nf (reg q) (mvec dim (offset c) g) i = 0%R).
  { unfold mvec. rewrite (Sum_ext nf _ (fun j => Sum dim (fun b => reg q i j * offset c j b * g b))%R) by (intros; rewrite <- Sum_scal; apply Sum_ext; intros; ring).
    rewrite Sum_swap. apply Sum_zero. intros b Hb. rewrite Sum_scal_r, reg_offsets by assumption. ring. }
  rewrite E1, Rmult_0_r, Rplus_0_r.
  assert (E2 : forall a, 0 <= a < dim -> mvec nf (fun a j => areavec c j a) (mvec dim (offset c) g) a = (vol * g a)%R).
  { intros a Ha. unfold mvec. rewrite (Sum_ext nf _ (fun j => Sum dim (fun b => areavec c j a * offset c j b * g b))%R) by (intros; rewrite <- Sum_scal; apply Sum_ext; intros; ring).
    rewrite Sum_swap. rewrite (Sum_ext dim _ (fun b => ident a b * (vol * g b))%R).
    2:{ intros b Hb. rewrite Sum_scal_r. fold nf in Cl. pose proof (Cl a b Ha Hb) as CE. fold nf vol in CE. rewrite CE. ring. }
    apply (Sum_ident_l dim a (fun b => vol * g b)%R Ha). }
  rewrite (mvec_ext dim (areavec c) _ (fun m => vol * mvec dim k g m)%R).
  - unfold mvec at 1. rewrite (Sum_ext dim _ (fun m => vol * (areavec c i m * mvec dim k g m))%R) by (intros; ring). rewrite Sum_scal. unfold mvec at 2. field. exact nvol.
  - intros m Hm. rewrite (mvec_ext dim k _ (fun a => vol * g a)%R) by exact E2. unfold mvec. rewrite <- Sum_scal. apply Sum_ext. intros; ring.
Qed.
(* energy *)
Let proj (y : Z -> R) (i : Z) : R := (y i - Sum dim (fun l => q i l * Sum nf (fun j => q j l * y j)))%R.
Lemma reg_quad x : quad nf (reg q) x = Sum nf (fun i => proj (fun i => area c i * x i)%R i * proj (fun i => area c i * x i)%R i)%R.
Proof.
  set (y := fun i => (area c i * x i)%R). set (z := fun l => Sum nf (fun j => q j l * y j)%R).
  destruct Q as (O & _).
  assert (E : quad nf (reg q) x = (Sum nf (fun i => y i * y i) - Sum dim (fun l => z l * z l))%R).
  { unfold quad, dot, mvec. rewrite (Sum_ext nf _ (fun i => y i * y i - Sum dim (fun l => q i l * y i * z l))%R).
    - rewrite Sum_minus. f_equal. rewrite Sum_swap. apply Sum_ext. intros l Hl. rewrite Sum_scal_r. reflexivity.
    - intros i Hi. rewrite (Sum_ext nf _ (fun j => area c i * (ident i j * y j) - area c i * Sum dim (fun l => q i l * q j l * y j))%R).
      + rewrite Sum_minus, !Sum_scal, (Sum_ident_l nf i y Hi). rewrite Sum_swap. unfold y at 1. unfold Rminus.
        rewrite (Sum_ext dim (fun j => Sum nf (fun i0 => q i j * q i0 j * y i0))%R (fun l => q i l * z l)%R).
        * rewrite (Sum_ext dim (fun l => q i l * y i * z l)%R (fun l => y i * (q i l * z l))%R) by (intros; ring). rewrite Sum_scal. unfold y. ring.
        * intros l Hl. unfold z. rewrite <- Sum_scal. apply Sum_ext. intros; ring.
      + intros j Hj. unfold regular_part, mmul, y. rewrite Sum_scal_r. ring. }
  rewrite E. unfold proj. fold z.
  rewrite (Sum_ext nf (fun i => (y i - Sum dim (fun l => q i l * Sum nf (fun j => q j l * y j))) * (y i - Sum dim (fun l => q i l * Sum nf (fun j => q j l * y j))))%R
     (fun i => (y i * y i - 2 * Sum dim (fun l => q i l * y i * z l)) + Sum dim (fun l => Sum dim (fun m => q i l * q i m * (z l * z m))))%R).
  - rewrite Sum_plus, Sum_minus, Sum_scal.
    assert (A : Sum nf (fun i => Sum dim (fun l => q i l * y i * z l))%R = Sum dim (fun l => z l * z l)%R) by (rewrite Sum_swap; apply Sum_ext; intros l Hl; rewrite Sum_scal_r; reflexivity).
    assert (B : Sum nf (fun i => Sum dim (fun l => Sum dim (fun m => q i l * q i m * (z l * z m))))%R = Sum dim (fun l => z l * z l)%R).
    { rewrite Sum_swap. apply Sum_ext. intros l Hl. rewrite Sum_swap. rewrite (Sum_ext dim _ (fun m => ident l m * (z l * z m))%R).
      - apply (Sum_ident_l dim l (fun m => z l * z m)%R Hl).
      - intros m Hm. rewrite Sum_scal_r, O by assumption. reflexivity. }
    rewrite A, B. ring.
  - intros i Hi. fold (z). change (Sum dim (fun l => q i l * Sum nf (fun j => q j l * y j)))%R with (Sum dim (fun l => q i l * z l))%R. set (w := Sum dim (fun l => q i l * z l)%R).
    assert (A : Sum dim (fun l => q i l * y i * z l)%R = (y i * w)%R) by (unfold w; rewrite <- Sum_scal; apply Sum_ext; intros; ring).
    assert (B : Sum dim (fun l => Sum dim (fun m => q i l * q i m * (z l * z m)))%R = (w * w)%R).
    { rewrite (Sum_ext dim _ (fun l => q i l * z l * w)%R) by (intros l Hl; unfold w; rewrite <- Sum_scal; apply Sum_ext; intros; ring). rewrite Sum_scal_r. reflexivity. }
    rewrite A, B. ring.
Qed.
Lemma inv_ip_quad x : quad nf (inv_ip k q) x = ((quad dim k (mvec nf (fun a j => areavec c j a) x) + tK * quad nf (reg q) x) / vol)%R.
Proof.
  unfold quad at 1. unfold dot. rewrite (Sum_ext nf _ (fun i => (x i * mvec dim (areavec c) (mvec dim k (mvec nf (fun a j => areavec c j a) x)) i + tK * (x i * mvec nf (reg q) x i)) * / vol)%R).
  2:{ intros i Hi. rewrite inv_ip_apply. field. exact nvol. }
  rewrite Sum_scal_r, Sum_plus, Sum_scal. unfold Rdiv. f_equal. f_equal.
  change (dot nf x (mvec dim (areavec c) (mvec dim k (mvec nf (fun a j => areavec c j a) x))) = quad dim k (mvec nf (fun a j => areavec c j a) x)).
  rewrite dot_mvec. unfold quad. reflexivity.
Qed.
Lemma quad_unit a : 0 <= a < dim -> quad dim k (ident a) = k a a.
Proof.
  intros Ha. unfold quad, dot. rewrite (Sum_ident_l dim a (mvec dim k (ident a)) Ha). unfold mvec.
  rewrite (Sum_ext dim _ (fun j => ident a j * k a j)%R) by (intros; ring). apply (Sum_ident_l dim a (k a) Ha).
Qed.
Lemma tK_nonneg : nonneg_form dim k -> (0 <= tK)%R.
Proof.
  intros N. unfold tK, Rdiv. apply Rmult_le_pos; [|apply Rlt_le, Rinv_0_lt_compat, IZR_lt, Hdim]. apply Rmult_le_pos; [lra|]. apply Sum_nonneg. intros a Ha. rewrite <- quad_unit by exact Ha. apply N.
Qed.
Lemma tK_pos : positive_form dim k -> (0 < tK)%R.
Proof.
  intros N. unfold tK, Rdiv. apply Rmult_lt_0_compat; [|apply Rinv_0_lt_compat, IZR_lt, Hdim]. apply Rmult_lt_0_compat; [lra|].
  assert (D : forall a, 0 <= a < dim -> (0 < k a a)%R). { intros a Ha. rewrite <- quad_unit by exact Ha. apply N. exists a. split; [exact Ha|]. unfold ident. rewrite Z.eqb_refl. lra. }
  rewrite (Sum_pred dim) by exact Hdim. assert (0 <= Sum (dim - 1) (fun a => k a a))%R by (apply Sum_nonneg; intros; apply Rlt_le, D; lia). specialize (D (dim - 1)). assert (0 < k (dim - 1)%Z (dim - 1)%Z)%R by (apply D; lia). lra.
Qed.
Lemma reg_psd x : (0 <= quad nf (reg q) x)%R.
Proof. rewrite reg_quad. apply Sum_nonneg. intros. apply Rle_0_sqr. Qed.
Lemma inv_ip_psd : nonneg_form dim k -> nonneg_form nf (inv_ip k q).
Proof.
  intros N x. rewrite inv_ip_quad. unfold Rdiv. apply Rmult_le_pos; [|apply Rlt_le, Rinv_0_lt_compat, Hvol].
  apply Rplus_le_le_0_compat; [apply N|]. apply Rmult_le_pos; [apply tK_nonneg; exact N|apply reg_psd].
Qed.
(* the columns of q are combinations of the offsets *)
Lemma offsets_apply w a : closed_cell dim c -> 0 <= a < dim -> Sum nf (fun i => areavec c i a * Sum dim (fun b => offset c i b * w b))%R = (vol * w a)%R.
Proof.
  intros Cl Ha. rewrite (Sum_ext nf _ (fun i => Sum dim (fun b => areavec c i a * offset c i b * w b))%R) by (intros; rewrite <- Sum_scal; apply Sum_ext; intros; ring).
  rewrite Sum_swap. rewrite (Sum_ext dim _ (fun b => ident a b * (vol * w b))%R).
  2:{ intros b Hb. rewrite Sum_scal_r. pose proof (Cl a b Ha Hb) as CE. fold nf vol in CE. rewrite CE. ring. }
  apply (Sum_ident_l dim a (fun b => vol * w b)%R Ha).
Qed.
Lemma offsets_inj w : closed_cell dim c -> (forall i, 0 <= i < nf -> Sum dim (fun b => area c i * offset c i b * w b)%R = 0%R) -> forall a, 0 <= a < dim -> w a = 0%R.
Proof.
  intros Cl H a Ha. pose proof (offsets_apply w a Cl Ha) as E. rewrite Sum_zero in E.
  - destruct (Rmult_integral _ _ (eq_sym E)); [contradiction|assumption].
  - intros i Hi. specialize (H i Hi). rewrite (Sum_ext dim _ (fun b => area c i * (offset c i b * w b))%R), Sum_scal in H by (intros; ring).
    destruct (Rmult_integral _ _ H) as [A|A]; [|rewrite A; ring]. destruct (wf_face dim c i W Hi) as (P & _). lra.
Qed.
Lemma q_range : closed_cell dim c -> forall n : nat, Z.of_nat n <= dim -> forall t, exists w, (forall b, Z.of_nat n <= b -> w b = 0%R) /\
  forall i, 0 <= i < nf -> Sum (Z.of_nat n) (fun l => q i l * t l)%R = Sum dim (fun b => area c i * offset c i b * w b)%R.
Proof.
  intros Cl. destruct Q as (O & T & U & C). induction n as [|n IH]; intros Hn t.
  - exists (fun _ => 0%R). split; [reflexivity|]. intros i Hi. change (Z.of_nat 0) with 0. rewrite Sum_0, Sum_zero; [reflexivity|intros; ring].
  - set (l := Z.of_nat n) in *. assert (El : Z.of_nat (S n) = l + 1) by lia. rewrite El in *.
    destruct (IH ltac:(lia) (fun a => T a l)) as (w0 & S0 & E0). destruct (IH ltac:(lia) t) as (w1 & S1 & E1).
    assert (EC : forall i, 0 <= i < nf -> (q i l * T l l)%R = Sum dim (fun b => area c i * offset c i b * (ident l b - w0 b))%R).
    { intros i Hi. rewrite (Sum_ext dim (fun b => area c i * offset c i b * (ident l b - w0 b))%R (fun b => ident l b * (area c i * offset c i b) - area c i * offset c i b * w0 b)%R) by (intros; ring).
      rewrite Sum_minus, <- E0 by exact Hi. rewrite (Sum_ident_l dim l (fun b => area c i * offset c i b)%R) by lia. rewrite (C i l Hi) by lia.
      rewrite (Sum_split (l + 1) dim) by lia. rewrite Sum_S by lia. rewrite (Sum_zero (dim - (l + 1))); [ring|]. intros b Hb. rewrite U by lia. ring. }
    assert (NZ : T l l <> 0%R).
    { intros Z0. assert (A : (ident l l - w0 l)%R = 0%R).
      { apply (offsets_inj (fun b => ident l b - w0 b)%R Cl); [|lia]. intros i Hi. rewrite <- EC by exact Hi. rewrite Z0. ring. }
      rewrite S0 in A by lia. unfold ident in A. rewrite Z.eqb_refl in A. lra. }
    exists (fun b => w1 b + t l / T l l * (ident l b - w0 b))%R. split.
    + intros b Hb. rewrite S0, S1 by lia. unfold ident. destruct (Z.eqb_spec l b); [lia|]. ring.
    + intros i Hi. rewrite Sum_S by lia. rewrite E1 by exact Hi.
      rewrite (Sum_ext dim (fun b => area c i * offset c i b * (w1 b + t l / T l l * (ident l b - w0 b)))%R (fun b => area c i * offset c i b * w1 b + t l / T l l * (area c i * offset c i b * (ident l b - w0 b)))%R) by (intros; ring).
      rewrite Sum_plus, Sum_scal, <- EC by exact Hi. field. exact NZ.
Qed.
Lemma all_zero_or n (x : Z -> R) : (forall a, 0 <= a < n -> x a = 0%R) \/ exists a, 0 <= a < n /\ x a <> 0%R.
Proof.
  destruct (Z.lt_ge_cases n 0) as [|Hn]; [left; intros; lia|]. pattern n. apply natlike_ind with (x := n); [left; intros; lia| |exact Hn].
  intros m Hm [IH|(a & Ha & N)]; [|right; exists a; split; [lia|exact N]]. destruct (Req_EM_T (x m) 0) as [E|N]; [left|right; exists m; split; [lia|exact N]].
  intros a Ha. destruct (Z.eq_dec a m) as [->|]; [exact E|apply IH; lia].
Qed.
Lemma inv_ip_pd : closed_cell dim c -> positive_form dim k -> positive_form nf (inv_ip k q).
Proof.
  intros Cl Pk x (i0 & Hi0 & Nx). rewrite inv_ip_quad. unfold Rdiv. apply Rmult_lt_0_compat; [|apply Rinv_0_lt_compat, Hvol].
  pose proof (tK_pos Pk) as Ht. pose proof (reg_psd x) as Hr.
  destruct (all_zero_or dim (mvec nf (fun a j => areavec c j a) x)) as [Z0|(a & Ha & N)].
  - assert (Hk : quad dim k (mvec nf (fun a j => areavec c j a) x) = 0%R).
    { unfold quad, dot. apply Sum_zero. intros a Ha. rewrite Z0 by exact Ha. ring. }
    rewrite Hk, Rplus_0_l. apply Rmult_lt_0_compat; [exact Ht|]. destruct (Rle_lt_or_eq_dec _ _ Hr) as [|E]; [assumption|]. exfalso. apply Nx.
    symmetry in E. rewrite reg_quad in E.
    pose proof (Sum_sq_zero nf _ E) as Z1. set (y := fun i => (area c i * x i)%R) in *. set (z := fun l => Sum nf (fun j => q j l * y j)%R).
    destruct (q_range Cl (Z.to_nat dim) ltac:(lia) z) as (w & _ & Ew). rewrite Z2Nat.id in Ew by lia.
    assert (Ex : forall i, 0 <= i < nf -> x i = Sum dim (fun b => offset c i b * w b)%R).
    { intros i Hi. specialize (Z1 i Hi). unfold proj in Z1. fold z in Z1. specialize (Ew i Hi).
      change (Sum dim (fun l => q i l * Sum nf (fun j => q j l * y j)))%R with (Sum dim (fun l => q i l * z l))%R in Z1. rewrite Ew in Z1. unfold y in Z1.
      rewrite (Sum_ext dim _ (fun b => area c i * (offset c i b * w b))%R), Sum_scal in Z1 by (intros; ring).
      destruct (wf_face dim c i W Hi) as (P & _). apply Rmult_eq_reg_l with (area c i); lra. }
    rewrite Ex by exact Hi0. apply Sum_zero. intros b Hb.
    assert (w b = 0%R) as ->; [|ring]. pose proof (offsets_apply w b Cl Hb) as EE. pose proof (Z0 b Hb) as Z2. unfold mvec in Z2.
    rewrite (Sum_ext nf _ (fun i => areavec c i b * Sum dim (fun b => offset c i b * w b))%R) in Z2 by (intros i Hi; rewrite Ex by exact Hi; reflexivity).
    rewrite EE in Z2. destruct (Rmult_integral _ _ Z2); [contradiction|assumption].
  - apply Rplus_lt_le_0_compat; [apply Pk; exists a; auto|apply Rmult_le_pos; lra].
Qed.
End Formula.
End Setup.
