From Coq Require Import Lra.
From Verif Require Import BaseFacts RBaseFacts Lin_Facts Steady_Proofs Euler_Proofs2 Impl_Proofs Impl_Proofs5 Matx_Proofs Matx_Proofs2 Matx_Proofs3 Mim_Spec Mim_Proofs.
Open Scope Z_scope.

Lemma holds_entry m o rows cols f : holds m o rows cols f -> forall i j, 0 <= i < rows -> 0 <= j < cols -> entry m i j = f i j.
Proof. intros (E1 & E2 & E3 & _ & _ & _ & G) i j Hi Hj. unfold entry. rewrite E1, E2, E3. apply G; assumption. Qed.
Lemma holds_shaped m o rows cols f : holds m o rows cols f -> shaped m o rows cols.
Proof. intros H. eapply holds_ext; [exact H|]. intros. symmetry. eapply holds_entry; eassumption. Qed.
Lemma mvec_mat m a b x i : (forall j, 0 <= j < m -> a i j = b i j) -> mvec m a x i = mvec m b x i.
Proof. intros H. unfold mvec. apply Sum_ext. intros j Hj. rewrite H by assumption. reflexivity. Qed.
Lemma quad_ext n a b x : (forall i j, 0 <= i < n -> 0 <= j < n -> a i j = b i j) -> quad n a x = quad n b x.
Proof. intros H. unfold quad, dot. apply Sum_ext. intros i Hi. f_equal. unfold mvec. apply Sum_ext. intros j Hj. rewrite H by assumption. reflexivity. Qed.
Lemma quad_scale n a s x : quad n (fun i j => a i j * s)%R x = (s * quad n a x)%R.
Proof. unfold quad, dot. rewrite <- Sum_scal. apply Sum_ext. intros i Hi. unfold mvec. rewrite <- !Sum_scal. apply Sum_ext. intros; ring. Qed.
Lemma mvec_scale m a s x i : mvec m (fun i j => a i j * s)%R x i = (s * mvec m a x i)%R.
Proof. unfold mvec. rewrite <- Sum_scal. apply Sum_ext. intros; ring. Qed.
Lemma mvec_scale_x m a s x i : mvec m a (fun j => s * x j)%R i = (s * mvec m a x i)%R.
Proof. unfold mvec. rewrite <- Sum_scal. apply Sum_ext. intros; ring. Qed.
Lemma mvec_opp_x m a x i : mvec m a (fun j => - x j)%R i = (- mvec m a x i)%R.
Proof. unfold mvec. rewrite <- Sum_opp. apply Sum_ext. intros; ring. Qed.

Lemma get_inverse_ok B out n f s : holds B FOrd n n f -> shaped out FOrd n n -> holds (get_inverse B s out) FOrd n n (fun i j => f i j * s)%R.
Proof.
  intros HB (O1 & O2 & O3 & _). pose proof (scale_ok B _ _ _ _ s HB) as S. destruct HB as (E1 & E2 & E3 & _).
  unfold get_inverse. unfold mscale in S. rewrite E1, E2, E3 in S. rewrite O1, O2, O3. exact S.
Qed.

Section Cell.
Variables (dim : Z) (orth : mat -> mat) (c : mcell) (K : mat).
Hypothesis W : wf_cell dim c.
Hypothesis LO : lapack_ok dim orth c.
Let nf := zlen (mc_faces c).
Let k := entry K.
Lemma matrix_ok Binv fa T1 T2 out s : shaped K COrd dim dim -> shaped Binv FOrd nf nf -> shaped fa FOrd nf nf -> shaped T1 FOrd nf dim -> shaped T2 FOrd nf dim -> shaped out FOrd nf nf ->
  exists q B, evaluate dim orth c K Binv fa T1 T2 = Ok B /\ qr_factor nf dim (fun i j => area c i * offset c i j)%R q /\ shaped B FOrd nf nf /\ shaped (get_inverse B s out) FOrd nf nf /\
    forall i j, 0 <= i < nf -> 0 <= j < nf -> entry B i j = inverse_ip dim c k q i j /\ entry (get_inverse B s out) i j = (s * inverse_ip dim c k q i j)%R.
Proof.
  intros HK HB Hf H1 H2 HO. destruct (evaluate_ok dim c W orth K Binv fa T1 T2 _ _ _ _ _ LO HK HB Hf H1 H2) as (q & B & E & Q & HB').
  exists q, B. split; [exact E|]. split; [exact Q|]. split; [eapply holds_shaped; exact HB'|]. pose proof (get_inverse_ok B out nf _ s HB' HO) as HG.
  split; [eapply holds_shaped; exact HG|]. intros i j Hi Hj. split; [apply (holds_entry _ _ _ _ _ HB'); assumption|]. rewrite (holds_entry _ _ _ _ _ HG) by assumption. unfold k. ring.
Qed.
End Cell.
Lemma pressure_drop_offset dim c p0 g i : pressure_drop dim c p0 g i = (- mvec dim (offset c) g i)%R.
Proof.
  unfold pressure_drop, dot, mvec, offset. rewrite (Sum_ext dim (fun j => (nthR (mf_cen (face c i)) j - nthR (mc_cen c) j) * g j)%R (fun j => g j * nthR (mf_cen (face c i)) j - g j * nthR (mc_cen c) j)%R) by (intros; ring).
  rewrite Sum_minus. ring.
Qed.

(* the theorems about the evaluator for scalar mobilities, for any contents of the work arrays *)
Section Iso.
Variables (dim : Z) (orth : mat -> mat) (c : mcell) (K Binv fa T1 T2 out : mat) (totmob : R).
Hypothesis W : wf_cell dim c.
Hypothesis LO : lapack_ok dim orth c.
Let nf := zlen (mc_faces c).
Hypothesis HK : shaped K COrd dim dim.
Hypothesis HB : shaped Binv FOrd nf nf.
Hypothesis Hf : shaped fa FOrd nf nf.
Hypothesis H1 : shaped T1 FOrd nf dim.
Hypothesis H2 : shaped T2 FOrd nf dim.
Hypothesis HO : shaped out FOrd nf nf.
Let go := matrix_ok dim orth c K W LO Binv fa T1 T2 out totmob HK HB Hf H1 H2 HO.

Lemma iso_symmetric : symmetric dim (entry K) -> exists B, evaluate dim orth c K Binv fa T1 T2 = Ok B /\ symmetric nf (entry (get_inverse B totmob out)).
Proof.
  intros S. destruct go as (q & B & E & Q & _ & _ & G). exists B. split; [exact E|]. intros i j Hi Hj.
  destruct (G i j Hi Hj) as (_ & ->). destruct (G j i Hj Hi) as (_ & ->). f_equal. apply (inv_ip_sym dim c (entry K) q S i j Hi Hj).
Qed.
Lemma drop_flux B q p0 g i : closed_cell dim c -> qr_factor nf dim (fun i j => area c i * offset c i j)%R q ->
  (forall i j, 0 <= i < nf -> 0 <= j < nf -> entry B i j = inverse_ip dim c (entry K) q i j /\ entry (get_inverse B totmob out) i j = (totmob * inverse_ip dim c (entry K) q i j)%R) ->
  0 <= i < nf -> mvec nf (entry (get_inverse B totmob out)) (pressure_drop dim c p0 g) i = darcy_flux dim c totmob (entry K) g i.
Proof.
  intros Cl Q G Hi. rewrite (mvec_mat nf _ (fun i j => inverse_ip dim c (entry K) q i j * totmob)%R) by (intros j Hj; destruct (G i j Hi Hj) as (_ & ->); ring).
  rewrite (mvec_scale nf (inverse_ip dim c (entry K) q)). rewrite (mvec_ext nf _ _ (fun j => - mvec dim (offset c) g j)%R) by (intros; apply pressure_drop_offset).
  rewrite mvec_opp_x. pose proof (inv_ip_exact dim c W (entry K) q Q g i Cl Hi) as EX. fold nf in EX. rewrite EX. unfold darcy_flux, dot, mvec. ring.
Qed.
Lemma iso_exact : closed_cell dim c -> exists B, evaluate dim orth c K Binv fa T1 T2 = Ok B /\
  forall p0 g i, 0 <= i < nf -> mvec nf (entry (get_inverse B totmob out)) (pressure_drop dim c p0 g) i = darcy_flux dim c totmob (entry K) g i.
Proof.
  intros Cl. destruct go as (q & B & E & Q & _ & _ & G). exists B. split; [exact E|]. intros p0 g i Hi. apply (drop_flux B q); assumption.
Qed.
(* hydrostatic pressure gives no flow *)
Lemma iso_hydrostatic grav g0 mob_dens : closed_cell dim c -> totmob <> 0%R -> zlen grav = dim -> zlen g0 = nf ->
  exists B gf, evaluate dim orth c K Binv fa T1 T2 = Ok B /\ static_gflux dim c K grav g0 = Ok gf /\
  forall p0 i, 0 <= i < nf ->
    (mvec nf (entry (get_inverse B totmob out)) (pressure_drop dim c p0 (fun d => mob_dens / totmob * nthR grav d)) i + nthR (gravity_flux gf mob_dens) i = 0)%R.
Proof.
  intros Cl Nt Lg L0. destruct go as (q & B & E & Q & _ & _ & G). destruct (gflux_ok dim c W K _ grav g0 HK Lg L0) as (gf & Eg & Lgf & Gg).
  exists B, gf. split; [exact E|]. split; [exact Eg|]. intros p0 i Hi. rewrite (drop_flux B q) by assumption.
  assert (EG : nthR (gravity_flux gf mob_dens) i = (nthR gf i * mob_dens)%R) by (apply (fv_scale_nth gf mob_dens i); fold nf in Lgf; lia).
  rewrite EG, Gg by exact Hi. unfold darcy_flux, dot.
  rewrite (Sum_ext dim (fun i0 => areavec c i i0 * mvec dim (entry K) (fun d => mob_dens / totmob * nthR grav d) i0)%R (fun a => mob_dens / totmob * (areavec c i a * mvec dim (entry K) (nthR grav) a))%R).
  - rewrite Sum_scal. unfold mvec at 2. field. exact Nt.
  - intros a Ha. rewrite mvec_scale_x. ring.
Qed.
(* the two forms of the gravity term agree *)
Lemma iso_gravity grav g0 t0 mob_dens : closed_cell dim c -> totmob <> 0%R -> zlen grav = dim -> zlen g0 = nf -> zlen t0 = nf ->
  exists B gf gt, evaluate dim orth c K Binv fa T1 T2 = Ok B /\ static_gflux dim c K grav g0 = Ok gf /\ gravity_term_dyn c grav totmob mob_dens t0 = Ok gt /\
  forall i, 0 <= i < nf -> mvec nf (entry (get_inverse B totmob out)) (nthR gt) i = nthR (gravity_flux gf mob_dens) i.
Proof.
  intros Cl Nt Lg L0 Lt. destruct go as (q & B & E & Q & _ & _ & G). destruct (gflux_ok dim c W K _ grav g0 HK Lg L0) as (gf & Eg & Lgf & Gg).
  destruct (gravity_term_ok dim c W grav (mob_dens / totmob) t0 Lg Lt) as (gt & Et & Lgt & Gt).
  exists B, gf, gt. split; [exact E|]. split; [exact Eg|]. split; [unfold gravity_term_dyn; rewrite mdiv_Ok by exact Nt; exact Et|]. intros i Hi.
  assert (EG : nthR (gravity_flux gf mob_dens) i = (nthR gf i * mob_dens)%R) by (apply (fv_scale_nth gf mob_dens i); fold nf in Lgf; lia).
  rewrite EG, Gg by exact Hi.
  rewrite (mvec_mat nf _ (fun i j => inverse_ip dim c (entry K) q i j * totmob)%R) by (intros j Hj; destruct (G i j Hi Hj) as (_ & ->); ring).
  rewrite (mvec_scale nf (inverse_ip dim c (entry K) q)), (mvec_ext nf _ _ (fun j => mob_dens / totmob * mvec dim (offset c) (nthR grav) j)%R) by exact Gt.
  rewrite mvec_scale_x. pose proof (inv_ip_exact dim c W (entry K) q Q (nthR grav) i Cl Hi) as EX. fold nf in EX. rewrite EX. field. exact Nt.
Qed.
Lemma iso_psd : nonneg_form dim (entry K) -> (0 <= totmob)%R -> exists B, evaluate dim orth c K Binv fa T1 T2 = Ok B /\ nonneg_form nf (entry (get_inverse B totmob out)).
Proof.
  intros N Ht. destruct go as (q & B & E & Q & _ & _ & G). exists B. split; [exact E|]. intros x.
  rewrite (quad_ext nf _ (fun i j => inverse_ip dim c (entry K) q i j * totmob)%R) by (intros i j Hi Hj; destruct (G i j Hi Hj) as (_ & ->); ring).
  rewrite (quad_scale nf (inverse_ip dim c (entry K) q)). apply Rmult_le_pos; [exact Ht|]. apply (inv_ip_psd dim c W (entry K) q Q N x).
Qed.
Lemma iso_pd : closed_cell dim c -> positive_form dim (entry K) -> (0 < totmob)%R -> exists B, evaluate dim orth c K Binv fa T1 T2 = Ok B /\ positive_form nf (entry (get_inverse B totmob out)).
Proof.
  intros Cl N Ht. destruct go as (q & B & E & Q & _ & _ & G). exists B. split; [exact E|]. intros x Hx.
  rewrite (quad_ext nf _ (fun i j => inverse_ip dim c (entry K) q i j * totmob)%R) by (intros i j Hi Hj; destruct (G i j Hi Hj) as (_ & ->); ring).
  rewrite (quad_scale nf (inverse_ip dim c (entry K) q)). apply Rmult_lt_0_compat; [exact Ht|]. apply (inv_ip_pd dim c W (entry K) q Q Cl N x Hx).
Qed.
End Iso.

Lemma dynamic_params_ok mob rho n : zlen mob = n -> zlen rho = n -> dynamic_params mob rho = (Sum n (nthR mob), Sum n (fun i => nthR rho i * nthR mob i)%R).
Proof.
  intros Lm Lr. unfold dynamic_params.
  assert (F : forall l, fold_left Rplus l 0%R = Rsum l) by (intros l; rewrite <- (map_id l) at 2; rewrite <- racc_sum; reflexivity).
  rewrite !F. f_equal; [apply Rsum_Sum; exact Lm|]. apply (fv_dot_sum rho mob n); assumption.
Qed.

(* ---- tensor mobilities ---- *)
Section Aniso.
Variables (dim : Z) (orth : mat -> mat) (c : mcell) (K : mat) (grav : list R) (phases : list (R * mat)).
Hypothesis W : wf_cell dim c.
Hypothesis LO : lapack_ok dim orth c.
Let nf := zlen (mc_faces c).
Let Hdim : 0 < dim. Proof. apply W. Qed.
Hypothesis HK : shaped K COrd dim dim.
Hypothesis Lg : zlen grav = dim.
Hypothesis HP : forall rho m, In (rho, m) phases -> shaped m FOrd dim dim.
Lemma phases_loop l Kg : zlen Kg = dim -> (forall rho m, In (rho, m) l -> shaped m FOrd dim dim) ->
  forall dyn lam d0 f, zlen dyn = dim -> (forall i, 0 <= i < dim -> nthR dyn i = d0 i) -> holds lam FOrd dim dim f ->
  exists dyn' lam', foldM (fun (s : list R * mat) (rp : R * mat) =>
      let '(dyn, lam) := s in let '(rho, pmob) := rp in
      let* dyn := vec_mul_add false rho pmob Kg 1 dyn in
      let* lam := madd lam pmob in
      Ok (dyn, lam)) l (dyn, lam) = Ok (dyn', lam') /\ zlen dyn' = dim /\
    (forall i, 0 <= i < dim -> nthR dyn' i = (d0 i + mvec dim (mob_density l) (nthR Kg) i)%R) /\ holds lam' FOrd dim dim (fun r c => f r c + mob_total l r c)%R.
Proof.
  intros LK. induction l as [|[rho m] l IH]; intros HL dyn lam d0 f Ld Gd Hl.
  - exists dyn, lam. split; [reflexivity|]. split; [exact Ld|]. split.
    + intros i Hi. rewrite Gd by exact Hi. unfold mvec, mob_density. cbn [map]. rewrite Sum_zero; [ring|]. intros; rewrite Rsum_nil; ring.
    + eapply holds_ext; [exact Hl|]. intros. unfold mob_total. cbn [map]. rewrite Rsum_nil. ring.
  - cbn [foldM]. pose proof (HL rho m (or_introl eq_refl)) as Hm.
    destruct (gemv_ok false m dim dim (entry m) rho 1 Kg dyn Hm LK Ld) as (d1 & E1 & L1 & G1). rewrite E1. cbn [bind].
    destruct (add_ok lam m _ _ _ _ _ Hl Hm) as (l1 & E2 & HL1). rewrite E2. cbn [bind].
    destruct (IH (fun rho m H => HL rho m (or_intror H)) d1 l1 (fun i => rho * mvec dim (entry m) (nthR Kg) i + d0 i)%R (fun r c => f r c + entry m r c)%R) with (3 := HL1) as (dyn' & lam' & E & LL & GG & HH).
    + lia.
    + intros i Hi. rewrite G1 by lia. rewrite LK, Gd by exact Hi. rewrite Rmult_1_l. reflexivity.
    + exists dyn', lam'. split; [exact E|]. split; [exact LL|]. split.
      * intros i Hi. rewrite GG by exact Hi. unfold mvec, mob_density. rewrite (Sum_ext dim (fun j => Rsum (map (fun p => fst p * entry (snd p) i j) ((rho, m) :: l)) * nthR Kg j)%R
          (fun j => rho * (entry m i j * nthR Kg j) + Rsum (map (fun p => fst p * entry (snd p) i j) l) * nthR Kg j)%R) by (intros; cbn [map]; rewrite Rsum_cons; cbn [fst snd]; ring).
        rewrite Sum_plus, Sum_scal. ring.
      * eapply holds_ext; [exact HH|]. intros. cbn beta. unfold mob_total. cbn [map]. rewrite Rsum_cons. cbn [snd]. ring.
Qed.
Lemma aniso_ok second fa n T2 Kg0 lambdaK T2' Binv g0 :
  shaped second FOrd nf nf -> shaped fa FOrd nf nf -> shaped n FOrd nf dim -> shaped T2 FOrd nf dim -> zlen Kg0 = dim ->
  shaped lambdaK FOrd dim dim -> shaped T2' FOrd nf dim -> shaped Binv FOrd nf nf -> zlen g0 = nf ->
  exists q second' n' Kg dyn lambdaK' B g,
    aniso_static dim orth c K grav second fa n T2 Kg0 = Ok (second', n', Kg) /\
    aniso_dynamic dim K Kg phases lambdaK = Ok (dyn, lambdaK') /\
    aniso_inverse dim c second' n' lambdaK' T2' Binv = Ok B /\
    aniso_gravity_flux n' dyn g0 = Ok g /\
    qr_factor nf dim (fun i j => area c i * offset c i j)%R q /\
    holds B FOrd nf nf (inverse_ip dim c (mmul dim (mob_total phases) (entry K)) q) /\
    zlen g = nf /\ forall i, 0 <= i < nf -> nthR g i = dot dim (areavec c i) (mvec dim (mob_density phases) (mvec dim (entry K) (nthR grav))).
Proof.
  intros Hs Hf Hn H2 LK0 HL H2' HB L0. unfold aniso_static.
  destruct (setup_ok dim c W second fa n T2 _ _ _ _ Hs Hf Hn H2) as (B1 & fa1 & S1 & S2 & E & HB1 & Hfa1 & HS1 & HS2). rewrite E. cbn [bind].
  destruct (regular_ok dim c orth B1 fa1 S2 LO HB1 Hfa1 HS2) as (q & B2 & S3 & E2 & Q & HB2 & HS3). rewrite E2. cbn [bind].
  destruct (gemv_c_ok K dim dim (entry K) 1 0 grav Kg0 HK Lg LK0) as (Kg & E3 & LKg & GKg). rewrite E3. cbn [bind].
  unfold aniso_dynamic.
  destruct (phases_loop phases Kg LKg HP (zrepeat 0%R dim) (mnew FOrd dim dim) (fun _ => 0%R) (fun _ _ => 0%R)) as (dyn & lam & E4 & Ld & Gd & Hlam).
  { apply zlen_zrepeat. lia. } { intros i Hi. apply nthR_get. apply zget_zrepeat. lia. } { apply holds_new; lia. }
  destruct (prod_ok lam K lambdaK _ _ _ dim dim dim _ _ _ Hlam HK HL) as (lk & E5 & Hlk).
  destruct (assign_ok Binv B2 _ _ _ _ _ _ HB HB2) as (B3 & E6 & HB3).
  destruct (NN_ok S1 lk T2' nf dim dim _ _ _ 1 0 HS1 Hlk H2') as (S4 & E7 & HS4).
  assert (Hv : mc_vol c <> 0%R) by (destruct W as (_ & _ & Hv & _); lra).
  set (lK := mmul dim (mob_total phases) (entry K)).
  assert (Hlk' : holds lk FOrd dim dim lK). { eapply holds_ext; [exact Hlk|]. intros. unfold lK, mmul. apply Sum_ext. intros; ring. }
  destruct (NT_ok S4 S1 B3 nf nf dim _ _ _ (1 / mc_vol c) (6 * Sum dim (fun a => lK a a) / IZR dim / mc_vol c) HS4 HS1 HB3) as (B & E8 & HB8).
  destruct (gemv_ok false S1 nf dim _ 1 0 dyn g0 HS1 Ld L0) as (g & E9 & Lg9 & Gg9).
  exists q, B2, S1, Kg, dyn, lk, B, g. split; [reflexivity|]. split; [rewrite E4; cbn [bind]; rewrite E5; reflexivity|].
  split. { unfold aniso_inverse. rewrite E6. cbn [bind]. rewrite E7. cbn [bind]. rewrite (trace_ok lk _ _ _ _ Hlk'). cbn [bind]. rewrite Z.min_id, !mdiv_Ok by exact Hv. cbn [bind]. exact E8. }
  split; [exact E9|]. split; [exact Q|]. split.
  - eapply holds_ext; [exact HB8|]. intros i j _ _. cbn beta. unfold inverse_ip. fold lK.
    assert (M : mmul dim (fun i j => 1 * mmul dim (areavec c) (mmul dim (fun r c => 0 + mob_total phases r c) (entry K)) i j + 0 * entry T2' i j)%R (fun l j => areavec c j l) i j = mmul dim (mmul dim (areavec c) lK) (fun l j => areavec c j l) i j).
    { unfold mmul at 1 4. apply Sum_ext. intros l Hl. f_equal. rewrite Rmult_0_l, Rplus_0_r, Rmult_1_l. unfold mmul at 1 3. apply Sum_ext. intros a Ha. f_equal. unfold lK, mmul. apply Sum_ext. intros; ring. }
    rewrite M. field. split; [|exact Hv]. apply not_0_IZR. lia.
  - split; [lia|]. intros i Hi. rewrite Gg9 by lia. rewrite Ld, Rmult_0_l, Rplus_0_r, Rmult_1_l. unfold mvec at 1, dot. apply Sum_ext. intros a Ha. f_equal. rewrite Gd by exact Ha. rewrite Rplus_0_l. apply mvec_ext.
    intros b Hb. rewrite GKg by exact Hb. ring.
Qed.
End Aniso.

(* ---- the unit cube ---- *)
Definition cube : mcell :=
  mkMCell [0; 0; 0]%R 1 [mkMFace 1 [-(1/2); 0; 0]%R [-1; 0; 0]%R; mkMFace 1 [1/2; 0; 0]%R [1; 0; 0]%R;
                         mkMFace 1 [0; -(1/2); 0]%R [0; -1; 0]%R; mkMFace 1 [0; 1/2; 0]%R [0; 1; 0]%R;
                         mkMFace 1 [0; 0; -(1/2)]%R [0; 0; -1]%R; mkMFace 1 [0; 0; 1/2]%R [0; 0; 1]%R].
Lemma six_cases i : 0 <= i < 6 -> i = 0 \/ i = 1 \/ i = 2 \/ i = 3 \/ i = 4 \/ i = 5.
Proof. lia. Qed.
Lemma Sum6 f : Sum 6 f = (f 0%Z + f 1%Z + f 2%Z + f 3%Z + f 4%Z + f 5%Z)%R.
Proof. unfold Sum. change (zrange 0 6) with [0; 1; 2; 3; 4; 5]. cbn [map]. rewrite !Rsum_cons, Rsum_nil. ring. Qed.
Lemma cube_wf : wf_cell 3 cube.
Proof.
  split; [lia|]. split; [reflexivity|]. split; [cbn; lra|]. intros f Hf. cbn [mc_faces cube] in Hf.
  repeat (destruct Hf as [<- | Hf]; [cbn [mf_area mf_cen mf_normal]; split; [lra|split; reflexivity]|]). destruct Hf.
Qed.
Definition cube_off (i j : Z) : R := (if j =? i / 2 then (if Z.even i then -(1/2) else 1/2) else 0)%R.
Definition cube_n (i j : Z) : R := (if j =? i / 2 then (if Z.even i then -1 else 1) else 0)%R.
Lemma nthR_3 a b c j : 0 <= j < 3 -> nthR [a; b; c] j = if j =? 0 then a else if j =? 1 then b else c.
Proof. intros Hj. destruct (three_cases j Hj) as [-> | [-> | ->]]; reflexivity. Qed.
Lemma cube_offset i j : 0 <= i < 6 -> 0 <= j < 3 -> offset cube i j = cube_off i j /\ areavec cube i j = cube_n i j /\ area cube i = 1%R.
Proof.
  intros Hi Hj.
  assert (F : exists a b c x y z, face cube i = mkMFace 1 [a; b; c]%R [x; y; z]%R /\ (a = cube_off i 0 /\ b = cube_off i 1 /\ c = cube_off i 2 /\ x = cube_n i 0 /\ y = cube_n i 1 /\ z = cube_n i 2)).
  { destruct (six_cases i Hi) as [-> | [-> | [-> | [-> | [-> | ->]]]]]; do 6 eexists; (split; [reflexivity|]); repeat split; reflexivity. }
  destruct F as (a & b & c & x & y & z & F & -> & -> & -> & -> & -> & ->). unfold offset, areavec, area. rewrite F. cbn [mf_area mf_cen mf_normal mc_cen cube]. rewrite !nthR_3 by assumption.
  destruct (three_cases j Hj) as [-> | [-> | ->]]; cbn [Z.eqb Pos.eqb]; repeat split; ring.
Qed.
Lemma cube_closed : closed_cell 3 cube.
Proof.
  intros a b Ha Hb. change (zlen (mc_faces cube)) with 6. rewrite Sum6.
  repeat match goal with |- context [areavec cube ?i ?j] => replace (areavec cube i j) with (cube_n i j) by (symmetry; apply cube_offset; lia) end.
  repeat match goal with |- context [offset cube ?i ?j] => replace (offset cube i j) with (cube_off i j) by (symmetry; apply cube_offset; lia) end.
  destruct (three_cases a Ha) as [-> | [-> | ->]], (three_cases b Hb) as [-> | [-> | ->]]; unfold cube_off, cube_n, ident; cbn; lra.
Qed.
Lemma cube_lapack : lapack_ok 3 (fun m => mscale m (sqrt 2)) cube.
Proof.
  intros m Hm. eexists. split; [apply scale_ok; exact Hm|]. change (zlen (mc_faces cube)) with 6.
  pose proof (sqrt_def 2 ltac:(lra)) as S2. assert (S0 : (sqrt 2 <> 0)%R) by (intros E; rewrite E in S2; lra).
  split.
  - intros a b Ha Hb. rewrite (Sum_ext 6 _ (fun i => 2 * (cube_off i a * cube_off i b))%R).
    + rewrite Sum_scal, Sum6. destruct (three_cases a Ha) as [-> | [-> | ->]], (three_cases b Hb) as [-> | [-> | ->]]; unfold cube_off, ident; cbn; lra.
    + intros i Hi. destruct (cube_offset i a Hi Ha) as (-> & _ & ->). destruct (cube_offset i b Hi Hb) as (-> & _ & _). transitivity (sqrt 2 * sqrt 2 * (cube_off i a * cube_off i b))%R; [ring|rewrite S2; reflexivity].
  - exists (fun a b => if a =? b then / sqrt 2 else 0)%R. split.
    + intros a b H. destruct (Z.eqb_spec a b); [lia|reflexivity].
    + intros i b Hi Hb. rewrite (Sum_pick 3 b); [|exact Hb|intros a Ha N; cbn beta; destruct (Z.eqb_spec a b); [lia|ring]]. cbn beta. rewrite Z.eqb_refl. field. exact S0.
Qed.
(* with a total mobility that does not commute with K the matrix for tensor mobilities is not
   symmetric *)
Definition cube_K : mat := mkMat 3 3 COrd [1; 1/2; 0; 1/2; 1; 0; 0; 0; 1]%R.
Definition cube_mob : mat := mkMat 3 3 FOrd [1; 0; 0; 0; 2; 0; 0; 0; 1]%R.
Lemma cube_not_symmetric q : inverse_ip 3 cube (mmul 3 (mob_total [(1%R, cube_mob)]) (entry cube_K)) q 0 2 <> inverse_ip 3 cube (mmul 3 (mob_total [(1%R, cube_mob)]) (entry cube_K)) q 2 0.
Proof.
  set (lK := mmul 3 (mob_total [(1%R, cube_mob)]) (entry cube_K)).
  assert (A : lK 0 1 = (1/2)%R /\ lK 1 0 = 1%R).
  { unfold lK, mmul. rewrite !Sum3. unfold mob_total. cbn [map snd]. rewrite !Rsum_cons, !Rsum_nil.
    change (entry cube_mob 0 0) with 1%R. change (entry cube_mob 0 1) with 0%R. change (entry cube_mob 0 2) with 0%R. change (entry cube_mob 1 0) with 0%R. change (entry cube_mob 1 1) with 2%R. change (entry cube_mob 1 2) with 0%R.
    change (entry cube_K 0 1) with (1/2)%R. change (entry cube_K 1 1) with 1%R. change (entry cube_K 2 1) with 0%R. change (entry cube_K 0 0) with 1%R. change (entry cube_K 1 0) with (1/2)%R. change (entry cube_K 2 0) with 0%R. lra. }
  destruct A as (A1 & A2). unfold inverse_ip. rewrite (reg_sym 3 cube q 0 2). change (mc_vol cube) with 1%R.
  assert (M : forall i j, 0 <= i < 6 -> 0 <= j < 6 -> mmul 3 (mmul 3 (areavec cube) lK) (fun l j => areavec cube j l) i j = mmul 3 (mmul 3 cube_n lK) (fun l j => cube_n j l) i j).
  { intros i j Hi Hj. unfold mmul. apply Sum_ext. intros l Hl. destruct (cube_offset j l Hj Hl) as (_ & -> & _). f_equal. apply Sum_ext. intros a Ha. destruct (cube_offset i a Hi Ha) as (_ & -> & _). reflexivity. }
  rewrite !M by lia. unfold mmul. rewrite !Sum3. unfold cube_n. cbn [Z.eqb Pos.eqb Z.even]. change (0/2) with 0. change (2/2) with 1. cbn [Z.eqb Pos.eqb]. rewrite A1, A2. intros H.
  set (t := (6 * Sum 3 (fun a => lK a a) / 3 * regular_part 3 cube q 2 0)%R) in *. lra.
Qed.

Section AnisoProps.
Variables (dim : Z) (orth : mat -> mat) (c : mcell) (K : mat) (grav : list R) (phases : list (R * mat)) (ws : aniso_work).
Hypothesis W : wf_cell dim c.
Hypothesis LO : lapack_ok dim orth c.
Let nf := zlen (mc_faces c).
Hypothesis HK : shaped K COrd dim dim.
Hypothesis Lg : zlen grav = dim.
Hypothesis HP : forall rho m, In (rho, m) phases -> shaped m FOrd dim dim.
Hypothesis HW : aniso_work_ok dim nf ws.
Let lK := mmul dim (mob_total phases) (entry K).
Lemma aniso_run_ok : exists q B g, aniso_run dim orth c K grav phases ws = Ok (B, g) /\ qr_factor nf dim (fun i j => area c i * offset c i j)%R q /\
  holds B FOrd nf nf (inverse_ip dim c lK q) /\ zlen g = nf /\
  forall i, 0 <= i < nf -> nthR g i = dot dim (areavec c i) (mvec dim (mob_density phases) (mvec dim (entry K) (nthR grav))).
Proof.
  destruct HW as (A1 & A2 & A3 & A4 & A5 & A6 & A7 & A8 & A9).
  destruct (aniso_ok dim orth c K grav phases W LO HK Lg HP _ _ _ _ _ _ _ _ _ A1 A2 A3 A4 A5 A6 A7 A8 A9) as (q & s' & n' & Kg & dyn & lk & B & g & E1 & E2 & E3 & E4 & Q & HB & Lg' & Gg).
  exists q, B, g. split; [|auto]. unfold aniso_run. rewrite E1. cbn [bind fst snd]. rewrite E2. cbn [bind fst snd]. rewrite E3. cbn [bind]. rewrite E4. reflexivity.
Qed.
Lemma aniso_exact : closed_cell dim c -> exists B g, aniso_run dim orth c K grav phases ws = Ok (B, g) /\
  (forall p0 gr i, 0 <= i < nf -> mvec nf (entry B) (pressure_drop dim c p0 gr) i = darcy_flux dim c 1 lK gr i) /\
  forall i, 0 <= i < nf -> nthR g i = dot dim (areavec c i) (mvec dim (mob_density phases) (mvec dim (entry K) (nthR grav))).
Proof.
  intros Cl. destruct aniso_run_ok as (q & B & g & E & Q & HB & _ & Gg). exists B, g. split; [exact E|]. split; [|exact Gg]. intros p0 gr i Hi.
  rewrite (mvec_mat nf _ (inverse_ip dim c lK q)) by (intros j Hj; apply (holds_entry _ _ _ _ _ HB); assumption).
  rewrite (mvec_ext nf _ _ (fun j => - mvec dim (offset c) gr j)%R) by (intros; apply pressure_drop_offset).
  rewrite mvec_opp_x. pose proof (inv_ip_exact dim c W lK q Q gr i Cl Hi) as EX. fold nf in EX. rewrite EX. unfold darcy_flux, dot, mvec. ring.
Qed.
Lemma aniso_forms : closed_cell dim c -> exists B g, aniso_run dim orth c K grav phases ws = Ok (B, g) /\
  (symmetric dim lK -> symmetric nf (entry B)) /\ (nonneg_form dim lK -> nonneg_form nf (entry B)) /\ (positive_form dim lK -> positive_form nf (entry B)).
Proof.
  intros Cl. destruct aniso_run_ok as (q & B & g & E & Q & HB & _). exists B, g. split; [exact E|]. pose proof (holds_entry _ _ _ _ _ HB) as G. split; [|split].
  - intros S i j Hi Hj. rewrite !G by assumption. apply (inv_ip_sym dim c lK q S i j Hi Hj).
  - intros S x. rewrite (quad_ext nf _ (inverse_ip dim c lK q)) by exact G. apply (inv_ip_psd dim c W lK q Q S x).
  - intros S x Hx. rewrite (quad_ext nf _ (inverse_ip dim c lK q)) by exact G. apply (inv_ip_pd dim c W lK q Q Cl S x Hx).
Qed.
End AnisoProps.
Definition cube_work : aniso_work :=
  mkAWork (mnew FOrd 6 6) (mnew FOrd 6 6) (mnew FOrd 6 3) (mnew FOrd 6 3) [0; 0; 0]%R (mnew FOrd 3 3) (mnew FOrd 6 3) (mnew FOrd 6 6) (zrepeat 0%R 6).
Lemma cube_work_ok : aniso_work_ok 3 6 cube_work.
Proof.
  unfold aniso_work_ok, cube_work. cbn [aw_second aw_fa aw_n aw_T2 aw_Kg aw_lambdaK aw_T2' aw_Binv aw_gflux].
  repeat match goal with |- _ /\ _ => split end; try (eapply holds_shaped; apply holds_new; lia); reflexivity.
Qed.
Lemma shaped_3 m o : m_ord m = o -> m_rows m = 3 -> m_cols m = 3 -> zlen (m_data m) = 9 -> shaped m o 3 3.
Proof. intros H1 H2 H3 H4. unfold shaped, holds. rewrite H4. repeat split; try assumption; try lia. intros r c _ _. unfold entry. rewrite H1, H2, H3. reflexivity. Qed.
Lemma cube_hyps : shaped cube_K COrd 3 3 /\ shaped cube_mob FOrd 3 3 /\ (forall rho m, In (rho, m) [(1%R, cube_mob)] -> shaped m FOrd 3 3).
Proof.
  assert (shaped cube_mob FOrd 3 3) by (apply shaped_3; reflexivity). split; [apply shaped_3; reflexivity|]. split; [assumption|]. intros rho m [E|[]]. injection E as <- <-. assumption.
Qed.
Lemma cube_aniso_refuted : exists B g, aniso_run 3 (fun m => mscale m (sqrt 2)) cube cube_K [0; 0; 1]%R [(1%R, cube_mob)] cube_work = Ok (B, g) /\
  entry B 0 2 <> entry B 2 0.
Proof.
  destruct cube_hyps as (H1 & _ & H3).
  destruct (aniso_run_ok 3 (fun m => mscale m (sqrt 2)) cube cube_K [0; 0; 1]%R [(1%R, cube_mob)] cube_work cube_wf cube_lapack H1 eq_refl H3 cube_work_ok) as (q & B & g & E & _ & HB & _).
  change (zlen (mc_faces cube)) with 6 in HB. exists B, g. split; [exact E|]. rewrite !(holds_entry _ _ _ _ _ HB) by lia. apply cube_not_symmetric.
Qed.
Lemma three_unit x y z : (x * x + y * y + z * z + x * y = 3 / 4 * ((x + y) * (x + y)) + 1 / 4 * ((x - y) * (x - y)) + z * z)%R.
Proof. field. Qed.
Lemma cube_K_positive : symmetric 3 (entry cube_K) /\ positive_form 3 (entry cube_K).
Proof.
  assert (E : forall i j, 0 <= i < 3 -> 0 <= j < 3 -> entry cube_K i j = (if i =? j then 1 else if (i <? 2) && (j <? 2) then 1/2 else 0)%R).
  { intros i j Hi Hj. destruct (three_cases i Hi) as [-> | [-> | ->]], (three_cases j Hj) as [-> | [-> | ->]]; reflexivity. }
  split.
  - intros i j Hi Hj. rewrite !E by assumption. rewrite (Z.eqb_sym j i), (andb_comm (j <? 2)). reflexivity.
  - intros x (i & Hi & N). rewrite (quad_ext 3 _ (fun i j => if i =? j then 1 else if (i <? 2) && (j <? 2) then 1/2 else 0)%R x E).
    unfold quad, dot, mvec. rewrite !Sum3. cbn [Z.eqb Pos.eqb Z.ltb Z.compare Pos.compare Pos.compare_cont andb]. set (x0 := x 0) in *. set (x1 := x 1) in *. set (x2 := x 2) in *.
    replace (x0 * (1 * x0 + 1 / 2 * x1 + 0 * x2) + x1 * (1 / 2 * x0 + 1 * x1 + 0 * x2) + x2 * (0 * x0 + 0 * x1 + 1 * x2))%R with (x0 * x0 + x1 * x1 + x2 * x2 + x0 * x1)%R by field.
    rewrite three_unit. pose proof (Rle_0_sqr (x0 + x1)) as A. pose proof (Rle_0_sqr (x0 - x1)) as B. pose proof (Rle_0_sqr (x2)) as C. unfold Rsqr in *.
    assert (P : forall v, v <> 0%R -> (0 < v * v)%R) by (intros; nra).
    destruct (Req_EM_T (x2) 0) as [E2|N2]; [|specialize (P _ N2); lra]. destruct (Req_EM_T (x0 + x1) 0) as [E0|N0]; [|specialize (P _ N0); lra]. destruct (Req_EM_T (x0 - x1) 0) as [E1|N1]; [|specialize (P _ N1); lra].
    exfalso. apply N. destruct (three_cases i Hi) as [-> | [-> | ->]]; fold x0 x1 x2; lra.
Qed.
Lemma cube_mob_symmetric : symmetric 3 (entry cube_mob).
Proof. intros i j Hi Hj. destruct (three_cases i Hi) as [-> | [-> | ->]], (three_cases j Hj) as [-> | [-> | ->]]; reflexivity. Qed.
