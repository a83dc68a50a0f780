(* Proofs about the mortar matrix. *)
From Verif Require Import BaseFacts RBaseFacts Mim_Proofs Smat_Proofs Asm_Proofs Eups_Proofs Eups_Proofs2 Eups_Proofs5 Eups_Spec.
Open Scope Z_scope.

Lemma mortar4 M meqn neq f0 f1 f2 f3 nx ny p1 p2 : 0 <= neq -> 2 <= nx -> 2 <= ny -> 1 <= p1 -> 1 <= p2 ->
  fits M meqn neq nx (2 * (p2 + 1)) f0 -> fits M meqn neq nx (2 * (p2 + 1)) f1 -> fits M meqn neq ny (2 * (p1 + 1)) f2 -> fits M meqn neq ny (2 * (p1 + 1)) f3 ->
  let tx := multipliers nx p2 in let ty := multipliers ny p1 in
  exists B lx ly, renumber nx 2 (p2 + 1) = Ok (lx, tx) /\ renumber ny 2 (p1 + 1) = Ok (ly, ty) /\
    mortar_matrix4 M meqn neq f0 f1 f2 f3 nx ny p1 p2 = Ok B /\ wf_smat B /\ dims B neq (3 * tx + 3 * ty) /\
    (forall e d k, 0 <= e < neq -> 0 <= d < 3 -> 0 <= k < tx -> coef B e (3 * k + d) = (coupling M meqn lx nx f0 e d k - coupling M meqn lx nx f1 e d k)%R) /\
    (forall e d k, 0 <= e < neq -> 0 <= d < 3 -> 0 <= k < ty -> coef B e (3 * tx + 3 * k + d) = (coupling M meqn ly ny f2 e d k - coupling M meqn ly ny f3 e d k)%R).
Proof.
  intros Hn Hx Hy Hp1 Hp2 F0 F1 F2 F3 tx ty.
  destruct (renumber_bounds nx 2 (p2 + 1) Hx ltac:(lia) ltac:(lia)) as (lx & Ex & Lx & Tx & Bx). fold (multipliers nx p2) in Ex, Tx, Bx. fold tx in Ex, Tx, Bx.
  destruct (renumber_bounds ny 2 (p1 + 1) Hy ltac:(lia) ltac:(lia)) as (ly & Ey & Ly & Ty & By). fold (multipliers ny p1) in Ey, Ty, By. fold ty in Ey, Ty, By.
  assert (Bx1 : forall p ln, zget lx p = Some ln -> zlen ln = 2 * (p2 + 1)) by (intros p ln E; apply (Bx p ln E)).
  assert (By1 : forall p ln, zget ly p = Some ln -> zlen ln = 2 * (p1 + 1)) by (intros p ln E; apply (By p ln E)).
  assert (Bx2 : forall p ln, zget lx p = Some ln -> forall x, In x ln -> -1 <= x < tx) by (intros p ln E; apply (Bx p ln E)).
  assert (By2 : forall p ln, zget ly p = Some ln -> forall x, In x ln -> -1 <= x < ty) by (intros p ln E; apply (By p ln E)).
  clear Bx By.
  pose proof (bblock_eq M meqn neq nx 2 (p2 + 1) f0 F0) as P0. pose proof (bblock_eq M meqn neq nx 2 (p2 + 1) f1 F1) as P1.
  pose proof (bblock_eq M meqn neq ny 2 (p1 + 1) f2 F2) as P2. pose proof (bblock_eq M meqn neq ny 2 (p1 + 1) f3 F3) as P3.
  pose proof (assemble_eq M meqn neq nx 2 (p2 + 1) f0 F0) as A0. pose proof (assemble_eq M meqn neq nx 2 (p2 + 1) f1 F1) as A1.
  pose proof (assemble_eq M meqn neq ny 2 (p1 + 1) f2 F2) as A2. pose proof (assemble_eq M meqn neq ny 2 (p1 + 1) f3 F3) as A3.
  replace (p2 + 1 - 1) with p2 in * by lia. replace (p1 + 1 - 1) with p1 in * by lia. change (2 - 1) with 1 in *.
  pose proof (spots_range M meqn neq nx 2 (p2 + 1) f0 F0 lx tx 0 Bx2) as S0. pose proof (spots_range M meqn neq nx 2 (p2 + 1) f1 F1 lx tx 0 Bx2) as S1.
  pose proof (spots_range M meqn neq ny 2 (p1 + 1) f2 F2 ly ty (3 * tx) By2) as S2. pose proof (spots_range M meqn neq ny 2 (p1 + 1) f3 F3 ly ty (3 * tx) By2) as S3.
  set (s0 := face_spots M meqn lx 0 (fst f0) nx) in *. set (s1 := face_spots M meqn lx 0 (fst f1) nx) in *.
  set (s2 := face_spots M meqn ly (3 * tx) (fst f2) ny) in *. set (s3 := face_spots M meqn ly (3 * tx) (fst f3) ny) in *.
  assert (Emp : forall adj, wf_adj adj neq -> match adj with [] => zrepeat [] neq | _ => adj end = adj).
  { intros [|r l] [W _]; [|reflexivity]. change (zlen (@nil (list Z))) with 0 in W. subst neq. reflexivity. }
  destruct (empty_adj neq Hn) as [W P].
  destruct (adj_inserts_ok s0 (zrepeat [] neq) neq W) as (a0 & I0 & W0 & Q0); [intros [e c] He; apply (S0 e c He)|].
  destruct (adj_inserts_ok s1 a0 neq W0) as (a1 & I1 & W1 & Q1); [intros [e c] He; apply (S1 e c He)|].
  destruct (adj_inserts_ok s2 a1 neq W1) as (a2 & I2 & W2 & Q2); [intros [e c] He; apply (S2 e c He)|].
  destruct (adj_inserts_ok s3 a2 neq W2) as (a3 & I3 & W3 & Q3); [intros [e c] He; apply (S3 e c He)|].
  assert (Pat : forall a b, padj a3 a b <-> In (a, b) s0 \/ In (a, b) s1 \/ In (a, b) s2 \/ In (a, b) s3).
  { intros a b. rewrite Q3, Q2, Q1, Q0. specialize (P a b). tauto. }
  destruct (from_adjacency_ok a3 neq (3 * tx + 3 * ty) W3) as (B0 & EB & WB & DB & SB & CB); [lia| |].
  { intros a b H. apply Pat in H. destruct H as [H|[H|[H|H]]]; [apply S0 in H|apply S1 in H|apply S2 in H|apply S3 in H]; lia. }
  set (u0 := face_updates M meqn nx f0 lx 0 1) in *. set (u1 := face_updates M meqn nx f1 lx 0 (-1)) in *.
  set (u2 := face_updates M meqn ny f2 ly (3 * tx) 1) in *. set (u3 := face_updates M meqn ny f3 ly (3 * tx) (-1)) in *.
  set (upd := fun m e => sm_upd m (fst (fst e)) (snd (fst e)) (snd e)) in *.
  destruct (sm_upds_ok u0 B0 WB) as (B1 & E1 & WB1 & D1 & SB1 & C1).
  { intros u Hu. apply SB, Pat. left. rewrite <- surjective_pairing. exact (updates_spots M meqn neq nx 2 (p2 + 1) f0 F0 lx 0 1 u Lx Hu). }
  destruct (sm_upds_ok u1 B1 WB1) as (B2 & E2 & WB2 & D2 & SB2 & C2).
  { intros u Hu. apply SB1, SB, Pat. right. left. rewrite <- surjective_pairing. exact (updates_spots M meqn neq nx 2 (p2 + 1) f1 F1 lx 0 (-1) u Lx Hu). }
  destruct (sm_upds_ok u2 B2 WB2) as (B3 & E3 & WB3 & D3 & SB3 & C3).
  { intros u Hu. apply SB2, SB1, SB, Pat. right. right. left. rewrite <- surjective_pairing. exact (updates_spots M meqn neq ny 2 (p1 + 1) f2 F2 ly (3 * tx) 1 u Ly Hu). }
  destruct (sm_upds_ok u3 B3 WB3) as (B4 & E4 & WB4 & D4 & SB4 & C4).
  { intros u Hu. apply SB3, SB2, SB1, SB, Pat. right. right. right. rewrite <- surjective_pairing. exact (updates_spots M meqn neq ny 2 (p1 + 1) f3 F3 ly (3 * tx) (-1) u Ly Hu). }
  exists B4, lx, ly. split; [exact Ex|]. split; [exact Ey|]. split; [|split; [exact WB4|split]].
  - unfold mortar_matrix4. rewrite (P0 0 [] lx tx Ex Lx). fold s0. rewrite I0. cbn [bind fst snd].
    rewrite (P1 0 a0 lx tx Ex Lx). fold s1. rewrite (Emp a0 W0), I1. cbn [bind fst snd].
    rewrite (P2 (3 * tx) a1 ly ty Ey Ly). fold s2. rewrite (Emp a1 W1), I2. cbn [bind fst snd].
    rewrite (P3 (3 * tx) a2 ly ty Ey Ly). fold s3. rewrite (Emp a2 W2), I3. cbn [bind fst snd].
    rewrite EB. cbn [bind]. rewrite (A0 0 1%R B0 lx tx Ex Lx Bx1). fold u0. fold upd in E1, E2, E3, E4. fold upd. rewrite E1. cbn [bind].
    rewrite (A1 0 (-1)%R B1 lx tx Ex Lx Bx1). fold u1 upd. rewrite E2. cbn [bind].
    rewrite (A2 (3 * tx) 1%R B2 ly ty Ey Ly By1). fold u2 upd. rewrite E3. cbn [bind].
    rewrite (A3 (3 * tx) (-1)%R B3 ly ty Ey Ly By1). fold u3 upd. exact E4.
  - destruct DB, D1, D2, D3, D4. split; congruence.
  - assert (Co : forall a b, coef B4 a b = (adds u0 a b + adds u1 a b + adds u2 a b + adds u3 a b)%R).
    { intros a b. rewrite C4, fold_adds by (eapply updates_additive; eassumption). rewrite C3, fold_adds by (eapply updates_additive; eassumption). rewrite C2, fold_adds by (eapply updates_additive; eassumption).
      rewrite C1, fold_adds by (eapply updates_additive; eassumption). rewrite CB. ring. }
    split; intros e d k He Hd Hk; rewrite Co.
    + unfold u2. rewrite (face_adds_out M meqn neq ny 2 (p1 + 1) f2 F2 ly ty) by (try assumption; lia). unfold u3. rewrite (face_adds_out M meqn neq ny 2 (p1 + 1) f3 F3 ly ty) by (try assumption; lia).
      replace (3 * k + d) with (3 * k + d + 0) by lia. unfold u0, u1. rewrite (face_adds M meqn neq nx 2 (p2 + 1) f0 F0), (face_adds M meqn neq nx 2 (p2 + 1) f1 F1) by lia. ring.
    + unfold u0. rewrite (face_adds_out M meqn neq nx 2 (p2 + 1) f0 F0 lx tx) by (try assumption; lia). unfold u1. rewrite (face_adds_out M meqn neq nx 2 (p2 + 1) f1 F1 lx tx) by (try assumption; lia).
      replace (3 * tx + 3 * k + d) with (3 * k + d + 3 * tx) by lia. unfold u2, u3. rewrite (face_adds M meqn neq ny 2 (p1 + 1) f2 F2), (face_adds M meqn neq ny 2 (p1 + 1) f3 F3) by lia. ring.
Qed.

(* the number of times an equation stands for a dof is the weight it should have when every master has weight one *)
Lemma count_trans M meqn n d e : 0 <= e ->
  (forall p, mm_find M (n * 3 + d) = Some p -> forall mm, In mm (mp_master p) -> md_dof mm = d + 1 /\ md_coeff mm = 1%R) ->
  INR (count_occ Z.eq_dec (eqs_of M meqn n d) e) = trans 3 M meqn (n * 3 + d) e.
Proof.
  intros He H. unfold eqs_of, refs_of, trans. destruct (mm_find M (n * 3 + d)) as [p|] eqn:E.
  - rewrite <- (Rmult_1_r (INR _)), <- count_sum, !map_map. apply Rsum_map_ext. intros mm Hm. destruct (H p eq_refl mm Hm) as [Hd Hc]. unfold dof_key. rewrite Hd, Hc.
    replace (md_node mm * 3 + (d + 1) - 1) with (md_node mm * 3 + d) by lia. reflexivity.
  - cbn [map count_occ]. destruct (Z.eq_dec _ _) as [->|N]; [rewrite Z.eqb_refl; reflexivity|]. rewrite (proj2 (Z.eqb_neq _ _) N). reflexivity.
Qed.
(* a node between two others *)
Lemma count_not_trans : let M := [(15, mkMpc (mkMdof 5 1 0) [mkMdof 0 1 (1 / 2); mkMdof 1 1 (1 / 2)])] in let meqn := [0; 1; 2; 3; 4; 5] in
  INR (count_occ Z.eq_dec (eqs_of M meqn 5 0) 3) = 1%R /\ trans 3 M meqn 15 3 = (1 / 2)%R.
Proof.
  intros M meqn. split; [reflexivity|]. unfold trans, M. cbn [mm_find Z.eqb Pos.eqb mp_master map]. rewrite !Rsum_cons, Rsum_nil.
  change (eq_of meqn (dof_key 3 (mkMdof 0 1 (1 / 2))) =? 3) with false. change (eq_of meqn (dof_key 3 (mkMdof 1 1 (1 / 2))) =? 3) with true. cbn [md_coeff]. lra.
Qed.
