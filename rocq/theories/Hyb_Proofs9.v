(* concrete flow problems meeting the hypotheses of the theorems *)
From Verif Require Import BaseFacts RBaseFacts Lin_Facts Steady_Proofs Euler_Proofs2 Impl_Proofs Impl_Proofs5 Matx_Proofs Matx_Proofs2 Matx_Proofs3 Mim_Proofs Mim_Proofs2 Hnum_Proofs Hnum_Proofs2 Hyb_Spec Hyb_Proofs Hyb_Proofs2 Hyb_Proofs3 Hyb_Proofs4 Hyb_Proofs5 Hyb_Proofs6 Hyb_Proofs7 Hyb_Proofs8.
Open Scope Z_scope.

(* a row of three cells between a pressure and an outflux; with periodic ends; with outfluxes only *)
Definition ends_bc : hbc := mkHBc (fun b => if b =? 1 then CDirichlet 1 else CNeumann 2) (fun b => b).
Definition ring_bc : hbc := mkHBc (fun b => if b =? 1 then CPeriodic 3 else CPeriodic (-3)) (fun b => 3 - b).
Definition neumann_bc : hbc := mkHBc (fun b => if b =? 1 then CNeumann (-1) else CNeumann 1) (fun b => b).
Definition ex_ip : hip := mkIp (fun _ => mkMat 2 2 FOrd [2; 1; 1; 2]%R) (fun _ => [1; -1]%R).
Definition ex_src : list R := [1; 0; -1]%R.
Lemma two_cases i : 0 <= i < 2 -> i = 0 \/ i = 1. Proof. lia. Qed.
Lemma Sum2 f : Sum 2 f = (f 0%Z + f 1%Z)%R.
Proof. unfold Sum. change (zrange 0 2) with [0; 1]. cbn [map]. rewrite !Rsum_cons, Rsum_nil. ring. Qed.
Lemma row3_nf k : 0 <= k < zlen row3 -> nfaces row3 k = 2.
Proof. intros Hk. change (zlen row3) with 3 in Hk. assert (k = 0 \/ k = 1 \/ k = 2) as [->|[->| ->]] by lia; reflexivity. Qed.
Lemma ex_entry i k r c : 0 <= r < 2 -> 0 <= c < 2 -> entry (ip_binv ex_ip (idx i k)) r c = (if r =? c then 2 else 1)%R.
Proof. intros Hr Hc. destruct (two_cases r Hr) as [->| ->], (two_cases c Hc) as [->| ->]; reflexivity. Qed.
Lemma ex_shaped : ip_shaped row3 ex_ip.
Proof.
  intros k Hk. rewrite (row3_nf k Hk). split; [|split; [reflexivity|]].
  - unfold shaped, holds. cbn [ip_binv ex_ip m_ord m_rows m_cols m_data]. repeat match goal with |- _ /\ _ => split end; try reflexivity; try lia.
  - unfold Bk. rewrite !Sum2, !ex_entry by lia. cbn [Z.eqb Pos.eqb]. lra.
Qed.
Lemma ex_spd : ip_spd row3 ex_ip.
Proof.
  intros k Hk. rewrite (row3_nf k Hk). split; [lia|]. split.
  - intros i j Hi Hj. unfold Bk. rewrite !ex_entry by assumption. rewrite (Z.eqb_sym j i). reflexivity.
  - intros x (i & Hi & N). unfold quad, dot, mvec, Bk. rewrite !Sum2, !ex_entry by lia. cbn [Z.eqb Pos.eqb]. pose proof (Rle_0_sqr (x 0 + x 1)) as P0; pose proof (Rle_0_sqr (x 0)) as P1; pose proof (Rle_0_sqr (x 1)) as P2; pose proof (Rsqr_pos_lt (x i) N) as P3; unfold Rsqr in *. destruct (two_cases i Hi) as [->| ->]; nra.
Qed.
Lemma row3_conf : conforming row3 /\ counts_agree row3. Proof. split; [apply row3_ok|]. apply in_order_counts. apply row3_ok. Qed.
Lemma row3_half' k r : (k = 0 \/ k = 1 \/ k = 2) -> (r = 0 \/ r = 1) -> half row3 k r.
Proof. intros H1 H2. split; [change (zlen row3) with 3; lia|]. rewrite row3_nf by (change (zlen row3) with 3; lia). lia. Qed.
Lemma row3_bdry bc k r f : half row3 k r -> cond_at row3 bc k r = Some f -> (k = 0 /\ r = 0 /\ f = hb_cond bc 1) \/ (k = 2 /\ r = 1 /\ f = hb_cond bc 2).
Proof.
  intros H E. destruct (row3_half k r H) as ([->|[->| ->]] & [->| ->]); unfold cond_at in E; cbn in E; try discriminate; injection E as <-; auto.
Qed.
Lemma ex_problem bc : periodic_ok row3 bc -> problem row3 bc ex_ip ex_src.
Proof. intros P. split; [apply row3_conf|]. split; [apply row3_conf|]. split; [exact P|]. split; [exact ex_shaped|reflexivity]. Qed.
Lemma ends_periodic : periodic_ok row3 ends_bc.
Proof. split; [intros k r d k' r' d' (H & E)|intros k r d (H & E)]; destruct (row3_bdry _ _ _ _ H E) as [(_ & _ & Q)|(_ & _ & Q)]; discriminate. Qed.
Lemma neumann_periodic : periodic_ok row3 neumann_bc.
Proof. split; [intros k r d k' r' d' (H & E)|intros k r d (H & E)]; destruct (row3_bdry _ _ _ _ H E) as [(_ & _ & Q)|(_ & _ & Q)]; discriminate. Qed.
Lemma ring_periodic : periodic_ok row3 ring_bc.
Proof.
  split.
  - intros k r d k' r' d' (H & E) (H' & E'). destruct (row3_bdry _ _ _ _ H E) as [(-> & -> & _)|(-> & -> & _)], (row3_bdry _ _ _ _ H' E') as [(-> & -> & _)|(-> & -> & _)]; intros Q; vm_compute in Q; try discriminate; auto.
  - intros k r d (H & E). destruct (row3_bdry _ _ _ _ H E) as [(-> & -> & Q)|(-> & -> & Q)]; injection Q as ->.
    + exists 2, 1. split; [split; [apply row3_half'; auto|reflexivity]|]. split; [reflexivity|]. split; [reflexivity|lia].
    + exists 0, 0. split; [split; [apply row3_half'; auto|unfold cond_at; cbn; do 2 f_equal; lra]|]. split; [reflexivity|]. split; [reflexivity|lia].
Qed.
Lemma row3_linked bc k : (k = 0 \/ k = 1 \/ k = 2) -> linked row3 bc 0 k /\ linked row3 bc k 0.
Proof.
  assert (J01 : joined row3 bc 0 1 1 0) by (split; [apply row3_half'; auto|split; [apply row3_half'; auto|left; split; reflexivity]]).
  assert (J10 : joined row3 bc 1 0 0 1) by (split; [apply row3_half'; auto|split; [apply row3_half'; auto|left; split; reflexivity]]).
  assert (J12 : joined row3 bc 1 1 2 0) by (split; [apply row3_half'; auto|split; [apply row3_half'; auto|left; split; reflexivity]]).
  assert (J21 : joined row3 bc 2 0 1 1) by (split; [apply row3_half'; auto|split; [apply row3_half'; auto|left; split; reflexivity]]).
  intros [->|[->| ->]]; split; try apply linked_refl.
  - eapply linked_step; [exact J01|apply linked_refl].
  - eapply linked_step; [exact J10|apply linked_refl].
  - eapply linked_step; [exact J01|]. eapply linked_step; [exact J12|apply linked_refl].
  - eapply linked_step; [exact J21|]. eapply linked_step; [exact J10|apply linked_refl].
Qed.
Lemma linked_trans g bc a b c : linked g bc a b -> linked g bc b c -> linked g bc a c.
Proof. intros L. induction L as [|k r k1 r1 k2 J _ IH]; [auto|]. intros M. eapply linked_step; [exact J|apply IH; exact M]. Qed.
Lemma row3_connected bc : connected row3 bc.
Proof. intros k k' Hk Hk'. change (zlen row3) with 3 in *. apply linked_trans with 0; apply row3_linked; lia. Qed.
Lemma ends_anchored : anchored row3 ends_bc.
Proof. intros k Hk. change (zlen row3) with 3 in *. exists 0, 0, 1%R. split; [apply row3_linked; lia|]. split; [apply row3_half'; auto|reflexivity]. Qed.
Lemma ring_no_dirichlet : no_dirichlet row3 ring_bc.
Proof. intros k r p H E. destruct (row3_bdry _ _ _ _ H E) as [(_ & _ & Q)|(_ & _ & Q)]; discriminate. Qed.
Lemma neumann_no_dirichlet : no_dirichlet row3 neumann_bc.
Proof. intros k r p H E. destruct (row3_bdry _ _ _ _ H E) as [(_ & _ & Q)|(_ & _ & Q)]; discriminate. Qed.

(* the row as a one-dimensional bar with cells of length one *)
Definition bar (k : Z) : mcell := mkMCell [IZR k + 1 / 2]%R 1 [mkMFace 1 [IZR k] [-1]%R; mkMFace 1 [IZR (k + 1)] [1%R]].
Definition bar_K : mat := mkMat 1 1 COrd [2%R].
Definition bar_orth (m : mat) : mat := mscale m (sqrt 2).
Definition bar_ip : hip := mkIp (fun i => match evaluate 1 bar_orth (bar i) bar_K (mnew FOrd 2 2) (mnew FOrd 2 2) (mnew FOrd 2 1) (mnew FOrd 2 1) with Ok B => get_inverse B 3 (mnew FOrd 2 2) | _ => mnew FOrd 2 2 end) (fun _ => zrepeat 0%R 2).
Definition bar_bc : hbc := mkHBc (fun b => if b =? 1 then CDirichlet 5 else CNeumann (-6)) (fun b => b).
Lemma bar_at k i j : 0 <= i < 2 -> j = 0 -> offset (bar k) i j = (if i =? 0 then - (1 / 2) else 1 / 2)%R /\ areavec (bar k) i j = (if i =? 0 then -1 else 1)%R /\ area (bar k) i = 1%R.
Proof.
  intros Hi ->. destruct (two_cases i Hi) as [->| ->]; unfold offset, areavec, area, face, nthR; cbn -[IZR].
  - split; [lra|split; lra].
  - change (Pos.to_nat 1) with 1%nat. cbn -[IZR]. rewrite plus_IZR. split; [lra|split; lra].
Qed.
Lemma Sum1 f : Sum 1 f = f 0. Proof. apply Sum_1. Qed.
Lemma bar_wf k : wf_cell 1 (bar k).
Proof.
  split; [lia|]. split; [reflexivity|]. split; [cbn; lra|]. intros f Hf. cbn [mc_faces bar] in Hf. destruct Hf as [<-|[<-|[]]]; cbn [mf_area mf_cen mf_normal]; (split; [lra|split; reflexivity]).
Qed.
Lemma bar_closed k : closed_cell 1 (bar k).
Proof.
  intros a b Ha Hb. assert (a = 0) by lia. assert (b = 0) by lia. subst a b. change (zlen (mc_faces (bar k))) with 2. rewrite Sum2.
  destruct (bar_at k 0 0 ltac:(lia) eq_refl) as (-> & -> & _). destruct (bar_at k 1 0 ltac:(lia) eq_refl) as (-> & -> & _). cbn. unfold ident. cbn. lra.
Qed.
Lemma bar_lapack k : lapack_ok 1 bar_orth (bar k).
Proof.
  intros m Hm. eexists. split; [apply scale_ok; exact Hm|]. change (zlen (mc_faces (bar k))) with 2. pose proof (sqrt_def 2 ltac:(lra)) as S2. assert (S0 : (sqrt 2 <> 0)%R) by (intros E; rewrite E in S2; lra). split.
  - intros a b Ha Hb. assert (a = 0) by lia. assert (b = 0) by lia. subst a b. rewrite Sum2. destruct (bar_at k 0 0 ltac:(lia) eq_refl) as (-> & _ & ->). destruct (bar_at k 1 0 ltac:(lia) eq_refl) as (-> & _ & ->). cbn [Z.eqb]. unfold ident. cbn [Z.eqb]. 
    transitivity (sqrt 2 * sqrt 2 * (1 / 2))%R; [field|rewrite S2; field].
  - exists (fun a b => if a =? b then / sqrt 2 else 0)%R. split; [intros a b H; destruct (Z.eqb_spec a b); [lia|reflexivity]|]. intros i b Hi Hb. assert (b = 0) by lia. subst b. rewrite Sum1. cbn [Z.eqb]. field. exact S0.
Qed.
Lemma bar_geometry : geometry 1 row3 bar.
Proof.
  split.
  - intros k Hk. rewrite (row3_nf k Hk). split; [apply bar_wf|]. split; [apply bar_closed|]. split; [reflexivity|]. intros a Ha. assert (a = 0) by lia. subst a. rewrite Sum2. destruct (bar_at k 0 0 ltac:(lia) eq_refl) as (_ & -> & _). destruct (bar_at k 1 0 ltac:(lia) eq_refl) as (_ & -> & _). cbn. lra.
  - intros k r k' r' H H' (T1 & T2). assert (C : (k = 0 /\ r = 1 /\ k' = 1 /\ r' = 0) \/ (k = 1 /\ r = 0 /\ k' = 0 /\ r' = 1) \/ (k = 1 /\ r = 1 /\ k' = 2 /\ r' = 0) \/ (k = 2 /\ r = 0 /\ k' = 1 /\ r' = 1)).
    { destruct (row3_half k r H) as ([->|[->| ->]] & [->| ->]), (row3_half k' r' H') as ([->|[->| ->]] & [->| ->]); cbn in T1, T2; try discriminate; vm_compute in T1, T2; try discriminate; lia. }
    assert (X : forall a, 0 <= a < 1 -> (r = 0 /\ r' = 1) \/ (r = 1 /\ r' = 0) -> areavec (bar k) r a = (- areavec (bar k') r' a)%R).
    { intros a Ha Hr. assert (a = 0) by lia. subst a. destruct (bar_at k r 0 ltac:(lia) eq_refl) as (_ & -> & _). destruct (bar_at k' r' 0 ltac:(lia) eq_refl) as (_ & -> & _). destruct Hr as [(-> & ->)|(-> & ->)]; cbn; lra. }
    split; [|intros a Ha; apply X; [exact Ha|lia]]. destruct C as [(-> & -> & -> & ->)|[(-> & -> & -> & ->)|[(-> & -> & -> & ->)|(-> & -> & -> & ->)]]]; reflexivity.
Qed.
Lemma bar_K_ok : shaped bar_K COrd 1 1 /\ symmetric 1 (entry bar_K) /\ positive_form 1 (entry bar_K).
Proof.
  split; [|split].
  - unfold shaped, holds. repeat match goal with |- _ /\ _ => split end; try reflexivity; try lia.
  - intros i j Hi Hj. assert (i = 0) by lia. assert (j = 0) by lia. subst. reflexivity.
  - intros x (i & Hi & N). assert (i = 0) by lia. subst i. unfold quad, dot, mvec. rewrite !Sum1. change (entry bar_K 0 0) with 2%R. pose proof (Rsqr_pos_lt (x 0) N) as P3; unfold Rsqr in P3. nra.
Qed.
Lemma bar_hom : homogeneous 1 bar_orth row3 bar bar_K 3 bar_ip.
Proof.
  destruct bar_K_ok as (A & B & C). split; [exact A|]. split; [exact B|]. split; [exact C|]. split; [lra|]. intros k Hk. rewrite (row3_nf k Hk). assert (Ei : idx row3 k = k) by (apply row3_ok; exact Hk). rewrite Ei. split; [apply bar_lapack|]. split; [|reflexivity].
  assert (Sh : forall n m, 0 <= n -> 0 <= m -> shaped (mnew FOrd n m) FOrd n m) by (intros; eapply holds_shaped; apply holds_new; lia).
  assert (S22 := Sh 2 2 ltac:(lia) ltac:(lia)). assert (S21 := Sh 2 1 ltac:(lia) ltac:(lia)).
  destruct (matrix_ok 1 bar_orth (bar k) bar_K (bar_wf k) (bar_lapack k) (mnew FOrd 2 2) (mnew FOrd 2 2) (mnew FOrd 2 1) (mnew FOrd 2 1) (mnew FOrd 2 2) 3 A) as (q & B0 & E & _); [first [exact S22 | exact S21]..|].
  exists (mnew FOrd 2 2), (mnew FOrd 2 2), (mnew FOrd 2 1), (mnew FOrd 2 1), (mnew FOrd 2 2), B0. cbn zeta. split; [apply Sh; lia|]. split; [apply Sh; lia|]. split; [apply Sh; lia|]. split; [apply Sh; lia|]. split; [apply Sh; lia|]. split; [exact E|]. cbn [ip_binv bar_ip]. rewrite E. reflexivity.
Qed.
Lemma bar_linear : linear_bc 1 row3 bar_bc bar bar_K 3 5 (fun _ => 1%R).
Proof.
  split; [|split].
  - intros k r p H E. destruct (row3_bdry _ _ _ _ H E) as [(-> & -> & Q)|(-> & -> & Q)]; [|discriminate]. injection Q as ->. unfold linear_pressure, dot. rewrite Sum1. change (nthR (mf_cen (face (bar 0) 0)) 0) with 0%R. ring.
  - intros k r q H E. destruct (row3_bdry _ _ _ _ H E) as [(-> & -> & Q)|(-> & -> & Q)]; [discriminate|]. injection Q as ->. unfold darcy_flux, dot, mvec. rewrite !Sum1. destruct (bar_at 2 1 0 ltac:(lia) eq_refl) as (_ & -> & _). change (entry bar_K 0 0) with 2%R. cbn. ring.
  - intros k r k' r' d P E. destruct P as (d1 & d2 & (H & E1) & _). destruct (row3_bdry _ _ _ _ H E) as [(_ & _ & Q)|(_ & _ & Q)]; discriminate.
Qed.
Lemma bar_periodic : periodic_ok row3 bar_bc.
Proof. split; [intros k r d k' r' d' (H & E)|intros k r d (H & E)]; destruct (row3_bdry _ _ _ _ H E) as [(_ & _ & Q)|(_ & _ & Q)]; discriminate. Qed.
Lemma ring_partners : partners row3 ring_bc 0 0 2 1.
Proof. exists 3%R, (-3)%R. split; [split; [apply row3_half'; auto|reflexivity]|]. split; [split; [apply row3_half'; auto|reflexivity]|reflexivity]. Qed.
Lemma post_main g bc st nfs cf : conforming g -> counts_agree g -> periodic_ok g bc -> init_structure g bc = Ok st -> unknowns st <= nfs -> half_table g cf ->
  exists t m, post_process g st nfs cf = Ok (t, m) /\ half_table g t /\
  (forall k r k' r', joined g bc k r k' r' -> at2 t k r = ((at2 cf k r - at2 cf k' r') / 2)%R) /\
  (forall k r, half g k r -> (forall k' r', ~ joined g bc k r k' r') -> at2 t k r = at2 cf k r) /\
  (0 <= m)%R /\ (forall k r, half g k r -> (Rabs (at2 t k r - at2 cf k r) <= m)%R) /\ (m = 0%R \/ exists k r, half g k r /\ Rabs (at2 t k r - at2 cf k r) = m).
Proof. intros A B C E L H. destruct (init_ok g bc A B C) as (st' & E' & HS). rewrite E in E'. injection E' as <-. apply (post_ok g bc st nfs cf HS L H). Qed.
Lemma periodic_solution g bc ip src : problem g bc ip src -> forall st s d, discretised g bc ip src st s d -> ip_spd g ip ->
  forall soln ps vs, zlen soln = unknowns st -> recover g st ip d soln = Ok (ps, vs) -> solves s (unknowns st) (nthR soln) ->
  forall k r k' r' dp, partners g bc k r k' r' -> cond_at g bc k r = Some (CPeriodic dp) ->
  (nthR soln (Hyb_Spec.num st k r) - nthR soln (Hyb_Spec.num st k' r') = dp)%R /\ (at2 vs k r + at2 vs k' r' = 0)%R.
Proof. intros PB st s d DI SP soln ps vs L E H. apply (solves_iff g bc ip src PB st s d DI SP soln ps vs L E). exact H. Qed.
