From Verif Require Import BaseFacts RBaseFacts Lin_Facts Steady_Proofs Euler_Proofs2 Matx_Proofs Hyb_Proofs8 Matx_Proofs3 Mim_Proofs Mim_Proofs2 Tens_Proofs5 Tens_Proofs6 Tens_Proofs7 Ska_Spec Lin_Spec Tens_Spec.
Open Scope Z_scope.

(* the total mobility times the permeability *)
Definition lamK (phs : Z -> cell_phases) (Kc : Z -> mat) (k : Z) : Z -> Z -> R := mmul 3 (mob_total (phs k)) (entry (Kc k)).
Lemma mmul3 a b i j : mmul 3 a b i j = (a i 0%Z * b 0%Z j + a i 1%Z * b 1%Z j + a i 2%Z * b 2%Z j)%R.
Proof. unfold mmul. apply Sum3. Qed.
Lemma diag_mul a b : diagonal_positive a -> diagonal_positive b -> forall i j, 0 <= i < 3 -> 0 <= j < 3 -> mmul 3 a b i j = if i =? j then (a i i * b i i)%R else 0%R.
Proof.
  intros A B i j Hi Hj. rewrite mmul3. pose proof (fun i j Hi Hj => A i j Hi Hj) as A'. pose proof (fun i j Hi Hj => B i j Hi Hj) as B'.
  destruct (three_cases i Hi) as [-> | [-> | ->]], (three_cases j Hj) as [-> | [-> | ->]]; cbn [Z.eqb Pos.eqb];
    pose proof (A 0 1 ltac:(lia) ltac:(lia)) as A01; pose proof (A 0 2 ltac:(lia) ltac:(lia)) as A02; pose proof (A 1 0 ltac:(lia) ltac:(lia)) as A10; pose proof (A 1 2 ltac:(lia) ltac:(lia)) as A12; pose proof (A 2 0 ltac:(lia) ltac:(lia)) as A20; pose proof (A 2 1 ltac:(lia) ltac:(lia)) as A21;
    pose proof (B 0 1 ltac:(lia) ltac:(lia)) as B01; pose proof (B 0 2 ltac:(lia) ltac:(lia)) as B02; pose proof (B 1 0 ltac:(lia) ltac:(lia)) as B10; pose proof (B 1 2 ltac:(lia) ltac:(lia)) as B12; pose proof (B 2 0 ltac:(lia) ltac:(lia)) as B20; pose proof (B 2 1 ltac:(lia) ltac:(lia)) as B21;
    cbn [Z.eqb Pos.eqb] in *; rewrite ?A01, ?A02, ?A10, ?A12, ?A20, ?A21, ?B01, ?B02, ?B10, ?B12, ?B20, ?B21; ring.
Qed.
Lemma diag_diag a b : diagonal_positive a -> diagonal_positive b -> diagonal_positive (mmul 3 a b).
Proof.
  intros A B i j Hi Hj. rewrite (diag_mul a b A B i j Hi Hj). destruct (Z.eqb_spec i j) as [->|]; [|reflexivity]. specialize (A j j Hj Hj). specialize (B j j Hj Hj). rewrite Z.eqb_refl in *. apply Rmult_lt_0_compat; assumption.
Qed.
Lemma diag_quad a x : diagonal_positive a -> quad 3 a x = (a 0%Z 0%Z * (x 0%Z * x 0%Z) + a 1%Z 1%Z * (x 1%Z * x 1%Z) + a 2%Z 2%Z * (x 2%Z * x 2%Z))%R.
Proof.
  intros A. rewrite quad3. pose proof (A 0 1 ltac:(lia) ltac:(lia)) as A01; pose proof (A 0 2 ltac:(lia) ltac:(lia)) as A02; pose proof (A 1 0 ltac:(lia) ltac:(lia)) as A10; pose proof (A 1 2 ltac:(lia) ltac:(lia)) as A12; pose proof (A 2 0 ltac:(lia) ltac:(lia)) as A20; pose proof (A 2 1 ltac:(lia) ltac:(lia)) as A21. cbn [Z.eqb Pos.eqb] in *. rewrite A01, A02, A10, A12, A20, A21. ring.
Qed.
Lemma diag_sym a : diagonal_positive a -> symmetric 3 a.
Proof.
  intros A i j Hi Hj. pose proof (A i j Hi Hj) as P. pose proof (A j i Hj Hi) as Q. rewrite Z.eqb_sym in Q. destruct (Z.eqb_spec i j) as [->|]; congruence.
Qed.
Lemma diag_pos a i : diagonal_positive a -> 0 <= i < 3 -> (0 < a i i)%R.
Proof. intros A Hi. specialize (A i i Hi Hi). rewrite Z.eqb_refl in A. exact A. Qed.
Lemma diag_pd a : diagonal_positive a -> positive_form 3 a.
Proof.
  intros A x (i & Hi & Nx). rewrite (diag_quad a x A). pose proof (diag_pos a 0 A ltac:(lia)). pose proof (diag_pos a 1 A ltac:(lia)). pose proof (diag_pos a 2 A ltac:(lia)).
  pose proof (Rle_0_sqr (x 0)) as S0. pose proof (Rle_0_sqr (x 1)) as S1. pose proof (Rle_0_sqr (x 2)) as S2. unfold Rsqr in *. destruct (three_cases i Hi) as [-> | [-> | ->]]; pose proof (Rsqr_pos_lt _ Nx) as Q; unfold Rsqr in Q; nra.
Qed.
(* ---- the inner product for tensor mobilities ---- *)
Section Cells.
Context (orth : mat -> mat) (g : list hcell) (geo : Z -> mcell) (Kc : Z -> mat) (phs : Z -> cell_phases) (ip : hip).
Context (HG : geometry 3 g geo) (HT : tensor_cells orth g geo Kc phs ip) (HM : forall k, 0 <= k < zlen g -> mobile (phs k)).
Lemma lamK_diag k : 0 <= k < zlen g -> diagonal_positive (lamK phs Kc k).
Proof. intros Hk. destruct (HT k Hk) as (_ & D & _). destruct (HM k Hk) as (_ & M). apply diag_diag; assumption. Qed.
Lemma cell_matrix k : 0 <= k < zlen g -> exists q, qr_factor (zlen (mc_faces (geo k))) 3 (fun i j => area (geo k) i * offset (geo k) i j)%R q /\
  holds (ip_binv ip (idx g k)) FOrd (nfaces g k) (nfaces g k) (inverse_ip 3 (geo k) (lamK phs Kc k) q) /\ ip_gflux ip (idx g k) = zrepeat 0%R (nfaces g k).
Proof.
  intros Hk. destruct HG as (G & _). destruct (G k Hk) as (Wf & Cl & L & _). destruct (HT k Hk) as (SK & DK & La & w & Hw & Er). destruct (HM k Hk) as (Sh & _). rewrite <- L in *.
  destruct (aniso_run_ok 3 orth (geo k) (Kc k) [0; 0; 0]%R (phs k) w Wf La SK eq_refl Sh Hw) as (q & B & gf & E & Q & HB & Lg & Gg). rewrite Er in E. injection E as <- <-. exists q. split; [exact Q|]. split; [exact HB|].
  apply zlist_ext; [rewrite zlen_zrepeat by apply zlen_nonneg; exact Lg|]. intros i Hi. rewrite Lg in Hi. rewrite zget_nthR by lia. rewrite zget_zrepeat by lia. f_equal. rewrite (Gg i Hi).
  assert (Z0 : forall j, 0 <= j < 3 -> nthR [0; 0; 0]%R j = 0%R) by (intros j Hj; destruct (three_cases j Hj) as [-> | [-> | ->]]; reflexivity).
  unfold dot, mvec. rewrite !Sum3. rewrite !Z0 by lia. ring.
Qed.
Lemma tensor_mimetic : flow_matrices g ip /\ permeability g geo ip (lamK phs Kc).
Proof.
  assert (T2 : forall k, 0 <= k < zlen g -> 2 <= nfaces g k).
  { intros k Hk. destruct HG as (G & _). destruct (G k Hk) as ((D0 & _ & V & _) & Cl & L & S0). pose proof (Cl 0 0 ltac:(lia) ltac:(lia)) as C. rewrite L in C. specialize (S0 0 ltac:(lia)). unfold ident in C. cbn [Z.eqb] in C.
    assert (0 <= nfaces g k) by apply zlen_nonneg. destruct (Z.eq_dec (nfaces g k) 0) as [E|]; [exfalso; rewrite E in C; change (Sum 0 _) with 0%R in C; lra|]. destruct (Z.eq_dec (nfaces g k) 1) as [E|]; [exfalso|lia].
    rewrite E in *. rewrite Sum_1 in C. rewrite Sum_1 in S0. rewrite S0 in C. lra. }
  split.
  - split; [|intros k Hk; destruct (cell_matrix k Hk) as (q & _ & _ & E); exact E]. intros k Hk. split; [exact (T2 k Hk)|]. destruct (cell_matrix k Hk) as (q & Q & HB & _). pose proof (holds_entry _ _ _ _ _ HB) as E. pose proof (lamK_diag k Hk) as D. destruct HG as (G & _). destruct (G k Hk) as (Wf & Cl & L & _). rewrite <- L in *. split.
    + intros i j Hi Hj. unfold Bk. rewrite !E by assumption. apply (inv_ip_sym 3 (geo k) (lamK phs Kc k) q (diag_sym _ D) i j Hi Hj).
    + intros x Hx. unfold Bk. rewrite (quad_ext _ _ _ x E). apply (inv_ip_pd 3 (geo k) Wf (lamK phs Kc k) q Q Cl (diag_pd _ D) x Hx).
  - intros k Hk. pose proof (lamK_diag k Hk) as D. split; [exact (diag_sym _ D)|]. split; [exact (diag_pd _ D)|]. intros p0 a i Hi. destruct (cell_matrix k Hk) as (q & Q & HB & _). pose proof (holds_entry _ _ _ _ _ HB) as E. destruct HG as (G & _). destruct (G k Hk) as (Wf & Cl & L & _). rewrite <- L in *.
    unfold Bk. rewrite (mvec_mat _ _ (inverse_ip 3 (geo k) (lamK phs Kc k) q)) by (intros j Hj; apply E; assumption). rewrite (mvec_ext _ _ _ (fun j => - mvec 3 (offset (geo k)) a j)%R) by (intros; apply pressure_drop_offset).
    rewrite mvec_opp_x. pose proof (inv_ip_exact 3 (geo k) Wf (lamK phs Kc k) q Q a i Cl Hi) as EX. rewrite EX. unfold darcy_flux, dot, mvec. ring.
Qed.
End Cells.
Lemma tensor_order orth g geo Kc phs phs' ip ip' c : geometry 3 g geo -> tensor_cells orth g geo Kc phs ip -> tensor_cells orth g geo Kc phs' ip' -> (forall k, 0 <= k < zlen g -> mobile (phs k)) -> (forall k, 0 <= k < zlen g -> mobile (phs' k)) ->
  (forall k d, 0 <= k < zlen g -> 0 <= d < 3 -> (mob_total (phs k) d d <= c * mob_total (phs' k) d d)%R) -> matrices_below g c ip ip'.
Proof.
  intros HG T T' M M' O k x Hk. pose proof HG as (G & _). destruct (G k Hk) as (Wf & Cl & L & _).
  destruct (cell_matrix orth g geo Kc phs ip HG T M k Hk) as (q & Q & HB & _). destruct (cell_matrix orth g geo Kc phs' ip' HG T' M' k Hk) as (q' & Q' & HB' & _). rewrite <- L in *. unfold Bk. rewrite (quad_ext _ _ _ x (holds_entry _ _ _ _ _ HB)), (quad_ext _ _ _ x (holds_entry _ _ _ _ _ HB')).
  pose proof (form_order 3 (geo k) (lamK phs Kc k) (lamK phs' Kc k) q q' 1 c x Wf Cl Q Q') as F. rewrite Rmult_1_l in F. apply F. intros y. rewrite Rmult_1_l.
  rewrite (diag_quad _ y (lamK_diag orth g geo Kc phs ip T M k Hk)), (diag_quad _ y (lamK_diag orth g geo Kc phs' ip' T' M' k Hk)).
  destruct (T k Hk) as (_ & DK & _). destruct (M k Hk) as (_ & DM). destruct (M' k Hk) as (_ & DM').
  assert (E : forall d, 0 <= d < 3 -> (lamK phs Kc k d d * (y d * y d) <= c * (lamK phs' Kc k d d * (y d * y d)))%R).
  { intros d Hd. unfold lamK. rewrite !diag_mul by assumption. rewrite Z.eqb_refl. pose proof (diag_pos _ d DK Hd) as Kp. pose proof (Rle_0_sqr (y d)) as Yp. unfold Rsqr in Yp. specialize (O k d Hk Hd).
    replace (c * (mob_total (phs' k) d d * entry (Kc k) d d * (y d * y d)))%R with ((c * mob_total (phs' k) d d) * (entry (Kc k) d d * (y d * y d)))%R by ring. rewrite Rmult_assoc. apply Rmult_le_compat_r; [apply Rmult_le_pos; lra|exact O]. }
  pose proof (E 0 ltac:(lia)). pose proof (E 1 ltac:(lia)). pose proof (E 2 ltac:(lia)). lra.
Qed.
