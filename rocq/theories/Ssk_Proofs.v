From Verif Require Import BaseFacts RBaseFacts Lin_Facts Steady_Proofs Steady_Proofs2 Euler_Proofs2 Matx_Proofs Matx_Proofs3 Mim_Proofs2 Tens_Proofs5 Tens_Proofs6 Tens_Proofs7 Rpc_Proofs Rpc_Proofs3 Ssk_Spec.
Open Scope Z_scope.

Lemma entry_data d i j : entry (mkMat 3 3 COrd d) i j = Visc_Spec.tensor_of d i j.
Proof. unfold entry, Visc_Spec.tensor_of. cbn [m_data m_ord m_cols]. f_equal. lia. Qed.
Lemma tensor_ext cols k k' : tensor_is cols k -> (forall i j, 0 <= i < 3 -> 0 <= j < 3 -> k i j = k' i j) -> tensor_is cols k'.
Proof. intros (L & H) E. split; [exact L|]. intros j Hj. destruct (H j Hj) as (col & A & B & C). exists col. split; [exact A|]. split; [exact B|]. intros i Hi. rewrite <- (E i j Hi Hj). apply C, Hi. Qed.

Section Ups.
Context (orth : mat -> mat) (u : ssups) (Kc : Z -> mat) (low hi : Z -> R) (UO : steady_ok orth u Kc low hi).
Notation g := (su_g u). Notation geo := (su_geo u).
(* m is the tensor upscaled with the total mobilities tot *)
Definition made (tot : list R) (m : mat) : Prop :=
  zlen tot = zlen g /\ Forall (fun x => 0 < x)%R tot /\ shaped m COrd 3 3 /\ exists cols, upscaled_by (su_srt u) g geo (su_ip u tot) (su_bct u) false low hi cols /\ tensor_is cols (entry m).
Lemma total_made tot st m st' : su_bct u = 0 \/ su_bct u = 2 -> zlen tot = zlen g -> Forall (fun x => 0 < x)%R tot -> upscale_total u tot st = Ok (m, st') -> made tot m.
Proof.
  intros Hb L P E. unfold upscale_total in E. destruct (flow_tensor _ _ _ _ _ _ _ _ _ _ _ _) as [s| |] eqn:Es; try discriminate. cbn [bind] in E. destruct (tensor_data (ts_cols s)) as [d| |] eqn:Ed; try discriminate. cbn [bind] in E. injection E as <- _.
  destruct UO as (EX & EF & CF & HB). destruct (HB tot L P) as (BK & RK). pose proof BK as (_ & _ & GEO & _). destruct (mimetic_cells _ _ _ _ _ _ GEO RK) as (FM & _).
  assert (U : upscaled_by (su_srt u) g geo (su_ip u tot) (su_bct u) false low hi (ts_cols s)) by (exists (su_K u), (su_ty u), (su_maxit u), (su_nf u), (fst st), (snd st), s; auto 10).
  assert (T : exists k, tensor_is (ts_cols s) k).
  { destruct Hb as [Hb|Hb]; rewrite Hb in U; [destruct (fixed_diagonal _ _ _ _ _ _ _ _ U) as (k & Tk & _)|destruct (periodic_symmetric _ _ _ _ _ _ _ _ U) as (k & Tk & _)]; eauto. }
  destruct (data_ok _ _ Ed T) as (L9 & Td). split; [exact L|]. split; [exact P|]. split.
  - apply shaped_3; [reflexivity..|exact L9].
  - exists (ts_cols s). split; [exact U|]. apply (tensor_ext _ _ _ Td). intros i j _ _. symmetry. apply entry_data.
Qed.
Lemma order_made tot tot' m m' c : made tot m -> made tot' m' -> (forall i, 0 <= i < zlen g -> (nthR tot i <= c * nthR tot' i)%R) -> matrices_below g c (su_ip u tot) (su_ip u tot').
Proof.
  intros (L & P & _) (L' & P' & _) H. destruct UO as (_ & _ & CF & HB). destruct (HB tot L P) as (BK & RK). destruct (HB tot' L' P') as (_ & RK'). pose proof BK as (_ & _ & GEO & _).
  apply (mimetic_order orth orth g geo Kc Kc _ _ _ _ c GEO RK RK'). intros k y Hk. cbv beta. destruct CF as (_ & CI & _). specialize (H (idx g k) (CI k Hk)).
  assert (Q : (0 <= quad 3 (entry (Kc k)) y)%R).
  { destruct (RK k Hk) as (_ & _ & PK & _). destruct (Req_dec (y 0) 0) as [Y0|]; [|left; apply PK; exists 0; split; [lia|assumption]]. destruct (Req_dec (y 1) 0) as [Y1|]; [|left; apply PK; exists 1; split; [lia|assumption]]. destruct (Req_dec (y 2) 0) as [Y2|]; [|left; apply PK; exists 2; split; [lia|assumption]]. rewrite quad3, Y0, Y1, Y2. lra. }
  rewrite <- Rmult_assoc. apply Rmult_le_compat_r; [exact Q|exact H].
Qed.
Lemma made_fixed tot m : su_bct u = 0 -> made tot m -> forall i j, 0 <= i < 3 -> 0 <= j < 3 -> if i =? j then (0 < entry m i j)%R else entry m i j = 0%R.
Proof.
  intros Hb (_ & _ & _ & cols & U & T) i j Hi Hj. rewrite Hb in U. destruct (fixed_diagonal _ _ _ _ _ _ _ _ U) as (k & Tk & Dk). rewrite (tensor_uniq _ _ _ T Tk i j Hi Hj). exact (Dk i j Hi Hj).
Qed.
Lemma made_periodic tot m : su_bct u = 2 -> made tot m -> symmetric 3 (entry m) /\ positive_form 3 (entry m).
Proof.
  intros Hb (_ & _ & _ & cols & U & T). rewrite Hb in U. split; [|exact (periodic_positive _ _ _ _ _ _ _ _ U _ T eq_refl)]. destruct (periodic_symmetric _ _ _ _ _ _ _ _ U) as (k & Tk & Sy). intros i j Hi Hj. rewrite !(tensor_uniq _ _ _ T Tk) by assumption. apply Sy; assumption.
Qed.
Lemma fixed_le tot tot' m m' c i : su_bct u = 0 -> made tot m -> made tot' m' -> (forall i, 0 <= i < zlen g -> (nthR tot i <= c * nthR tot' i)%R) -> 0 <= i < 3 -> (entry m i i <= c * entry m' i i)%R.
Proof.
  intros Hb A A' H Hi. pose proof (order_made _ _ _ _ c A A' H) as M. destruct A as (_ & _ & _ & cols & U & T). destruct A' as (_ & _ & _ & cols' & U' & T'). rewrite Hb in U, U'. exact (fixed_monotone _ _ _ _ _ _ _ _ _ _ c _ _ i U U' M T T' Hi).
Qed.
Lemma periodic_le tot tot' m m' c x : su_bct u = 2 -> made tot m -> made tot' m' -> (forall i, 0 <= i < zlen g -> (nthR tot i <= c * nthR tot' i)%R) -> (quad 3 (entry m) x <= c * quad 3 (entry m') x)%R.
Proof.
  intros Hb A A' H. pose proof (order_made _ _ _ _ c A A' H) as M. destruct A as (_ & _ & _ & cols & U & T). destruct A' as (_ & _ & _ & cols' & U' & T'). rewrite Hb in U, U'. exact (periodic_monotone _ _ _ _ _ _ _ _ _ _ c _ _ U U' M T T' x).
Qed.
Lemma made_invertible tot m : su_bct u = 0 \/ su_bct u = 2 -> made tot m -> exists mi q, inverse3x3 m = Ok mi /\ holds mi COrd 3 3 q /\ forall i j, 0 <= i < 3 -> 0 <= j < 3 -> mmul 3 q (entry m) i j = ident i j /\ mmul 3 (entry m) q i j = ident i j.
Proof.
  intros Hb M. pose proof M as (_ & _ & Sh & _). destruct (inverse3_ok m COrd (entry m) Sh) as (I & _). apply I.
  - destruct Hb as [Hb|Hb].
    + pose proof (made_fixed tot m Hb M) as D. pose proof (D 0 0 ltac:(lia) ltac:(lia)) as D0. pose proof (D 1 1 ltac:(lia) ltac:(lia)) as D1. pose proof (D 2 2 ltac:(lia) ltac:(lia)) as D2. pose proof (D 0 1 ltac:(lia) ltac:(lia)) as E1. pose proof (D 0 2 ltac:(lia) ltac:(lia)) as E2. pose proof (D 1 2 ltac:(lia) ltac:(lia)) as E3. cbn [Z.eqb Pos.eqb] in *. unfold det3. rewrite E1, E2, E3. assert (0 < entry m 0 0 * (entry m 1 1 * entry m 2 2))%R by (repeat apply Rmult_lt_0_compat; assumption). lra.
    + destruct (made_periodic tot m Hb M) as (Sy & P). apply pd_det; assumption.
  - destruct Hb as [Hb|Hb].
    + pose proof (made_fixed tot m Hb M 2 2 ltac:(lia) ltac:(lia)) as D. cbn [Z.eqb Pos.eqb] in D. lra.
    + destruct (made_periodic tot m Hb M) as (_ & P). pose proof (P (fun i => if i =? 2 then 1 else 0)%R) as Q. rewrite quad3 in Q. cbn [Z.eqb Pos.eqb] in Q. assert (0 < entry m 2 2)%R; [|lra]. eapply Rlt_le_trans; [apply Q; exists 2; split; [lia|]; cbn; lra|]. lra.
Qed.
End Ups.

(* ---- mobilities ---- *)
Lemma concat_single {A} (l : list A) : List.concat (map (fun x => [x]) l) = l.
Proof. induction l as [|a l IH]; cbn; [reflexivity|]. rewrite IH. reflexivity. Qed.
Lemma fixed_totals_ok mobs : fixed_totals mobs = Ok mobs.
Proof.
  unfold fixed_totals. assert (E : exists t, mapM (fun c => let* m := fixed_mobilities mobs c in Ok (Rsum m)) (zrange 0 (zlen mobs)) = Ok t).
  { apply mapM_exists. intros c Hc. apply In_zrange in Hc. unfold fixed_mobilities. destruct (zget_in_range mobs c ltac:(lia)) as (x & Ex). unfold rget. rewrite Ex. cbn [bind]. eauto. }
  destruct E as (t & E). rewrite E. f_equal. destruct (mapM_out _ _ _ E) as (L & G). rewrite zlen_zrange in L by apply zlen_nonneg. apply zlist_ext; [lia|]. intros i Hi. rewrite L in Hi. destruct (G i i) as (y & Ey & Gy); [rewrite zget_zrange by lia; f_equal; lia|]. rewrite Gy. unfold fixed_mobilities in Ey. destruct (zget_in_range mobs i ltac:(lia)) as (x & Ex). unfold rget in Ey. rewrite Ex in Ey. cbn [bind] in Ey. injection Ey as <-. rewrite Ex. unfold Rsum. cbn. f_equal. ring.
Qed.
(* the mobilities in terms of the relative permeabilities *)
Lemma limited_ok fl ph sat n : fluids_ok fl -> 0 <= ph < 2 -> zlen sat = n -> exists ms M, limited_mobilities fl ph sat n = Ok ms /\ zlen ms = n /\ (0 <= M)%R /\
  (M = 0%R \/ exists c, 0 <= c < n /\ M = (kr_in fl ph sat c / fl_mu fl ph)%R) /\ (forall c, 0 <= c < n -> (kr_in fl ph sat c / fl_mu fl ph <= M)%R) /\
  forall c, 0 <= c < n -> nthR ms c = Rmax (kr_in fl ph sat c / fl_mu fl ph) (Rmax (fl_thr fl / fl_mu fl ph) (M / fl_contrast fl)).
Proof.
  intros FO Hp L. unfold limited_mobilities. pose proof (zlen_nonneg sat) as N0.
  assert (E : mapM (fun c => let* s := rget sat c in Ok [fl_kr fl ph c s / fl_mu fl ph]%R) (zrange 0 n) = Ok (map (fun x => [x]) (map (fun c => kr_in fl ph sat c / fl_mu fl ph)%R (zrange 0 n)))).
  { rewrite map_map. apply mapM_all_Ok. intros c Hc. apply In_zrange in Hc. destruct (zget_in_range sat c ltac:(lia)) as (s & Es). unfold rget, kr_in, nthR. rewrite Es. reflexivity. }
  rewrite E. cbn [bind]. set (ks := map (fun c => kr_in fl ph sat c / fl_mu fl ph)%R (zrange 0 n)).
  assert (EF : forall l m, fold_left max_mobility (map (fun x => [x]) l) m = max_mobility m l) by (induction l as [|a l IH]; intros m; cbn [map fold_left]; [reflexivity|]; rewrite IH; reflexivity).
  unfold phase_mobilities. rewrite EF. set (M := max_mobility 0 ks). set (t := smax (fl_thr fl / fl_mu fl ph) (M / fl_contrast fl)).
  exists (map (fun x => smax x t) ks), M. split; [f_equal; rewrite map_map; cbn [threshold_mobility map]; rewrite <- (map_map (fun x => smax x t) (fun x => [x])); apply concat_single|].
  destruct (max_mob_spec ks 0) as (A & B & C). fold M in A, B, C. split; [unfold ks; rewrite !zlen_map, zlen_zrange by lia; lia|]. split; [exact B|]. split; [|split].
  - destruct C as [C|C]; [left; exact C|right]. unfold ks in C. apply in_map_iff in C. destruct C as (c & <- & Hc). apply In_zrange in Hc. eauto.
  - intros c Hc. apply A. unfold ks. apply in_map_iff. exists c. split; [reflexivity|]. apply In_zrange. lia.
  - intros c Hc. unfold nthR, ks. rewrite !zget_map, zget_zrange by lia. cbn [option_map]. replace (0 + c) with c by lia. unfold t. rewrite !smax_Rmax. reflexivity.
Qed.
