From Verif Require Import BaseFacts RBaseFacts Lin_Facts Steady_Proofs Steady_Proofs2 Euler_Proofs2 Eld_Proofs2 Matx_Proofs Matx_Proofs3 Mim_Proofs Mim_Proofs2 Tens_Proofs5 Tens_Proofs6 Tens_Proofs7 Rpc_Proofs Rpc_Proofs3 Ssk_Proofs Ssk_Proofs2 Ssk_Proofs3 Ska_Spec Lin_Spec Tens_Spec Ska_Proofs Ska_Proofs2.
Open Scope Z_scope.

Section Ups.
Context (orth : mat -> mat) (u : asups) (Kc : Z -> mat) (low hi : Z -> R) (UO : tensor_block orth u Kc low hi).
Notation g := (au_g u). Notation geo := (au_geo u).
(* m is the tensor upscaled with total mobilities lam c d in cell c along axis d *)
Definition amade (lam : Z -> Z -> R) (m : mat) : Prop := shaped m COrd 3 3 /\
  exists phs cols, phases_are phs (zlen g) lam /\ upscaled_by (au_srt u) g geo (au_ip u phs) (au_bct u) false low hi cols /\ tensor_is cols (entry m).
Lemma mobile_at phs lam k : phases_are phs (zlen g) lam -> 0 <= k < zlen g -> mobile (nth (Z.to_nat (idx g k)) phs []).
Proof.
  intros (L & F & _) Hk. destruct UO as (_ & _ & (_ & CI & _) & _). specialize (CI k Hk). assert (B : 0 <= idx g k < zlen phs) by (rewrite L; exact CI). destruct (zget_in_range phs (idx g k) B) as (x & E). rewrite (nth_zget phs _ x [] (proj1 B) E). rewrite Forall_forall in F. apply F. apply zget_In in E. exact E.
Qed.
Lemma atotal_made phs lam st m st' : au_bct u = 0 \/ au_bct u = 2 -> phases_are phs (zlen g) lam -> aups_total u phs st = Ok (m, st') -> amade lam m.
Proof.
  intros Hb P E. unfold aups_total in E. destruct (flow_tensor _ _ _ _ _ _ _ _ _ _ _ _) as [s| |] eqn:Es; try discriminate. cbn [bind] in E. destruct (tensor_data (ts_cols s)) as [d| |] eqn:Ed; try discriminate. cbn [bind] in E. injection E as <- _.
  pose proof UO as (EX & EF & CF & HB). pose proof P as (L & F & _). destruct (HB phs L F) as (BK & RK). pose proof BK as (_ & _ & GEO & _). destruct (tensor_mimetic _ _ _ _ _ _ GEO RK (fun k Hk => mobile_at phs lam k P Hk)) as (FM & _).
  assert (U : upscaled_by (au_srt u) g geo (au_ip u phs) (au_bct u) false low hi (ts_cols s)) by (exists (au_K u), (au_ty u), (au_maxit u), (au_nf u), (fst st), (snd st), s; auto 10).
  assert (T : exists k, tensor_is (ts_cols s) k).
  { destruct Hb as [Hb|Hb]; rewrite Hb in U; [destruct (fixed_diagonal _ _ _ _ _ _ _ _ U) as (k & Tk & _)|destruct (periodic_symmetric _ _ _ _ _ _ _ _ U) as (k & Tk & _)]; eauto. }
  destruct (data_ok _ _ Ed T) as (L9 & Td). split; [apply shaped_3; first [reflexivity|exact L9]|]. exists phs, (ts_cols s). split; [exact P|]. split; [exact U|]. apply (tensor_ext _ _ _ Td). intros i j _ _. symmetry. apply entry_data.
Qed.
Lemma aorder phs phs' lam lam' c : phases_are phs (zlen g) lam -> phases_are phs' (zlen g) lam' -> (forall k d, 0 <= k < zlen g -> 0 <= d < 3 -> (lam k d <= c * lam' k d)%R) -> matrices_below g c (au_ip u phs) (au_ip u phs').
Proof.
  intros P P' H. pose proof UO as (_ & _ & CF & HB). pose proof P as (L & F & V). pose proof P' as (L' & F' & V'). destruct (HB phs L F) as (BK & RK). destruct (HB phs' L' F') as (_ & RK'). pose proof BK as (_ & _ & GEO & _).
  apply (tensor_order orth g geo Kc _ _ _ _ c GEO RK RK' (fun k Hk => mobile_at phs lam k P Hk) (fun k Hk => mobile_at phs' lam' k P' Hk)). intros k d Hk Hd. destruct CF as (_ & CI & _). specialize (CI k Hk). rewrite V, V' by assumption. apply H; assumption.
Qed.
Lemma amade_fixed lam m : au_bct u = 0 -> amade lam m -> forall i j, 0 <= i < 3 -> 0 <= j < 3 -> if i =? j then (0 < entry m i j)%R else entry m i j = 0%R.
Proof.
  intros Hb (_ & phs & cols & _ & U & T) i j Hi Hj. rewrite Hb in U. destruct (fixed_diagonal _ _ _ _ _ _ _ _ U) as (k & Tk & Dk). rewrite (tensor_uniq _ _ _ T Tk i j Hi Hj). exact (Dk i j Hi Hj).
Qed.
Lemma amade_periodic lam m : au_bct u = 2 -> amade lam m -> symmetric 3 (entry m) /\ positive_form 3 (entry m).
Proof.
  intros Hb (_ & phs & cols & _ & U & T). rewrite Hb in U. split; [|exact (periodic_positive _ _ _ _ _ _ _ _ U _ T eq_refl)]. destruct (periodic_symmetric _ _ _ _ _ _ _ _ U) as (k & Tk & Sy). intros i j Hi Hj. rewrite !(tensor_uniq _ _ _ T Tk) by assumption. apply Sy; assumption.
Qed.
Lemma afixed_le lam lam' m m' c i : au_bct u = 0 -> amade lam m -> amade lam' m' -> (forall k d, 0 <= k < zlen g -> 0 <= d < 3 -> (lam k d <= c * lam' k d)%R) -> 0 <= i < 3 -> (entry m i i <= c * entry m' i i)%R.
Proof.
  intros Hb (_ & phs & cols & P & U & T) (_ & phs' & cols' & P' & U' & T') H Hi. rewrite Hb in U, U'. exact (fixed_monotone _ _ _ _ _ _ _ _ _ _ c _ _ i U U' (aorder _ _ _ _ c P P' H) T T' Hi).
Qed.
Lemma aperiodic_le lam lam' m m' c x : au_bct u = 2 -> amade lam m -> amade lam' m' -> (forall k d, 0 <= k < zlen g -> 0 <= d < 3 -> (lam k d <= c * lam' k d)%R) -> (quad 3 (entry m) x <= c * quad 3 (entry m') x)%R.
Proof.
  intros Hb (_ & phs & cols & P & U & T) (_ & phs' & cols' & P' & U' & T') H. rewrite Hb in U, U'. exact (periodic_monotone _ _ _ _ _ _ _ _ _ _ c _ _ U U' (aorder _ _ _ _ c P P' H) T T' x).
Qed.
Lemma amade_invertible lam m : au_bct u = 0 \/ au_bct u = 2 -> amade lam m -> exists mi q, inverse3x3 m = Ok mi /\ holds mi COrd 3 3 q /\ forall i j, 0 <= i < 3 -> 0 <= j < 3 -> mmul 3 q (entry m) i j = ident i j /\ mmul 3 (entry m) q i j = ident i j.
Proof.
  intros Hb M. pose proof M as (Sh & _). destruct (inverse3_ok m COrd (entry m) Sh) as (I & _). assert (SP : symmetric 3 (entry m) /\ positive_form 3 (entry m)).
  { destruct Hb as [Hb|Hb]; [|exact (amade_periodic lam m Hb M)]. pose proof (amade_fixed lam m Hb M) as D. split; [exact (diag_sym _ D)|exact (diag_pd _ D)]. }
  destruct SP as (Sy & P). apply I; [apply pd_det; assumption|]. pose proof (P (fun i => if i =? 2 then 1 else 0)%R) as Q. rewrite quad3 in Q. cbn [Z.eqb Pos.eqb] in Q. assert (0 < entry m 2 2)%R; [|lra]. eapply Rlt_le_trans; [apply Q; exists 2; split; [lia|]; cbn; lra|]. lra.
Qed.
(* what a calculation computes *)
Definition acomputed (fl : afluids) (ph : Z) (kr : Z -> Z -> R) (K t : Z -> Z -> R) (mK eff : mat) (M : R) : Prop :=
  K = entry mK /\ amade (fun _ _ => 1%R) mK /\ amade (alim fl ph kr M) eff /\ (exists ms, alimited fl ph (zlen g) kr ms M) /\
  exists q, (forall i j, 0 <= i < 3 -> 0 <= j < 3 -> mmul 3 q K i j = ident i j /\ mmul 3 K q i j = ident i j) /\
    forall i j, 0 <= i < 3 -> 0 <= j < 3 -> t i j = (mmul 3 (entry eff) q i j * al_mu fl ph)%R.
Lemma aphase_out fl sat ph mK q mi st m st' t krf : au_bct u = 0 \/ au_bct u = 2 -> afluids_ok fl -> zlen sat = zlen g -> 0 <= ph < 2 -> relperms_of (al_fluid fl) ph (zlen g) krf -> amade (fun _ _ => 1%R) mK ->
  inverse3x3 mK = Ok mi -> holds mi COrd 3 3 q -> (forall i j, 0 <= i < 3 -> 0 <= j < 3 -> mmul 3 q (entry mK) i j = ident i j /\ mmul 3 (entry mK) q i j = ident i j) ->
  forall ms, limited_tensors fl ph sat (zlen g) = Ok ms -> afixed_tensor u ms st = Ok (m, st') -> relperm_tensor m mK (al_mu fl ph) = Ok t -> exists eff M, acomputed fl ph (fun c d => krf c d (nthR sat c)) (entry mK) (entry t) mK eff M.
Proof.
  intros Hb FO Ls Hp RO MK Ei Hq Iq ms El Ef Ek. destruct (alimited_ok fl ph sat (zlen g) krf FO Hp Ls RO) as (ms' & M & El' & LL). rewrite El in El'. injection El' as <-. destruct (fixed_phases fl ph (zlen g) _ ms M FO LL) as (phs & Ep & P). unfold afixed_tensor in Ef. rewrite Ep in Ef. cbn [bind] in Ef.
  pose proof (atotal_made phs _ st m st' Hb P Ef) as Mm. exists m, M. split; [reflexivity|]. split; [exact MK|]. split; [exact Mm|]. split; [exists ms; exact LL|]. exists q. split; [exact Iq|]. intros i j Hi Hj. unfold relperm_tensor in Ek. rewrite Ei in Ek. cbn [bind] in Ek. pose proof Mm as (Sm & _).
  destruct (matprod_ok m mi COrd COrd 3 3 3 (entry m) q Sm Hq) as (l & El2 & Hl). rewrite El2 in Ek. cbn [bind] in Ek. injection Ek as <-. pose proof (scale_ok l COrd 3 3 _ (al_mu fl ph) Hl) as Hs. rewrite (holds_entry _ _ _ _ _ Hs) by assumption. reflexivity.
Qed.
Lemma arecovered fl ph kr K t mK eff M : acomputed fl ph kr K t mK eff M -> forall i j, 0 <= i < 3 -> 0 <= j < 3 -> mmul 3 t K i j = (al_mu fl ph * entry eff i j)%R.
Proof.
  intros (_ & _ & _ & _ & q & Iq & V) i j Hi Hj. rewrite mmul3, !V by lia. rewrite !mmul3.
  transitivity (al_mu fl ph * (entry eff i 0%Z * mmul 3 q K 0 j + entry eff i 1%Z * mmul 3 q K 1 j + entry eff i 2%Z * mmul 3 q K 2 j))%R; [rewrite !mmul3; ring|]. rewrite !(fun a b Ha Hb => proj1 (Iq a b Ha Hb)) by lia. f_equal. unfold ident. destruct (three_cases j Hj) as [-> | [-> | ->]]; cbn [Z.eqb Pos.eqb]; ring.
Qed.
End Ups.
Lemma asteady_out orth u Kc low hi fl bct sat ph kr K t : bct = 0 \/ bct = 2 -> aniso_kr orth u Kc low hi fl bct sat ph kr K t ->
  exists kr' mK eff M, (forall c d, kr c d = kr' c d) /\ tensor_block orth u Kc low hi /\ afluids_ok fl /\ au_bct u = bct /\ 0 <= ph < 2 /\ acomputed u low hi fl ph kr' K t mK eff M.
Proof.
  intros Hb (st & st' & st1 & st2 & mK & mw & mo & krf & UO & FO & Eb & Ls & Hp & RO & Ekr & ES & ER & -> & ->). rewrite <- Eb in Hb. exists (fun c d => krf ph c d (nthR sat c)), mK.
  unfold asingle_tensor in ES. destruct (ones_phases (zlen (au_g u)) (zlen_nonneg _)) as (c1 & Ec1 & P1). rewrite Ec1 in ES. cbn [bind] in ES. pose proof (atotal_made orth u Kc low hi UO _ _ st mK st' Hb P1 ES) as MK.
  destruct (amade_invertible u low hi _ mK Hb MK) as (mi & q & Ei & Hq & Iq).
  unfold aniso_relperms in ER. cbv zeta in ER. destruct (limited_tensors fl 0 sat _) as [m1| |] eqn:E1; try discriminate. cbn [bind] in ER. destruct (limited_tensors fl 1 sat _) as [m2| |] eqn:E2; try discriminate. cbn [bind] in ER.
  destruct (afixed_tensor u m1 st1) as [[w sw]| |] eqn:Ew; try discriminate. cbn [bind fst snd] in ER. destruct (afixed_tensor u m2 sw) as [[o so]| |] eqn:Eo; try discriminate. cbn [bind fst snd] in ER.
  destruct (relperm_tensor w mK _) as [kw| |] eqn:Ekw; try discriminate. cbn [bind] in ER. destruct (relperm_tensor o mK _) as [ko| |] eqn:Eko; try discriminate. cbn [bind] in ER. injection ER as <- <- _.
  destruct (phase_case ph Hp) as [-> | ->]; cbn [Z.eqb Pos.eqb].
  - destruct (aphase_out orth u Kc low hi UO fl sat 0 mK q mi _ _ _ _ (krf 0) Hb FO Ls Hp (RO 0 Hp) MK Ei Hq Iq _ E1 Ew Ekw) as (eff & M & C). exists eff, M. auto 10.
  - destruct (aphase_out orth u Kc low hi UO fl sat 1 mK q mi _ _ _ _ (krf 1) Hb FO Ls Hp (RO 1 Hp) MK Ei Hq Iq _ E2 Eo Eko) as (eff & M & C). exists eff, M. auto 10.
Qed.
(* bounds on the mobilities *)
Lemma alim_upper fl ph n kr ms M b : afluids_ok fl -> alimited fl ph n kr ms M -> (al_thr fl <= b)%R -> (forall c d, 0 <= c < n -> 0 <= d < 3 -> (kr c d <= b)%R) -> forall c d, 0 <= c < n -> 0 <= d < 3 -> (alim fl ph kr M c d <= b / al_mu fl ph * 1)%R.
Proof.
  intros FO (L & M0 & Mx & _ & _) T U c d Hc Hd. pose proof (almu_pos fl ph FO) as P. destruct FO as (_ & _ & Tp & Cn). assert (I : (0 < / al_mu fl ph)%R) by (apply Rinv_0_lt_compat; exact P). rewrite Rmult_1_r.
  assert (B : forall x, (x <= b)%R -> (x / al_mu fl ph <= b / al_mu fl ph)%R) by (intros x Hx; unfold Rdiv; apply Rmult_le_compat_r; lra).
  unfold alim. apply Rmax_lub; [apply B, U; assumption|]. apply Rmax_lub; [apply B, T|]. assert (Mb : (M <= b / al_mu fl ph)%R). { destruct Mx as [-> |(c' & d' & Hc' & Hd' & ->)]; [|apply B, U; assumption]. apply Rmult_le_pos; lra. }
  eapply Rle_trans; [|exact Mb]. apply (Rmult_le_reg_r (al_contrast fl)); [lra|]. unfold Rdiv. rewrite Rmult_assoc, Rinv_l, Rmult_1_r by lra. rewrite <- (Rmult_1_r M) at 1. apply Rmult_le_compat_l; lra.
Qed.
Lemma alim_lower fl ph n kr M a : afluids_ok fl -> (0 < a)%R -> ((a <= al_thr fl)%R \/ forall c d, 0 <= c < n -> 0 <= d < 3 -> (a <= kr c d)%R) -> forall c d, 0 <= c < n -> 0 <= d < 3 -> (1 <= al_mu fl ph / a * alim fl ph kr M c d)%R.
Proof.
  intros FO A0 H c d Hc Hd. pose proof (almu_pos fl ph FO) as P. assert (I : (0 < / al_mu fl ph)%R) by (apply Rinv_0_lt_compat; exact P).
  assert (W : (a / al_mu fl ph <= alim fl ph kr M c d)%R). { unfold alim. destruct H as [H|H]; [eapply Rle_trans; [|apply Rmax_r]; eapply Rle_trans; [|apply Rmax_l]|eapply Rle_trans; [|apply Rmax_l]; specialize (H c d Hc Hd)]; unfold Rdiv; apply Rmult_le_compat_r; lra. }
  apply (Rmult_le_compat_l (al_mu fl ph / a)) in W; [|left; apply Rdiv_lt_0_compat; lra]. replace (al_mu fl ph / a * (a / al_mu fl ph))%R with 1%R in W by (field; lra). exact W.
Qed.
Lemma alim_order fl ph n kr kr' ms M ms' M' : afluids_ok fl -> alimited fl ph n kr ms M -> alimited fl ph n kr' ms' M' -> (forall c d, 0 <= c < n -> 0 <= d < 3 -> (kr c d <= kr' c d)%R) -> forall c d, 0 <= c < n -> 0 <= d < 3 -> (alim fl ph kr M c d <= 1 * alim fl ph kr' M' c d)%R.
Proof.
  intros FO (L & M0 & Mx & _ & _) (L' & M0' & _ & Mu' & _) H c d Hc Hd. pose proof (almu_pos fl ph FO) as P. destruct FO as (_ & _ & Tp & Cn). assert (I : (0 < / al_mu fl ph)%R) by (apply Rinv_0_lt_compat; exact P).
  assert (B : forall c d, 0 <= c < n -> 0 <= d < 3 -> (kr c d / al_mu fl ph <= kr' c d / al_mu fl ph)%R) by (intros e f He Hf; unfold Rdiv; apply Rmult_le_compat_r; [lra|]; apply H; assumption).
  rewrite Rmult_1_l. assert (MM : (M <= M')%R) by (destruct Mx as [-> |(e & f & He & Hf & ->)]; [exact M0'|]; eapply Rle_trans; [apply B; assumption|apply Mu'; assumption]).
  unfold alim. apply Rmax_lub; [eapply Rle_trans; [apply B; assumption|apply Rmax_l]|]. eapply Rle_trans; [|apply Rmax_r]. apply Rmax_lub; [apply Rmax_l|]. eapply Rle_trans; [|apply Rmax_r]. unfold Rdiv. apply Rmult_le_compat_r; [left; apply Rinv_0_lt_compat; lra|exact MM].
Qed.
(* ---- fixed conditions ---- *)
Lemma afixed_entry u low hi fl ph kr K t mK eff M : au_bct u = 0 -> acomputed u low hi fl ph kr K t mK eff M ->
  (forall i, 0 <= i < 3 -> (0 < K i i)%R /\ (0 < entry eff i i)%R /\ (t i i * K i i)%R = (al_mu fl ph * entry eff i i)%R) /\ forall i j, 0 <= i < 3 -> 0 <= j < 3 -> i <> j -> t i j = 0%R.
Proof.
  intros Hb C. pose proof C as (EK & MK & ME & _ & q & Iq & V). pose proof (amade_fixed u low hi _ mK Hb MK) as DK. pose proof (amade_fixed u low hi _ eff Hb ME) as DE. rewrite <- EK in DK. pose proof (arecovered _ _ _ _ _ _ _ _ _ _ _ C) as Rc.
  assert (Off : forall i j, 0 <= i < 3 -> 0 <= j < 3 -> i <> j -> K i j = 0%R /\ entry eff i j = 0%R) by (intros i j Hi Hj N; specialize (DK i j Hi Hj); specialize (DE i j Hi Hj); rewrite (proj2 (Z.eqb_neq i j) N) in *; auto).
  assert (Dg : forall i, 0 <= i < 3 -> (0 < K i i)%R) by (intros i Hi; specialize (DK i i Hi Hi); rewrite Z.eqb_refl in DK; exact DK).
  assert (Cl : forall i j, 0 <= i < 3 -> 0 <= j < 3 -> (t i j * K j j)%R = (al_mu fl ph * entry eff i j)%R).
  { intros i j Hi Hj. rewrite <- (Rc i j Hi Hj), mmul3. destruct (three_cases j Hj) as [-> | [-> | ->]].
    - rewrite (proj1 (Off 1 0 ltac:(lia) ltac:(lia) ltac:(lia))), (proj1 (Off 2 0 ltac:(lia) ltac:(lia) ltac:(lia))). ring.
    - rewrite (proj1 (Off 0 1 ltac:(lia) ltac:(lia) ltac:(lia))), (proj1 (Off 2 1 ltac:(lia) ltac:(lia) ltac:(lia))). ring.
    - rewrite (proj1 (Off 0 2 ltac:(lia) ltac:(lia) ltac:(lia))), (proj1 (Off 1 2 ltac:(lia) ltac:(lia) ltac:(lia))). ring. }
  split.
  - intros i Hi. split; [exact (Dg i Hi)|]. split; [specialize (DE i i Hi Hi); rewrite Z.eqb_refl in DE; exact DE|exact (Cl i i Hi Hi)].
  - intros i j Hi Hj N. pose proof (Cl i j Hi Hj) as Q. rewrite (proj2 (Off i j Hi Hj N)), Rmult_0_r in Q. apply Rmult_integral in Q. specialize (Dg j Hj). destruct Q; [assumption|lra].
Qed.
Lemma aniso_fixed_bounds orth u Kc low hi fl sat ph kr K t : aniso_kr orth u Kc low hi fl 0 sat ph kr K t ->
  (forall i j, 0 <= i < 3 -> 0 <= j < 3 -> i <> j -> t i j = 0%R) /\
  forall i, 0 <= i < 3 -> (al_thr fl <= t i i)%R /\
    (forall a, (forall c d, entries_of u c d -> (a <= kr c d)%R) -> (a <= t i i)%R) /\
    (forall b, (al_thr fl <= b)%R -> (forall c d, entries_of u c d -> (kr c d <= b)%R) -> (t i i <= b)%R).
Proof.
  intros Hs. destruct (asteady_out _ _ _ _ _ _ _ _ _ _ _ _ (or_introl eq_refl) Hs) as (kr' & mK & eff & M & Ekr & UO & FO & Hb & Hp & C). pose proof (almu_pos fl ph FO) as P.
  destruct (afixed_entry _ _ _ _ _ _ _ _ _ _ _ Hb C) as (D & Off). split; [exact Off|]. intros i Hi. destruct (D i Hi) as (KP & EP & TK). pose proof C as (EK & MK & ME & (ms & LT) & _).
  assert (Low : forall a, ((a <= al_thr fl)%R \/ forall c d, entries_of u c d -> (a <= kr c d)%R) -> (a <= t i i)%R).
  { intros a Ha. apply (Rmult_le_reg_r (K i i)); [exact KP|]. rewrite TK. pose proof (Rmult_lt_0_compat _ _ P EP) as PE. destruct (Rle_dec a 0) as [|N]; [apply (Rle_trans _ 0); [|lra]; rewrite <- (Rmult_0_l (K i i)); apply Rmult_le_compat_r; lra|].
    pose proof (afixed_le orth u Kc low hi UO _ _ _ _ (al_mu fl ph / a) i Hb MK ME) as Q. rewrite <- EK in Q. assert (Q' : (K i i <= al_mu fl ph / a * entry eff i i)%R).
    { apply Q; [|exact Hi]. apply (alim_lower fl ph (zlen (au_g u)) kr' M a FO ltac:(lra)). destruct Ha as [Ha|Ha]; [left; exact Ha|right; intros c d Hc Hd; rewrite <- Ekr; apply Ha; split; assumption]. }
    apply (Rmult_le_compat_l a) in Q'; [|lra]. replace (a * (al_mu fl ph / a * entry eff i i))%R with (al_mu fl ph * entry eff i i)%R in Q' by (field; lra). exact Q'. }
  split; [apply Low; left; lra|]. split; [intros a Ha; apply Low; right; exact Ha|]. intros b T U. apply (Rmult_le_reg_r (K i i)); [exact KP|]. rewrite TK.
  pose proof (afixed_le orth u Kc low hi UO _ _ _ _ (b / al_mu fl ph) i Hb ME MK) as Q. rewrite <- EK in Q. assert (Q' : (entry eff i i <= b / al_mu fl ph * K i i)%R).
  { apply Q; [|exact Hi]. apply (alim_upper fl ph (zlen (au_g u)) kr' ms M b FO LT T). intros c d Hc Hd. rewrite <- Ekr. apply U. split; assumption. }
  apply (Rmult_le_compat_l (al_mu fl ph)) in Q'; [|lra]. replace (al_mu fl ph * (b / al_mu fl ph * K i i))%R with (b * K i i)%R in Q' by (field; lra). exact Q'.
Qed.
(* ---- periodic conditions ---- *)
Lemma aniso_periodic_bounds orth u Kc low hi fl sat ph kr K t : aniso_kr orth u Kc low hi fl 2 sat ph kr K t ->
  symmetric 3 (mmul 3 t K) /\ positive_form 3 (mmul 3 t K) /\
  forall x, (al_thr fl * quad 3 K x <= quad 3 (mmul 3 t K) x)%R /\
    (forall a, (forall c d, entries_of u c d -> (a <= kr c d)%R) -> (a * quad 3 K x <= quad 3 (mmul 3 t K) x)%R) /\
    (forall b, (al_thr fl <= b)%R -> (forall c d, entries_of u c d -> (kr c d <= b)%R) -> (quad 3 (mmul 3 t K) x <= b * quad 3 K x)%R).
Proof.
  intros Hs. destruct (asteady_out _ _ _ _ _ _ _ _ _ _ _ _ (or_intror eq_refl) Hs) as (kr' & mK & eff & M & Ekr & UO & FO & Hb & Hp & C). pose proof (almu_pos fl ph FO) as P. pose proof (arecovered _ _ _ _ _ _ _ _ _ _ _ C) as Rc.
  pose proof C as (EK & MK & ME & (ms & LT) & _). destruct (amade_periodic u low hi _ _ Hb ME) as (SE & PE). destruct (amade_periodic u low hi _ _ Hb MK) as (_ & PK). rewrite <- EK in PK.
  assert (Q : forall x, quad 3 (mmul 3 t K) x = (al_mu fl ph * quad 3 (entry eff) x)%R) by (intros x; rewrite (Tens_Proofs6.quad_same _ _ x Rc); apply Ssk_Proofs3.quad_scale).
  split; [intros i j Hi Hj; rewrite !Rc by assumption; rewrite (SE i j Hi Hj); reflexivity|]. split; [intros x Hx; rewrite Q; apply Rmult_lt_0_compat; [exact P|apply PE, Hx]|]. intros x. rewrite Q. pose proof (positive_nonneg _ x PE) as NE. pose proof (positive_nonneg _ x PK) as NK.
  assert (Low : forall a, ((a <= al_thr fl)%R \/ forall c d, entries_of u c d -> (a <= kr c d)%R) -> (a * quad 3 K x <= al_mu fl ph * quad 3 (entry eff) x)%R).
  { intros a Ha. assert (NE' : (0 <= al_mu fl ph * quad 3 (entry eff) x)%R) by (apply Rmult_le_pos; lra). destruct (Rle_dec a 0) as [|N]; [apply (Rle_trans _ 0); [|exact NE']; rewrite <- (Rmult_0_l (quad 3 K x)); apply Rmult_le_compat_r; lra|].
    pose proof (aperiodic_le orth u Kc low hi UO _ _ _ _ (al_mu fl ph / a) x Hb MK ME) as W. rewrite <- EK in W. assert (W' : (quad 3 K x <= al_mu fl ph / a * quad 3 (entry eff) x)%R).
    { apply W. apply (alim_lower fl ph (zlen (au_g u)) kr' M a FO ltac:(lra)). destruct Ha as [Ha|Ha]; [left; exact Ha|right; intros c d Hc Hd; rewrite <- Ekr; apply Ha; split; assumption]. }
    apply (Rmult_le_compat_l a) in W'; [|lra]. replace (a * (al_mu fl ph / a * quad 3 (entry eff) x))%R with (al_mu fl ph * quad 3 (entry eff) x)%R in W' by (field; lra). exact W'. }
  split; [apply Low; left; lra|]. split; [intros a Ha; apply Low; right; exact Ha|]. intros b T U.
  pose proof (aperiodic_le orth u Kc low hi UO _ _ _ _ (b / al_mu fl ph) x Hb ME MK) as W. rewrite <- EK in W. assert (W' : (quad 3 (entry eff) x <= b / al_mu fl ph * quad 3 K x)%R).
  { apply W. apply (alim_upper fl ph (zlen (au_g u)) kr' ms M b FO LT T). intros c d Hc Hd. rewrite <- Ekr. apply U. split; assumption. }
  apply (Rmult_le_compat_l (al_mu fl ph)) in W'; [|lra]. replace (al_mu fl ph * (b / al_mu fl ph * quad 3 K x))%R with (b * quad 3 K x)%R in W' by (field; lra). exact W'.
Qed.
(* ---- order ---- *)
Lemma aniso_fixed_order orth u Kc low hi fl sat sat' ph kr kr' K t t' i : aniso_kr orth u Kc low hi fl 0 sat ph kr K t -> aniso_kr orth u Kc low hi fl 0 sat' ph kr' K t' ->
  (forall c d, entries_of u c d -> (kr c d <= kr' c d)%R) -> 0 <= i < 3 -> (t i i <= t' i i)%R.
Proof.
  intros H1 H2 L Hi. destruct (asteady_out _ _ _ _ _ _ _ _ _ _ _ _ (or_introl eq_refl) H1) as (k1 & mK & eff & M & E1 & UO & FO & Hb & Hp & C). destruct (asteady_out _ _ _ _ _ _ _ _ _ _ _ _ (or_introl eq_refl) H2) as (k2 & mK' & eff' & M' & E2 & _ & _ & _ & _ & C').
  pose proof (almu_pos fl ph FO) as P. destruct (proj1 (afixed_entry _ _ _ _ _ _ _ _ _ _ _ Hb C) i Hi) as (KP & _ & T1). destruct (proj1 (afixed_entry _ _ _ _ _ _ _ _ _ _ _ Hb C') i Hi) as (_ & _ & T2). destruct C as (_ & _ & ME & (ms & LT) & _). destruct C' as (_ & _ & ME' & (ms' & LT') & _).
  apply (Rmult_le_reg_r (K i i)); [exact KP|]. rewrite T1, T2. apply Rmult_le_compat_l; [lra|]. rewrite <- (Rmult_1_l (entry eff' i i)). apply (afixed_le orth u Kc low hi UO _ _ _ _ 1 i Hb ME ME'); [|exact Hi]. apply (alim_order fl ph (zlen (au_g u)) k1 k2 ms M ms' M' FO LT LT'). intros c d Hc Hd. rewrite <- E1, <- E2. apply L. split; assumption.
Qed.
Lemma aniso_periodic_order orth u Kc low hi fl sat sat' ph kr kr' K t t' x : aniso_kr orth u Kc low hi fl 2 sat ph kr K t -> aniso_kr orth u Kc low hi fl 2 sat' ph kr' K t' ->
  (forall c d, entries_of u c d -> (kr c d <= kr' c d)%R) -> (quad 3 (mmul 3 t K) x <= quad 3 (mmul 3 t' K) x)%R.
Proof.
  intros H1 H2 L. destruct (asteady_out _ _ _ _ _ _ _ _ _ _ _ _ (or_intror eq_refl) H1) as (k1 & mK & eff & M & E1 & UO & FO & Hb & Hp & C). destruct (asteady_out _ _ _ _ _ _ _ _ _ _ _ _ (or_intror eq_refl) H2) as (k2 & mK' & eff' & M' & E2 & _ & _ & _ & _ & C').
  pose proof (almu_pos fl ph FO) as P. rewrite (Tens_Proofs6.quad_same _ _ x (arecovered _ _ _ _ _ _ _ _ _ _ _ C)), (Tens_Proofs6.quad_same _ _ x (arecovered _ _ _ _ _ _ _ _ _ _ _ C')), !Ssk_Proofs3.quad_scale. destruct C as (_ & _ & ME & (ms & LT) & _). destruct C' as (_ & _ & ME' & (ms' & LT') & _).
  apply Rmult_le_compat_l; [lra|]. rewrite <- (Rmult_1_l (quad 3 (entry eff') x)). apply (aperiodic_le orth u Kc low hi UO _ _ _ _ 1 x Hb ME ME'). apply (alim_order fl ph (zlen (au_g u)) k1 k2 ms M ms' M' FO LT LT'). intros c d Hc Hd. rewrite <- E1, <- E2. apply L. split; assumption.
Qed.
