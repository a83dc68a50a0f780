From Verif Require Import BaseFacts RBaseFacts Lin_Facts Steady_Proofs Steady_Proofs2 Euler_Proofs2 Matx_Proofs Matx_Proofs3 Mim_Proofs2 Tens_Proofs5 Tens_Proofs6 Tens_Proofs7 Rpc_Proofs Rpc_Proofs3 Ssk_Spec Ssk_Proofs.
Open Scope Z_scope.

Definition mob_of (fl : fluids) (ph : Z) (sat : list R) (c : Z) : R := (kr_in fl ph sat c / fl_mu fl ph)%R.
Definition limited_to (fl : fluids) (ph : Z) (sat : list R) (n : Z) (ms : list R) (M : R) : Prop :=
  zlen ms = n /\ (0 <= M)%R /\ (M = 0%R \/ exists c, 0 <= c < n /\ M = mob_of fl ph sat c) /\ (forall c, 0 <= c < n -> (mob_of fl ph sat c <= M)%R) /\
  forall c, 0 <= c < n -> nthR ms c = Rmax (mob_of fl ph sat c) (Rmax (fl_thr fl / fl_mu fl ph) (M / fl_contrast fl)).
Lemma phase_case ph : 0 <= ph < 2 -> ph = 0 \/ ph = 1.
Proof. lia. Qed.
Lemma mu_pos fl ph : fluids_ok fl -> 0 <= ph < 2 -> (0 < fl_mu fl ph)%R.
Proof. intros (A & B & _) Hp. destruct (phase_case ph Hp) as [-> | ->]; assumption. Qed.
Lemma limited_pos fl ph sat n ms M : fluids_ok fl -> 0 <= ph < 2 -> limited_to fl ph sat n ms M -> Forall (fun x => 0 < x)%R ms.
Proof.
  intros FO Hp (L & M0 & _ & _ & V). pose proof (mu_pos fl ph FO Hp) as P. destruct FO as (_ & _ & T & _). apply Forall_forall. intros x Hx. apply In_zget in Hx. destruct Hx as (i & Hi & Ex).
  rewrite L in Hi. specialize (V i Hi). unfold nthR in V. rewrite Ex in V. rewrite V.
  eapply Rlt_le_trans; [|apply Rmax_r]. eapply Rlt_le_trans; [|apply Rmax_l]. apply Rdiv_lt_0_compat; assumption.
Qed.
Lemma ones_at n i : 0 <= i < n -> nthR (zrepeat tracer_total n) i = 1%R.
Proof. intros Hi. unfold nthR. rewrite zget_zrepeat by lia. unfold tracer_total. apply tracer_one. Qed.
Lemma ones_pos n : Forall (fun x => 0 < x)%R (zrepeat tracer_total n).
Proof. apply Forall_forall. intros x Hx. apply repeat_spec in Hx. subst x. unfold tracer_total. rewrite tracer_one. lra. Qed.

(* what a calculation computes *)
Definition computed (u : ssups) (low hi : Z -> R) (fl : fluids) (sat : list R) (ph : Z) (K kr : Z -> Z -> R) (mK eff : mat) (ms : list R) (M : R) : Prop :=
  K = entry mK /\ made u low hi (zrepeat tracer_total (zlen (su_g u))) mK /\ made u low hi ms eff /\ limited_to fl ph sat (zlen (su_g u)) ms M /\
  exists q, (forall i j, 0 <= i < 3 -> 0 <= j < 3 -> mmul 3 q K i j = ident i j /\ mmul 3 K q i j = ident i j) /\
    forall i j, 0 <= i < 3 -> 0 <= j < 3 -> kr i j = (mmul 3 (entry eff) q i j * fl_mu fl ph)%R.
Lemma phase_out orth u Kc low hi fl sat ph ones mK q mi st m st' kr : steady_ok orth u Kc low hi -> su_bct u = 0 \/ su_bct u = 2 -> fluids_ok fl -> zlen sat = zlen (su_g u) -> 0 <= ph < 2 -> ones = zrepeat tracer_total (zlen (su_g u)) -> made u low hi ones mK ->
  inverse3x3 mK = Ok mi -> holds mi COrd 3 3 q -> (forall i j, 0 <= i < 3 -> 0 <= j < 3 -> mmul 3 q (entry mK) i j = ident i j /\ mmul 3 (entry mK) q i j = ident i j) ->
  forall ms, limited_mobilities fl ph sat (zlen (su_g u)) = Ok ms -> fixed_tensor u ms st = Ok (m, st') -> relperm_tensor m mK (fl_mu fl ph) = Ok kr -> exists eff ms M, computed u low hi fl sat ph (entry mK) (entry kr) mK eff ms M.
Proof.
  intros UO Hb FO Ls Hp Eo MK Ei Hi Iq ms El Ef Ek. destruct (limited_ok fl ph sat (zlen (su_g u)) FO Hp Ls) as (ms' & M & El' & LL). rewrite El in El'. injection El' as <-. unfold fixed_tensor in Ef. rewrite fixed_totals_ok in Ef. cbn [bind] in Ef.
  assert (LT : limited_to fl ph sat (zlen (su_g u)) ms M) by exact LL. pose proof (limited_pos _ _ _ _ _ _ FO Hp LT) as Pm. pose proof LT as (Lm & _). pose proof (total_made orth u Kc low hi UO ms st m st' Hb Lm Pm Ef) as Mm.
  exists m, ms, M. split; [reflexivity|]. split; [rewrite <- Eo; exact MK|]. split; [exact Mm|]. split; [exact LT|]. exists q. split; [exact Iq|]. intros i j Hi' Hj. unfold relperm_tensor in Ek. rewrite Ei in Ek. cbn [bind] in Ek. pose proof Mm as (_ & _ & Sm & _).
  destruct (matprod_ok m mi COrd COrd 3 3 3 (entry m) q Sm Hi) as (l & El2 & Hl). rewrite El2 in Ek. cbn [bind] in Ek. injection Ek as <-. pose proof (scale_ok l COrd 3 3 _ (fl_mu fl ph) Hl) as Hs. rewrite (holds_entry _ _ _ _ _ Hs) by assumption. reflexivity.
Qed.
Lemma steady_out orth u Kc low hi fl bct sat ph K kr : bct = 0 \/ bct = 2 -> steady_kr orth u Kc low hi fl bct sat ph K kr ->
  exists mK eff ms M, steady_ok orth u Kc low hi /\ fluids_ok fl /\ su_bct u = bct /\ 0 <= ph < 2 /\ computed u low hi fl sat ph K kr mK eff ms M.
Proof.
  intros Hb (st & st' & st1 & st2 & mK & mw & mo & UO & FO & Eb & Ls & Hp & ES & ER & -> & ->). rewrite <- Eb in Hb.
  pose proof (total_made orth u Kc low hi UO _ st mK st' Hb ltac:(apply zlen_zrepeat, zlen_nonneg) (ones_pos _) ES) as MK.
  destruct (made_invertible u low hi _ mK Hb MK) as (mi & q & Ei & Hq & Iq).
  unfold steady_relperms in ER. cbv zeta in ER. destruct (limited_mobilities fl 0 sat _) as [m1| |] eqn:E1; try discriminate. cbn [bind] in ER. destruct (limited_mobilities fl 1 sat _) as [m2| |] eqn:E2; try discriminate. cbn [bind] in ER.
  destruct (fixed_tensor u m1 st1) as [[w sw]| |] eqn:Ew; try discriminate. cbn [bind fst snd] in ER. destruct (fixed_tensor u m2 sw) as [[o so]| |] eqn:Eo; try discriminate. cbn [bind fst snd] in ER.
  destruct (relperm_tensor w mK _) as [kw| |] eqn:Ekw; try discriminate. cbn [bind] in ER. destruct (relperm_tensor o mK _) as [ko| |] eqn:Eko; try discriminate. cbn [bind] in ER. injection ER as <- <- _.
  exists mK. destruct (phase_case ph Hp) as [-> | ->]; cbn [Z.eqb Pos.eqb].
  - destruct (phase_out _ _ _ _ _ _ _ _ _ _ _ _ _ _ _ _ UO Hb FO Ls Hp eq_refl MK Ei Hq Iq _ E1 Ew Ekw) as (eff & ms & M & C). exists eff, ms, M. auto.
  - destruct (phase_out _ _ _ _ _ _ _ _ _ _ _ _ _ _ _ _ UO Hb FO Ls Hp eq_refl MK Ei Hq Iq _ E2 Eo Eko) as (eff & ms & M & C). exists eff, ms, M. auto.
Qed.
Lemma recovered u low hi fl sat ph K kr mK eff ms M : computed u low hi fl sat ph K kr mK eff ms M -> forall i j, 0 <= i < 3 -> 0 <= j < 3 -> mmul 3 kr K i j = (fl_mu fl ph * entry eff i j)%R.
Proof.
  intros (_ & _ & _ & _ & q & Iq & V) i j Hi Hj. rewrite mm3, !V by lia. rewrite !mm3.
  transitivity (fl_mu fl ph * (entry eff i 0 * mmul 3 q K 0 j + entry eff i 1 * mmul 3 q K 1 j + entry eff i 2 * mmul 3 q K 2 j))%R; [rewrite !mm3; ring|]. rewrite !(fun a b Ha Hb => proj1 (Iq a b Ha Hb)) by lia. f_equal. unfold ident. destruct (three_cases j Hj) as [-> | [-> | ->]]; cbn [Z.eqb Pos.eqb]; ring.
Qed.
(* bounds on the mobilities *)
Lemma mob_upper fl ph sat n ms M b : fluids_ok fl -> 0 <= ph < 2 -> limited_to fl ph sat n ms M -> (fl_thr fl <= b)%R -> (forall c, 0 <= c < n -> (kr_in fl ph sat c <= b)%R) -> forall c, 0 <= c < n -> (nthR ms c <= b / fl_mu fl ph)%R.
Proof.
  intros FO Hp (L & M0 & Mx & _ & V) T U c Hc. pose proof (mu_pos fl ph FO Hp) as P. destruct FO as (_ & _ & Tp & Cn). assert (I : (0 < / fl_mu fl ph)%R) by (apply Rinv_0_lt_compat; exact P).
  assert (B : forall x, (x <= b)%R -> (x / fl_mu fl ph <= b / fl_mu fl ph)%R) by (intros x Hx; unfold Rdiv; apply Rmult_le_compat_r; lra).
  rewrite (V c Hc). apply Rmax_lub; [apply B, U, Hc|]. apply Rmax_lub; [apply B, T|]. assert (Mb : (M <= b / fl_mu fl ph)%R). { destruct Mx as [-> |(c' & Hc' & ->)]; [|apply B, U, Hc']. apply Rmult_le_pos; lra. }
  eapply Rle_trans; [|exact Mb]. apply (Rmult_le_reg_r (fl_contrast fl)); [lra|]. unfold Rdiv. rewrite Rmult_assoc, Rinv_l, Rmult_1_r by lra. rewrite <- (Rmult_1_r M) at 1. apply Rmult_le_compat_l; lra.
Qed.
Lemma mob_lower fl ph sat n ms M a : fluids_ok fl -> 0 <= ph < 2 -> limited_to fl ph sat n ms M -> ((a <= fl_thr fl)%R \/ forall c, 0 <= c < n -> (a <= kr_in fl ph sat c)%R) -> forall c, 0 <= c < n -> (a / fl_mu fl ph <= nthR ms c)%R.
Proof.
  intros FO Hp (L & M0 & Mx & _ & V) H c Hc. pose proof (mu_pos fl ph FO Hp) as P. assert (I : (0 < / fl_mu fl ph)%R) by (apply Rinv_0_lt_compat; exact P). rewrite (V c Hc).
  destruct H as [H|H]; [eapply Rle_trans; [|apply Rmax_r]; eapply Rle_trans; [|apply Rmax_l]|eapply Rle_trans; [|apply Rmax_l]; specialize (H c Hc); unfold mob_of]; unfold Rdiv; apply Rmult_le_compat_r; lra.
Qed.
Lemma mob_order fl ph sat sat' n ms M ms' M' : fluids_ok fl -> 0 <= ph < 2 -> limited_to fl ph sat n ms M -> limited_to fl ph sat' n ms' M' -> (forall c, 0 <= c < n -> (kr_in fl ph sat c <= kr_in fl ph sat' c)%R) -> forall c, 0 <= c < n -> (nthR ms c <= 1 * nthR ms' c)%R.
Proof.
  intros FO Hp (L & M0 & Mx & _ & V) (L' & M0' & _ & Mu' & V') H c Hc. pose proof (mu_pos fl ph FO Hp) as P. destruct FO as (_ & _ & Tp & Cn). assert (I : (0 < / fl_mu fl ph)%R) by (apply Rinv_0_lt_compat; exact P).
  assert (B : forall c, 0 <= c < n -> (mob_of fl ph sat c <= mob_of fl ph sat' c)%R) by (intros d Hd; unfold mob_of, Rdiv; apply Rmult_le_compat_r; [lra|]; apply H, Hd).
  rewrite (V c Hc), (V' c Hc), Rmult_1_l. assert (MM : (M <= M')%R) by (destruct Mx as [-> |(d & Hd & ->)]; [exact M0'|]; eapply Rle_trans; [apply B, Hd|apply Mu', Hd]).
  apply Rmax_lub; [eapply Rle_trans; [apply B, Hc|apply Rmax_l]|]. eapply Rle_trans; [|apply Rmax_r]. apply Rmax_lub; [apply Rmax_l|]. eapply Rle_trans; [|apply Rmax_r]. unfold Rdiv. apply Rmult_le_compat_r; [left; apply Rinv_0_lt_compat; lra|exact MM].
Qed.

(* ---- fixed conditions ---- *)
Lemma fixed_entry u low hi fl sat ph K kr mK eff ms M : su_bct u = 0 -> computed u low hi fl sat ph K kr mK eff ms M ->
  (forall i, 0 <= i < 3 -> (0 < K i i)%R /\ kr i i = (fl_mu fl ph * entry eff i i / K i i)%R) /\ forall i j, 0 <= i < 3 -> 0 <= j < 3 -> i <> j -> kr i j = 0%R.
Proof.
  intros Hb C. pose proof C as (EK & MK & ME & _ & q & Iq & V). pose proof (made_fixed u low hi _ mK Hb MK) as DK. pose proof (made_fixed u low hi _ eff Hb ME) as DE. rewrite <- EK in DK. pose proof (recovered _ _ _ _ _ _ _ _ _ _ _ _ C) as Rc.
  assert (Off : forall i j, 0 <= i < 3 -> 0 <= j < 3 -> i <> j -> K i j = 0%R /\ entry eff i j = 0%R) by (intros i j Hi Hj N; specialize (DK i j Hi Hj); specialize (DE i j Hi Hj); rewrite (proj2 (Z.eqb_neq i j) N) in *; auto).
  assert (Dg : forall i, 0 <= i < 3 -> (0 < K i i)%R) by (intros i Hi; specialize (DK i i Hi Hi); rewrite Z.eqb_refl in DK; exact DK).
  assert (Cl : forall i j, 0 <= i < 3 -> 0 <= j < 3 -> (kr i j * K j j)%R = (fl_mu fl ph * entry eff i j)%R).
  { intros i j Hi Hj. rewrite <- (Rc i j Hi Hj), mm3. destruct (three_cases j Hj) as [-> | [-> | ->]].
    - rewrite (proj1 (Off 1 0 ltac:(lia) ltac:(lia) ltac:(lia))), (proj1 (Off 2 0 ltac:(lia) ltac:(lia) ltac:(lia))). ring.
    - rewrite (proj1 (Off 0 1 ltac:(lia) ltac:(lia) ltac:(lia))), (proj1 (Off 2 1 ltac:(lia) ltac:(lia) ltac:(lia))). ring.
    - rewrite (proj1 (Off 0 2 ltac:(lia) ltac:(lia) ltac:(lia))), (proj1 (Off 1 2 ltac:(lia) ltac:(lia) ltac:(lia))). ring. }
  split.
  - intros i Hi. split; [exact (Dg i Hi)|]. rewrite <- (Cl i i Hi Hi). field. specialize (Dg i Hi). lra.
  - intros i j Hi Hj N. pose proof (Cl i j Hi Hj) as Q. rewrite (proj2 (Off i j Hi Hj N)), Rmult_0_r in Q. apply Rmult_integral in Q. specialize (Dg j Hj). destruct Q; [assumption|lra].
Qed.
Lemma fixed_bounds_kr orth u Kc low hi fl sat ph K kr : steady_kr orth u Kc low hi fl 0 sat ph K kr ->
  (forall i j, 0 <= i < 3 -> 0 <= j < 3 -> i <> j -> kr i j = 0%R) /\
  forall i, 0 <= i < 3 -> (fl_thr fl <= kr i i)%R /\
    (forall a, (forall c, cells_of u c -> (a <= kr_in fl ph sat c)%R) -> (a <= kr i i)%R) /\
    (forall b, (fl_thr fl <= b)%R -> (forall c, cells_of u c -> (kr_in fl ph sat c <= b)%R) -> (kr i i <= b)%R).
Proof.
  intros Hs. destruct (steady_out _ _ _ _ _ _ _ _ _ _ _ (or_introl eq_refl) Hs) as (mK & eff & ms & M & UO & FO & Hb & Hp & C). pose proof (mu_pos fl ph FO Hp) as P.
  destruct (fixed_entry _ _ _ _ _ _ _ _ _ _ _ _ Hb C) as (D & Off). split; [exact Off|]. intros i Hi. destruct (D i Hi) as (KP & ->). pose proof C as (EK & MK & ME & LT & _).
  assert (Low : forall a, ((a <= fl_thr fl)%R \/ forall c, cells_of u c -> (a <= kr_in fl ph sat c)%R) -> (a <= fl_mu fl ph * entry eff i i / K i i)%R).
  { intros a Ha. pose proof (made_fixed u low hi _ eff Hb ME i i Hi Hi) as Ep. rewrite Z.eqb_refl in Ep. assert (Pr : (0 < fl_mu fl ph * entry eff i i / K i i)%R) by (apply Rdiv_lt_0_compat; [apply Rmult_lt_0_compat; assumption|exact KP]). destruct (Rle_dec a 0) as [|N]; [lra|].
    pose proof (fixed_le orth u Kc low hi UO _ _ _ _ (fl_mu fl ph / a) i Hb MK ME) as Q. rewrite <- EK in Q. assert (Q' : (K i i <= fl_mu fl ph / a * entry eff i i)%R).
    { apply Q; [|exact Hi]. intros c Hc. rewrite ones_at by exact Hc. pose proof (mob_lower _ _ _ _ _ _ a FO Hp LT Ha c Hc) as W. apply (Rmult_le_compat_l (fl_mu fl ph / a)) in W; [|left; apply Rdiv_lt_0_compat; lra]. replace (fl_mu fl ph / a * (a / fl_mu fl ph))%R with 1%R in W by (field; lra). exact W. }
    apply (Rmult_le_reg_r (K i i)); [exact KP|]. replace (fl_mu fl ph * entry eff i i / K i i * K i i)%R with (fl_mu fl ph * entry eff i i)%R by (field; lra). apply (Rmult_le_compat_l a) in Q'; [|lra]. replace (a * (fl_mu fl ph / a * entry eff i i))%R with (fl_mu fl ph * entry eff i i)%R in Q' by (field; lra). exact Q'. }
  split; [apply Low; left; lra|]. split; [intros a Ha; apply Low; right; exact Ha|]. intros b T U.
  pose proof (fixed_le orth u Kc low hi UO _ _ _ _ (b / fl_mu fl ph) i Hb ME MK) as Q. rewrite <- EK in Q. assert (Q' : (entry eff i i <= b / fl_mu fl ph * K i i)%R).
  { apply Q; [|exact Hi]. intros c Hc. rewrite ones_at, Rmult_1_r by exact Hc. exact (mob_upper _ _ _ _ _ _ b FO Hp LT T U c Hc). }
  apply (Rmult_le_reg_r (K i i)); [exact KP|]. replace (fl_mu fl ph * entry eff i i / K i i * K i i)%R with (fl_mu fl ph * entry eff i i)%R by (field; lra). apply (Rmult_le_compat_l (fl_mu fl ph)) in Q'; [|lra]. replace (fl_mu fl ph * (b / fl_mu fl ph * K i i))%R with (b * K i i)%R in Q' by (field; lra). exact Q'.
Qed.
