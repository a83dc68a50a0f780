From Verif Require Import BaseFacts RBaseFacts Lin_Facts Steady_Proofs Steady_Proofs2 Euler_Proofs2 Matx_Proofs Matx_Proofs3 Mim_Proofs2 Tens_Proofs5 Tens_Proofs6 Tens_Proofs7 Rpc_Proofs Rpc_Proofs3 Ssk_Spec Ssk_Proofs Ssk_Proofs2.
Open Scope Z_scope.

Lemma quad_scale c k x : quad 3 (fun i j => c * k i j)%R x = (c * quad 3 k x)%R.
Proof. rewrite !quad3. ring. Qed.
Lemma positive_nonneg k x : positive_form 3 k -> (0 <= quad 3 k x)%R.
Proof.
  intros P. destruct (Req_dec (x 0) 0) as [Y0|]; [|left; apply P; exists 0; split; [lia|assumption]]. destruct (Req_dec (x 1) 0) as [Y1|]; [|left; apply P; exists 1; split; [lia|assumption]]. destruct (Req_dec (x 2) 0) as [Y2|]; [|left; apply P; exists 2; split; [lia|assumption]]. rewrite quad3, Y0, Y1, Y2. lra.
Qed.
(* ---- periodic conditions ---- *)
Lemma periodic_bounds_kr orth u Kc low hi fl sat ph K kr : steady_kr orth u Kc low hi fl 2 sat ph K kr ->
  symmetric 3 (mmul 3 kr K) /\ positive_form 3 (mmul 3 kr K) /\
  forall x, (fl_thr fl * quad 3 K x <= quad 3 (mmul 3 kr K) x)%R /\
    (forall a, (forall c, cells_of u c -> (a <= kr_in fl ph sat c)%R) -> (a * quad 3 K x <= quad 3 (mmul 3 kr K) x)%R) /\
    (forall b, (fl_thr fl <= b)%R -> (forall c, cells_of u c -> (kr_in fl ph sat c <= b)%R) -> (quad 3 (mmul 3 kr K) x <= b * quad 3 K x)%R).
Proof.
  intros Hs. destruct (steady_out _ _ _ _ _ _ _ _ _ _ _ (or_intror eq_refl) Hs) as (mK & eff & ms & M & UO & FO & Hb & Hp & C). pose proof (mu_pos fl ph FO Hp) as P. pose proof (recovered _ _ _ _ _ _ _ _ _ _ _ _ C) as Rc.
  pose proof C as (EK & MK & ME & LT & _). destruct (made_periodic u low hi _ _ Hb ME) as (SE & PE). destruct (made_periodic u low hi _ _ Hb MK) as (_ & PK). rewrite <- EK in PK.
  assert (Q : forall x, quad 3 (mmul 3 kr K) x = (fl_mu fl ph * quad 3 (entry eff) x)%R) by (intros x; rewrite (quad_same _ _ x Rc); apply quad_scale).
  split; [intros i j Hi Hj; rewrite !Rc by assumption; rewrite (SE i j Hi Hj); reflexivity|]. split; [intros x Hx; rewrite Q; apply Rmult_lt_0_compat; [exact P|apply PE, Hx]|]. intros x. rewrite Q.
  assert (Low : forall a, ((a <= fl_thr fl)%R \/ forall c, cells_of u c -> (a <= kr_in fl ph sat c)%R) -> (a * quad 3 K x <= fl_mu fl ph * quad 3 (entry eff) x)%R).
  { intros a Ha. pose proof (positive_nonneg _ x PE) as E0. pose proof (positive_nonneg _ x PK) as K0. destruct (Rle_dec a 0) as [N|N]; [assert (0 <= fl_mu fl ph * quad 3 (entry eff) x)%R by (apply Rmult_le_pos; lra); assert (0 <= (- a) * quad 3 K x)%R by (apply Rmult_le_pos; lra); lra|].
    pose proof (periodic_le orth u Kc low hi UO _ _ _ _ (fl_mu fl ph / a) x Hb MK ME) as W. rewrite <- EK in W. assert (W' : (quad 3 K x <= fl_mu fl ph / a * quad 3 (entry eff) x)%R).
    { apply W. intros c Hc. rewrite ones_at by exact Hc. pose proof (mob_lower _ _ _ _ _ _ a FO Hp LT Ha c Hc) as V. apply (Rmult_le_compat_l (fl_mu fl ph / a)) in V; [|left; apply Rdiv_lt_0_compat; lra]. replace (fl_mu fl ph / a * (a / fl_mu fl ph))%R with 1%R in V by (field; lra). exact V. }
    apply (Rmult_le_compat_l a) in W'; [|lra]. replace (a * (fl_mu fl ph / a * quad 3 (entry eff) x))%R with (fl_mu fl ph * quad 3 (entry eff) x)%R in W' by (field; lra). exact W'. }
  split; [apply Low; left; lra|]. split; [intros a Ha; apply Low; right; exact Ha|]. intros b T U.
  pose proof (periodic_le orth u Kc low hi UO _ _ _ _ (b / fl_mu fl ph) x Hb ME MK) as W. rewrite <- EK in W. assert (W' : (quad 3 (entry eff) x <= b / fl_mu fl ph * quad 3 K x)%R).
  { apply W. intros c Hc. rewrite ones_at, Rmult_1_r by exact Hc. exact (mob_upper _ _ _ _ _ _ b FO Hp LT T U c Hc). }
  apply (Rmult_le_compat_l (fl_mu fl ph)) in W'; [|lra]. replace (fl_mu fl ph * (b / fl_mu fl ph * quad 3 K x))%R with (b * quad 3 K x)%R in W' by (field; lra). exact W'.
Qed.
(* ---- order ---- *)
Lemma fixed_order_kr orth u Kc low hi fl sat sat' ph K kr kr' i : steady_kr orth u Kc low hi fl 0 sat ph K kr -> steady_kr orth u Kc low hi fl 0 sat' ph K kr' ->
  (forall c, cells_of u c -> (kr_in fl ph sat c <= kr_in fl ph sat' c)%R) -> 0 <= i < 3 -> (kr i i <= kr' i i)%R.
Proof.
  intros H1 H2 L Hi. destruct (steady_out _ _ _ _ _ _ _ _ _ _ _ (or_introl eq_refl) H1) as (mK & eff & ms & M & UO & FO & Hb & Hp & C). destruct (steady_out _ _ _ _ _ _ _ _ _ _ _ (or_introl eq_refl) H2) as (mK' & eff' & ms' & M' & _ & _ & _ & _ & C').
  pose proof (mu_pos fl ph FO Hp) as P. destruct (proj1 (fixed_entry _ _ _ _ _ _ _ _ _ _ _ _ Hb C) i Hi) as (KP & ->). destruct (proj1 (fixed_entry _ _ _ _ _ _ _ _ _ _ _ _ Hb C') i Hi) as (_ & ->). destruct C as (_ & _ & ME & LT & _). destruct C' as (_ & _ & ME' & LT' & _).
  pose proof (fixed_le orth u Kc low hi UO _ _ _ _ 1 i Hb ME ME' (mob_order _ _ _ _ _ _ _ _ _ FO Hp LT LT' L) Hi) as Q. rewrite Rmult_1_l in Q. unfold Rdiv. apply Rmult_le_compat_r; [left; apply Rinv_0_lt_compat; exact KP|]. apply Rmult_le_compat_l; [lra|exact Q].
Qed.
Lemma periodic_order_kr orth u Kc low hi fl sat sat' ph K kr kr' x : steady_kr orth u Kc low hi fl 2 sat ph K kr -> steady_kr orth u Kc low hi fl 2 sat' ph K kr' ->
  (forall c, cells_of u c -> (kr_in fl ph sat c <= kr_in fl ph sat' c)%R) -> (quad 3 (mmul 3 kr K) x <= quad 3 (mmul 3 kr' K) x)%R.
Proof.
  intros H1 H2 L. destruct (steady_out _ _ _ _ _ _ _ _ _ _ _ (or_intror eq_refl) H1) as (mK & eff & ms & M & UO & FO & Hb & Hp & C). destruct (steady_out _ _ _ _ _ _ _ _ _ _ _ (or_intror eq_refl) H2) as (mK' & eff' & ms' & M' & _ & _ & _ & _ & C').
  pose proof (mu_pos fl ph FO Hp) as P. rewrite (quad_same _ _ x (recovered _ _ _ _ _ _ _ _ _ _ _ _ C)), (quad_same _ _ x (recovered _ _ _ _ _ _ _ _ _ _ _ _ C')), !quad_scale. destruct C as (_ & _ & ME & LT & _). destruct C' as (_ & _ & ME' & LT' & _).
  pose proof (periodic_le orth u Kc low hi UO _ _ _ _ 1 x Hb ME ME' (mob_order _ _ _ _ _ _ _ _ _ FO Hp LT LT' L)) as Q. rewrite Rmult_1_l in Q. apply Rmult_le_compat_l; [lra|exact Q].
Qed.
(* ---- uniform relative permeability ---- *)
Lemma uniform_kr_tensor orth u Kc low hi fl bct sat ph K kr lam : bct = 0 \/ bct = 2 -> steady_kr orth u Kc low hi fl bct sat ph K kr -> (fl_thr fl <= lam)%R -> (forall c, cells_of u c -> kr_in fl ph sat c = lam) -> multiple lam kr.
Proof.
  intros [-> | ->] H T U.
  - destruct (fixed_bounds_kr _ _ _ _ _ _ _ _ _ _ H) as (Off & D). intros i j Hi Hj. unfold ident. destruct (Z.eqb_spec i j) as [-> |N]; [|rewrite (Off i j Hi Hj N); ring]. destruct (D j Hj) as (_ & Lo & Up). assert (lam <= kr j j)%R by (apply Lo; intros c Hc; rewrite (U c Hc); lra). assert (kr j j <= lam)%R by (apply Up; [exact T|]; intros c Hc; rewrite (U c Hc); lra). lra.
  - destruct (periodic_bounds_kr _ _ _ _ _ _ _ _ _ _ H) as (Sy & _ & B). destruct (steady_out _ _ _ _ _ _ _ _ _ _ _ (or_intror eq_refl) H) as (mK & eff & ms & M & UO & FO & Hb & Hp & C). pose proof C as (EK & MK & _ & _ & q & Iq & _). destruct (made_periodic u low hi _ _ Hb MK) as (SK & _). rewrite <- EK in SK.
    assert (E : forall i j, 0 <= i < 3 -> 0 <= j < 3 -> mmul 3 kr K i j = (lam * K i j)%R).
    { apply (polarise (mmul 3 kr K) (fun i j => lam * K i j)%R); [exact Sy|intros i j Hi Hj; rewrite (SK i j Hi Hj); reflexivity|]. intros x. rewrite quad_scale. destruct (B x) as (_ & Lo & Up). assert (lam * quad 3 K x <= quad 3 (mmul 3 kr K) x)%R by (apply Lo; intros c Hc; rewrite (U c Hc); lra). assert (quad 3 (mmul 3 kr K) x <= lam * quad 3 K x)%R by (apply Up; [exact T|]; intros c Hc; rewrite (U c Hc); lra). lra. }
    intros r c Hr Hc. transitivity (kr r 0%Z * ident 0 c + kr r 1%Z * ident 1 c + kr r 2%Z * ident 2 c)%R; [unfold ident; destruct (three_cases c Hc) as [-> | [-> | ->]]; cbn [Z.eqb Pos.eqb]; ring|].
    rewrite <- (proj2 (Iq 0 c ltac:(lia) Hc)), <- (proj2 (Iq 1 c ltac:(lia) Hc)), <- (proj2 (Iq 2 c ltac:(lia) Hc)), <- (proj2 (Iq r c Hr Hc)). rewrite !mm3.
    pose proof (E r 0 Hr ltac:(lia)) as E0. pose proof (E r 1 Hr ltac:(lia)) as E1. pose proof (E r 2 Hr ltac:(lia)) as E2. rewrite mm3 in E0, E1, E2.
    transitivity ((kr r 0%Z * K 0%Z 0%Z + kr r 1%Z * K 1%Z 0%Z + kr r 2%Z * K 2%Z 0%Z) * q 0%Z c + (kr r 0%Z * K 0%Z 1%Z + kr r 1%Z * K 1%Z 1%Z + kr r 2%Z * K 2%Z 1%Z) * q 1%Z c + (kr r 0%Z * K 0%Z 2%Z + kr r 1%Z * K 1%Z 2%Z + kr r 2%Z * K 2%Z 2%Z) * q 2%Z c)%R; [ring|]. rewrite E0, E1, E2. ring.
Qed.
(* ---- totality ---- *)
Lemma steady_total orth u Kc low hi fl bct sat ph st st1 : bct = 0 \/ bct = 2 -> steady_ok orth u Kc low hi -> fluids_ok fl -> su_bct u = bct -> zlen sat = zlen (su_g u) -> 0 <= ph < 2 ->
  (forall tot st, zlen tot = zlen (su_g u) -> Forall (fun x => 0 < x)%R tot -> exists r, upscale_total u tot st = Ok r) ->
  exists mK st' mw mo st2, single_tensor u st = Ok (mK, st') /\ steady_relperms u fl sat mK st1 = Ok ((mw, mo), st2) /\ steady_kr orth u Kc low hi fl bct sat ph (entry mK) (entry (if ph =? 0 then mw else mo)).
Proof.
  intros Hb UO FO Eb Ls Hp HT. assert (Lo : zlen (zrepeat tracer_total (zlen (su_g u))) = zlen (su_g u)) by apply zlen_zrepeat, zlen_nonneg. destruct (HT _ st Lo (ones_pos _)) as ((mK & st') & ES). rewrite <- Eb in Hb. pose proof (total_made orth u Kc low hi UO _ st mK st' Hb Lo (ones_pos _) ES) as MK.
  destruct (made_invertible u low hi _ mK Hb MK) as (mi & q & Ei & Hq & _).
  assert (Ph : forall ph st, 0 <= ph < 2 -> exists ms m st', limited_mobilities fl ph sat (zlen (su_g u)) = Ok ms /\ fixed_tensor u ms st = Ok (m, st') /\ exists kr, relperm_tensor m mK (fl_mu fl ph) = Ok kr).
  { intros p s Hp'. destruct (limited_ok fl p sat (zlen (su_g u)) FO Hp' Ls) as (ms & M & El & LL). assert (LT : limited_to fl p sat (zlen (su_g u)) ms M) by exact LL. pose proof (limited_pos _ _ _ _ _ _ FO Hp' LT) as Pm. pose proof LT as (Lm & _). destruct (HT ms s Lm Pm) as ((m & s') & Em). exists ms, m, s'. split; [exact El|]. unfold fixed_tensor. rewrite fixed_totals_ok. split; [exact Em|].
    pose proof (total_made orth u Kc low hi UO ms s m s' Hb Lm Pm Em) as (_ & _ & Sm & _). unfold relperm_tensor. rewrite Ei. cbn [bind]. destruct (matprod_ok m mi COrd COrd 3 3 3 (entry m) q Sm Hq) as (l & -> & _). cbn [bind]. eauto. }
  destruct (Ph 0 st1 ltac:(lia)) as (m1 & w & sw & E1 & Ew & kw & Ekw). destruct (Ph 1 sw ltac:(lia)) as (m2 & o & so & E2 & Eo & ko & Eko).
  assert (ER : steady_relperms u fl sat mK st1 = Ok ((kw, ko), so)) by (unfold steady_relperms; cbv zeta; rewrite E1; cbn [bind]; rewrite E2; cbn [bind]; rewrite Ew; cbn [bind fst snd]; rewrite Eo; cbn [bind fst snd]; rewrite Ekw; cbn [bind]; rewrite Eko; reflexivity).
  exists mK, st', kw, ko, so. split; [exact ES|]. split; [exact ER|]. exists st, st', st1, so, mK, kw, ko. auto 12.
Qed.
