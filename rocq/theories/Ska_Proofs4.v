From Verif Require Import BaseFacts RBaseFacts Lin_Facts Steady_Proofs Steady_Proofs2 Euler_Proofs2 Eld_Proofs2 Matx_Proofs Matx_Proofs3 Mim_Proofs Mim_Proofs2 Tens_Proofs5 Tens_Proofs6 Tens_Proofs7 Rpc_Proofs Rpc_Proofs3 Ssk_Proofs Ssk_Proofs2 Ssk_Proofs3 Ska_Spec Lin_Spec Tens_Spec Ska_Proofs Ska_Proofs2 Ska_Proofs3.
Open Scope Z_scope.

(* the inverse determines the product's first factor *)
Lemma factor_unique t K q a : (forall i j, 0 <= i < 3 -> 0 <= j < 3 -> mmul 3 K q i j = ident i j) -> (forall i j, 0 <= i < 3 -> 0 <= j < 3 -> mmul 3 t K i j = mmul 3 a K i j) -> forall i j, 0 <= i < 3 -> 0 <= j < 3 -> t i j = a i j.
Proof.
  intros Iq E. assert (X : forall b i j, 0 <= i < 3 -> 0 <= j < 3 -> b i j = (mmul 3 b K i 0 * q 0%Z j + mmul 3 b K i 1 * q 1%Z j + mmul 3 b K i 2 * q 2%Z j)%R).
  { intros b i j Hi Hj. transitivity (b i 0%Z * ident 0 j + b i 1%Z * ident 1 j + b i 2%Z * ident 2 j)%R; [unfold ident; destruct (three_cases j Hj) as [-> | [-> | ->]]; cbn [Z.eqb Pos.eqb]; ring|]. rewrite <- !Iq by lia. rewrite !mmul3. ring. }
  intros i j Hi Hj. rewrite (X t i j Hi Hj), (X a i j Hi Hj), !E by lia. reflexivity.
Qed.
(* ---- the same relative permeability in all cells and directions ---- *)
Lemma aniso_uniform orth u Kc low hi fl bct sat ph kr K t lam : bct = 0 \/ bct = 2 -> aniso_kr orth u Kc low hi fl bct sat ph kr K t -> (al_thr fl <= lam)%R -> (forall c d, entries_of u c d -> kr c d = lam) -> multiple lam t.
Proof.
  intros [-> | ->] H T U.
  - destruct (aniso_fixed_bounds _ _ _ _ _ _ _ _ _ _ _ H) as (Off & D). intros i j Hi Hj. unfold ident. destruct (Z.eqb_spec i j) as [-> |N]; [|rewrite (Off i j Hi Hj N); ring]. destruct (D j Hj) as (_ & Lo & Up). assert (lam <= t j j)%R by (apply Lo; intros c d Hc; rewrite (U c d Hc); lra). assert (t j j <= lam)%R by (apply Up; [exact T|]; intros c d Hc; rewrite (U c d Hc); lra). lra.
  - destruct (aniso_periodic_bounds _ _ _ _ _ _ _ _ _ _ _ H) as (Sy & _ & B). destruct (asteady_out _ _ _ _ _ _ _ _ _ _ _ _ (or_intror eq_refl) H) as (kr' & mK & eff & M & _ & UO & FO & Hb & Hp & C). pose proof C as (EK & MK & _ & _ & q & Iq & _). destruct (amade_periodic u low hi _ _ Hb MK) as (SK & _). rewrite <- EK in SK.
    assert (E : forall i j, 0 <= i < 3 -> 0 <= j < 3 -> mmul 3 t K i j = (lam * K i j)%R).
    { apply (polarise (mmul 3 t K) (fun i j => lam * K i j)%R); [exact Sy|intros i j Hi Hj; rewrite (SK i j Hi Hj); reflexivity|]. intros x. rewrite Ssk_Proofs3.quad_scale. destruct (B x) as (_ & Lo & Up). assert (lam * quad 3 K x <= quad 3 (mmul 3 t K) x)%R by (apply Lo; intros c d Hc; rewrite (U c d Hc); lra). assert (quad 3 (mmul 3 t K) x <= lam * quad 3 K x)%R by (apply Up; [exact T|]; intros c d Hc; rewrite (U c d Hc); lra). lra. }
    refine (factor_unique t K q (fun i j => lam * ident i j)%R _ _); [intros i j Hi Hj; apply (Iq i j Hi Hj)|]. intros i j Hi Hj. rewrite (E i j Hi Hj), mmul3. unfold ident. destruct (three_cases i Hi) as [-> | [-> | ->]]; cbn [Z.eqb Pos.eqb]; ring.
Qed.
(* ---- the same rock and the same relative permeabilities in all cells ---- *)
Section Uniform.
Context (orth : mat -> mat) (u : asups) (Kc : Z -> mat) (low hi : Z -> R) (UO : tensor_block orth u Kc low hi) (kd : Z -> R) (HK : forall c d, entries_of u c d -> entry (Kc c) d d = kd d).
Notation g := (au_g u). Notation geo := (au_geo u).
Lemma uniform_made lam v m : (au_bct u = 0 \/ (au_bct u = 2 /\ translates (au_srt u) g geo false low hi)) -> amade u low hi lam m -> (forall c d, entries_of u c d -> lam c d = v d) ->
  forall i j, 0 <= i < 3 -> 0 <= j < 3 -> entry m i j = if i =? j then (v i * kd i)%R else 0%R.
Proof.
  intros Hb M HV. pose proof M as (_ & phs & cols & P & U & T). pose proof P as (L & F & V). pose proof UO as (_ & _ & CF & HB). destruct (HB phs L F) as (BK & RK). pose proof BK as (Hg & _ & GEO & _).
  pose proof (fun k Hk => mobile_at orth u Kc low hi UO phs lam k P Hk) as MB. destruct (tensor_mimetic _ _ _ _ _ _ GEO RK MB) as (FM & PL).
  assert (HL : forall c i j, 0 <= c < zlen g -> 0 <= i < 3 -> 0 <= j < 3 -> lamK (fun k => nth (Z.to_nat (idx g k)) phs []) Kc c i j = if i =? j then (v i * kd i)%R else 0%R).
  { intros c i j Hc Hi Hj. unfold lamK. destruct (RK c Hc) as (_ & DK & _). destruct (MB c Hc) as (_ & DM). rewrite (diag_mul _ _ DM DK i j Hi Hj). destruct (i =? j); [|reflexivity]. destruct CF as (_ & CI & _). rewrite V, HV, HK; [reflexivity|split; assumption|split; [apply CI; exact Hc|exact Hi]|apply CI; exact Hc|exact Hi]. }
  destruct Hb as [Hb|(Hb & TR)]; rewrite Hb in U.
  - intros i j Hi Hj. pose proof (amade_fixed u low hi _ _ Hb M i j Hi Hj) as D. destruct (Z.eqb_spec i j) as [-> |N]; [|exact D].
    destruct (fixed_bounds _ _ _ _ _ _ _ _ U _ _ j PL T Hj) as (Up & Lo). assert (VP : (0 < block_volume g geo)%R).
    { destruct (fix_run _ _ _ _ _ _ _ _ U) as (BK' & _ & st & B & X & P' & V' & C & DN & _). exact (vol_pos _ _ _ _ 0 _ _ _ BK' st B X P' V' C DN). }
    assert (I1 : integral_of g geo (fun c => lamK (fun k => nth (Z.to_nat (idx g k)) phs []) Kc c j j) = (block_volume g geo * (v j * kd j))%R).
    { unfold block_volume, integral_of. rewrite <- Sum_scal_r. apply Sum_ext. intros c Hc. rewrite (HL c j j Hc Hj Hj), Z.eqb_refl. ring. }
    rewrite I1 in Up. apply Rmult_le_reg_l in Up; [|exact VP]. assert (LP : (0 < v j * kd j)%R).
    { pose proof (lamK_diag orth g geo Kc _ _ RK MB 0 (conj (Z.le_refl 0) Hg) j j Hj Hj) as Q. rewrite (HL 0 j j (conj (Z.le_refl 0) Hg) Hj Hj), !Z.eqb_refl in Q. exact Q. }
    assert (NV : v j <> 0%R /\ kd j <> 0%R) by (split; intros Z0; rewrite Z0 in LP; lra).
    specialize (Lo (fun _ i => ident j i / (v j * kd j))%R). assert (I2 : integral_of g geo (fun _ => (ident j j / (v j * kd j))%R) = (block_volume g geo * / (v j * kd j))%R).
    { unfold block_volume, integral_of. rewrite <- Sum_scal_r. apply Sum_ext. intros c Hc. unfold ident. rewrite Z.eqb_refl. unfold Rdiv. ring. }
    cbv beta in Lo. rewrite I2 in Lo. assert (Q : (block_volume g geo <= entry m j j * (block_volume g geo * / (v j * kd j)))%R).
    { apply Lo. intros c Hc i Hi'. unfold mvec. rewrite Sum3. rewrite !(HL c) by lia. unfold ident. destruct (three_cases i Hi') as [-> | [-> | ->]], (three_cases j Hj) as [-> | [-> | ->]]; cbn [Z.eqb Pos.eqb]; field; tauto. }
    apply Rle_antisym; [exact Up|]. apply (Rmult_le_reg_l (block_volume g geo * / (v j * kd j))); [apply Rmult_lt_0_compat; [exact VP|apply Rinv_0_lt_compat; exact LP]|]. rewrite Rmult_assoc, Rinv_l by lra. lra.
  - intros i j Hi Hj. exact (periodic_uniform _ _ _ _ _ _ _ _ U _ PL TR (fun i j => if i =? j then (v i * kd i)%R else 0%R) HL _ T eq_refl i j Hi Hj).
Qed.
End Uniform.
Lemma aniso_uniform_rock orth u Kc low hi fl bct sat ph kr K t kd v : bct = 0 \/ (bct = 2 /\ translates (au_srt u) (au_g u) (au_geo u) false low hi) -> aniso_kr orth u Kc low hi fl bct sat ph kr K t ->
  (forall c d, entries_of u c d -> entry (Kc c) d d = kd d /\ kr c d = v d) -> (forall d, 0 <= d < 3 -> (al_thr fl <= v d)%R) -> (forall d d', 0 <= d < 3 -> 0 <= d' < 3 -> (v d' <= al_contrast fl * v d)%R) ->
  forall i j, 0 <= i < 3 -> 0 <= j < 3 -> K i j = (if i =? j then kd i else 0)%R /\ t i j = (if i =? j then v i else 0)%R.
Proof.
  intros Hb H HU HT HC. assert (Hb' : bct = 0 \/ bct = 2) by tauto. destruct (asteady_out _ _ _ _ _ _ _ _ _ _ _ _ Hb' H) as (kr' & mK & eff & M & Ekr & UO & FO & Eb & Hp & C). pose proof C as (EK & MK & ME & (ms & LT) & q & Iq & _). pose proof (almu_pos fl ph FO) as P. rewrite <- Eb in Hb.
  assert (I : (0 < / al_mu fl ph)%R) by (apply Rinv_0_lt_compat; exact P). pose proof FO as (_ & _ & Tp & Cn).
  pose proof (uniform_made orth u Kc low hi UO kd (fun c d E => proj1 (HU c d E)) _ (fun _ => 1%R) mK Hb MK (fun c d _ => eq_refl)) as VK. rewrite <- EK in VK.
  assert (LV : forall c d, entries_of u c d -> alim fl ph kr' M c d = (v d / al_mu fl ph)%R).
  { intros c d E. unfold alim. rewrite <- Ekr, (proj2 (HU c d E)). apply Rmax_left. apply Rmax_lub; [unfold Rdiv; apply Rmult_le_compat_r; [lra|]; apply HT; apply E|].
    apply (Rmult_le_reg_r (al_contrast fl)); [lra|]. unfold Rdiv at 1. rewrite Rmult_assoc, Rinv_l, Rmult_1_r by lra. destruct LT as (_ & _ & Mx & _ & _). destruct Mx as [-> |(e & f & He & Hf & ->)].
    - apply Rmult_le_pos; [|lra]. apply Rmult_le_pos; [|lra]. specialize (HT d (proj2 E)). lra.
    - rewrite <- Ekr, (proj2 (HU e f (conj He Hf))). replace (v d / al_mu fl ph * al_contrast fl)%R with (al_contrast fl * v d * / al_mu fl ph)%R by (unfold Rdiv; ring). unfold Rdiv. apply Rmult_le_compat_r; [lra|]. apply HC; [apply E|exact Hf]. }
  pose proof (uniform_made orth u Kc low hi UO kd (fun c d E => proj1 (HU c d E)) _ (fun d => v d / al_mu fl ph)%R eff Hb ME LV) as VE.
  intros i j Hi Hj. split; [rewrite (VK i j Hi Hj); destruct (i =? j); [ring|reflexivity]|]. revert i j Hi Hj.
  refine (factor_unique t K q (fun i j => if i =? j then v i else 0%R) _ _); [intros i j Hi Hj; apply (Iq i j Hi Hj)|]. intros i j Hi Hj. rewrite (arecovered _ _ _ _ _ _ _ _ _ _ _ C i j Hi Hj), (VE i j Hi Hj), mmul3, !VK by lia.
  destruct (three_cases i Hi) as [-> | [-> | ->]], (three_cases j Hj) as [-> | [-> | ->]]; cbn [Z.eqb Pos.eqb]; field; lra.
Qed.
(* ---- existence ---- *)
Lemma aniso_total orth u Kc low hi fl bct sat ph krf st st1 : bct = 0 \/ bct = 2 -> tensor_block orth u Kc low hi -> afluids_ok fl -> au_bct u = bct -> zlen sat = zlen (au_g u) -> 0 <= ph < 2 ->
  (forall p, 0 <= p < 2 -> relperms_of (al_fluid fl) p (zlen (au_g u)) (krf p)) ->
  (forall phs st, zlen phs = zlen (au_g u) -> Forall mobile phs -> exists r, aups_total u phs st = Ok r) ->
  exists mK st' mw mo st2, asingle_tensor u st = Ok (mK, st') /\ aniso_relperms u fl sat mK st1 = Ok ((mw, mo), st2) /\ aniso_kr orth u Kc low hi fl bct sat ph (fun c d => krf ph c d (nthR sat c)) (entry mK) (entry (if ph =? 0 then mw else mo)).
Proof.
  intros Hb UO FO Eb Ls Hp RO HT. destruct (ones_phases (zlen (au_g u)) (zlen_nonneg _)) as (c1 & Ec1 & P1). pose proof P1 as (L1 & F1 & _). destruct (HT _ st L1 F1) as ((mK & st') & ES). rewrite <- Eb in Hb. pose proof (atotal_made orth u Kc low hi UO _ _ st mK st' Hb P1 ES) as MK.
  destruct (amade_invertible u low hi _ mK Hb MK) as (mi & q & Ei & Hq & _).
  assert (Ph : forall p s, 0 <= p < 2 -> exists ms m s', limited_tensors fl p sat (zlen (au_g u)) = Ok ms /\ afixed_tensor u ms s = Ok (m, s') /\ exists t, relperm_tensor m mK (al_mu fl p) = Ok t).
  { intros p s Hp'. destruct (alimited_ok fl p sat (zlen (au_g u)) (krf p) FO Hp' Ls (RO p Hp')) as (ms & M & El & LL). destruct (fixed_phases fl p _ _ ms M FO LL) as (phs & Ep & Pp). pose proof Pp as (Lp & Fp & _). destruct (HT phs s Lp Fp) as ((m & s') & Em). exists ms, m, s'. split; [exact El|]. unfold afixed_tensor. rewrite Ep. split; [exact Em|].
    pose proof (atotal_made orth u Kc low hi UO phs _ s m s' Hb Pp Em) as (Sm & _). unfold relperm_tensor. rewrite Ei. cbn [bind]. destruct (matprod_ok m mi COrd COrd 3 3 3 (entry m) q Sm Hq) as (l & -> & _). cbn [bind]. eauto. }
  destruct (Ph 0 st1 ltac:(lia)) as (m1 & w & sw & E1 & Ew & kw & Ekw). destruct (Ph 1 sw ltac:(lia)) as (m2 & o & so & E2 & Eo & ko & Eko).
  assert (ER : aniso_relperms u fl sat mK st1 = Ok ((kw, ko), so)) by (unfold aniso_relperms; cbv zeta; rewrite E1; cbn [bind]; rewrite E2; cbn [bind]; rewrite Ew; cbn [bind fst snd]; rewrite Eo; cbn [bind fst snd]; rewrite Ekw; cbn [bind]; rewrite Eko; reflexivity).
  assert (ES' : asingle_tensor u st = Ok (mK, st')) by (unfold asingle_tensor; rewrite Ec1; exact ES).
  exists mK, st', kw, ko, so. split; [exact ES'|]. split; [exact ER|]. exists st, st', st1, so, mK, kw, ko, krf. auto 14.
Qed.
(* ---- the two upscalers ---- *)
Lemma aniso_implicit_kr orth u Kc low hi fl p pv tr sat0 after bct ph krf st mK st' ks sat ok : tensor_block orth u Kc low hi -> afluids_ok fl -> au_bct u = bct -> 0 <= ph < 2 -> (forall p, 0 <= p < 2 -> relperms_of (al_fluid fl) p (zlen (au_g u)) (krf p)) -> zlen sat = zlen (au_g u) -> asingle_tensor u st = Ok (mK, st') ->
  aniso_implicit u fl p pv tr sat0 mK after = Ok (ks, sat, ok) -> (exists s, steady_run p pv tr sat0 = Ok s /\ ss_sat s = sat /\ ss_stat s = ok) /\ aniso_kr orth u Kc low hi fl bct sat ph (fun c d => krf ph c d (nthR sat c)) (entry mK) (entry (if ph =? 0 then fst ks else snd ks)).
Proof.
  intros UO FO Eb Hp RO L Es E. unfold aniso_implicit in E. apply bind_Ok in E. destruct E as (s & E1 & E). apply bind_Ok in E. destruct E as (((mw & mo) & s2) & E2 & E). cbn [fst snd] in *. injection E as <- <- <-. split; [eauto|]. exists st, st', (after s), s2, mK, mw, mo, krf. auto 14.
Qed.
Lemma aniso_explicit_kr orth u Kc low hi fl p tr sat0 after bct ph krf st mK st' ks sat : tensor_block orth u Kc low hi -> afluids_ok fl -> au_bct u = bct -> 0 <= ph < 2 -> (forall p, 0 <= p < 2 -> relperms_of (al_fluid fl) p (zlen (au_g u)) (krf p)) -> zlen sat = zlen (au_g u) -> asingle_tensor u st = Ok (mK, st') ->
  aniso_explicit u fl p tr sat0 mK after = Ok (ks, sat) -> (exists l, explicit_run p tr sat0 = Ok (l, sat)) /\ aniso_kr orth u Kc low hi fl bct sat ph (fun c d => krf ph c d (nthR sat c)) (entry mK) (entry (if ph =? 0 then fst ks else snd ks)).
Proof.
  intros UO FO Eb Hp RO L Es E. unfold aniso_explicit in E. apply bind_Ok in E. destruct E as ((l & s) & E1 & E). apply bind_Ok in E. destruct E as (((mw & mo) & s2) & E2 & E). cbn [fst snd] in *. injection E as <- <-. split; [eauto|]. exists st, st', (after l), s2, mK, mw, mo, krf. auto 14.
Qed.
