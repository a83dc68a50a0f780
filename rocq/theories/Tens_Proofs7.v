From Verif Require Import BaseFacts RBaseFacts Lin_Facts Steady_Proofs Euler_Proofs2 Impl_Proofs Matx_Proofs Hnum_Proofs Hyb_Proofs Hyb_Proofs2 Hyb_Proofs3 Hyb_Proofs4 Hyb_Proofs5 Hyb_Proofs6 Hyb_Proofs7 Hyb_Proofs8 Hyb_Proofs9 Eld_Proofs2 Bound_Proofs Bound_Proofs3 Mim_Proofs Mim_Proofs2 Lsv_Proofs Lsv_Proofs2 Lsv_Proofs4 Lsv_Proofs5 Upb_Proofs Tens_Proofs Tens_Proofs2 Tens_Proofs3 Tens_Proofs4 Tens_Proofs5 Tens_Proofs6 Tens_Spec.
Open Scope Z_scope.

Lemma energy_below g c ip ip' a : matrices_below g c ip ip' -> (energy g ip a a <= c * energy g ip' a a)%R.
Proof. intros M. rewrite !energy_quad, <- Sum_scal. apply Sum_le. intros k Hk. apply M, Hk. Qed.
(* ---- two runs on the same block ---- *)
Section Two.
Variables (srt : list bface -> list bface) (g : list hcell) (geo : Z -> mcell) (ip ip' : hip) (bct : Z) (twodim : bool) (low hi : Z -> R).
Hypothesis BK : block srt g geo ip bct twodim low hi.
Hypothesis BK' : block srt g geo ip' bct twodim low hi.
Hypothesis Hbct : bct = 0 \/ bct = 2.
Variables (d : Z) (b b0 b' b0' : bcs).
Hypothesis Hd : 0 <= d < 3.
Hypothesis SU : setup_upscaling srt (map uf_g (grid_faces g geo)) bct d 1 1 twodim b0 = Ok b.
Hypothesis SU' : setup_upscaling srt (map uf_g (grid_faces g geo)) bct d 1 1 twodim b0' = Ok b'.
Lemma two_joined k r k' r' : joined g (hbc_of b) k r k' r' -> joined g (hbc_of b') k r k' r'.
Proof.
  intros (H1 & H2 & [T|Pr]); (split; [exact H1|split; [exact H2|]]); [left; exact T|right]. apply (same_structure srt g geo ip bct twodim low hi BK Hbct d d _ _ _ _ Hd Hd SU SU'). exact Pr.
Qed.
Lemma two_drop bR bR' e k r : box_faces bR (grid_faces g geo) low hi -> box_faces bR' (grid_faces g geo) low hi -> half g k r -> dropat g geo bR e k r = dropat g geo bR' e k r.
Proof. intros B1 B2 Hh. unfold dropat. rewrite !(ind_same srt g geo ip bct twodim low hi BK bR' B2 bR _ k r B1 Hh). reflexivity. Qed.
End Two.
Lemma periodic_monotone srt g geo ip ip' twodim low hi cols cols' c k k' : upscaled_by srt g geo ip 2 twodim low hi cols -> upscaled_by srt g geo ip' 2 twodim low hi cols' ->
  matrices_below g c ip ip' -> tensor_is cols k -> tensor_is cols' k' -> forall x, (quad 3 k x <= c * quad 3 k' x)%R.
Proof.
  intros UP UP' M Tk Tk' x. destruct (per_run _ _ _ _ _ _ _ _ UP) as (BK & FM & st & B & X & P & V & C & DN & T). destruct (per_run _ _ _ _ _ _ _ _ UP') as (BK' & FM' & st' & B' & X' & P' & V' & C' & DN' & T').
  rewrite (quad_same _ _ x (tensor_uniq _ _ _ Tk T)), (quad_same _ _ x (tensor_uniq _ _ _ Tk' T')). pose proof (or_intror eq_refl : 2 = 0 \/ 2 = 2) as Z2. assert (H0 : 0 <= 0 < 3) by lia.
  pose proof (quad_energy srt g geo ip 2 twodim low hi BK FM st B X P V C DN x) as E. pose proof (quad_energy srt g geo ip' 2 twodim low hi BK' FM' st' B' X' P' V' C' DN' x) as E'.
  apply (Rmult_le_reg_r (vol g geo)); [exact (vol_pos srt g geo ip 2 twodim low hi BK st B X P V C DN)|]. rewrite Rmult_assoc, E, E'.
  eapply Rle_trans; [|apply (energy_below g c ip ip' (piX low hi st' X' P' x) M)].
  apply (trial_pressure g ip (hbc_of (B 0)) st (tb_st srt g geo ip 2 twodim low hi st B X P V C DN 0 H0) (proj1 FM) (dX g geo low hi B x) (lX low hi st X x) (pX low hi P x) (piX_adm srt g geo ip 2 twodim low hi BK Z2 FM st B X P V C DN x eq_refl) (piX_jumps srt g geo ip 2 twodim low hi BK Z2 st B X P V C DN x eq_refl) (lX low hi st' X' x) (pX low hi P' x)).
  destruct (piX_jumps srt g geo ip' 2 twodim low hi BK' Z2 st' B' X' P' V' C' DN' x eq_refl) as (J & _). split.
  - intros a r a' r' Jo. pose proof (tb_set srt g geo ip 2 twodim low hi st B X P V C DN 0 H0) as (b0 & S). pose proof (tb_set srt g geo ip' 2 twodim low hi st' B' X' P' V' C' DN' 0 H0) as (b0' & S').
    pose proof (J _ _ _ _ (two_joined srt g geo ip 2 twodim low hi BK Z2 0 _ _ _ _ H0 S S' _ _ _ _ Jo)) as Q.
    assert (DX : forall a r, half g a r -> dX g geo low hi B x a r = dX g geo low hi B' x a r).
    { intros a1 r1 Hh. unfold dX, comb. apply Sum_ext. intros e He. f_equal. apply (two_drop srt g geo ip 2 twodim low hi BK (B 0) (B' 0) e a1 r1); [apply (tb_box srt g geo ip 2 twodim low hi BK st B X P V C DN 0 H0)|apply (tb_box srt g geo ip' 2 twodim low hi BK' st' B' X' P' V' C' DN' 0 H0)|exact Hh]. }
    pose proof Jo as (H1 & H2 & _). rewrite !DX by assumption. exact Q.
  - exists 0%R. intros a r p Hh Ec. destruct (per_nodir srt g geo ip 2 twodim low hi BK Z2 st B X P V C DN 0 a r p eq_refl H0 Hh Ec).
Qed.
Lemma fixed_monotone srt g geo ip ip' twodim low hi cols cols' c k k' d : upscaled_by srt g geo ip 0 twodim low hi cols -> upscaled_by srt g geo ip' 0 twodim low hi cols' ->
  matrices_below g c ip ip' -> tensor_is cols k -> tensor_is cols' k' -> 0 <= d < 3 -> (k d d <= c * k' d d)%R.
Proof.
  intros UP UP' M Tk Tk' Hd. destruct (fix_run _ _ _ _ _ _ _ _ UP) as (BK & FM & st & B & X & P & V & C & DN & T). destruct (fix_run _ _ _ _ _ _ _ _ UP') as (BK' & FM' & st' & B' & X' & P' & V' & C' & DN' & T').
  rewrite (tensor_uniq _ _ _ Tk T d d Hd Hd), (tensor_uniq _ _ _ Tk' T' d d Hd Hd). cbv beta. rewrite Z.eqb_refl. pose proof (or_introl eq_refl : 0 = 0 \/ 0 = 2) as Z0. assert (H0 : 0 <= 0 < 3) by lia.
  pose proof (kt_vol srt g geo ip 0 twodim low hi BK st B X P V C DN d d Hd) as E. pose proof (kt_vol srt g geo ip' 0 twodim low hi BK' st' B' X' P' V' C' DN' d d Hd) as E'. pose proof (len_pos srt g geo ip 0 twodim low hi BK d Hd) as Lp.
  apply (Rmult_le_reg_r (vol g geo)); [exact (vol_pos srt g geo ip 0 twodim low hi BK st B X P V C DN)|]. rewrite Rmult_assoc, E, E'. replace (c * (len low hi d * len low hi d * energy g ip' (pd st' X' P' d) (pd st' X' P' d)))%R with (len low hi d * len low hi d * (c * energy g ip' (pd st' X' P' d) (pd st' X' P' d)))%R by ring.
  apply Rmult_le_compat_l; [nra|]. eapply Rle_trans; [|apply (energy_below g c ip ip' (pd st' X' P' d) M)].
  apply (trial_pressure g ip (hbc_of (B d)) st (tb_st srt g geo ip 0 twodim low hi st B X P V C DN d Hd) (proj1 FM) (dr g geo B d) (ct st X d) (fun k => nthR (P d) k) (fix_adm srt g geo ip 0 twodim low hi BK Z0 FM st B X P V C DN d Hd) (tb_jumps srt g geo ip 0 twodim low hi BK Z0 st B X P V C DN d Hd) (ct st' X' d) (fun k => nthR (P' d) k)).
  destruct (tb_jumps srt g geo ip' 0 twodim low hi BK' Z0 st' B' X' P' V' C' DN' d Hd) as (J & cc & Jd).
  pose proof (tb_box srt g geo ip 0 twodim low hi BK st B X P V C DN 0 H0) as Bx. pose proof (tb_box srt g geo ip' 0 twodim low hi BK' st' B' X' P' V' C' DN' 0 H0) as Bx'.
  assert (DX : forall a r, half g a r -> dr g geo B d a r = dr g geo B' d a r) by (intros a r Hh; apply (two_drop srt g geo ip 0 twodim low hi BK (B 0) (B' 0) d a r Bx Bx' Hh)). split.
  - intros a r a' r' Jo. pose proof (tb_set srt g geo ip 0 twodim low hi st B X P V C DN d Hd) as (b0 & S). pose proof (tb_set srt g geo ip' 0 twodim low hi st' B' X' P' V' C' DN' d Hd) as (b0' & S').
    pose proof (J _ _ _ _ (two_joined srt g geo ip 0 twodim low hi BK Z0 d _ _ _ _ Hd S S' _ _ _ _ Jo)) as Q. pose proof Jo as (H1 & H2 & _). rewrite !DX by assumption. exact Q.
  - exists cc. intros a r p Hh Ec. rewrite (DX a r Hh). destruct (tb_side srt g geo ip 0 twodim low hi BK Z0 st B X P V C DN d a r Hd Hh (tb_outer g B d a r _ Ec)) as (s & Hs & O & Ec'). rewrite Ec in Ec'.
    pose proof (side_same srt g geo ip 0 twodim low hi BK (B' 0) Bx' (B 0) a r s Bx O) as O'. pose proof (fix_cond srt g geo ip' 0 twodim low hi BK' Z0 st' B' X' P' V' C' DN' d a r s eq_refl Hd O') as Ed.
    apply (Jd a r p Hh). rewrite Ed. pose proof (fix_cond srt g geo ip 0 twodim low hi BK Z0 st B X P V C DN d a r s eq_refl Hd O) as Ed0. congruence.
Qed.
(* ---- scaling ---- *)
Lemma scale_below g c ip ip' : (forall k i j, 0 <= k < zlen g -> 0 <= i < nfaces g k -> 0 <= j < nfaces g k -> Bk g ip k i j = (c * Bk g ip' k i j)%R) -> matrices_below g c ip ip'.
Proof. intros E k x Hk. rewrite (quad_ext _ (Bk g ip k) (fun i j => Bk g ip' k i j * c)%R) by (intros; rewrite E by assumption; ring). rewrite quad_scale. lra. Qed.
Section Scale.
Variables (srt : list bface -> list bface) (g : list hcell) (geo : Z -> mcell) (ip ip' : hip) (twodim : bool) (low hi : Z -> R) (cols cols' : list (list (option R))) (c : R) (k k' : Z -> Z -> R).
Hypothesis Cp : (0 < c)%R.
Hypothesis E : forall k i j, 0 <= k < zlen g -> 0 <= i < nfaces g k -> 0 <= j < nfaces g k -> Bk g ip k i j = (c * Bk g ip' k i j)%R.
Let M1 : matrices_below g c ip ip' := scale_below g c ip ip' E.
Let M2 : matrices_below g (/ c) ip' ip.
Proof. apply scale_below. intros a i j Ha Hi Hj. rewrite (E a i j Ha Hi Hj). field. lra. Qed.
Lemma periodic_scaling : upscaled_by srt g geo ip 2 twodim low hi cols -> upscaled_by srt g geo ip' 2 twodim low hi cols' -> tensor_is cols k -> tensor_is cols' k' ->
  forall i j, 0 <= i < 3 -> 0 <= j < 3 -> k i j = (c * k' i j)%R.
Proof.
  intros UP UP' Tk Tk'. assert (Sy : symmetric 3 k). { destruct (periodic_symmetric _ _ _ _ _ _ _ _ UP) as (k0 & T0 & S0). intros i j Hi Hj. rewrite !(tensor_uniq _ _ _ Tk T0) by assumption. apply S0; assumption. }
  assert (Sy' : symmetric 3 k'). { destruct (periodic_symmetric _ _ _ _ _ _ _ _ UP') as (k0 & T0 & S0). intros i j Hi Hj. rewrite !(tensor_uniq _ _ _ Tk' T0) by assumption. apply S0; assumption. }
  apply (polarise k (fun i j => c * k' i j)%R Sy); [intros i j Hi Hj; rewrite (Sy' i j Hi Hj); reflexivity|]. intros x. replace (quad 3 (fun i j => c * k' i j)%R x) with (c * quad 3 k' x)%R by (rewrite !quad3; ring).
  pose proof (periodic_monotone _ _ _ _ _ _ _ _ _ _ _ _ _ UP UP' M1 Tk Tk' x) as A. pose proof (periodic_monotone _ _ _ _ _ _ _ _ _ _ _ _ _ UP' UP M2 Tk' Tk x) as A'.
  apply Rle_antisym; [exact A|]. apply (Rmult_le_compat_l c) in A'; [|lra]. rewrite <- Rmult_assoc, Rinv_r, Rmult_1_l in A' by lra. exact A'.
Qed.
Lemma fixed_scaling : upscaled_by srt g geo ip 0 twodim low hi cols -> upscaled_by srt g geo ip' 0 twodim low hi cols' -> tensor_is cols k -> tensor_is cols' k' ->
  forall i j, 0 <= i < 3 -> 0 <= j < 3 -> k i j = (c * k' i j)%R.
Proof.
  intros UP UP' Tk Tk' i j Hi Hj. destruct (Z.eq_dec i j) as [<-|N].
  - pose proof (fixed_monotone _ _ _ _ _ _ _ _ _ _ _ _ _ i UP UP' M1 Tk Tk' Hi) as A. pose proof (fixed_monotone _ _ _ _ _ _ _ _ _ _ _ _ _ i UP' UP M2 Tk' Tk Hi) as A'.
    apply Rle_antisym; [exact A|]. apply (Rmult_le_compat_l c) in A'; [|lra]. rewrite <- Rmult_assoc, Rinv_r, Rmult_1_l in A' by lra. exact A'.
  - destruct (fixed_diagonal _ _ _ _ _ _ _ _ UP) as (k0 & T0 & D0). destruct (fixed_diagonal _ _ _ _ _ _ _ _ UP') as (k1 & T1 & D1). rewrite (tensor_uniq _ _ _ Tk T0), (tensor_uniq _ _ _ Tk' T1) by assumption.
    specialize (D0 i j Hi Hj). specialize (D1 i j Hi Hj). destruct (Z.eqb_spec i j); [contradiction|]. rewrite D0, D1. ring.
Qed.
End Scale.
(* ---- the mimetic matrices are ordered like the permeabilities ---- *)
Lemma keeps_columns dim c q q' : wf_cell dim c -> closed_cell dim c -> qr_factor (zlen (mc_faces c)) dim (fun i j => area c i * offset c i j)%R q -> qr_factor (zlen (mc_faces c)) dim (fun i j => area c i * offset c i j)%R q' ->
  forall i l, 0 <= i < zlen (mc_faces c) -> 0 <= l < dim -> Sum (zlen (mc_faces c)) (fun j => mmul dim q' (fun l j => q' j l) i j * q j l)%R = q i l.
Proof.
  intros W Cl Q Q' i l Hi Hl. assert (Hd : 0 < dim) by apply W. destruct (q_range dim c W q Q Cl (Z.to_nat dim) ltac:(lia) (ident l)) as (w & _ & Ew). rewrite Z2Nat.id in Ew by lia.
  assert (Eq : forall i, 0 <= i < zlen (mc_faces c) -> q i l = Sum dim (fun b => area c i * offset c i b * w b)%R).
  { intros i0 Hi0. rewrite <- (Ew i0 Hi0). rewrite (Sum_ext dim _ (fun a => ident l a * q i0 a)%R) by (intros; ring). rewrite (Sum_ident_l dim l (q i0) Hl). reflexivity. }
  rewrite (Sum_ext _ _ (fun j => Sum dim (fun b => mmul dim q' (fun l j => q' j l) i j * (area c j * offset c j b) * w b))%R) by (intros j Hj; rewrite (Eq j Hj), <- Sum_scal; apply Sum_ext; intros; ring).
  rewrite Sum_swap, (Eq i Hi). apply Sum_ext. intros b Hb. rewrite Sum_scal_r. f_equal. apply (qqt_offsets dim c q' Q' i b Hi Hb).
Qed.
Lemma same_projection dim c q q' : wf_cell dim c -> closed_cell dim c -> qr_factor (zlen (mc_faces c)) dim (fun i j => area c i * offset c i j)%R q -> qr_factor (zlen (mc_faces c)) dim (fun i j => area c i * offset c i j)%R q' ->
  forall i j, 0 <= i < zlen (mc_faces c) -> 0 <= j < zlen (mc_faces c) -> mmul dim q (fun l j => q j l) i j = mmul dim q' (fun l j => q' j l) i j.
Proof.
  intros W Cl Q Q' i j Hi Hj.
  assert (A : forall q q', qr_factor (zlen (mc_faces c)) dim (fun i j => area c i * offset c i j)%R q -> qr_factor (zlen (mc_faces c)) dim (fun i j => area c i * offset c i j)%R q' ->
    forall i j, 0 <= i < zlen (mc_faces c) -> Sum (zlen (mc_faces c)) (fun m => mmul dim q' (fun l j => q' j l) i m * mmul dim q (fun l j => q j l) m j)%R = mmul dim q (fun l j => q j l) i j).
  { intros p p' Qp Qp' a b Ha. rewrite (Sum_ext _ _ (fun m => Sum dim (fun l => mmul dim p' (fun l j => p' j l) a m * p m l * p b l))%R) by (intros m Hm; unfold mmul at 2; rewrite <- Sum_scal; apply Sum_ext; intros; ring).
    rewrite Sum_swap. unfold mmul at 2. apply Sum_ext. intros l Hl. rewrite Sum_scal_r, (keeps_columns dim c p p' W Cl Qp Qp' a l Ha Hl). reflexivity. }
  assert (Sy : forall q i j, mmul dim q (fun l j => q j l) i j = mmul dim q (fun l j => q j l) j i) by (intros p a b; unfold mmul; apply Sum_ext; intros; ring).
  rewrite <- (A q q' Q Q' i j Hi). rewrite (Sy q' i j), <- (A q' q Q' Q j i Hj). apply Sum_ext. intros m _. rewrite (Sy q' i m), (Sy q m j). ring.
Qed.
Lemma form_order dim c k k' q q' m m' x : wf_cell dim c -> closed_cell dim c -> qr_factor (zlen (mc_faces c)) dim (fun i j => area c i * offset c i j)%R q -> qr_factor (zlen (mc_faces c)) dim (fun i j => area c i * offset c i j)%R q' ->
  (forall y, m * quad dim k y <= m' * quad dim k' y)%R -> (m * quad (zlen (mc_faces c)) (inverse_ip dim c k q) x <= m' * quad (zlen (mc_faces c)) (inverse_ip dim c k' q') x)%R.
Proof.
  intros W Cl Q Q' O. assert (Hd : 0 < dim) by apply W. assert (Hv : (0 < mc_vol c)%R) by apply W. rewrite (inv_ip_quad dim c W k q x), (inv_ip_quad dim c W k' q' x).
  assert (Er : quad (zlen (mc_faces c)) (regular_part dim c q') x = quad (zlen (mc_faces c)) (regular_part dim c q) x).
  { apply quad_ext. intros i j Hi Hj. unfold regular_part. rewrite (same_projection dim c q q' W Cl Q Q' i j Hi Hj). reflexivity. }
  rewrite Er. pose proof (reg_psd dim c q Q x) as Rp.
  assert (Tr : (m * Sum dim (fun a => k a a) <= m' * Sum dim (fun a => k' a a))%R). { rewrite <- !Sum_scal. apply Sum_le. intros a Ha. rewrite <- (quad_unit dim k a Ha), <- (quad_unit dim k' a Ha). apply O. }
  unfold Rdiv. rewrite <- !Rmult_assoc. apply Rmult_le_compat_r; [apply Rlt_le, Rinv_0_lt_compat, Hv|]. rewrite !Rmult_plus_distr_l. apply Rplus_le_compat; [apply O|].
  clear Er. set (R0 := quad (zlen (mc_faces c)) (regular_part dim c q) x) in *. assert (0 < / IZR dim)%R by (apply Rinv_0_lt_compat, IZR_lt; exact Hd).
  replace (m * (6 * Sum dim (fun a => k a a) * / IZR dim * R0))%R with ((m * Sum dim (fun a => k a a)) * (6 * / IZR dim * R0))%R by ring. replace (m' * (6 * Sum dim (fun a => k' a a) * / IZR dim * R0))%R with ((m' * Sum dim (fun a => k' a a)) * (6 * / IZR dim * R0))%R by ring.
  apply Rmult_le_compat_r; [|exact Tr]. apply Rmult_le_pos; [lra|exact Rp].
Qed.
Lemma mimetic_order orth orth' g geo Kc Kc' mob mob' ip ip' c : geometry 3 g geo -> rock_cells orth g geo Kc mob ip -> rock_cells orth' g geo Kc' mob' ip' ->
  (forall k y, 0 <= k < zlen g -> (mob k * quad 3 (entry (Kc k)) y <= c * (mob' k * quad 3 (entry (Kc' k)) y))%R) -> matrices_below g c ip ip'.
Proof.
  intros (G & _) R1 R2 O k x Hk. destruct (G k Hk) as (Wf & Cl & L & _).
  assert (F : forall orth Kc mob ip, rock_cells orth g geo Kc mob ip -> exists q, qr_factor (zlen (mc_faces (geo k))) 3 (fun i j => area (geo k) i * offset (geo k) i j)%R q /\ quad (nfaces g k) (Bk g ip k) x = (mob k * quad (zlen (mc_faces (geo k))) (inverse_ip 3 (geo k) (entry (Kc k)) q) x)%R).
  { intros o Kx mx ix RC. destruct (RC k Hk) as (SK & _ & _ & _ & La & (Binv & fa & T1 & T2 & out & B & S1 & S2 & S3 & S4 & S5 & EB & Ei) & _). unfold Bk. rewrite Ei. rewrite <- L in *.
    destruct (matrix_ok 3 o (geo k) (Kx k) Wf La Binv fa T1 T2 out (mx k) SK S1 S2 S3 S4 S5) as (q & B0 & E0 & Q & _ & _ & En). rewrite EB in E0. injection E0 as <-. exists q. split; [exact Q|].
    rewrite (quad_ext _ _ (fun i j => inverse_ip 3 (geo k) (entry (Kx k)) q i j * mx k)%R); [apply quad_scale|]. intros i j Hi Hj. destruct (En i j Hi Hj) as (_ & ->). ring. }
  destruct (F _ _ _ _ R1) as (q & Q & ->). destruct (F _ _ _ _ R2) as (q' & Q' & ->). rewrite <- Rmult_assoc. apply (form_order 3 (geo k)); try assumption. intros y. rewrite Rmult_assoc. apply O, Hk.
Qed.
