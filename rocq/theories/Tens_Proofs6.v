From Verif Require Import BaseFacts RBaseFacts Lin_Facts Steady_Proofs Euler_Proofs2 Impl_Proofs Matx_Proofs Hnum_Proofs Hyb_Proofs Hyb_Proofs2 Hyb_Proofs3 Hyb_Proofs4 Hyb_Proofs5 Hyb_Proofs6 Hyb_Proofs7 Hyb_Proofs8 Hyb_Proofs9 Eld_Proofs2 Bound_Proofs Bound_Proofs3 Mim_Proofs Mim_Proofs2 Lsv_Proofs Lsv_Proofs2 Lsv_Proofs4 Lsv_Proofs5 Upb_Proofs Tens_Proofs Tens_Proofs2 Tens_Proofs3 Tens_Proofs4 Tens_Proofs5 Tens_Spec.
Open Scope Z_scope.

Lemma tensor_uniq cols k k' : tensor_is cols k -> tensor_is cols k' -> forall i d, 0 <= i < 3 -> 0 <= d < 3 -> k i d = k' i d.
Proof.
  intros (_ & T) (_ & T') i d Hi Hd. destruct (T d Hd) as (c & E & _ & F). destruct (T' d Hd) as (c' & E' & _ & F'). rewrite E in E'. injection E' as <-. specialize (F i Hi). specialize (F' i Hi). congruence.
Qed.
Lemma quad_same k k' x : (forall i d, 0 <= i < 3 -> 0 <= d < 3 -> k i d = k' i d) -> quad 3 k x = quad 3 k' x.
Proof. intros E. unfold quad, dot, mvec. apply Sum_ext. intros i Hi. f_equal. apply Sum_ext. intros j Hj. rewrite (E i j Hi Hj). reflexivity. Qed.
Lemma quad_same_x k x x' : (forall i, 0 <= i < 3 -> x i = x' i) -> quad 3 k x = quad 3 k x'.
Proof. intros E. unfold quad, dot, mvec. apply Sum_ext. intros i Hi. rewrite (E i Hi). f_equal. apply Sum_ext. intros j Hj. rewrite (E j Hj). reflexivity. Qed.
Lemma quad3 k x : quad 3 k x = (k 0%Z 0%Z * (x 0%Z * x 0%Z) + k 1%Z 1%Z * (x 1%Z * x 1%Z) + k 2%Z 2%Z * (x 2%Z * x 2%Z) + (k 0%Z 1%Z + k 1%Z 0%Z) * (x 0%Z * x 1%Z) + (k 0%Z 2%Z + k 2%Z 0%Z) * (x 0%Z * x 2%Z) + (k 1%Z 2%Z + k 2%Z 1%Z) * (x 1%Z * x 2%Z))%R.
Proof. unfold quad, dot, mvec. rewrite !Sum3. ring. Qed.
(* the form determines a symmetric matrix *)
Lemma polarise k k' : symmetric 3 k -> symmetric 3 k' -> (forall x, quad 3 k x = quad 3 k' x) -> forall i j, 0 <= i < 3 -> 0 <= j < 3 -> k i j = k' i j.
Proof.
  intros Sy Sy' E. pose proof (E (fun i => if i =? 0 then 1 else 0)%R) as E0. pose proof (E (fun i => if i =? 1 then 1 else 0)%R) as E1. pose proof (E (fun i => if i =? 2 then 1 else 0)%R) as E2.
  pose proof (E (fun i => if i =? 2 then 0 else 1)%R) as E01. pose proof (E (fun i => if i =? 1 then 0 else 1)%R) as E02. pose proof (E (fun i => if i =? 0 then 0 else 1)%R) as E12.
  rewrite !quad3 in *. cbn in E0, E1, E2, E01, E02, E12.
  pose proof (Sy 0 1 ltac:(lia) ltac:(lia)). pose proof (Sy 0 2 ltac:(lia) ltac:(lia)). pose proof (Sy 1 2 ltac:(lia) ltac:(lia)). pose proof (Sy' 0 1 ltac:(lia) ltac:(lia)). pose proof (Sy' 0 2 ltac:(lia) ltac:(lia)). pose proof (Sy' 1 2 ltac:(lia) ltac:(lia)).
  intros i j Hi Hj. assert (i = 0 \/ i = 1 \/ i = 2) as [-> |[-> | ->]] by lia; assert (j = 0 \/ j = 1 \/ j = 2) as [-> |[-> | ->]] by lia; lra.
Qed.
Lemma get3 {A} (a b c : A) i : 0 <= i < 3 -> zget [a; b; c] i = Some (if i =? 0 then a else if i =? 1 then b else c).
Proof. intros Hi. assert (i = 0 \/ i = 1 \/ i = 2) as [-> |[-> | ->]] by lia; reflexivity. Qed.
Section Per.
Variables (srt : list bface -> list bface) (g : list hcell) (geo : Z -> mcell) (ip : hip) (twodim : bool) (low hi : Z -> R) (cols : list (list (option R))).
Hypothesis UP : upscaled_by srt g geo ip 2 twodim low hi cols.
Let Z2 : 2 = 0 \/ 2 = 2 := or_intror eq_refl.
Lemma per_run : block srt g geo ip 2 twodim low hi /\ flow_matrices g ip /\ exists st (B : Z -> bcs) (X P : Z -> list R) (V : Z -> list (list R)) (C : Z -> list (option R)),
    (forall d, 0 <= d < 3 -> dirn srt g geo ip 2 twodim low hi d st (B d) (X d) (P d) (V d) (C d)) /\ tensor_is cols (kt g geo ip low hi st B X P).
Proof.
  destruct (run_family srt g geo ip 2 twodim low hi cols Z2 UP) as (BK & FM & st & B & X & P & V & C & -> & DN). split; [exact BK|]. split; [exact FM|]. exists st, B, X, P, V, C. split; [exact DN|]. split; [reflexivity|].
  intros d Hd. exists (C d). split; [rewrite (get3 _ _ _ d Hd); assert (d = 0 \/ d = 1 \/ d = 2) as [-> |[-> | ->]] by lia; reflexivity|]. rewrite (per_col srt g geo ip 2 twodim low hi BK Z2 FM st B X P V C DN d eq_refl Hd).
  split; [reflexivity|]. intros i Hi. rewrite (get3 _ _ _ i Hi). assert (i = 0 \/ i = 1 \/ i = 2) as [-> |[-> | ->]] by lia; reflexivity.
Qed.
Lemma periodic_symmetric : exists k, tensor_is cols k /\ symmetric 3 k.
Proof.
  destruct per_run as (BK & FM & st & B & X & P & V & C & DN & T). exists (kt g geo ip low hi st B X P). split; [exact T|]. intros i j Hi Hj.
  pose proof (kt_vol srt g geo ip 2 twodim low hi BK st B X P V C DN i j Hi) as E1. pose proof (kt_vol srt g geo ip 2 twodim low hi BK st B X P V C DN j i Hj) as E2. pose proof (vol_pos srt g geo ip 2 twodim low hi BK st B X P V C DN) as Vp.
  rewrite (energy_sym g ip _ _ (proj1 FM)) in E1. apply (Rmult_eq_reg_r (vol g geo)); [|lra]. rewrite E1, E2. ring.
Qed.
Lemma periodic_nonneg k : tensor_is cols k -> nonneg_form 3 k.
Proof.
  intros Tk x. destruct per_run as (BK & FM & st & B & X & P & V & C & DN & T). rewrite (quad_same _ _ x (tensor_uniq _ _ _ Tk T)).
  pose proof (quad_energy srt g geo ip 2 twodim low hi BK FM st B X P V C DN x) as E. pose proof (vol_pos srt g geo ip 2 twodim low hi BK st B X P V C DN) as Vp. pose proof (energy_nonneg g ip (piX low hi st X P x) (proj1 FM)) as N. rewrite <- E in N.
  apply (Rmult_le_reg_r (vol g geo)); [exact Vp|]. lra.
Qed.
Lemma periodic_null k x : tensor_is cols k -> quad 3 k x = 0%R -> forall d, 0 <= d < 3 -> (twodim = true -> d < 2) -> x d = 0%R.
Proof.
  intros Tk E0. destruct per_run as (BK & FM & st & B & X & P & V & C & DN & T). rewrite (quad_same _ _ x (tensor_uniq _ _ _ Tk T)) in E0.
  apply (per_definite srt g geo ip 2 twodim low hi BK Z2 FM st B X P V C DN x eq_refl). rewrite <- (quad_energy srt g geo ip 2 twodim low hi BK FM st B X P V C DN x), E0. ring.
Qed.
Lemma periodic_positive k : tensor_is cols k -> twodim = false -> positive_form 3 k.
Proof.
  intros Tk H2 x (i & Hi & Nx). destruct (periodic_nonneg k Tk x) as [H|E]; [exact H|]. symmetry in E. exfalso. apply Nx. apply (periodic_null k x Tk E i Hi). congruence.
Qed.
Lemma periodic_plane k : tensor_is cols k -> twodim = true -> (forall i, 0 <= i < 3 -> k i 2 = 0%R /\ k 2 i = 0%R) /\ forall x, x 0 <> 0%R \/ x 1 <> 0%R -> (0 < quad 3 k x)%R.
Proof.
  intros Tk H2. split.
  - intros i Hi. destruct per_run as (BK & FM & st & B & X & P & V & C & DN & T). rewrite (tensor_uniq _ _ _ Tk T i 2), (tensor_uniq _ _ _ Tk T 2 i) by lia. apply (kt_flat srt g geo ip 2 twodim low hi BK Z2 FM st B X P V C DN (fun _ => 0%R) i eq_refl H2).
  - intros x Nx. destruct (periodic_nonneg k Tk x) as [H|E]; [exact H|]. symmetry in E. exfalso. pose proof (periodic_null k x Tk E 0 ltac:(lia) ltac:(lia)). pose proof (periodic_null k x Tk E 1 ltac:(lia) ltac:(lia)). destruct Nx; contradiction.
Qed.
Section Rock.
Variable L : Z -> Z -> Z -> R.
Hypothesis PL : permeability g geo ip L.
Hypothesis Tr : translates srt g geo twodim low hi.
Lemma periodic_upper k a : tensor_is cols k -> (block_volume g geo * quad 3 k a <= integral_of g geo (fun c => quad 3 (L c) a))%R.
Proof.
  intros Tk. destruct per_run as (BK & FM & st & B & X & P & V & C & DN & T). rewrite (quad_same _ _ a (tensor_uniq _ _ _ Tk T)). rewrite Rmult_comm. exact (per_upper srt g geo ip 2 twodim low hi BK Z2 FM st B X P V C DN a L PL Tr eq_refl).
Qed.
Lemma periodic_lower k a q y : tensor_is cols k -> (twodim = true -> q 2 = 0%R) -> (forall c, 0 <= c < zlen g -> forall i, 0 <= i < 3 -> mvec 3 (L c) (y c) i = q i) ->
  (2 * (block_volume g geo * dot 3 a q) - integral_of g geo (fun c => dot 3 q (y c)) <= block_volume g geo * quad 3 k a)%R.
Proof.
  intros Tk H2 Ey. destruct per_run as (BK & FM & st & B & X & P & V & C & DN & T). rewrite (quad_same _ _ a (tensor_uniq _ _ _ Tk T)). rewrite (Rmult_comm (block_volume g geo) (quad _ _ _)). exact (per_lower srt g geo ip 2 twodim low hi BK Z2 FM st B X P V C DN a L PL Tr q y eq_refl H2 Ey).
Qed.
Lemma volume_pos : (0 < block_volume g geo)%R.
Proof. destruct per_run as (BK & FM & st & B & X & P & V & C & DN & _). exact (vol_pos srt g geo ip 2 twodim low hi BK st B X P V C DN). Qed.
Lemma integral_const c : integral_of g geo (fun _ => c) = (block_volume g geo * c)%R.
Proof. unfold block_volume, integral_of. rewrite <- Sum_scal_r. apply Sum_ext. intros; ring. Qed.
Variable Lc : Z -> Z -> R.
Hypothesis HL : forall c i j, 0 <= c < zlen g -> 0 <= i < 3 -> 0 <= j < 3 -> L c i j = Lc i j.
Lemma uniform_quad k a : tensor_is cols k -> (twodim = true -> mvec 3 Lc a 2 = 0%R) -> quad 3 k a = quad 3 Lc a.
Proof.
  intros Tk H2. pose proof volume_pos as Vp. apply Rle_antisym; apply (Rmult_le_reg_l (block_volume g geo)); try exact Vp.
  - eapply Rle_trans; [apply (periodic_upper k a Tk)|]. apply Req_le. rewrite <- integral_const. unfold integral_of. apply Sum_ext. intros c Hc. rewrite (quad_same (L c) Lc a (fun i d => HL c i d Hc)). reflexivity.
  - pose proof (periodic_lower k a (mvec 3 Lc a) (fun _ => a) Tk H2) as Q. eapply Rle_trans; [|apply Q].
    + rewrite (dot_sym 3 (mvec 3 Lc a) a). rewrite integral_const. unfold quad. lra.
    + intros c Hc i Hi. unfold mvec. apply Sum_ext. intros j Hj. rewrite (HL c i j Hc Hi Hj). reflexivity.
Qed.
Lemma periodic_uniform k : tensor_is cols k -> twodim = false -> forall i j, 0 <= i < 3 -> 0 <= j < 3 -> k i j = Lc i j.
Proof.
  intros Tk H2. assert (Hg : 0 < zlen g) by (destruct per_run as ((Hg & _) & _); exact Hg). apply polarise.
  - destruct periodic_symmetric as (k' & Tk' & Sy). intros i j Hi Hj. rewrite !(tensor_uniq _ _ _ Tk Tk') by assumption. apply Sy; assumption.
  - destruct (PL 0 ltac:(lia)) as (Sy & _). intros i j Hi Hj. rewrite <- !(HL 0) by (assumption || lia). apply Sy; assumption.
  - intros x. apply (uniform_quad k x Tk). congruence.
Qed.
Lemma periodic_uniform_plane k : tensor_is cols k -> twodim = true -> forall i j, 0 <= i < 3 -> 0 <= j < 3 -> k i j = plane_part Lc i j.
Proof.
  intros Tk H2. assert (Hg : 0 < zlen g) by (destruct per_run as ((Hg & _) & _); exact Hg). destruct (PL 0 ltac:(lia)) as (Sy & Po & _).
  assert (SyL : symmetric 3 Lc) by (intros i j Hi Hj; rewrite <- !(HL 0) by (assumption || lia); apply Sy; assumption).
  assert (L2 : (0 < Lc 2 2)%R). { specialize (Po (fun i => if i =? 2 then 1 else 0)%R). rewrite quad3 in Po. cbn in Po. rewrite !(HL 0) in Po by lia. assert (0 < 0 + 0 + Lc 2%Z 2%Z * (1 * 1))%R; [|lra]. eapply Rlt_le_trans; [apply Po; exists 2; split; [lia|cbn; lra]|]. lra. }
  destruct (periodic_plane k Tk H2) as (Z0 & _). apply polarise.
  - destruct periodic_symmetric as (k' & Tk' & Sk). intros i j Hi Hj. rewrite !(tensor_uniq _ _ _ Tk Tk') by assumption. apply Sk; assumption.
  - intros i j Hi Hj. unfold plane_part. rewrite orb_comm. destruct ((j =? 2) || (i =? 2)); [reflexivity|]. rewrite (SyL i j Hi Hj), (SyL i 2 Hi ltac:(lia)), (SyL 2 j ltac:(lia) Hj). field. lra.
  - intros x. set (x' := fun i => if i =? 2 then (- (Lc 2%Z 0%Z * x 0%Z + Lc 2%Z 1%Z * x 1%Z) / Lc 2%Z 2%Z)%R else x i).
    transitivity (quad 3 k x'). { rewrite !quad3. unfold x'. cbn. destruct (Z0 0 ltac:(lia)) as (-> & ->). destruct (Z0 1 ltac:(lia)) as (-> & ->). destruct (Z0 2 ltac:(lia)) as (-> & _). ring. }
    rewrite (uniform_quad k x' Tk). 2:{ intros _. unfold mvec, x'. rewrite Sum3. cbn. field. lra. }
    rewrite !quad3. unfold x', plane_part. cbn. rewrite (SyL 0 2), (SyL 1 2), (SyL 0 1) by lia. field. lra.
Qed.
End Rock.
End Per.
Section Fix.
Variables (srt : list bface -> list bface) (g : list hcell) (geo : Z -> mcell) (ip : hip) (twodim : bool) (low hi : Z -> R) (cols : list (list (option R))).
Hypothesis UP : upscaled_by srt g geo ip 0 twodim low hi cols.
Let Z0 : 0 = 0 \/ 0 = 2 := or_introl eq_refl.
Lemma fix_run : block srt g geo ip 0 twodim low hi /\ flow_matrices g ip /\ exists st (B : Z -> bcs) (X P : Z -> list R) (V : Z -> list (list R)) (C : Z -> list (option R)),
    (forall d, 0 <= d < 3 -> dirn srt g geo ip 0 twodim low hi d st (B d) (X d) (P d) (V d) (C d)) /\ tensor_is cols (fun i d => if i =? d then kt g geo ip low hi st B X P d d else 0%R).
Proof.
  destruct (run_family srt g geo ip 0 twodim low hi cols Z0 UP) as (BK & FM & st & B & X & P & V & C & -> & DN). split; [exact BK|]. split; [exact FM|]. exists st, B, X, P, V, C. split; [exact DN|]. split; [reflexivity|].
  intros d Hd. exists (C d). split; [rewrite (get3 _ _ _ d Hd); assert (d = 0 \/ d = 1 \/ d = 2) as [-> |[-> | ->]] by lia; reflexivity|]. rewrite (fix_col srt g geo ip 0 twodim low hi BK Z0 FM st B X P V C DN (fun _ => 0%R) d eq_refl Hd).
  split; [reflexivity|]. intros i Hi. cbn [map]. rewrite (get3 _ _ _ i Hi). assert (i = 0 \/ i = 1 \/ i = 2) as [-> |[-> | ->]] by lia; reflexivity.
Qed.
Lemma fixed_diagonal : exists k, tensor_is cols k /\ forall i d, 0 <= i < 3 -> 0 <= d < 3 -> if i =? d then (0 < k i d)%R else k i d = 0%R.
Proof.
  destruct fix_run as (BK & FM & st & B & X & P & V & C & DN & T). eexists. split; [exact T|]. intros i d Hi Hd. cbv beta. destruct (Z.eqb_spec i d) as [->|]; [|reflexivity].
  pose proof (fix_pos srt g geo ip 0 twodim low hi BK Z0 FM st B X P V C DN (fun _ => 0%R) d eq_refl Hd) as Ep. pose proof (ar_pos srt g geo ip 0 twodim low hi BK st B X P V C DN d Hd). pose proof (len_pos srt g geo ip 0 twodim low hi BK d Hd).
  unfold kt. apply Rmult_lt_0_compat; [|assumption]. apply Rdiv_lt_0_compat; assumption.
Qed.
Lemma fixed_bounds L k d : permeability g geo ip L -> tensor_is cols k -> 0 <= d < 3 ->
  (block_volume g geo * k d d <= integral_of g geo (fun c => L c d d))%R /\
  forall y, (forall c, 0 <= c < zlen g -> forall i, 0 <= i < 3 -> mvec 3 (L c) (y c) i = ident d i) -> (block_volume g geo <= k d d * integral_of g geo (fun c => y c d))%R.
Proof.
  intros PL Tk Hd. destruct fix_run as (BK & FM & st & B & X & P & V & C & DN & T). rewrite (tensor_uniq _ _ _ Tk T d d Hd Hd). cbv beta. rewrite Z.eqb_refl. split.
  - rewrite Rmult_comm. exact (fix_upper srt g geo ip 0 twodim low hi BK Z0 FM st B X P V C DN (fun _ => 0%R) L PL d eq_refl Hd).
  - intros y Ey. exact (fix_lower srt g geo ip 0 twodim low hi BK Z0 FM st B X P V C DN (fun _ => 0%R) L PL d y eq_refl Hd Ey).
Qed.
End Fix.
(* ---- mimetic matrices ---- *)
Lemma mimetic_cells orth g geo Kc mob ip : geometry 3 g geo -> rock_cells orth g geo Kc mob ip ->
  flow_matrices g ip /\ ip_shaped g ip /\ permeability g geo ip (fun k i j => mob k * entry (Kc k) i j)%R.
Proof.
  intros HG HH.
  assert (HC : forall k, 0 <= k < zlen g -> shaped (ip_binv ip (idx g k)) FOrd (nfaces g k) (nfaces g k) /\ symmetric (nfaces g k) (Bk g ip k) /\ positive_form (nfaces g k) (Bk g ip k) /\
    forall p0 a i, 0 <= i < nfaces g k -> mvec (nfaces g k) (Bk g ip k) (pressure_drop 3 (geo k) p0 a) i = darcy_flux 3 (geo k) (mob k) (entry (Kc k)) a i).
  { intros k Hk. destruct HG as (G & _). destruct (G k Hk) as (Wf & Cl & L & _). destruct (HH k Hk) as (SK & KS & KP & Mp & La & (Binv & fa & T1 & T2 & out & B & S1 & S2 & S3 & S4 & S5 & EB & Ei) & _). unfold Bk. rewrite Ei. rewrite <- L in *.
    destruct (matrix_ok 3 orth (geo k) (Kc k) Wf La Binv fa T1 T2 out (mob k) SK S1 S2 S3 S4 S5) as (q & B0 & E0 & _ & _ & Sh & _). rewrite EB in E0. injection E0 as <-.
    destruct (iso_symmetric 3 orth (geo k) (Kc k) Binv fa T1 T2 out (mob k) Wf La SK S1 S2 S3 S4 S5 KS) as (B1 & E1 & Sy). rewrite EB in E1. injection E1 as <-.
    destruct (iso_pd 3 orth (geo k) (Kc k) Binv fa T1 T2 out (mob k) Wf La SK S1 S2 S3 S4 S5 Cl KP Mp) as (B2 & E2 & Pd). rewrite EB in E2. injection E2 as <-.
    destruct (iso_exact 3 orth (geo k) (Kc k) Binv fa T1 T2 out (mob k) Wf La SK S1 S2 S3 S4 S5 Cl) as (B3 & E3 & Ex). rewrite EB in E3. injection E3 as <-. auto. }
  assert (T2 : forall k, 0 <= k < zlen g -> 2 <= nfaces g k).
  { intros k Hk. destruct HG as (G & _). destruct (G k Hk) as ((D0 & _ & V & _) & Cl & L & S0). pose proof (Cl 0 0 ltac:(lia) ltac:(lia)) as C. rewrite L in C. specialize (S0 0 ltac:(lia)). unfold ident in C. cbn [Z.eqb] in C.
    assert (0 <= nfaces g k) by apply zlen_nonneg. destruct (Z.eq_dec (nfaces g k) 0) as [E|]; [exfalso; rewrite E in C; change (Sum 0 _) with 0%R in C; lra|]. destruct (Z.eq_dec (nfaces g k) 1) as [E|]; [exfalso|lia].
    rewrite E in *. rewrite Sum_1 in C. rewrite Sum_1 in S0. rewrite S0 in C. lra. }
  split; [|split].
  - split; [intros k Hk; split; [apply T2, Hk|]; destruct (HC k Hk) as (_ & A & B & _); auto|]. intros k Hk. apply (HH k Hk).
  - intros k Hk. destruct (HC k Hk) as (A & _ & B & _). split; [exact A|]. split.
    + destruct (HH k Hk) as (_ & _ & _ & _ & _ & _ & ->). apply zlen_zrepeat. apply zlen_nonneg.
    + pose proof (T2 k Hk). specialize (B (fun _ => 1%R)). assert (P : (0 < quad (nfaces g k) (Bk g ip k) (fun _ => 1))%R) by (apply B; exists 0; split; [lia|lra]).
      unfold quad, dot, mvec in P. intros Q. rewrite (Sum_ext (nfaces g k) _ (fun i => Sum (nfaces g k) (Bk g ip k i))) in P; [lra|]. intros i Hi. rewrite Rmult_1_l. apply Sum_ext. intros; ring.
  - intros k Hk. destruct (HC k Hk) as (_ & _ & _ & Ex). destruct (HH k Hk) as (_ & Sy & Po & Mp & _). split; [|split].
    + intros i j Hi Hj. rewrite (Sy i j Hi Hj). reflexivity.
    + intros x Nx. specialize (Po x Nx). rewrite quad3 in *. nra.
    + intros p0 a i Hi. rewrite (Ex p0 a i Hi). unfold darcy_flux, dot, mvec. rewrite !Sum3. ring.
Qed.
