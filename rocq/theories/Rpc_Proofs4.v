From Verif Require Import BaseFacts RBaseFacts Lin_Facts Steady_Proofs Euler_Proofs2 Impl_Proofs Matx_Proofs Matx_Proofs3 Hnum_Proofs Hyb_Proofs Hyb_Proofs7 Hyb_Proofs8 Hyb_Proofs9 Eld_Proofs2 Relp_Proofs Relp_Proofs2 Relp_Proofs3 Relp_Proofs4 Relp_Proofs5 Visc_Proofs8 Mim_Proofs Mim_Proofs2 Tens_Proofs5 Tens_Proofs6 Tens_Proofs7 Tens_Proofs9 Rpc_Spec Rpc_Proofs Rpc_Proofs2 Rpc_Proofs3.
Open Scope Z_scope.

(* ---- inversion by cofactors ---- *)
Definition inv3 (d : list R) : list R :=
  match d with
  | [a; b; c; e; f; g; p; q; r] => let D := (/ (a * (f * r - g * q) - b * (e * r - g * p) + c * (e * q - f * p)))%R in
      [(f * r - g * q) * D; (c * q - b * r) * D; (b * g - c * f) * D; (g * p - e * r) * D; (a * r - c * p) * D; (c * e - a * g) * D; (e * q - f * p) * D; (b * p - a * q) * D; (a * f - b * e) * D]%R
  | _ => []
  end.
Lemma nine_list {A} (d : list A) : zlen d = 9 -> exists a b c e f g p q r, d = [a; b; c; e; f; g; p; q; r].
Proof.
  intros L. assert (L' : length d = 9%nat) by (unfold zlen in L; lia). destruct d as [|a [|b [|c [|e [|f [|g [|p [|q [|r [|x d]]]]]]]]]]; try discriminate. exists a, b, c, e, f, g, p, q, r. reflexivity.
Qed.
Lemma nine_at (a b c e f g p q r : R) : let k := Visc_Spec.tensor_of [a; b; c; e; f; g; p; q; r] in
  k 0%Z 0%Z = a /\ k 0%Z 1%Z = b /\ k 0%Z 2%Z = c /\ k 1%Z 0%Z = e /\ k 1%Z 1%Z = f /\ k 1%Z 2%Z = g /\ k 2%Z 0%Z = p /\ k 2%Z 1%Z = q /\ k 2%Z 2%Z = r.
Proof. repeat split. Qed.
Lemma inv3_inverts : inverts inv3.
Proof.
  intros d L N. destruct (nine_list d L) as (a & b & c & e & f & g & p & q & r & ->). unfold det3 in N.
  change (a * (f * r - g * q) - b * (e * r - g * p) + c * (e * q - f * p) <> 0)%R in N.
  cbn [inv3]. cbv zeta. apply Rinv_r in N. generalize dependent (/ (a * (f * r - g * q) - b * (e * r - g * p) + c * (e * q - f * p)))%R. intros D N. split; [reflexivity|]. intros i j Hi Hj. rewrite !mm3. unfold ident.
  destruct (three_cases i Hi) as [-> | [-> | ->]], (three_cases j Hj) as [-> | [-> | ->]]; cbn [Z.eqb Pos.eqb]; repeat match goal with |- context [Visc_Spec.tensor_of [?x0; ?x1; ?x2; ?x3; ?x4; ?x5; ?x6; ?x7; ?x8] _ _] => destruct (nine_at x0 x1 x2 x3 x4 x5 x6 x7 x8) as (?E & ?E & ?E & ?E & ?E & ?E & ?E & ?E & ?E); rewrite ?E, ?E0, ?E1, ?E2, ?E3, ?E4, ?E5, ?E6, ?E7; clear E E0 E1 E2 E3 E4 E5 E6 E7 end; split; first [ring|rewrite <- N; ring].
Qed.

(* ---- the cubic cell with the permeability t ---- *)
Definition all_pos (t : R * R * R) : Prop := forall x, In x (entries t) -> (0 < x)%R.
Lemma diag_entry a b c i j : 0 <= i < 3 -> 0 <= j < 3 -> entry (diag_mat (a, b, c)) i j = if i =? j then nth (Z.to_nat i) [a; b; c] 0%R else 0%R.
Proof. intros Hi Hj. destruct (three_cases i Hi) as [-> | [-> | ->]], (three_cases j Hj) as [-> | [-> | ->]]; reflexivity. Qed.
Lemma diag_good t : all_pos t -> good_rock (diag_mat t).
Proof.
  destruct t as [[a b] c]. intros P. assert (Pa : (0 < a)%R) by (apply P; cbn; auto). assert (Pb : (0 < b)%R) by (apply P; cbn; auto). assert (Pc : (0 < c)%R) by (apply P; cbn; auto).
  split; [apply shaped_3; reflexivity|]. split.
  - intros i j Hi Hj. rewrite !diag_entry by assumption. rewrite (Z.eqb_sym j i). destruct (Z.eqb_spec i j) as [-> |]; reflexivity.
  - intros x (i & Hi & N). rewrite diag_quad. assert (X : forall y : R, (0 <= y * y)%R) by (intros; nra). pose proof (X (x 0)). pose proof (X (x 1)). pose proof (X (x 2)). assert (0 < x i * x i)%R by nra.
    pose proof (Rmult_le_pos a (x 0%Z * x 0%Z)%R ltac:(lra) ltac:(lra)). pose proof (Rmult_le_pos b (x 1%Z * x 1%Z)%R ltac:(lra) ltac:(lra)). pose proof (Rmult_le_pos c (x 2%Z * x 2%Z)%R ltac:(lra) ltac:(lra)).
    destruct (three_cases i Hi) as [-> | [-> | ->]]; [pose proof (Rmult_lt_0_compat a (x 0%Z * x 0%Z)%R)|pose proof (Rmult_lt_0_compat b (x 1%Z * x 1%Z)%R)|pose proof (Rmult_lt_0_compat c (x 2%Z * x 2%Z)%R)]; lra.
Qed.
Lemma diag_fixed t d bc : like d 0 bc -> linear_bc 3 one_cell bc cube_at (diag_mat t) 1 (1/2) (slope d) /\ ~ no_dirichlet one_cell bc.
Proof.
  destruct t as [[a b] c]. intros L. pose proof L as (Hd & C). cbn [Z.eqb] in C. unfold flat_cond in C. cbn [Z.eqb] in C. split.
  - split; [|split; [|intros k r k' r' v P; destruct (like_no_partners 0 _ _ _ _ _ _ eq_refl L P)]]; intros k r p H E; apply one_half in H; destruct H as (-> & Hr); rewrite one_cond, C in E by exact Hr.
    + unfold cube_at. rewrite cube_pressure by assumption. unfold fix_cond in E. destruct (Z.eqb_spec r (2 * d)) as [-> |]; [injection E as <-; destruct (three_cases d Hd) as [-> | [-> | ->]]; unfold cube_off; cbn; lra|]. destruct (Z.eqb_spec r (2 * d + 1)) as [-> |]; [injection E as <-; destruct (three_cases d Hd) as [-> | [-> | ->]]; unfold cube_off; cbn; lra|discriminate].
    + unfold fix_cond in E. destruct (Z.eqb_spec r (2 * d)); [discriminate|]. destruct (Z.eqb_spec r (2 * d + 1)); [discriminate|]. injection E as <-. unfold cube_at, darcy_flux, dot, mvec. rewrite (Sum_ext 3 _ (fun j => cube_n r j * (nth (Z.to_nat j) [a; b; c] 0 * slope d j))%R).
      * rewrite Sum3. destruct (three_cases d Hd) as [-> | [-> | ->]], (six_cases r Hr) as [-> | [-> | [-> | [-> | [-> | ->]]]]]; try lia; unfold cube_n, slope, ident; cbn; lra.
      * intros j Hj. destruct (cube_offset r j Hr Hj) as (_ & -> & _). f_equal. rewrite (Sum_pick 3 j); [|exact Hj|intros i Hi Nn; rewrite diag_entry by assumption; destruct (Z.eqb_spec j i); [lia|ring]]. rewrite diag_entry by assumption. rewrite Z.eqb_refl. reflexivity.
  - intros Nd. apply (Nd 0 (2 * d) 1%R); [apply one_half; lia|]. rewrite one_cond, C by lia. unfold fix_cond. rewrite Z.eqb_refl. reflexivity.
Qed.
Definition start_at (bct d : Z) : R := if bct =? 2 then cube_off 0 d else (1 / 2)%R.
Definition cube_ups (bct : Z) : upscaler :=
  mkUps (search (map (fun d => exact_pressures (start_at bct d) d) (zrange 0 3))) same_list one_cell cube_at (fun ts => rock_ip (cell_perm ts 0)) bct 0 0 6.
Lemma one_ts ts : zlen ts = 1 -> positive_cells ts -> exists t, ts = [t] /\ all_pos t.
Proof.
  intros L P. assert (L' : length ts = 1%nat) by (unfold zlen in L; lia). destruct ts as [|t [|t' ts]]; try discriminate. exists t. split; [reflexivity|]. intros x Hx. apply (P t x); [left; reflexivity|exact Hx].
Qed.
Lemma cube_ups_ok bct : bct = 0 \/ bct = 2 -> upscaler_ok orth2 (cube_ups bct) low_half hi_half.
Proof.
  intros Hb. split; [apply search_exact|]. split; [exact one_faces|]. intros ts L P. change (zlen (us_g (cube_ups bct))) with 1 in L. destruct (one_ts ts L P) as (t & -> & Pt). cbn [cube_ups us_srt us_g us_geo us_ip us_bct]. change (cell_perm [t] 0) with (diag_mat t). pose proof (diag_good t Pt) as G. split; [apply one_block; [exact G|lia]|].
  destruct (one_rock _ G) as (Rk & _). intros k Hk. specialize (Rk k Hk). change (zlen one_cell) with 1 in Hk. assert (k = 0) by lia. subst k. unfold tracer_total. rewrite tracer_one. exact Rk.
Qed.
Lemma data_total cols k : tensor_is cols k -> exists d, tensor_data cols = Ok d.
Proof.
  intros (Lc & H). assert (G : forall i j, 0 <= i < 3 -> 0 <= j < 3 -> exists col x, zget cols j = Some col /\ zget col i = Some (Some x)).
  { intros i j Hi Hj. destruct (H j Hj) as (col & A & _ & C). exists col, (k i j). split; [exact A|apply C; exact Hi]. }
  unfold tensor_data. apply mapM_exists. intros q Hq. apply In_zrange in Hq. pose proof (Z.rem_bound_pos q 3 ltac:(lia) ltac:(lia)). pose proof (Z.quot_rem' q 3). assert (0 <= Z.quot q 3 < 3) by lia.
  destruct (G (Z.quot q 3) (Z.rem q 3)) as (col & x & A & B); [assumption|lia|]. unfold rget. rewrite A. cbn [bind]. rewrite B. cbn [bind]. eauto.
Qed.
Lemma cube_total bct ts st : bct = 0 \/ bct = 2 -> zlen ts = 1 -> positive_cells ts -> exists d st', upscale_cells (cube_ups bct) ts st = Ok (d, st').
Proof.
  intros Hb L P. destruct (one_ts ts L P) as (t & -> & Pt). pose proof (diag_good t Pt) as G. unfold upscale_cells. cbn [cube_ups us_K us_srt us_g us_geo us_ip us_bct us_ty us_maxit us_nf]. change (cell_perm [t] 0) with (diag_mat t).
  destruct (cube_upscaled (diag_mat t) bct (start_at bct) 0 (fst st) (snd st) G ltac:(lia) ltac:(lia)) as (s & E & U & _).
  { intros d bc Lk. destruct Hb as [-> | ->]; unfold start_at; cbn [Z.eqb Pos.eqb]; [destruct (diag_fixed t d bc Lk) as (A & B)|destruct (periodic_linear (diag_mat t) d bc Lk) as (A & B)]; auto. }
  rewrite E. cbn [bind]. assert (T : exists k, tensor_is (ts_cols s) k) by (destruct Hb as [-> | ->]; [destruct (fixed_diagonal _ _ _ _ _ _ _ _ U) as (k & Tk & _)|destruct (periodic_symmetric _ _ _ _ _ _ _ _ U) as (k & Tk & _)]; eauto).
  destruct T as (k & Tk). destruct (data_total _ k Tk) as (d & ->). cbn [bind]. eauto.
Qed.
Lemma cube_ran orth low hi t d v : upscaler_ok orth (cube_ups 0) low hi -> ran (cube_ups 0) low hi [t] d -> 0 <= v < 3 -> Visc_Spec.tensor_of d v v = nth (Z.to_nat v) (entries t) 0%R.
Proof.
  intros (_ & _ & UO) Rd Hv. pose proof Rd as (L & P & _ & cols & U & T). destruct (UO [t] L P) as (BK & RK). pose proof BK as (_ & _ & GEO & _). destruct (mimetic_cells _ _ _ _ _ _ GEO RK) as (_ & _ & PL). cbn [cube_ups us_srt us_g us_geo us_ip us_bct] in *.
  destruct (one_ts [t] L P) as (t' & Et & Pt). injection Et as <-. destruct (fixed_bounds _ _ _ _ _ _ _ _ U _ _ v PL T Hv) as (A & B). unfold block_volume in *. rewrite !one_integral in A. unfold tracer_total in *. rewrite !tracer_one in *. change (cell_perm [t] 0) with (diag_mat t) in A. destruct t as [[a b] c].
  rewrite diag_entry in A by assumption. rewrite Z.eqb_refl in A. cbn [entries]. set (kv := nth (Z.to_nat v) [a; b; c] 0%R) in *. assert (Pv : (0 < kv)%R) by (apply Pt; unfold kv; cbn [entries]; apply nth_In; cbn; lia).
  specialize (B (fun _ i => ident v i / kv)%R). rewrite !one_integral in B. cbv beta in B. assert (Ij : ident v v = 1%R) by (unfold ident; rewrite Z.eqb_refl; reflexivity). rewrite Ij in B. cut (1 <= Visc_Spec.tensor_of d v v * (1 / kv))%R.
  - intros Q. apply (Rmult_le_compat_r kv) in Q; [|lra]. replace (Visc_Spec.tensor_of d v v * (1 / kv) * kv)%R with (Visc_Spec.tensor_of d v v) in Q by (field; lra). lra.
  - apply B. intros k Hk i Hi. change (zlen one_cell) with 1 in Hk. assert (k = 0) by lia. subst k. change (cell_perm [(a, b, c)] 0) with (diag_mat (a, b, c)). unfold mvec. rewrite (Sum_pick 3 i); [|exact Hi|intros l Hl N; rewrite diag_entry by assumption; destruct (Z.eqb_spec i l); [lia|ring]].
    rewrite diag_entry by assumption. rewrite Z.eqb_refl. unfold ident. destruct (Z.eqb_spec v i) as [-> |]; [fold kv; field; lra|unfold Rdiv; ring].
Qed.
