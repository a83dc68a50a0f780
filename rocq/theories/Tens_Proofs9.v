From Verif Require Import BaseFacts RBaseFacts Lin_Facts Steady_Proofs Euler_Proofs2 Impl_Proofs Matx_Proofs Hnum_Proofs Hyb_Proofs Hyb_Proofs2 Hyb_Proofs3 Hyb_Proofs4 Hyb_Proofs5 Hyb_Proofs6 Hyb_Proofs7 Hyb_Proofs8 Hyb_Proofs9 Eld_Proofs2 Bound_Proofs Bound_Proofs3 Lsv_Proofs Lsv_Proofs2 Lsv_Proofs3 Lsv_Proofs4 Lsv_Proofs5 Upb_Proofs Mim_Proofs Mim_Proofs2 Tens_Proofs Tens_Proofs2 Tens_Proofs3 Tens_Proofs6 Tens_Proofs7 Tens_Proofs8 Matx_Proofs3 Tens_Spec.
Open Scope Z_scope.

(* ---- a solver that looks for the solution in a list ---- *)
Definition is_solution (A : lmat) (b x : list R) : bool :=
  (zlen x =? zlen b) && forallb (fun i => if Req_EM_T (Sum (zlen b) (fun j => lm_val A i j * nthR x j)%R) (nthR b i) then true else false) (zrange 0 (zlen b)).
Definition search (xs : list (list R)) : krylov := fun ty A M b x0 n => match find (is_solution A b) xs with Some x => (x, true) | None => (zrepeat 0%R (zlen b), false) end.
Lemma is_solution_iff A b x : is_solution A b x = true <-> zlen x = zlen b /\ forall i, 0 <= i < zlen b -> Sum (zlen b) (fun j => lm_val A i j * nthR x j)%R = nthR b i.
Proof.
  unfold is_solution. rewrite andb_true_iff, Z.eqb_eq, forallb_forall. split; intros (L & H); (split; [exact L|]); intros i Hi.
  - specialize (H i ltac:(apply In_zrange; lia)). destruct (Req_EM_T _ _); [assumption|discriminate].
  - apply In_zrange in Hi. destruct (Req_EM_T _ _) as [|N]; [reflexivity|]. exfalso. apply N, H. lia.
Qed.
Lemma search_exact xs : exact_solver (search xs).
Proof. intros ty A M b x0 n x. unfold search. destruct (find (is_solution A b) xs) as [y|] eqn:E; [|discriminate]. intros H. injection H as <-. apply find_some in E. destruct E as (_ & E). apply is_solution_iff. exact E. Qed.
Lemma search_len xs ty A M b x n : zlen (fst (search xs ty A M b x n)) = zlen b.
Proof. unfold search. destruct (find (is_solution A b) xs) as [y|] eqn:E; cbn [fst]; [apply find_some in E; destruct E as (_ & E); apply is_solution_iff in E; apply E|apply zlen_zrepeat, zlen_nonneg]. Qed.
Lemma search_finds xs ty A M b x n y : In y xs -> is_solution A b y = true -> snd (search xs ty A M b x n) = true.
Proof. intros Hy H. unfold search. destruct (find (is_solution A b) xs) as [z|] eqn:E; [reflexivity|]. rewrite (find_none _ _ E y Hy) in H. discriminate. Qed.

(* ---- one cubic cell ---- *)
Definition one_cell : list hcell := [mkHCell 0 [mkHFace None 1; mkHFace None 2; mkHFace None 3; mkHFace None 4; mkHFace None 5; mkHFace None 6]].
Definition cube_at (k : Z) : mcell := Mim_Proofs2.cube.
Definition orth2 (m : mat) : mat := mscale m (sqrt 2).
Definition rock_ip (K : mat) : hip :=
  mkIp (fun _ => match evaluate 3 orth2 Mim_Proofs2.cube K (mnew FOrd 6 6) (mnew FOrd 6 6) (mnew FOrd 6 3) (mnew FOrd 6 3) with Ok B => get_inverse B 1 (mnew FOrd 6 6) | _ => mnew FOrd 6 6 end)
       (fun _ => zrepeat 0%R 6).
Definition low_half (d : Z) : R := (- (1 / 2))%R.
Definition hi_half (d : Z) : R := (1 / 2)%R.
Definition unit_K : mat := mkMat 3 3 COrd [1; 0; 0; 0; 1; 0; 0; 0; 1]%R.
Definition good_rock (K : mat) : Prop := shaped K COrd 3 3 /\ symmetric 3 (entry K) /\ positive_form 3 (entry K).
Lemma one_half k r : half one_cell k r <-> k = 0 /\ 0 <= r < 6.
Proof. unfold half. change (zlen one_cell) with 1. split; [intros (H & H'); assert (k = 0) by lia; subst k; auto|intros (-> & H); split; [lia|exact H]]. Qed.
Lemma one_nbr r : 0 <= r < 6 -> nbr one_cell 0 r = None /\ bid one_cell 0 r = r + 1.
Proof. intros Hr. destruct (six_cases r Hr) as [-> | [-> | [-> | [-> | [-> | ->]]]]]; split; reflexivity. Qed.
Lemma one_twins k r k' r' : half one_cell k r -> ~ twins one_cell k r k' r'.
Proof. intros H (T & _). apply one_half in H. destruct H as (-> & Hr). rewrite (proj1 (one_nbr r Hr)) in T. discriminate. Qed.
Lemma one_conforming : conforming one_cell.
Proof.
  split; [repeat constructor; intros []|]. split; [intros k Hk; change (zlen one_cell) with 1 in *; assert (k = 0) by lia; subst k; cbn; lia|].
  split; intros k r; [intros c H E|intros r' c H _ E]; apply one_half in H; destruct H as (-> & Hr); rewrite (proj1 (one_nbr r Hr)) in E; discriminate.
Qed.
Lemma one_counts : counts_agree one_cell.
Proof. intros k k' Hk Hk' _. change (zlen one_cell) with 1 in *. assert (k = 0) by lia. assert (k' = 0) by lia. subst. reflexivity. Qed.
Lemma one_piece : in_one_piece one_cell.
Proof. intros k k' Hk Hk'. change (zlen one_cell) with 1 in *. assert (k = 0) by lia. assert (k' = 0) by lia. subst. constructor. Qed.
Lemma one_geometry : geometry 3 one_cell cube_at.
Proof.
  split; [|intros k r k' r' H _ T; destruct (one_twins k r k' r' H T)]. intros k Hk. change (zlen one_cell) with 1 in Hk. assert (k = 0) by lia. subst k. unfold cube_at. split; [exact cube_wf|]. split; [exact cube_closed|]. split; [reflexivity|].
  intros a Ha. change (nfaces one_cell 0) with 6. rewrite Sum6. repeat match goal with |- context [areavec Mim_Proofs2.cube ?i ?j] => replace (areavec Mim_Proofs2.cube i j) with (cube_n i j) by (symmetry; apply cube_offset; lia) end.
  destruct (three_cases a Ha) as [-> | [-> | ->]]; unfold cube_n; cbn; lra.
Qed.
Lemma rock_evaluate K : good_rock K -> exists B, evaluate 3 orth2 Mim_Proofs2.cube K (mnew FOrd 6 6) (mnew FOrd 6 6) (mnew FOrd 6 3) (mnew FOrd 6 3) = Ok B /\ ip_binv (rock_ip K) 0 = get_inverse B 1 (mnew FOrd 6 6).
Proof.
  intros (S & _). assert (N : forall r c, 0 <= r -> 0 <= c -> shaped (mnew FOrd r c) FOrd r c) by (intros; eapply holds_shaped; apply holds_new; lia).
  destruct (matrix_ok 3 orth2 Mim_Proofs2.cube K cube_wf cube_lapack (mnew FOrd 6 6) (mnew FOrd 6 6) (mnew FOrd 6 3) (mnew FOrd 6 3) (mnew FOrd 6 6) 1 S (N 6 6 ltac:(lia) ltac:(lia)) (N 6 6 ltac:(lia) ltac:(lia)) (N 6 3 ltac:(lia) ltac:(lia)) (N 6 3 ltac:(lia) ltac:(lia)) (N 6 6 ltac:(lia) ltac:(lia))) as (q & B & E & _). exists B. split; [exact E|]. unfold rock_ip. cbn [ip_binv]. rewrite E. reflexivity.
Qed.
Lemma one_rock K : good_rock K -> rock_cells orth2 one_cell cube_at (fun _ => K) (fun _ => 1%R) (rock_ip K) /\ homogeneous 3 orth2 one_cell cube_at K 1 (rock_ip K).
Proof.
  intros G. destruct (rock_evaluate K G) as (B & E & Ei). destruct G as (S & Sy & P). assert (N : forall r c, 0 <= r -> 0 <= c -> shaped (mnew FOrd r c) FOrd r c) by (intros; eapply holds_shaped; apply holds_new; lia).
  assert (X : forall k, 0 <= k < zlen one_cell -> lapack_ok 3 orth2 (cube_at k) /\ (exists Binv fa T1 T2 out B, let nf := nfaces one_cell k in
      shaped Binv FOrd nf nf /\ shaped fa FOrd nf nf /\ shaped T1 FOrd nf 3 /\ shaped T2 FOrd nf 3 /\ shaped out FOrd nf nf /\
      evaluate 3 orth2 (cube_at k) K Binv fa T1 T2 = Ok B /\ ip_binv (rock_ip K) (idx one_cell k) = get_inverse B 1 out) /\
    ip_gflux (rock_ip K) (idx one_cell k) = zrepeat 0%R (nfaces one_cell k)).
  { intros k Hk. change (zlen one_cell) with 1 in Hk. assert (k = 0) by lia. subst k. split; [exact cube_lapack|]. split; [|reflexivity]. exists (mnew FOrd 6 6), (mnew FOrd 6 6), (mnew FOrd 6 3), (mnew FOrd 6 3), (mnew FOrd 6 6), B. change (nfaces one_cell 0) with 6. cbv zeta. repeat (split; [apply N; lia|]). auto. }
  split.
  - intros k Hk. destruct (X k Hk) as (A & A' & A''). repeat (split; [first [assumption|lra]|]). assumption.
  - repeat (split; [first [assumption|lra]|]). exact X.
Qed.
Notation cg := (map uf_g (grid_faces one_cell cube_at)).
Lemma cg_is : cg = [mkGface 1 1 (-(1/2), 0, 0)%R; mkGface 2 1 (1/2, 0, 0)%R; mkGface 3 1 (0, -(1/2), 0)%R; mkGface 4 1 (0, 1/2, 0)%R; mkGface 5 1 (0, 0, -(1/2))%R; mkGface 6 1 (0, 0, 1/2)%R].
Proof. reflexivity. Qed.
Lemma cg_ids : unique_ids cg.
Proof.
  rewrite cg_is. split.
  - cbn. repeat constructor; cbn; intuition lia.
  - cbn. intros f Hf. repeat (destruct Hf as [<- |Hf]; [cbn; lia|]). destruct Hf.
Qed.
Lemma cg_bdy : bdy_faces cg = cg.
Proof. reflexivity. Qed.
Lemma cg_get i : 0 <= i < 6 -> zget cg i = Some (mkGface (i + 1) 1 (cube_off i 0, cube_off i 1, cube_off i 2)).
Proof. intros Hi. rewrite cg_is. destruct (six_cases i Hi) as [-> | [-> | [-> | [-> | [-> | ->]]]]]; reflexivity. Qed.
Lemma cg_in f : In f cg -> exists i, 0 <= i < 6 /\ f = mkGface (i + 1) 1 (cube_off i 0, cube_off i 1, cube_off i 2).
Proof. intros H. apply In_zget in H. destruct H as (i & _ & E). pose proof (zget_Some_range _ _ _ E) as Rg. change (zlen cg) with 6 in Rg. exists i. split; [exact Rg|]. rewrite (cg_get i Rg) in E. congruence. Qed.
Lemma off_get i d : 0 <= d < 3 -> vget (cube_off i 0, cube_off i 1, cube_off i 2) d = cube_off i d.
Proof. intros Hd. destruct (three_cases d Hd) as [-> | [-> | ->]]; reflexivity. Qed.
Lemma off_bounds i d : (- (1/2) <= cube_off i d <= 1/2)%R.
Proof. unfold cube_off. destruct (d =? i / 2), (Z.even i); lra. Qed.
Lemma cg_box d : 0 <= d < 3 -> box_low cg d = (- (1/2))%R /\ box_hi cg d = (1/2)%R.
Proof.
  intros Hd. assert (BX : is_box cg (box_low cg) (box_hi cg)).
  { apply box_spec; [rewrite cg_is; discriminate|]. intros f e Hf He. destruct (cg_in f Hf) as (i & Hi & ->). cbn [gf_cent]. rewrite off_get by exact He. pose proof (off_bounds i e). assert (1 <= huge)%R by (unfold huge; apply pow_R1_Rle; lra). lra. }
  destruct (BX d Hd) as (B1 & (fl & Hl & El) & (fh & Hh & Eh)). destruct (cg_in fl Hl) as (i & _ & ->). destruct (cg_in fh Hh) as (j & _ & ->). cbn [gf_cent] in El, Eh. rewrite off_get in El, Eh by exact Hd. pose proof (off_bounds i d). pose proof (off_bounds j d).
  pose proof (B1 _ (zget_In _ _ _ (cg_get (2 * d) ltac:(lia)))) as Cl. pose proof (B1 _ (zget_In _ _ _ (cg_get (2 * d + 1) ltac:(lia)))) as Ch. cbn [gf_cent] in Cl, Ch. rewrite off_get in Cl, Ch by exact Hd.
  assert (cube_off (2 * d) d = -(1/2))%R by (destruct (three_cases d Hd) as [-> | [-> | ->]]; reflexivity). assert (cube_off (2 * d + 1) d = 1/2)%R by (destruct (three_cases d Hd) as [-> | [-> | ->]]; reflexivity). lra.
Qed.
Lemma cg_side i s : 0 <= i < 6 -> (on_side tol6 (box_low cg) (box_hi cg) (cube_off i 0, cube_off i 1, cube_off i 2) s <-> s = i).
Proof.
  intros Hi. unfold on_side. split.
  - intros (Hs & H). assert (Hd : 0 <= s / 2 < 3) by (split; [apply Z.div_pos; lia|apply Z.div_lt_upper_bound; lia]). destruct (cg_box (s / 2) Hd) as (E1 & E2). rewrite E1, E2, off_get in H by exact Hd. unfold tol6 in H.
    destruct (six_cases i Hi) as [-> | [-> | [-> | [-> | [-> | ->]]]]], (six_cases s Hs) as [-> | [-> | [-> | [-> | [-> | ->]]]]]; try reflexivity; exfalso; unfold cube_off in H; cbn in H; revert H; unfold Rabs; destruct (Rcase_abs _); lra.
  - intros ->. split; [exact Hi|]. assert (Hd : 0 <= i / 2 < 3) by (split; [apply Z.div_pos; lia|apply Z.div_lt_upper_bound; lia]). destruct (cg_box (i / 2) Hd) as (E1 & E2). rewrite E1, E2, off_get by exact Hd. unfold tol6.
    destruct (six_cases i Hi) as [-> | [-> | [-> | [-> | [-> | ->]]]]]; unfold cube_off; cbn; unfold Rabs; destruct (Rcase_abs _); lra.
Qed.
Definition other (i : Z) : Z := if Z.even i then i + 1 else i - 1.
Definition same_list {A} (l : list A) : list A := l.
Definition all_periodic := [true; true; true; true; true; true].
Lemma cg_partners : exists l areas, find_periodic_partners same_list cg all_periodic tol6 = Ok (l, areas) /\ unique_candidates l /\
  forall i, 0 <= i < 6 -> exists f, In f l /\ b_bid f = i + 1 /\ b_canon f = i /\ b_pbid f = other i + 1.
Proof.
  destruct (find_spec same_list cg all_periodic tol6 (fun l => Permutation_refl l) eq_refl) as [(_ & [H|(f & Hf & H)])|(l & areas & E & P)].
  - exfalso. apply H. reflexivity.
  - exfalso. rewrite cg_bdy in *. destruct (cg_in f Hf) as (i & Hi & ->). apply (H i). apply cg_side; auto.
  - exists l, areas. split; [exact E|].
    assert (F : forall f, In f l -> 0 <= b_index f < 6 /\ b_bid f = b_index f + 1 /\ b_canon f = b_index f /\ b_area f = 1%R /\ b_cent f = (0, 0, 0)%R).
    { intros f Hf. destruct (po_entries _ _ _ _ _ P f Hf) as (x & Ex & Eb & Ea & Es & Ec). rewrite cg_bdy in *. pose proof (zget_Some_range _ _ _ Ex) as Hi. change (zlen cg) with 6 in Hi. rewrite (cg_get _ Hi) in Ex. injection Ex as <-. cbn [gf_bid gf_area gf_cent] in *. apply cg_side in Es; [|exact Hi].
      split; [exact Hi|]. split; [exact Eb|]. split; [exact Es|]. split; [exact Ea|]. rewrite Ec, Es. destruct (six_cases _ Hi) as [-> | [-> | [-> | [-> | [-> | ->]]]]]; reflexivity. }
    assert (U : unique_candidates l).
    { intros a b b' Ha Hb Hb' (O & _) (O' & _). unfold opposite in *. destruct (F b Hb) as (_ & _ & C & _). destruct (F b' Hb') as (_ & _ & C' & _). congruence. }
    split; [exact U|].
    assert (G : forall i, 0 <= i < 6 -> exists f, In f l /\ b_index f = i). { intros i Hi. destruct (po_faces _ _ _ _ _ P i _ (eq_trans (f_equal (fun z => zget z i) cg_bdy) (cg_get i Hi))) as (f & Hf & Ef & _). eauto. }
    intros i Hi. destruct (G i Hi) as (f & Hf & Ef). assert (Ho : 0 <= other i < 6) by (destruct (six_cases i Hi) as [-> | [-> | [-> | [-> | [-> | ->]]]]]; cbn; lia). destruct (G (other i) Ho) as (o & Ho' & Eo). exists f.
    destruct (F f Hf) as (_ & Bf & Cf & Af & Df). destruct (F o Ho') as (_ & Bo & Co & Ao & Do).
    destruct (complete_prop same_list cg all_periodic tol6 l areas (fun l => Permutation_refl l) eq_refl E f o Hf Ho') as (o' & Ho2 & (O & _) & _ & Q2).
    { rewrite Cf, Ef. destruct (six_cases i Hi) as [-> | [-> | [-> | [-> | [-> | ->]]]]]; reflexivity. }
    { split; [unfold opposite; rewrite Cf, Co, Ef, Eo; reflexivity|]. rewrite Af, Ao, Df, Do. split; [rewrite Rminus_diag_eq, Rabs_R0 by reflexivity; lra|].
      unfold vdist, vget. cbn [Z.eqb Pos.eqb fst snd]. replace ((0 - 0) ^ 2 + (0 - 0) ^ 2 + (0 - 0) ^ 2)%R with 0%R by ring. rewrite sqrt_0. lra. }
    destruct (F o' Ho2) as (_ & Bo' & Co' & _). unfold opposite in O. split; [exact Hf|]. split; [congruence|]. split; [congruence|]. rewrite Q2, Bo', <- Co', O, Cf, Ef. reflexivity.
Qed.
(* what the set-up stores for the six faces *)
Definition per_value (d i : Z) : R := (if i =? 2 * d then 1 else if i =? 2 * d + 1 then -1 else 0)%R.
Lemma cg_periodic d b : 0 <= d < 3 -> exists b', setup_upscaling same_list cg 2 d 1 1 false b = Ok b' /\
  forall i, 0 <= i < 6 -> zget (t_canon b') (i + 1) = Some (i + 1) /\ hb_cond (hbc_of b') (i + 1) = CPeriodic (per_value d i) /\ hb_partner (hbc_of b') (i + 1) = other i + 1.
Proof.
  intros Hd. destruct cg_partners as (l & areas & E & U & F). destruct (periodic_setup same_list cg d 1%R 1%R false b (fun l => Permutation_refl l) Hd cg_ids) as [(_ & E')|(l' & areas' & b' & E' & Es & A & B)]; cbn [negb] in E'; change [true; true; true; true; true; true] with all_periodic in E'; rewrite E in E'; [discriminate|]. injection E' as <- <-.
  exists b'. split; [exact Es|]. intros i Hi. destruct (F i Hi) as (f & Hf & Bf & Cf & Pf). destruct (A f Hf) as (Q1 & Q2 & _). destruct (B U) as (Q3 & _). specialize (Q3 f Hf). rewrite Bf, Cf in *. rewrite Pf in Q3. split; [exact Q1|]. unfold hbc_of. cbn [hb_cond hb_partner]. rewrite Q2, Q3. split; [|reflexivity].
  unfold periodic_flow, per_value. cbn [andb]. destruct (i =? 2 * d); [reflexivity|]. destruct (i =? 2 * d + 1); reflexivity.
Qed.
Definition fix_cond (d i : Z) : fcond := (if i =? 2 * d then CDirichlet 1 else if i =? 2 * d + 1 then CDirichlet 0 else CNeumann 0)%R.
Lemma cg_fixed d b : 0 <= d < 3 -> exists b', setup_upscaling same_list cg 0 d 1 1 false b = Ok b' /\
  forall i, 0 <= i < 6 -> zget (t_canon b') (i + 1) = Some (i + 1) /\ hb_cond (hbc_of b') (i + 1) = fix_cond d i.
Proof.
  intros Hd. destruct (fixed_setup same_list cg d 1%R 1%R false b Hd) as (b' & E & _ & _ & A & B). exists b'. split; [exact E|]. intros i Hi. split; [apply B; lia|]. unfold hbc_of. cbn [hb_cond]. destruct (A (i + 1) ltac:(lia)) as (-> & _). unfold fix_cond.
  replace (i + 1 =? 2 * d + 1) with (i =? 2 * d) by (destruct (Z.eqb_spec i (2 * d)), (Z.eqb_spec (i + 1) (2 * d + 1)); lia || reflexivity). replace (i + 1 =? 2 * d + 2) with (i =? 2 * d + 1) by (destruct (Z.eqb_spec i (2 * d + 1)), (Z.eqb_spec (i + 1) (2 * d + 2)); lia || reflexivity).
  destruct (i =? 2 * d); [reflexivity|]. destruct (i =? 2 * d + 1); reflexivity.
Qed.
(* the pressures of the linear conditions on the cell, and of the fixed ones *)
Definition flat_cond (bct d i : Z) : fcond := if bct =? 1 then CDirichlet (1 / 2 - cube_off i d)%R else fix_cond d i.
Lemma cg_linear d b : 0 <= d < 3 -> exists b', setup_upscaling same_list cg 1 d 1 1 false b = Ok b' /\
  forall i, 0 <= i < 6 -> zget (t_canon b') (i + 1) = Some (i + 1) /\ hb_cond (hbc_of b') (i + 1) = flat_cond 1 d i.
Proof.
  intros Hd. unfold setup_upscaling. cbn [Z.ltb Z.compare orb Z.eqb Pos.eqb Pos.compare Pos.compare_cont]. destruct (linear_setup b cg 1%R d 1%R false tol6 cg_ids) as [(_ & F)|(b' & E & _ & _ & H)]; rewrite cg_bdy in *.
  - exfalso. destruct F as [F|(f & Hf & F)]; [apply F; reflexivity|]. destruct (cg_in f Hf) as (i & Hi & ->). apply (F i). cbn [gf_cent]. apply (cg_side i i Hi). reflexivity.
  - exists b'. split; [exact E|]. intros i Hi. destruct (H _ (zget_In _ _ _ (cg_get i Hi))) as (s & Hs & Hc & _ & Hf). cbn [gf_cent gf_bid] in *. apply (cg_side i s Hi) in Hs. subst s. split; [exact Hc|]. unfold hbc_of. cbn [hb_cond]. rewrite Hf. cbn [andb]. rewrite off_get by exact Hd. destruct (cg_box d Hd) as (-> & ->). cbn. unfold flat_cond. cbn [Z.eqb Pos.eqb]. f_equal. field.
Qed.
Lemma cg_box_faces b : (forall i, 0 <= i < 6 -> zget (t_canon b) (i + 1) = Some (i + 1)) -> box_faces b (grid_faces one_cell cube_at) low_half hi_half.
Proof.
  intros C. assert (G : forall i, 0 <= i < 6 -> exists f, zget (grid_faces one_cell cube_at) i = Some f /\ gf_bid (uf_g f) = i + 1 /\ on_boundary f = true /\ uf_n f = side_normal i /\ (0 < gf_area (uf_g f))%R /\ vget (gf_cent (uf_g f)) (i / 2) = if Z.even i then low_half (i / 2)%Z else hi_half (i / 2)%Z).
  { intros i Hi. destruct (six_cases i Hi) as [-> | [-> | [-> | [-> | [-> | ->]]]]]; (eexists; split; [reflexivity|]; split; [reflexivity|]; split; [reflexivity|]; split; [|split; [cbn; lra|reflexivity]]); unfold side_normal; cbn; repeat f_equal; lra. }
  split.
  - intros f Hf _. apply In_zget in Hf. destruct Hf as (i & _ & E). pose proof (zget_Some_range _ _ _ E) as Hi. change (zlen (grid_faces one_cell cube_at)) with 6 in Hi. destruct (G i Hi) as (f' & E' & Bf & _ & Nf & Af & Vf). rewrite E in E'. injection E' as <-. exists i. rewrite Bf. auto.
  - intros s Hs. destruct (G s Hs) as (f & E & Bf & Of & _). exists f. split; [eapply zget_In; exact E|]. split; [exact Of|]. rewrite Bf. apply C. exact Hs.
Qed.
Lemma other_range i : 0 <= i < 6 -> 0 <= other i < 6 /\ other (other i) = i /\ other i <> i.
Proof. intros Hi. destruct (six_cases i Hi) as [-> | [-> | [-> | [-> | [-> | ->]]]]]; cbn; lia. Qed.
Lemma other_value d i : 0 <= d < 3 -> 0 <= i < 6 -> per_value d (other i) = (- per_value d i)%R.
Proof. intros Hd Hi. destruct (three_cases d Hd) as [-> | [-> | ->]], (six_cases i Hi) as [-> | [-> | [-> | [-> | [-> | ->]]]]]; unfold per_value; cbn; lra. Qed.
Lemma one_cond bc r : 0 <= r < 6 -> cond_at one_cell bc 0 r = Some (hb_cond bc (r + 1)).
Proof. intros Hr. unfold cond_at. destruct (one_nbr r Hr) as (-> & ->). reflexivity. Qed.
(* the two kinds of conditions on the cell *)
Definition like (d : Z) (bct : Z) (bc : hbc) : Prop := 0 <= d < 3 /\ forall i, 0 <= i < 6 ->
  if bct =? 2 then hb_cond bc (i + 1) = CPeriodic (per_value d i) /\ hb_partner bc (i + 1) = other i + 1 else hb_cond bc (i + 1) = flat_cond bct d i.
Lemma cg_like bct d b b' : bct = 0 \/ bct = 1 \/ bct = 2 -> 0 <= d < 3 -> setup_upscaling same_list cg bct d 1 1 false b = Ok b' ->
  like d bct (hbc_of b') /\ forall i, 0 <= i < 6 -> zget (t_canon b') (i + 1) = Some (i + 1).
Proof.
  intros [-> | [-> | ->]] Hd E; [destruct (cg_fixed d b Hd) as (b2 & E2 & A)|destruct (cg_linear d b Hd) as (b2 & E2 & A)|destruct (cg_periodic d b Hd) as (b2 & E2 & A)]; rewrite E2 in E; injection E as ->; (split; [split; [exact Hd|]; cbn [Z.eqb Pos.eqb]|]; intros i Hi; apply A; exact Hi).
Qed.
Lemma like_partners d bc k r k' r' : like d 2 bc -> partners one_cell bc k r k' r' -> k = 0 /\ k' = 0 /\ 0 <= r < 6 /\ r' = other r.
Proof.
  intros (Hd & C) (e & e' & (H & _) & (H' & _) & E). apply one_half in H. apply one_half in H'. destruct H as (-> & Hr), H' as (-> & Hr'). rewrite (proj2 (one_nbr r Hr)), (proj2 (one_nbr r' Hr')) in E. destruct (C r Hr) as (_ & Q). rewrite Q in E. repeat split; lia.
Qed.
Lemma flat_flow bct d i e : flat_cond bct d i <> CPeriodic e.
Proof. unfold flat_cond, fix_cond. destruct (bct =? 1); [discriminate|]. destruct (i =? 2 * d); [discriminate|]. destruct (i =? 2 * d + 1); discriminate. Qed.
Lemma like_no_partners bct d bc k r k' r' : bct =? 2 = false -> like d bct bc -> ~ partners one_cell bc k r k' r'.
Proof.
  intros B (Hd & C) (e & e' & (H & E) & _). apply one_half in H. destruct H as (-> & Hr). rewrite one_cond in E by exact Hr. specialize (C r Hr). rewrite B in C. rewrite C in E. apply (flat_flow bct d r e). congruence.
Qed.
Lemma like_periodic_ok d bct bc : bct = 0 \/ bct = 1 \/ bct = 2 -> like d bct bc -> periodic_ok one_cell bc.
Proof.
  intros Hb L. split.
  - intros k r e k' r' e' (H & _) (H' & _) E. apply one_half in H. apply one_half in H'. destruct H as (-> & Hr), H' as (-> & Hr'). rewrite (proj2 (one_nbr r Hr)), (proj2 (one_nbr r' Hr')) in E. lia.
  - intros k r e (H & E). pose proof H as H0. apply one_half in H. destruct H as (-> & Hr). rewrite one_cond in E by exact Hr. destruct L as (Hd & C). pose proof (C r Hr) as Cr. destruct Hb as [-> | [-> | ->]]; cbn [Z.eqb Pos.eqb] in Cr.
    + exfalso. apply (flat_flow 0 d r e). congruence.
    + exfalso. apply (flat_flow 1 d r e). congruence.
    + destruct Cr as (C1 & C2). rewrite C1 in E. injection E as <-. destruct (other_range r Hr) as (O1 & O2 & O3). destruct (C (other r) O1) as (C3 & C4). exists 0, (other r). rewrite (proj2 (one_nbr r Hr)), (proj2 (one_nbr (other r) O1)). split; [|split; [congruence|split; [congruence|lia]]].
      split; [apply one_half; auto|]. rewrite one_cond by exact O1. rewrite C3, other_value by assumption. reflexivity.
Qed.
Lemma one_block K bct : good_rock K -> bct = 0 \/ bct = 1 \/ bct = 2 -> block same_list one_cell cube_at (rock_ip K) bct false low_half hi_half.
Proof.
  intros G Hb. destruct (one_rock K G) as (Rk & Hm). split; [reflexivity|]. split; [exact one_piece|]. split; [exact one_geometry|]. split; [intros; unfold low_half, hi_half; lra|]. split; [intros k r H _; apply one_half in H; destruct H as (-> & Hr); rewrite (proj2 (one_nbr r Hr)); lia|].
  split; [intros _; split; [intros l; apply Permutation_refl|exact cg_ids]|]. intros d b b' Hd E. destruct (cg_like bct d b b' Hb Hd E) as (L & C). split; [|apply cg_box_faces; exact C].
  split; [exact one_conforming|]. split; [exact one_counts|]. split; [exact (like_periodic_ok d bct _ Hb L)|]. split; [|reflexivity]. destruct (mimetic_cells orth2 one_cell cube_at _ _ _ one_geometry Rk) as (_ & X & _). exact X.
Qed.
Lemma one_faces : enough_faces one_cell 6.
Proof. intros nm E. vm_compute in E. injection E as <-. cbn. lia. Qed.
Lemma one_num bc st : init_structure one_cell bc = Ok st -> unknowns st = 6 /\ forall r, 0 <= r < 6 -> Hyb_Spec.num st 0 r = r.
Proof.
  intros Is. unfold init_structure in Is. apply bind_Ok in Is. destruct Is as (nm & En & Is). repeat (apply bind_Ok in Is; destruct Is as (? & _ & Is)). injection Is as <-. vm_compute in En. injection En as <-. split; [reflexivity|].
  intros r Hr. destruct (six_cases r Hr) as [-> | [-> | [-> | [-> | [-> | ->]]]]]; reflexivity.
Qed.
Lemma cube_cen r j : 0 <= r < 6 -> 0 <= j < 3 -> nthR (mf_cen (face Mim_Proofs2.cube r)) j = cube_off r j.
Proof. intros Hr Hj. destruct (six_cases r Hr) as [-> | [-> | [-> | [-> | [-> | ->]]]]], (three_cases j Hj) as [-> | [-> | ->]]; reflexivity. Qed.
Lemma one_translates : translates same_list one_cell cube_at false low_half hi_half.
Proof.
  intros d b b' Hd E k r k' r' e He (Hh & Hn & Hc) P. destruct (cg_like 2 d b b' (or_intror (or_intror eq_refl)) Hd E) as (L & C). destruct (like_partners _ _ _ _ _ _ L P) as (-> & -> & Hr & ->). rewrite (proj2 (one_nbr r Hr)), C in Hc by exact Hr. assert (r = 2 * e) by (assert (H : forall x y : Z, Some x = Some y -> x = y) by congruence; apply H in Hc; lia). subst r.
  destruct (other_range _ Hr) as (Ho & _). unfold cube_at, low_half, hi_half. split; intros j Hj.
  - rewrite !cube_cen by assumption. destruct (three_cases e He) as [-> | [-> | ->]], (three_cases j Hj) as [-> | [-> | ->]]; unfold cube_off, ident; cbn; lra.
  - destruct (cube_offset _ j Hr Hj) as (_ & -> & _). destruct (cube_offset _ j Ho Hj) as (_ & -> & _). destruct (three_cases e He) as [-> | [-> | ->]], (three_cases j Hj) as [-> | [-> | ->]]; unfold cube_n; cbn; lra.
Qed.
(* the exact pressures *)
Definition slope (d : Z) (j : Z) : R := (- ident d j)%R.
Definition exact_pressures (p0 : R) (d : Z) : list R := map (fun r => linear_pressure 3 p0 (slope d) (mf_cen (face Mim_Proofs2.cube r))) (zrange 0 6).
Lemma exact_at_cube p0 d r : 0 <= r < 6 -> nthR (exact_pressures p0 d) r = linear_pressure 3 p0 (slope d) (mf_cen (face Mim_Proofs2.cube r)).
Proof. intros Hr. destruct (six_cases r Hr) as [-> | [-> | [-> | [-> | [-> | ->]]]]]; reflexivity. Qed.
Lemma cube_pressure p0 d r : 0 <= d < 3 -> 0 <= r < 6 -> linear_pressure 3 p0 (slope d) (mf_cen (face Mim_Proofs2.cube r)) = (p0 - cube_off r d)%R.
Proof.
  intros Hd Hr. unfold linear_pressure, dot, slope, ident. rewrite Sum3. rewrite !cube_cen by (exact Hr || lia). destruct (three_cases d Hd) as [-> | [-> | ->]], (six_cases r Hr) as [-> | [-> | [-> | [-> | [-> | ->]]]]]; unfold cube_off; cbn; lra.
Qed.
Lemma one_solution K bct d bc p0 st s dy s' : good_rock K -> bct = 0 \/ bct = 1 \/ bct = 2 -> like d bct bc -> linear_bc 3 one_cell bc cube_at K 1 p0 (slope d) -> (nthR (exact_pressures p0 d) 0 = 0%R \/ ~ no_dirichlet one_cell bc) ->
  discretised one_cell bc (rock_ip K) (zrepeat 0%R (zlen one_cell)) st s dy -> s' = s \/ regularise s dy = Ok s' -> is_solution (matrix_of s') (sy_rhs s') (exact_pressures p0 d) = true.
Proof.
  intros G Hb L Lb Hz D Hs. destruct (one_rock K G) as (Rk & Hm). pose proof D as (D1 & _). destruct (one_num bc st D1) as (U & Nm). pose proof (like_periodic_ok d bct bc Hb L) as PO.
  assert (S : solves s (unknowns st) (nthR (exact_pressures p0 d))).
  { apply (exact_solves 3 orth2 one_cell bc cube_at K 1 (rock_ip K) p0 (slope d) one_geometry Hm one_conforming one_counts PO Lb st s dy D). intros k r H. apply one_half in H. destruct H as (-> & Hr). rewrite Nm by exact Hr. apply exact_at_cube. exact Hr. }
  pose proof (hom_problem 3 orth2 one_cell bc cube_at K 1 (rock_ip K) p0 (slope d) one_geometry Hm one_conforming one_counts PO) as P.
  destruct (pat_len _ _ _ _ _ _ _ P D) as (_ & Lr & _). rewrite U in *.
  apply is_solution_iff. unfold matrix_of. cbn [lm_val].
  destruct Hs as [-> |Rg]; [rewrite Lr; split; [reflexivity|exact S]|].
  destruct (reg_ok _ _ _ _ P _ _ _ D ltac:(rewrite U; lia)) as (s2 & Rg2 & Er & Ev). rewrite Rg in Rg2. injection Rg2 as <-. rewrite Er, Lr. split; [reflexivity|]. intros i Hi. rewrite <- (S i Hi). apply Sum_ext. intros j Hj. rewrite Ev.
  destruct (dy_reg dy) eqn:Ed; [|reflexivity]. destruct (Z.eqb_spec i 0) as [-> |]; [|reflexivity]. destruct (Z.eqb_spec j 0) as [-> |]; [|reflexivity]. cbn [andb].
  destruct Hz as [-> |Nd]; [ring|]. exfalso. apply Nd. apply (reg_iff _ _ _ _ P _ _ _ D). exact Ed.
Qed.
Lemma one_ready : linear_ready one_cell cube_at low_half hi_half.
Proof.
  split; [exact cg_ids|]. intros f d Hf Hd. rewrite cg_bdy in Hf. destruct (cg_in f Hf) as (i & Hi & ->). cbn [gf_cent]. rewrite off_get by exact Hd. pose proof (off_bounds i d). assert (1 <= huge)%R by (unfold huge; apply pow_R1_Rle; lra). unfold low_half, hi_half. lra.
Qed.
Lemma one_kind bct : bct = 0 \/ bct = 1 \/ bct = 2 -> bct = 0 \/ (bct = 1 /\ linear_ready one_cell cube_at low_half hi_half) \/ bct = 2.
Proof. intros [H|[H|H]]; auto. right. left. split; [exact H|exact one_ready]. Qed.
Lemma one_tensor K bct (p0 : Z -> R) ty b sv : good_rock K -> bct = 0 \/ bct = 1 \/ bct = 2 -> 0 <= ty <= 3 ->
  (forall d bc, like d bct bc -> linear_bc 3 one_cell bc cube_at K 1 (p0 d) (slope d) /\ (nthR (exact_pressures (p0 d) d) 0 = 0%R \/ ~ no_dirichlet one_cell bc)) ->
  exists s, flow_tensor (search (map (fun d => exact_pressures (p0 d) d) (zrange 0 3))) same_list one_cell cube_at (rock_ip K) bct false ty 0 6 b sv = Ok s.
Proof.
  intros G Hb Ht HL. destruct (one_rock K G) as (Rk & _). destruct (mimetic_cells orth2 one_cell cube_at _ _ _ one_geometry Rk) as (FM & _ & _).
  destruct (tensor_total same_list one_cell cube_at (rock_ip K) bct false low_half hi_half (one_block K bct G Hb) (one_kind bct Hb) FM (search (map (fun d => exact_pressures (p0 d) d) (zrange 0 3))) ty 0 6 one_faces (search_len _) Ht b sv) as [H|(_ & F)]; [exact H|exfalso].
  destruct F as [(Nb & d & b0 & Hd & E)|(d & b0 & b' & Hd & E & st & s & dy & s' & M & x & n & D & Hs & Q)].
  - destruct Hb as [Hb|[-> | ->]]; [exact (Nb Hb)|destruct (cg_linear d b0 Hd) as (b' & E' & _)|destruct (cg_periodic d b0 Hd) as (b' & E' & _)]; rewrite E' in E; discriminate.
  - destruct (cg_like bct d b0 b' Hb Hd E) as (L & _). destruct (HL d _ L) as (Lb & Hz). pose proof (one_solution K bct d _ (p0 d) st s dy s' G Hb L Lb Hz D Hs) as I.
    rewrite (search_finds _ ty (matrix_of s') M (sy_rhs s') x n (exact_pressures (p0 d) d)) in Q; [discriminate| |exact I]. apply in_map_iff. exists d. split; [reflexivity|]. apply In_zrange. lia.
Qed.
Lemma cube_good : good_rock cube_K.
Proof. split; [apply shaped_3; reflexivity|exact cube_K_positive]. Qed.
Lemma unit_entry i j : 0 <= i < 3 -> 0 <= j < 3 -> entry unit_K i j = ident i j.
Proof. intros Hi Hj. destruct (three_cases i Hi) as [-> | [-> | ->]], (three_cases j Hj) as [-> | [-> | ->]]; reflexivity. Qed.
Lemma unit_good : good_rock unit_K.
Proof.
  split; [apply shaped_3; reflexivity|]. split.
  - intros i j Hi Hj. rewrite !unit_entry by assumption. unfold ident. rewrite Z.eqb_sym. reflexivity.
  - intros x (i & Hi & N). rewrite (quad_ext 3 _ ident x unit_entry). unfold quad, dot, mvec. rewrite !Sum3. unfold ident. cbn [Z.eqb Pos.eqb]. assert (0 < x i * x i)%R by nra. pose proof (Rle_0_sqr (x 0)). pose proof (Rle_0_sqr (x 1)). pose proof (Rle_0_sqr (x 2)). unfold Rsqr in *. destruct (three_cases i Hi) as [-> | [-> | ->]]; nra.
Qed.
Lemma periodic_linear K d bc : like d 2 bc -> linear_bc 3 one_cell bc cube_at K 1 (cube_off 0 d) (slope d) /\ nthR (exact_pressures (cube_off 0 d) d) 0 = 0%R.
Proof.
  intros L. pose proof L as (Hd & C). split; [|rewrite exact_at_cube, cube_pressure by lia; ring].
  assert (N : forall k r, half one_cell k r -> exists v, cond_at one_cell bc k r = Some (CPeriodic v)) by (intros k r H; apply one_half in H; destruct H as (-> & Hr); rewrite one_cond by exact Hr; destruct (C r Hr) as (-> & _); eauto).
  split; [intros k r p H E; destruct (N k r H) as (v & Ev); congruence|]. split; [intros k r p H E; destruct (N k r H) as (v & Ev); congruence|].
  intros k r k' r' v P E. destruct (like_partners _ _ _ _ _ _ L P) as (-> & -> & Hr & ->). destruct (other_range r Hr) as (Ho & _). rewrite one_cond in E by exact Hr. destruct (C r Hr) as (Cr & _). rewrite Cr in E. injection E as <-. unfold cube_at. rewrite !cube_pressure by assumption. split.
  - destruct (three_cases d Hd) as [-> | [-> | ->]], (six_cases r Hr) as [-> | [-> | [-> | [-> | [-> | ->]]]]]; unfold per_value, cube_off; cbn; lra.
  - intros j Hj. destruct (cube_offset r j Hr Hj) as (_ & -> & _). destruct (cube_offset (other r) j Ho Hj) as (_ & -> & _). destruct (three_cases j Hj) as [-> | [-> | ->]], (six_cases r Hr) as [-> | [-> | [-> | [-> | [-> | ->]]]]]; unfold cube_n; cbn; lra.
Qed.
Lemma fixed_linear d bc : like d 0 bc -> linear_bc 3 one_cell bc cube_at unit_K 1 (1/2) (slope d) /\ ~ no_dirichlet one_cell bc.
Proof.
  intros L. pose proof L as (Hd & C). cbn [Z.eqb] in C. unfold flat_cond in C. cbn [Z.eqb] in C. split.
  - split; [|split; [|intros k r k' r' v P; destruct (like_no_partners 0 _ _ _ _ _ _ eq_refl L P)]]; intros k r p H E; apply one_half in H; destruct H as (-> & Hr); rewrite one_cond, C in E by exact Hr.
    + unfold cube_at. rewrite cube_pressure by assumption. unfold fix_cond in E. destruct (Z.eqb_spec r (2 * d)) as [-> |]; [injection E as <-; destruct (three_cases d Hd) as [-> | [-> | ->]]; unfold cube_off; cbn; lra|]. destruct (Z.eqb_spec r (2 * d + 1)) as [-> |]; [injection E as <-; destruct (three_cases d Hd) as [-> | [-> | ->]]; unfold cube_off; cbn; lra|discriminate].
    + unfold fix_cond in E. destruct (Z.eqb_spec r (2 * d)); [discriminate|]. destruct (Z.eqb_spec r (2 * d + 1)); [discriminate|]. injection E as <-. unfold cube_at, darcy_flux, dot, mvec. rewrite (Sum_ext 3 _ (fun j => cube_n r j * slope d j)%R).
      * rewrite Sum3. destruct (three_cases d Hd) as [-> | [-> | ->]], (six_cases r Hr) as [-> | [-> | [-> | [-> | [-> | ->]]]]]; try lia; unfold cube_n, slope, ident; cbn; lra.
      * intros j Hj. destruct (cube_offset r j Hr Hj) as (_ & -> & _). f_equal. rewrite (Sum_pick 3 j); [|exact Hj|intros i Hi Nn; rewrite unit_entry by assumption; unfold ident; destruct (Z.eqb_spec j i); [lia|ring]]. rewrite unit_entry by assumption. unfold ident at 1. rewrite Z.eqb_refl. ring.
  - intros Nd. apply (Nd 0 (2 * d) 1%R); [apply one_half; lia|]. rewrite one_cond, C by lia. unfold fix_cond. rewrite Z.eqb_refl. reflexivity.
Qed.
Lemma cube_upscaled K bct (p0 : Z -> R) ty b sv : good_rock K -> bct = 0 \/ bct = 1 \/ bct = 2 -> 0 <= ty <= 3 ->
  (forall d bc, like d bct bc -> linear_bc 3 one_cell bc cube_at K 1 (p0 d) (slope d) /\ (nthR (exact_pressures (p0 d) d) 0 = 0%R \/ ~ no_dirichlet one_cell bc)) ->
  exists s, flow_tensor (search (map (fun d => exact_pressures (p0 d) d) (zrange 0 3))) same_list one_cell cube_at (rock_ip K) bct false ty 0 6 b sv = Ok s /\
    upscaled_by same_list one_cell cube_at (rock_ip K) bct false low_half hi_half (ts_cols s) /\ permeability one_cell cube_at (rock_ip K) (fun _ i j => 1 * entry K i j)%R.
Proof.
  intros G Hb Ht HL. destruct (one_tensor K bct p0 ty b sv G Hb Ht HL) as (s & E). destruct (one_rock K G) as (Rk & _). destruct (mimetic_cells orth2 one_cell cube_at _ _ _ one_geometry Rk) as (FM & _ & PL).
  exists s. split; [exact E|]. split; [|exact PL]. eexists _, ty, 0, 6, b, sv, s. split; [apply search_exact|]. split; [exact (one_block K bct G Hb)|]. split; [exact FM|]. split; [exact one_faces|]. split; [exact E|reflexivity].
Qed.
Lemma tensor_ext cols k k' : tensor_is cols k -> (forall i j, 0 <= i < 3 -> 0 <= j < 3 -> k i j = k' i j) -> tensor_is cols k'.
Proof. intros (L & H) E. split; [exact L|]. intros d Hd. destruct (H d Hd) as (col & A & B & C). exists col. split; [exact A|]. split; [exact B|]. intros i Hi. rewrite <- E by assumption. apply C. exact Hi. Qed.
Lemma cube_periodic K ty b sv : good_rock K -> 0 <= ty <= 3 -> exists S s, flow_tensor S same_list one_cell cube_at (rock_ip K) 2 false ty 0 6 b sv = Ok s /\
  upscaled_by same_list one_cell cube_at (rock_ip K) 2 false low_half hi_half (ts_cols s) /\ permeability one_cell cube_at (rock_ip K) (fun _ i j => 1 * entry K i j)%R /\
  translates same_list one_cell cube_at false low_half hi_half /\ rock_cells orth2 one_cell cube_at (fun _ => K) (fun _ => 1%R) (rock_ip K) /\ tensor_is (ts_cols s) (entry K).
Proof.
  intros G Ht. destruct (cube_upscaled K 2 (cube_off 0) ty b sv G (or_intror (or_intror eq_refl)) Ht) as (s & E & U & PL).
  { intros d bc L. destruct (periodic_linear K d bc L) as (A & B). auto. }
  destruct (one_rock K G) as (Rk & _). eexists _, s. split; [exact E|]. split; [exact U|]. split; [exact PL|]. split; [exact one_translates|]. split; [exact Rk|].
  destruct (periodic_symmetric _ _ _ _ _ _ _ _ U) as (k & Tk & _). apply (tensor_ext _ _ _ Tk). apply (periodic_uniform _ _ _ _ _ _ _ _ U (fun _ i j => 1 * entry K i j)%R PL one_translates (entry K) ltac:(intros; apply Rmult_1_l) k Tk eq_refl).
Qed.
Lemma one_integral f : integral_of one_cell cube_at f = f 0.
Proof. unfold integral_of. change (zlen one_cell) with 1. rewrite Sum_1. change (mc_vol (cube_at 0)) with 1%R. apply Rmult_1_l. Qed.
Lemma cube_fixed ty b sv : 0 <= ty <= 3 -> exists S s, flow_tensor S same_list one_cell cube_at (rock_ip unit_K) 0 false ty 0 6 b sv = Ok s /\
  upscaled_by same_list one_cell cube_at (rock_ip unit_K) 0 false low_half hi_half (ts_cols s) /\ permeability one_cell cube_at (rock_ip unit_K) (fun _ i j => 1 * entry unit_K i j)%R /\ tensor_is (ts_cols s) ident.
Proof.
  intros Ht. destruct (cube_upscaled unit_K 0 (fun _ => 1/2)%R ty b sv unit_good (or_introl eq_refl) Ht) as (s & E & U & PL).
  { intros d bc L. destruct (fixed_linear d bc L) as (A & B). auto. }
  eexists _, s. split; [exact E|]. split; [exact U|]. split; [exact PL|]. destruct (fixed_diagonal _ _ _ _ _ _ _ _ U) as (k & Tk & Dk). apply (tensor_ext _ _ _ Tk). intros i j Hi Hj. specialize (Dk i j Hi Hj). unfold ident. destruct (Z.eqb_spec i j) as [-> |]; [|exact Dk].
  destruct (fixed_bounds _ _ _ _ _ _ _ _ U _ k j PL Tk Hj) as (A & B). unfold block_volume in *. rewrite !one_integral in A. rewrite unit_entry in A by assumption. unfold ident in A. rewrite Z.eqb_refl in A.
  specialize (B (fun _ => ident j)). rewrite !one_integral in B. cbv beta in B. assert (Ij : ident j j = 1%R) by (unfold ident; rewrite Z.eqb_refl; reflexivity). rewrite Ij in B. apply Rle_antisym; [lra|]. rewrite Rmult_1_r in B. apply B. intros c _ i Hi'. unfold mvec. rewrite (Sum_pick 3 i); [|exact Hi'|intros l Hl N; rewrite unit_entry by assumption; unfold ident at 1; destruct (Z.eqb_spec i l); [lia|ring]].
  rewrite unit_entry by assumption. unfold ident at 1. rewrite Z.eqb_refl. ring.
Qed.
Lemma unit_below : matrices_below one_cell 2 (rock_ip unit_K) (rock_ip cube_K).
Proof.
  apply (mimetic_order orth2 orth2 one_cell cube_at (fun _ => unit_K) (fun _ => cube_K) (fun _ => 1%R) (fun _ => 1%R)); [exact one_geometry|apply one_rock; exact unit_good|apply one_rock; exact cube_good|].
  intros k y _. rewrite (quad_ext 3 _ ident y unit_entry). unfold quad, dot, mvec. rewrite !Sum3. unfold ident. cbn [Z.eqb Pos.eqb].
  change (entry cube_K 0 0) with 1%R. change (entry cube_K 0 1) with (1/2)%R. change (entry cube_K 0 2) with 0%R. change (entry cube_K 1 0) with (1/2)%R. change (entry cube_K 1 1) with 1%R. change (entry cube_K 1 2) with 0%R. change (entry cube_K 2 0) with 0%R. change (entry cube_K 2 1) with 0%R. change (entry cube_K 2 2) with 1%R.
  pose proof (Rle_0_sqr (y 0 + y 1)). pose proof (Rle_0_sqr (y 2)). unfold Rsqr in *. nra.
Qed.
