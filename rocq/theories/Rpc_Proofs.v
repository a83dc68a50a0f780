From Verif Require Import BaseFacts RBaseFacts Lin_Facts Steady_Proofs Euler_Proofs2 Matx_Proofs Matx_Proofs3 Eld_Proofs2 Relp_Proofs Relp_Proofs2 Relp_Proofs3 Relp_Proofs4 Visc_Proofs8 Tens_Proofs5 Tens_Proofs6 Tens_Proofs7 Rpc_Spec.
Open Scope Z_scope.

Lemma tracer_one s : Rsum (tracer_mobilities s) = 1%R.
Proof. unfold tracer_mobilities, Rsum. cbn. ring. Qed.
Lemma mapM_out {A B} (f : A -> res B) l r : mapM f l = Ok r -> zlen r = zlen l /\ forall i x, zget l i = Some x -> exists y, f x = Ok y /\ zget r i = Some y.
Proof.
  intros E. apply mapM_Ok in E. split; [apply Forall2_length' in E; unfold zlen; rewrite <- E; reflexivity|]. intros i x H. destruct (Forall2_zget _ _ _ E i x H) as (y & Ey & Q). eauto.
Qed.
Lemma data_ok cols d : tensor_data cols = Ok d -> (exists k, tensor_is cols k) -> zlen d = 9 /\ tensor_is cols (Visc_Spec.tensor_of d).
Proof.
  intros E (k & Lc & H). unfold tensor_data in E. destruct (mapM_out _ _ _ E) as (L & G). rewrite zlen_zrange in L by lia. split; [exact L|]. split; [exact Lc|]. intros j Hj. destruct (H j Hj) as (col & A & B & C). exists col. split; [exact A|]. split; [exact B|]. intros i Hi.
  destruct (G (3 * i + j) (3 * i + j)) as (y & Ey & Gy); [rewrite zget_zrange by lia; f_equal; lia|]. replace (Z.rem (3 * i + j) 3) with j in Ey by (apply (Z.rem_unique (3 * i + j) 3 i); lia). replace (Z.quot (3 * i + j) 3) with i in Ey by (apply (Z.quot_unique (3 * i + j) 3 i j); lia).
  unfold rget in Ey. rewrite A in Ey. cbn [bind] in Ey. rewrite (C i Hi) in Ey. cbn [bind] in Ey. injection Ey as <-. rewrite (C i Hi). unfold Visc_Spec.tensor_of, nthR. rewrite Gy. reflexivity.
Qed.

Section Ups.
Context (orth : mat -> mat) (u : upscaler) (low hi : Z -> R) (UO : upscaler_ok orth u low hi).
Notation g := (us_g u). Notation geo := (us_geo u).
Definition ran (ts : list (R * R * R)) (d : list R) : Prop :=
  zlen ts = zlen g /\ positive_cells ts /\ zlen d = 9 /\ exists cols, upscaled_by (us_srt u) g geo (us_ip u ts) (us_bct u) false low hi cols /\ tensor_is cols (Visc_Spec.tensor_of d).
Lemma cells_ran ts st d st' : us_bct u = 0 \/ us_bct u = 2 -> zlen ts = zlen g -> positive_cells ts -> upscale_cells u ts st = Ok (d, st') -> ran ts d.
Proof.
  intros Hb L P E. unfold upscale_cells in E. destruct (flow_tensor _ _ _ _ _ _ _ _ _ _ _ _) as [s| |] eqn:Es; try discriminate. cbn [bind] in E. destruct (tensor_data (ts_cols s)) as [d'| |] eqn:Ed; try discriminate. cbn [bind] in E. injection E as <- _.
  destruct UO as (EX & EF & HB). destruct (HB ts L P) as (BK & RK). pose proof BK as (_ & _ & GEO & _). destruct (mimetic_cells _ _ _ _ _ _ GEO RK) as (FM & _).
  assert (U : upscaled_by (us_srt u) g geo (us_ip u ts) (us_bct u) false low hi (ts_cols s)) by (exists (us_K u), (us_ty u), (us_maxit u), (us_nf u), (fst st), (snd st), s; auto 10).
  assert (T : exists k, tensor_is (ts_cols s) k).
  { destruct Hb as [Hb|Hb]; rewrite Hb in U; [destruct (fixed_diagonal _ _ _ _ _ _ _ _ U) as (k & Tk & _)|destruct (periodic_symmetric _ _ _ _ _ _ _ _ U) as (k & Tk & _)]; eauto. }
  destruct (data_ok _ _ Ed T) as (L9 & Td). split; [exact L|]. split; [exact P|]. split; [exact L9|]. eauto.
Qed.
Definition below (c : R) (t t' : R * R * R) : Prop := let '(a, b, e) := t in let '(a', b', e') := t' in (a <= c * a')%R /\ (b <= c * b')%R /\ (e <= c * e')%R.
Lemma diag_quad a b c x : quad 3 (entry (diag_mat (a, b, c))) x = (a * (x 0%Z * x 0%Z) + b * (x 1%Z * x 1%Z) + c * (x 2%Z * x 2%Z))%R.
Proof.
  rewrite quad3. unfold diag_mat.
  change (entry (mkMat 3 3 COrd [a; 0; 0; 0; b; 0; 0; 0; c]%R) 0 0) with a. change (entry (mkMat 3 3 COrd [a; 0; 0; 0; b; 0; 0; 0; c]%R) 1 1) with b. change (entry (mkMat 3 3 COrd [a; 0; 0; 0; b; 0; 0; 0; c]%R) 2 2) with c.
  change (entry (mkMat 3 3 COrd [a; 0; 0; 0; b; 0; 0; 0; c]%R) 0 1) with 0%R. change (entry (mkMat 3 3 COrd [a; 0; 0; 0; b; 0; 0; 0; c]%R) 1 0) with 0%R. change (entry (mkMat 3 3 COrd [a; 0; 0; 0; b; 0; 0; 0; c]%R) 0 2) with 0%R.
  change (entry (mkMat 3 3 COrd [a; 0; 0; 0; b; 0; 0; 0; c]%R) 2 0) with 0%R. change (entry (mkMat 3 3 COrd [a; 0; 0; 0; b; 0; 0; 0; c]%R) 1 2) with 0%R. change (entry (mkMat 3 3 COrd [a; 0; 0; 0; b; 0; 0; 0; c]%R) 2 1) with 0%R. ring.
Qed.
Lemma order_cells ts ts' d d' c : ran ts d -> ran ts' d' -> (forall k t t', zget ts k = Some t -> zget ts' k = Some t' -> below c t t') -> matrices_below g c (us_ip u ts) (us_ip u ts').
Proof.
  intros (L & P & _) (L' & P' & _) H. destruct UO as (_ & _ & HB). destruct (HB ts L P) as (BK & RK). destruct (HB ts' L' P') as (_ & RK'). pose proof BK as (_ & _ & GEO & _).
  apply (mimetic_order orth orth g geo (cell_perm ts) (cell_perm ts') (fun _ => tracer_total) (fun _ => tracer_total) _ _ c GEO RK RK'). intros k y Hk. unfold tracer_total. rewrite tracer_one, !Rmult_1_l. unfold cell_perm.
  destruct (zget_in_range ts k) as (t & Et); [lia|]. destruct (zget_in_range ts' k) as (t' & Et'); [lia|]. rewrite Et, Et'. specialize (H k t t' Et Et'). destruct t as [[a b] e], t' as [[a' b'] e']. destruct H as (H1 & H2 & H3). rewrite !diag_quad.
  pose proof (Rle_0_sqr (y 0%Z)) as S0. pose proof (Rle_0_sqr (y 1%Z)) as S1. pose proof (Rle_0_sqr (y 2%Z)) as S2. unfold Rsqr in *.
  pose proof (Rmult_le_compat_r _ _ _ S0 H1). pose proof (Rmult_le_compat_r _ _ _ S1 H2). pose proof (Rmult_le_compat_r _ _ _ S2 H3). lra.
Qed.
Lemma order_fixed ts ts' d d' c i : us_bct u = 0 -> ran ts d -> ran ts' d' -> (forall k t t', zget ts k = Some t -> zget ts' k = Some t' -> below c t t') -> 0 <= i < 3 -> (Visc_Spec.tensor_of d i i <= c * Visc_Spec.tensor_of d' i i)%R.
Proof.
  intros Hb A A' H Hi. pose proof (order_cells _ _ _ _ c A A' H) as M. destruct A as (_ & _ & _ & cols & U & T). destruct A' as (_ & _ & _ & cols' & U' & T'). rewrite Hb in U, U'. exact (fixed_monotone _ _ _ _ _ _ _ _ _ _ c _ _ i U U' M T T' Hi).
Qed.
Lemma order_periodic ts ts' d d' c x : us_bct u = 2 -> ran ts d -> ran ts' d' -> (forall k t t', zget ts k = Some t -> zget ts' k = Some t' -> below c t t') -> (quad 3 (Visc_Spec.tensor_of d) x <= c * quad 3 (Visc_Spec.tensor_of d') x)%R.
Proof.
  intros Hb A A' H. pose proof (order_cells _ _ _ _ c A A' H) as M. destruct A as (_ & _ & _ & cols & U & T). destruct A' as (_ & _ & _ & cols' & U' & T'). rewrite Hb in U, U'. exact (periodic_monotone _ _ _ _ _ _ _ _ _ _ c _ _ U U' M T T' x).
Qed.
Lemma fixed_ran ts d : us_bct u = 0 -> ran ts d -> forall i j, 0 <= i < 3 -> 0 <= j < 3 -> if i =? j then (0 < Visc_Spec.tensor_of d i j)%R else Visc_Spec.tensor_of d i j = 0%R.
Proof.
  intros Hb (_ & _ & _ & cols & U & T) i j Hi Hj. rewrite Hb in U. destruct (fixed_diagonal _ _ _ _ _ _ _ _ U) as (k & Tk & Dk). rewrite (tensor_uniq _ _ _ T Tk i j Hi Hj). exact (Dk i j Hi Hj).
Qed.
Lemma periodic_ran ts d : us_bct u = 2 -> ran ts d -> symmetric 3 (Visc_Spec.tensor_of d) /\ positive_form 3 (Visc_Spec.tensor_of d).
Proof.
  intros Hb (_ & _ & _ & cols & U & T). rewrite Hb in U. split; [|exact (periodic_positive _ _ _ _ _ _ _ _ U _ T eq_refl)]. destruct (periodic_symmetric _ _ _ _ _ _ _ _ U) as (k & Tk & Sy). intros i j Hi Hj. rewrite !(tensor_uniq _ _ _ T Tk) by assumption. apply Sy; assumption.
Qed.
End Ups.

(* ---- the cell tensors ---- *)
Lemma zget_map' {A B} (f : A -> B) l i x : zget l i = Some x -> zget (map f l) i = Some (f x).
Proof. intros E. rewrite zget_map, E. reflexivity. Qed.
Lemma rock_in h c : In c (Relp_Spec.rock_cells h) <-> In c (h_ecl h) /\ 0 < region h c.
Proof. unfold Relp_Spec.rock_cells. rewrite filter_In. split; intros (A & B); split; auto; lia. Qed.
Lemma cand_le h ph p M : (1 <= h_contrast h)%R -> is_max M (0%R :: flat_map (cand h ph p) (Relp_Spec.rock_cells h)) -> (0 <= M)%R.
Proof. intros _ (_ & H). apply H. left. reflexivity. Qed.
Section Cells.
Context (h : helper) (HC : (1 <= h_contrast h)%R) (HM : (0 < h_minperm h)%R).
Definition dir_of (d : Z) : Z := if h_aniso h then d else 0.
Lemma tensor_entry ph p fl c d : 0 <= d < 3 -> (h_aniso h = true -> 0 < region h c) ->
  nth (Z.to_nat d) (entries (Relp_Spec.tensor_of h ph p fl c)) 0%R = if 0 <? region h c then Rmax fl (phase_perm h ph p c (dir_of d)) else fl.
Proof.
  intros Hd A. unfold Relp_Spec.tensor_of, dir_of. destruct (h_aniso h).
  - rewrite (proj2 (Z.ltb_lt 0 (region h c)) (A eq_refl)). destruct (three_cases d Hd) as [-> | [-> | ->]]; reflexivity.
  - destruct (three_cases d Hd) as [-> | [-> | ->]]; reflexivity.
Qed.
Lemma below_iff c t t' : below c t t' <-> forall d, 0 <= d < 3 -> (nth (Z.to_nat d) (entries t) 0 <= c * nth (Z.to_nat d) (entries t') 0)%R.
Proof.
  destruct t as [[a b] e], t' as [[a' b'] e']. cbn [below]. split.
  - intros (A & B & C) d Hd. destruct (three_cases d Hd) as [-> | [-> | ->]]; assumption.
  - intros H. split; [exact (H 0 ltac:(lia))|]. split; [exact (H 1 ltac:(lia))|exact (H 2 ltac:(lia))].
Qed.
Lemma cand_in ph p M c d : is_max M (0%R :: flat_map (cand h ph p) (Relp_Spec.rock_cells h)) -> In c (Relp_Spec.rock_cells h) -> given_dir h d -> (phase_perm h ph p c d <= M)%R.
Proof.
  intros (_ & H) Hc (Hd & Hi). apply H. right. apply in_flat_map. exists c. split; [exact Hc|]. unfold cand. right. destruct (h_aniso h).
  - destruct (three_cases d Hd) as [-> | [-> | ->]]; cbn; auto.
  - rewrite (Hi eq_refl). left. reflexivity.
Qed.
Lemma max_le ph p M X : is_max M (0%R :: flat_map (cand h ph p) (Relp_Spec.rock_cells h)) -> (0 <= X)%R -> (Relp_Spec.rock_cells h <> [] -> h_minperm h <= X)%R -> (forall c d, In c (Relp_Spec.rock_cells h) -> given_dir h d -> phase_perm h ph p c d <= X)%R -> (M <= X)%R.
Proof.
  intros (Hin & _) X0 Xm H. destruct Hin as [<- |Hin]; [exact X0|]. apply in_flat_map in Hin. destruct Hin as (c & Hc & Hin). unfold cand in Hin. destruct Hin as [<- |Hin]; [apply Xm; intros Q; rewrite Q in Hc; destruct Hc|].
  unfold given_dir in H. destruct (h_aniso h).
  - destruct Hin as [<- |[<- |[<- |[]]]]; apply (H c); auto; split; try lia; discriminate.
  - destruct Hin as [<- |[]]. apply (H c); auto. split; [lia|reflexivity].
Qed.
Lemma dir_given d : 0 <= d < 3 -> given_dir h (dir_of d).
Proof. intros Hd. unfold given_dir, dir_of. destruct (h_aniso h); split; try lia; discriminate. Qed.
Lemma max_min ph p M c : is_max M (0%R :: flat_map (cand h ph p) (Relp_Spec.rock_cells h)) -> In c (Relp_Spec.rock_cells h) -> (h_minperm h <= M)%R.
Proof. intros (_ & H) Hc. apply H. right. apply in_flat_map. exists c. split; [exact Hc|]. left. reflexivity. Qed.
End Cells.
