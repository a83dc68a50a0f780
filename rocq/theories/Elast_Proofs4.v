(* Proofs about the assembly of the elastic problem. *)
From Coq Require Import Lra FunctionalExtensionality.
From Verif Require Import RBaseFacts BaseFacts Lin_Facts Steady_Proofs Euler_Proofs2 Mim_Proofs Matx_Proofs Smat_Proofs Asm_Proofs Asm_Proofs2 Asm_Proofs3 Asm_Proofs4 Asm_Proofs5 Asm_Proofs6 Elast_Proofs Elast_Proofs3 Elast_Spec.
Open Scope Z_scope.

Lemma bmat_ok c x : bmatrix 3 x (cg_jit c x) = Ok (bmat c x).
Proof. unfold bmat. destruct (bmatrix_strain 3 x (cg_jit c x)) as (B & E & _); [now right|]. rewrite E. reflexivity. Qed.
Lemma element_ok c C eps : element_matrices c C eps = Ok (cell_stiffness C c, cell_load C c eps).
Proof.
  unfold element_matrices. 
  assert (forall l K ES, foldM (fun st r => let '(K, ES) := st in
      let* lB := bmatrix 3 (fst r) (cg_jit c (fst r)) in
      let detJ := cg_det c (fst r) in
      let Aq := stiffness 6 lB C (detJ * snd r) in
      Ok ((fun i j => K i j + Aq i j)%R,
          (fun i => ES i + dsum 6 (fun k => lB k i * dsum 6 (fun l => C k l * eps l)) * (- detJ * snd r))%R)) l (K, ES) =
    Ok ((fun a b => K a b + Rsum (map (fun r => cg_det c (fst r) * snd r * Sum 6 (fun k => Sum 6 (fun l => bmat c (fst r) k a * C k l * bmat c (fst r) l b))) l))%R,
        (fun a => ES a + Rsum (map (fun r => - (cg_det c (fst r) * snd r) * Sum 6 (fun k => Sum 6 (fun l => bmat c (fst r) k a * C k l * eps l))) l))%R)) as H.
  { induction l as [|r l IH]; intros K ES; cbn [foldM map].
    - f_equal. f_equal; [extensionality a; extensionality b|extensionality a]; rewrite Rsum_nil; ring.
    - rewrite bmat_ok. cbn [bind]. rewrite IH. f_equal. f_equal.
      + extensionality a; extensionality b. rewrite Rsum_cons, stiff_entry. ring.
      + extensionality a. rewrite Rsum_cons, dsum_Sum. rewrite (Sum_ext 6 (fun k => bmat c (fst r) k a * dsum 6 _)%R (fun k => Sum 6 (fun l0 => bmat c (fst r) k a * C k l0 * eps l0))%R) by (intros k _; rewrite dsum_Sum, <- Sum_scal; apply Sum_ext; intros; ring). ring. }
  rewrite H. f_equal. f_equal; [extensionality a; extensionality b|extensionality a]; unfold cell_stiffness, cell_load, fzero; ring.
Qed.
Lemma stiffness_same C C' c : same 6 C C' -> cell_stiffness C c = cell_stiffness C' c.
Proof. intros H. extensionality a; extensionality b. unfold cell_stiffness. apply Rsum_map_ext. intros r _. f_equal. apply Sum_ext. intros k Hk. apply Sum_ext. intros l Hl. rewrite H by assumption. reflexivity. Qed.
Lemma load_same C C' c eps : same 6 C C' -> cell_load C c eps = cell_load C' c eps.
Proof. intros H. extensionality a. unfold cell_load. apply Rsum_map_ext. intros r _. f_equal. apply Sum_ext. intros k Hk. apply Sum_ext. intros l Hl. rewrite H by assumption. reflexivity. Qed.
Definition any_elem (Cm : cellg -> fmat) (matrix : bool) (loadcase : Z) (c : cellg) : elem :=
  mkElem (cg_verts c) (if matrix then Some (cell_stiffness (Cm c) c) else None) (if -1 <? loadcase then Some (cell_load (Cm c) c (unit_strain loadcase)) else None).
Lemma column_ok Cm matrix loadcase cells : (forall c, In c cells -> matrix_of (cg_mat c) (Cm c)) -> forall C0 s, exists C1,
  foldM (assemble_cell matrix loadcase) cells (C0, s) = let* s' := add_elements 3 (map (any_elem Cm matrix loadcase) cells) s in Ok (C1, s').
Proof.
  induction cells as [|c cells IH]; intros HM C0 s.
  - exists C0. reflexivity.
  - destruct (HM c (or_introl eq_refl) C0) as (C' & EC & SC). unfold add_elements. cbn [map foldM].
    destruct (IH (fun d Hd => HM d (or_intror Hd)) C' (match add_element 3 s (el_K (any_elem Cm matrix loadcase c)) (el_S (any_elem Cm matrix loadcase c)) (cg_verts c) with Ok s1 => s1 | _ => s end)) as (C1 & E1).
    exists C1. unfold assemble_cell at 1. rewrite EC. cbn [bind snd]. rewrite element_ok. cbn [bind fst snd]. rewrite (stiffness_same _ _ c SC), (load_same _ _ c _ SC).
    cbn [any_elem el_K el_S el_verts] in *. destruct (add_element 3 s _ _ (cg_verts c)) as [s1| |]; cbn [bind]; [|reflexivity|reflexivity]. exact E1.
Qed.
Lemma concat_cells {A} (x : A) (l : list (list A)) (col : list A) : In x col -> In col l -> In x (concat l).
Proof. intros H1 H2. apply in_concat. exists col. tauto. Qed.
Lemma columns_ok Cm matrix loadcase C0 columns : (forall c, In c (concat columns) -> matrix_of (cg_mat c) (Cm c)) -> forall s,
  foldM (fun s column => let* st := foldM (assemble_cell matrix loadcase) column (C0, s) in Ok (snd st)) columns s = add_elements 3 (map (any_elem Cm matrix loadcase) (concat columns)) s.
Proof.
  induction columns as [|col columns IH]; intros HM s; [reflexivity|]. cbn [foldM concat]. destruct (column_ok Cm matrix loadcase col (fun c Hc => HM c (proj2 (in_app_iff _ _ _) (or_introl Hc))) C0 s) as (C1 & E1). rewrite E1.
  rewrite map_app. unfold add_elements in *. rewrite foldM_app. destruct (foldM _ (map _ col) s) as [s1| |]; cbn [bind snd]; [|reflexivity|reflexivity]. apply IH. intros c Hc. apply HM. cbn [concat]. apply in_app_iff. now right.
Qed.
Lemma assemble_alt Cm color loadcase matrix C0 s : (forall c, In c (concat (concat color)) -> matrix_of (cg_mat c) (Cm c)) ->
  assemble color loadcase matrix C0 s = add_elements 3 (map (any_elem Cm matrix loadcase) (concat (concat color))) (reset matrix loadcase s).
Proof.
  intros HM. unfold assemble. generalize (reset matrix loadcase s) as t. revert HM. induction color as [|cols color IH]; intros HM t; [reflexivity|]. cbn [foldM concat]. rewrite (columns_ok Cm).
  - rewrite concat_app, map_app. unfold add_elements in *. rewrite foldM_app. destruct (foldM _ (map _ (concat cols)) t) as [s1| |]; cbn [bind]; [|reflexivity|reflexivity]. apply IH. intros c Hc. apply HM. cbn [concat]. rewrite concat_app. apply in_app_iff. now right.
  - intros c Hc. apply HM. cbn [concat]. rewrite concat_app. apply in_app_iff. now left.
Qed.

(* ---- states with the same equations *)
Definition like (s t : asm) : Prop :=
  as_mpcs t = as_mpcs s /\ as_fixed t = as_fixed s /\ as_meqn t = as_meqn s /\ as_neq t = as_neq s /\ zlen (as_b t) = as_neq s /\ wf_smat (as_A t) /\ dims (as_A t) (as_neq s) (as_neq s) /\
  forall e f, stored (as_A t) e f <-> stored (as_A s) e f.
Lemma row_zero row j : row_find (map (fun e : Z * R => (fst e, 0%R)) row) j = match row_find row j with Some _ => Some 0%R | None => None end.
Proof. induction row as [|[k v] row IH]; cbn [map row_find fst]; [reflexivity|]. destruct (k =? j); [reflexivity|exact IH]. Qed.
Lemma reset_like matrix loadcase s t : like s t -> like s (reset matrix loadcase t) /\
  (forall e f, coef (as_A (reset matrix loadcase t)) e f = if matrix then 0%R else coef (as_A t) e f) /\
  (forall e, nthR (as_b (reset matrix loadcase t)) e = if -1 <? loadcase then 0%R else nthR (as_b t) e).
Proof.
  intros (L1 & L2 & L3 & L4 & L5 & L6 & L7 & L8). unfold reset, like. cbn [as_mpcs as_fixed as_meqn as_neq as_A as_b].
  assert (forall (l : list (Z * R)), map fst (map (fun e : Z * R => (fst e, 0%R)) l) = map fst l) as MF by (intros l; rewrite map_map; reflexivity).
  split; [|split].
  - split; [exact L1|]. split; [exact L2|]. split; [exact L3|]. split; [exact L4|]. split; [destruct (-1 <? loadcase); rewrite ?zlen_map; exact L5|].
    destruct matrix; [|split; [exact L6|split; [exact L7|exact L8]]]. split; [|split].
    + destruct L6 as (W1 & W2 & W3). split; [cbn [sm_rows sm_n]; rewrite zlen_map; exact W1|]. split; [exact W2|]. cbn [sm_rows]. intros row Hr. apply in_map_iff in Hr. destruct Hr as (r0 & <- & Hr0). rewrite MF. destruct (W3 r0 Hr0) as [I J]. split; [exact I|].
      intros e He. apply in_map_iff in He. destruct He as (e0 & <- & He0). cbn [fst]. apply J. exact He0.
    + exact L7.
    + intros e f. rewrite <- L8, !stored_map. cbn [sm_rows]. rewrite zget_map. destruct (zget (sm_rows (as_A t)) e) as [row|]; cbn [option_map]; [|split; intros (r & E & _); discriminate].
      split; intros (r & E & H); injection E as <-; eexists; (split; [reflexivity|]); rewrite ?MF in *; exact H.
  - intros e f. destruct matrix; [|reflexivity]. unfold coef. cbn [sm_rows]. rewrite zget_map. destruct (zget (sm_rows (as_A t)) e) as [row|]; cbn [option_map]; [|reflexivity]. rewrite row_zero. destruct (row_find row f); reflexivity.
  - intros e. destruct (-1 <? loadcase); [|reflexivity]. unfold nthR. rewrite zget_map. destruct (zget (as_b t) e); reflexivity.
Qed.
Section Assembly.
Variables (nodes : Z) (cells : list (list Z)) (M : mpcmap) (F : fixmap) (s : asm).
Hypothesis HG : grid_ok 3 nodes cells M F.
Hypothesis HI : inited 3 nodes cells M F s.
Lemma like_refl : like s s.
Proof. pose proof HI as (I1 & I2 & I3 & I4 & I5 & I6 & I7 & I8 & I9 & I10 & I11 & I12 & I13 & I14). unfold like. tauto. Qed.
Lemma elements_from els t : like s t -> (forall el, In el els -> In (el_verts el) cells) -> exists t', add_elements 3 els t = Ok t' /\ like s t' /\
  (forall e f, 0 <= e -> 0 <= f -> coef (as_A t') e f = (coef (as_A t) e f + Rsum (map (fun el => el_matrix 3 s el e f) els))%R) /\
  (forall e, 0 <= e -> nthR (as_b t') e = (nthR (as_b t) e + Rsum (map (fun el => el_load 3 s el e) els))%R).
Proof using HG HI.
  intros (L1 & L2 & L3 & L4 & L5 & L6 & L7 & L8) Hels. pose proof HI as (I1 & I2 & I3 & I4 & I5 & I6 & I7 & I8 & I9 & I10 & I11 & I12 & I13 & I14). pose proof HG as (HD & HN & HV & HM & HS & HF).
  pose proof (e_LEN 3 nodes cells M F s HI) as LEN. pose proof (e_RNG 3 nodes cells M F s HI) as RNG. pose proof (e_MR 3 nodes cells M F s HG HI) as MR.
  destruct (sfold (fun s el => add_element 3 s (el_K el) (el_S el) (el_verts el)) (fun el => el_matrix 3 s el) (fun el => el_load 3 s el) s (fun a b => stored (as_A s) a b) els) with (s := t) as (s' & E & A').
  - intros t0 el Hel RD. apply (add_element_ok 3 nodes (as_neq s) (as_mpcs s) (as_meqn s) HD LEN RNG MR (el_verts el) (fun n Hn => HV _ n (Hels el Hel) Hn) s eq_refl eq_refl eq_refl).
    + intros n d v l Hf Hd Hn Hl. rewrite I1 in Hf. assert (fx_flag F n l = true) as FT by (unfold fx_flag; rewrite Hf; subst d; assert (l = 0 \/ l = 1 \/ l = 2) as [->|[->| ->]] by lia; reflexivity).
      destruct (divmod 3 n l Hl) as [D1 D2]. pose proof (HV _ n (Hels el Hel) Hn) as Rn. assert (0 <= n * 3 + l < nodes * 3) by lia.
      assert (~ slaveof M (n * 3 + l)) as NS by (intros Hs; apply HS in Hs; rewrite D1, D2 in Hs; destruct Hs; congruence). split.
      * destruct (mm_find (as_mpcs s) (n * 3 + l)) eqn:Em; [|reflexivity]. exfalso. apply NS. apply I3. unfold slaveof. congruence.
      * apply (e_not_free 3 nodes cells M F s HI); [lia|]. intros [_ Hx]. rewrite D1, D2 in Hx. congruence.
    + destruct RD as (R1 & R2 & R3 & R4 & R5 & R6 & R7). split; [exact R1|]. split; [exact R2|]. split; [exact R3|]. split; [exact R4|]. split; [exact R5|]. split; [exact R6|].
      intros a b (Ha & Hb & (x & Hx & Cx) & (y & Hy & Cy)). apply R7. apply I11. split; [exact Ha|]. split; [exact Hb|]. exists (el_verts el). split; [apply Hels; exact Hel|]. exists x, y. tauto.
  - split; [exact L1|]. split; [exact L2|]. split; [exact L3|]. split; [exact L4|]. split; [exact L5|]. split; [exact L6|]. intros a b H. apply L8. exact H.
  - destruct A' as (E1 & E2 & E3 & E4 & (MW & [MD1 MD2] & MS & MC) & L & B). exists s'. split; [exact E|]. destruct L7 as [D1 D2]. split; [|split; [exact MC|exact B]].
    split; [congruence|]. split; [congruence|]. split; [congruence|]. split; [congruence|]. split; [congruence|]. split; [exact MW|]. split; [split; congruence|]. intros e f. rewrite MS. apply L8.
Qed.
Variables (color : list (list (list cellg))) (Cm : cellg -> fmat).
Hypothesis HV : forall c, In c (concat (concat color)) -> In (cg_verts c) cells /\ matrix_of (cg_mat c) (Cm c).
Lemma sval_none K v e : el_load 3 s (mkElem v K None) e = 0%R.
Proof. unfold el_load. apply Sum_zero. intros a _. cbn [el_S sval]. ring. Qed.
Lemma kval_none S v e f : el_matrix 3 s (mkElem v None S) e f = 0%R.
Proof. unfold el_matrix. apply Sum_zero. intros a _. apply Sum_zero. intros b _. cbn [el_K kval]. ring. Qed.
Lemma assemble_like t loadcase matrix C0 : like s t -> exists t', assemble color loadcase matrix C0 t = Ok t' /\ like s t' /\
  (forall e f, 0 <= e -> 0 <= f -> coef (as_A t') e f = if matrix then Rsum (map (fun c => el_matrix 3 s (stiff_elem Cm c) e f) (concat (concat color))) else coef (as_A t) e f) /\
  (forall e, 0 <= e -> nthR (as_b t') e = if -1 <? loadcase then Rsum (map (fun c => el_load 3 s (load_elem Cm loadcase c) e) (concat (concat color))) else nthR (as_b t) e).
Proof using HG HI HV.
  intros HL. rewrite (assemble_alt Cm) by (intros c Hc; apply HV; exact Hc). destruct (reset_like matrix loadcase s t HL) as (RL & RA & RB).
  destruct (elements_from (map (any_elem Cm matrix loadcase) (concat (concat color))) _ RL) as (t' & E & L & A & B).
  - intros el Hel. apply in_map_iff in Hel. destruct Hel as (c & <- & Hc). apply HV. exact Hc.
  - exists t'. split; [exact E|]. split; [exact L|]. split.
    + intros e f He Hf. rewrite A, RA, map_map by assumption. destruct matrix.
      * rewrite Rplus_0_l. apply Rsum_map_ext. reflexivity.
      * rewrite (Rsum_map_zero _ (concat (concat color))) by (intros c _; apply kval_none). ring.
    + intros e He. rewrite B, RB, map_map by assumption. unfold any_elem. destruct (-1 <? loadcase).
      * rewrite Rplus_0_l. apply Rsum_map_ext. intros c _. reflexivity.
      * rewrite (Rsum_map_zero _ (concat (concat color))) by (intros c _; apply sval_none). ring.
Qed.
Lemma reached_like t : reached color s t -> like s t.
Proof using HG HI HV.
  intros H. induction H as [|t lc m C0 t' _ IH E]; [exact like_refl|]. destruct (assemble_like t lc m C0 IH) as (t2 & E2 & L2 & _). rewrite E in E2. injection E2 as <-. exact L2.
Qed.
End Assembly.
Lemma assemble_ok nodes cells M F fuel s color Cm t loadcase matrix C0 : grid_ok 3 nodes cells M F -> wf_mpcs 3 M -> init_assembly fuel 3 nodes cells M F = Some (Ok s) ->
  (forall c, In c (concat (concat color)) -> In (cg_verts c) cells /\ matrix_of (cg_mat c) (Cm c)) -> reached color s t ->
  exists t', assemble color loadcase matrix C0 t = Ok t' /\
  (forall e f, 0 <= e -> 0 <= f -> coef (as_A t') e f = if matrix then Rsum (map (fun c => el_matrix 3 s (stiff_elem Cm c) e f) (concat (concat color))) else coef (as_A t) e f) /\
  (forall e, 0 <= e -> nthR (as_b t') e = if -1 <? loadcase then Rsum (map (fun c => el_load 3 s (load_elem Cm loadcase c) e) (concat (concat color))) else nthR (as_b t) e).
Proof.
  intros HG W E HV HR. pose proof (init_inv _ _ _ _ _ _ _ HG W E) as HI. destruct (assemble_like nodes cells M F s HG HI color Cm HV t loadcase matrix C0 (reached_like nodes cells M F s HG HI color Cm HV t HR)) as (t' & E' & _ & A & B). exists t'. tauto.
Qed.
