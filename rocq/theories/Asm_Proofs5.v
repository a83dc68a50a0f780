(* The assembled system and its solutions. *)
From Verif Require Import RBaseFacts BaseFacts Lin_Facts Steady_Proofs Euler_Proofs2 Impl_Proofs5 Mim_Proofs Smat_Proofs Asm_Proofs Asm_Proofs2 Asm_Proofs3 Asm_Proofs4 Asm_Spec.
From Coq Require Import Lra.
Open Scope Z_scope.

Definition inited (dim nodes : Z) (cells : list (list Z)) (M : mpcmap) (F : fixmap) (s : asm) : Prop :=
  as_fixed s = F /\ wf_mpcs dim (as_mpcs s) /\ (forall k, slaveof (as_mpcs s) k <-> slaveof M k) /\ resolved dim (as_mpcs s) /\ (forall k x c, couples dim (as_mpcs s) k x c -> chain dim M k x c) /\
  (no_loss dim M -> forall u, obeys dim (as_mpcs s) u <-> obeys dim M u) /\
  0 <= as_neq s /\ numbering (nodes * dim) 0 (as_neq s) (free_dof dim M F) (as_meqn s) /\
  wf_smat (as_A s) /\ dims (as_A s) (as_neq s) (as_neq s) /\
  (forall e f, stored (as_A s) e f <-> 0 <= e /\ 0 <= f /\ exists v, In v cells /\ exists a b, 0 <= a < zlen v * dim /\ 0 <= b < zlen v * dim /\
      acts dim (as_mpcs s) (as_meqn s) (cell_dof dim v a) e /\ acts dim (as_mpcs s) (as_meqn s) (cell_dof dim v b) f) /\
  (forall e f, coef (as_A s) e f = 0%R) /\ zlen (as_b s) = as_neq s /\ forall e, nthR (as_b s) e = 0%R.
Lemma numbering_range N first last free eqn : 0 <= first -> (forall d, free d \/ ~ free d) -> numbering N first last free eqn -> forall d q, zget eqn d = Some q -> -1 <= q < Z.max last 0.
Proof.
  intros H0 Hdec (L & H1 & H2 & H3 & H4) d q Hq. pose proof (zget_Some_range _ _ _ Hq) as R0. destruct (Hdec d) as [Hf|Nf].
  - destruct (H2 d ltac:(lia) Hf) as (q' & E & Hr). rewrite Hq in E. injection E as <-. lia.
  - rewrite (H1 d ltac:(lia) Nf) in Hq. injection Hq as <-. lia.
Qed.
Lemma chain_end_range dim nodes M : (forall k x c, couples dim M k x c -> 0 <= x < nodes * dim) -> forall k x c, chain dim M k x c -> 0 <= x < nodes * dim.
Proof. intros H k x c Hc. induction Hc as [k x c Hc|k y x c d Hc _ IH]; [eapply H; exact Hc|exact IH]. Qed.
Lemma numbering_ext N a b f g eqn : (forall d, f d <-> g d) -> numbering N a b f eqn -> numbering N a b g eqn.
Proof.
  intros H (L & H1 & H2 & H3 & H4). split; [exact L|]. split; [intros d Hd Nf; apply H1; [exact Hd|rewrite H; exact Nf]|]. split; [intros d Hd Hf; apply H2; [exact Hd|apply H; exact Hf]|]. split.
  - intros q Hq. destruct (H3 q Hq) as (d & Hd & Hf & Hg). exists d. split; [exact Hd|]. split; [apply H; exact Hf|exact Hg].
  - intros d d' q q' Hf Hf'. apply H4; apply H; assumption.
Qed.
Lemma init_ok dim nodes cells M F fuel r : grid_ok dim nodes cells M F -> wf_mpcs dim M -> resolve_all fuel dim M = Some r ->
  exists s, init_assembly fuel dim nodes cells M F = Some (Ok s) /\ inited dim nodes cells M F s.
Proof.
  intros (HD & HN & HV & HM & HS & HF) W Hr. destruct (resolve_result dim M fuel r W Hr) as (M' & -> & W' & HSl & HRes & HCh & HOb & _). unfold init_assembly. rewrite Hr. cbn [bind].
  destruct (preprocess_ok dim nodes M' F 0 HD HN) as (eqn & neq & Ep & Hneq & Hnum). rewrite Ep. cbn [bind fst snd].
  assert (forall d q, zget eqn d = Some q -> -1 <= q < neq) as RNG by (intros d q Hq; pose proof (numbering_range _ _ _ _ _ (Z.le_refl 0) (free_dec dim M' F) Hnum d q Hq); lia).
  assert (forall k x c, couples dim M' k x c -> 0 <= x < nodes * dim) as MR by (intros k x c Hc; eapply chain_end_range; [exact HM|apply HCh; exact Hc]).
  pose proof (proj1 Hnum) as LEN.
  destruct (grow (fun adj verts => foldM (fun adj n => foldM (fun adj k =>
      let* es := dof_eqs dim M' eqn n k in
      foldM (fun adj e => node_adjacency dim M' eqn verts (fst e) adj) es adj) (zrange 0 dim) adj) verts adj)
     (fun v a b => 0 <= a /\ 0 <= b /\ cell_acts dim M' eqn v a /\ cell_acts dim M' eqn v b) neq cells) with (adj := zrepeat (@nil Z) neq) as (adj & Ea & Wa & Pa).
  - intros adj v Hv Wa. apply (cell_adjacency_ok dim nodes neq M' eqn HD LEN RNG MR v (fun n Hn => HV v n Hv Hn)). exact Wa.
  - apply empty_adj. exact Hneq.
  - unfold adjacency. rewrite Ea. cbn [bind]. rewrite (proj1 Wa).
    assert (forall a b, padj adj a b -> 0 <= a < neq /\ 0 <= b < neq) as PR.
    { intros a b Hab. apply Pa in Hab. destruct Hab as [Hab|(v & Hv & Ha & Hb & Ca & Cb)]; [exfalso; exact (proj2 (empty_adj neq Hneq) a b Hab)|].
      assert (forall e, 0 <= e -> cell_acts dim M' eqn v e -> 0 <= e < neq) as CR; [|split; apply CR; assumption]. clear a b Ha Hb Ca Cb. intros e He Ce.
      rewrite (cell_acts_alt dim M' eqn HD v) in Ce. destruct Ce as (n & l & Hn & Hl & Hac). destruct (dof_eqs_ok dim nodes neq M' eqn HD LEN RNG MR n l (HV v n Hv Hn) Hl) as (es & _ & _ & Hes & Hiff). apply Hiff in Hac. destruct Hac as (x & Hx & <-). specialize (Hes x Hx). lia. }
    destruct (from_adjacency_ok adj neq neq Wa Hneq (fun a b Hab => proj2 (PR a b Hab))) as (A & EA & WA & DA & SA & CA). rewrite EA. cbn [bind]. eexists. split; [reflexivity|].
    unfold inited. cbn [as_mpcs as_fixed as_meqn as_neq as_A as_b]. split; [reflexivity|]. split; [exact W'|]. split; [exact HSl|]. split; [exact HRes|]. split; [exact HCh|]. split; [exact HOb|]. split; [exact Hneq|]. split.
    { eapply numbering_ext; [|exact Hnum]. intros d. unfold free_dof. rewrite HSl. tauto. }
    split; [exact WA|]. split; [exact DA|]. split.
    { intros e f. rewrite SA, Pa. split.
      - intros [Q|(v & Hv & He & Hf & (a & Ha & Ca) & (b & Hb & Cb))]; [exfalso; exact (proj2 (empty_adj neq Hneq) e f Q)|]. split; [exact He|]. split; [exact Hf|]. exists v. split; [exact Hv|]. exists a, b. tauto.
      - intros (He & Hf & v & Hv & a & b & Ha & Hb & Ca & Cb). right. exists v. split; [exact Hv|]. split; [exact He|]. split; [exact Hf|]. split; [exists a; tauto|exists b; tauto]. }
    split; [exact CA|]. split; [apply zlen_zrepeat; exact Hneq|]. intros e. unfold nthR. destruct (zget (zrepeat 0%R neq) e) as [x|] eqn:Ex; [|reflexivity].
    pose proof (zget_Some_range _ _ _ Ex) as Rx. rewrite zlen_zrepeat in Rx by exact Hneq. rewrite zget_zrepeat in Ex by lia. congruence.
Qed.
Lemma init_total dim nodes cells M F : grid_ok dim nodes cells M F -> wf_mpcs dim M -> ~ cyclic dim M ->
  exists fuel0, forall fuel, (fuel0 <= fuel)%nat -> exists s, init_assembly fuel dim nodes cells M F = Some (Ok s).
Proof.
  intros HG W NC. destruct (resolve_terminates dim M W NC) as (f0 & H). exists f0. intros fuel Hf. destruct (H fuel Hf) as (M' & E). destruct (init_ok dim nodes cells M F fuel _ HG W E) as (s & Es & _). exists s. exact Es.
Qed.
Lemma init_inv dim nodes cells M F fuel s : grid_ok dim nodes cells M F -> wf_mpcs dim M -> init_assembly fuel dim nodes cells M F = Some (Ok s) -> inited dim nodes cells M F s.
Proof.
  intros HG W E. destruct (resolve_all fuel dim M) as [r|] eqn:Er; [|unfold init_assembly in E; rewrite Er in E; discriminate]. destruct (init_ok dim nodes cells M F fuel r HG W Er) as (s' & E' & I). rewrite E in E'. injection E' as <-. exact I.
Qed.
Section Ready.
Variables (dim nodes : Z) (cells : list (list Z)) (M : mpcmap) (F : fixmap) (s : asm).
Hypothesis HG : grid_ok dim nodes cells M F.
Hypothesis HI : inited dim nodes cells M F s.
Notation M' := (as_mpcs s).
Notation eqn := (as_meqn s).
Notation neq := (as_neq s).
Notation T := (trans dim M' eqn).
Lemma e_HD : 0 < dim. Proof. apply HG. Qed.
Lemma e_LEN : zlen eqn = nodes * dim. Proof. apply HI. Qed.
Lemma e_NUM : numbering (nodes * dim) 0 neq (free_dof dim M F) eqn. Proof. apply HI. Qed.
Lemma e_RNG d q : zget eqn d = Some q -> -1 <= q < neq.
Proof. intros Hq. pose proof (numbering_range _ _ _ _ _ (Z.le_refl 0) (free_dec dim M F) e_NUM d q Hq). assert (0 <= neq) by apply HI. lia. Qed.
Lemma e_MR k x c : couples dim M' k x c -> 0 <= x < nodes * dim.
Proof. intros Hc. eapply chain_end_range; [apply HG|]. apply HI. exact Hc. Qed.
Lemma e_not_free d : 0 <= d < nodes * dim -> ~ free_dof dim M F d -> eq_of eqn d = -1.
Proof. intros Hd Nf. unfold eq_of. rewrite (proj1 (proj2 e_NUM) d Hd Nf). reflexivity. Qed.
Lemma e_free d : 0 <= d < nodes * dim -> free_dof dim M F d -> 0 <= eq_of eqn d < neq.
Proof. intros Hd Hf. destruct (proj1 (proj2 (proj2 e_NUM)) d Hd Hf) as (q & E & Hq). unfold eq_of. rewrite E. exact Hq. Qed.
Lemma elements_ok els : (forall el, In el els -> In (el_verts el) cells) -> (dim <= 3) -> exists s', add_elements dim els s = Ok s' /\
  as_mpcs s' = M' /\ as_meqn s' = eqn /\ as_neq s' = neq /\ as_fixed s' = F /\ wf_smat (as_A s') /\ dims (as_A s') neq neq /\ (forall e f, stored (as_A s') e f <-> stored (as_A s) e f) /\
  (forall e f, 0 <= e -> 0 <= f -> coef (as_A s') e f = Rsum (map (fun el => el_matrix dim s el e f) els)) /\
  zlen (as_b s') = neq /\ (forall e, 0 <= e -> nthR (as_b s') e = Rsum (map (fun el => el_load dim s el e) els)).
Proof.
  intros Hels H3. pose proof HI as (I1 & I2 & I3 & I4 & I5 & I6 & I7 & I8 & I9 & I10 & I11 & I12 & I13 & I14). pose proof HG as (HD & HN & HV & HM & HS & HF).
  destruct (sfold (fun s el => add_element dim s (el_K el) (el_S el) (el_verts el)) (fun el => el_matrix dim s el) (fun el => el_load dim s el) s (fun a b => stored (as_A s) a b) els) with (s := s) as (s' & E & A').
  - intros t el Hel RD. apply (add_element_ok dim nodes neq M' eqn HD e_LEN e_RNG e_MR (el_verts el) (fun n Hn => HV _ n (Hels el Hel) Hn) s eq_refl eq_refl eq_refl).
    + intros n d v l Hf Hd Hn Hl. rewrite I1 in Hf. assert (fx_flag F n l = true) as FT by (unfold fx_flag; rewrite Hf; subst d; assert (l = 0 \/ l = 1 \/ l = 2) as [->|[->| ->]] by lia; reflexivity).
      destruct (divmod dim n l Hl) as [D1 D2]. pose proof (HV _ n (Hels el Hel) Hn) as Rn. assert (0 <= n * dim + l < nodes * dim) by nia.
      assert (~ slaveof M (n * dim + l)) as NS by (intros Hs; apply HS in Hs; rewrite D1, D2 in Hs; destruct Hs; congruence). split.
      * destruct (mm_find M' (n * dim + l)) eqn:Em; [|reflexivity]. exfalso. apply NS. apply I3. unfold slaveof. congruence.
      * apply e_not_free; [lia|]. intros [_ Hx]. rewrite D1, D2 in Hx. congruence.
    + destruct RD as (R1 & R2 & R3 & R4 & R5 & R6 & R7). split; [exact R1|]. split; [exact R2|]. split; [exact R3|]. split; [exact R4|]. split; [exact R5|]. split; [exact R6|].
      intros a b (Ha & Hb & (x & Hx & Cx) & (y & Hy & Cy)). apply R7. apply I11. split; [exact Ha|]. split; [exact Hb|]. exists (el_verts el). split; [apply Hels; exact Hel|]. exists x, y. tauto.
  - repeat (split; [reflexivity|]). split; [exact I13|]. split; [exact I9|]. tauto.
  - destruct A' as (E1 & E2 & E3 & E4 & (MW & [MD1 MD2] & MS & MC) & L & B). exists s'. split; [exact E|]. split; [exact E1|]. split; [exact E3|]. split; [exact E4|]. split; [congruence|]. split; [exact MW|]. destruct I10 as [D1 D2]. split; [split; congruence|].
    split; [exact MS|]. split; [intros e f He Hf; rewrite MC by assumption; rewrite I12; ring|]. split; [congruence|]. intros e He. rewrite B by exact He. rewrite I14. ring.
Qed.
Lemma el_matrix_sym el e f : (forall a b, kval (el_K el) a b = kval (el_K el) b a) -> el_matrix dim s el e f = el_matrix dim s el f e.
Proof. intros H. unfold el_matrix. rewrite Sum_swap. apply Sum_ext. intros a _. apply Sum_ext. intros b _. rewrite (H b a). ring. Qed.
(* the displacement of local dof a for the unknowns u *)
Definition local (u : Z -> R) (el : elem) (a : Z) : R := Sum neq (fun e => T (cell_dof dim (el_verts el) a) e * u e)%R.
Lemma quad_form n m (X Y : Z -> Z -> R) (w z : Z -> R) : Sum n (fun e => Sum n (fun f => w e * Sum m (fun a => X a e * Y a f) * z f))%R = Sum m (fun a => Sum n (fun e => X a e * w e) * Sum n (fun f => Y a f * z f))%R.
Proof.
  rewrite (Sum_ext n (fun e => Sum n (fun f => w e * Sum m (fun a => X a e * Y a f) * z f))%R (fun e => Sum m (fun a => X a e * w e * Sum n (fun f => Y a f * z f)))%R).
  - rewrite Sum_swap. apply Sum_ext. intros a _. rewrite <- Sum_scal_r. reflexivity.
  - intros e _. rewrite (Sum_ext n (fun f => w e * Sum m (fun a => X a e * Y a f) * z f)%R (fun f => Sum m (fun a => X a e * w e * (Y a f * z f)))%R).
    + rewrite Sum_swap. apply Sum_ext. intros a _. rewrite Sum_scal. reflexivity.
    + intros f _. rewrite Rmult_assoc, (Rmult_comm (Sum m _)), <- Rmult_assoc, <- Sum_scal. apply Sum_ext. intros; ring.
Qed.
Lemma energy_el el u : Sum neq (fun e => Sum neq (fun f => u e * el_matrix dim s el e f * u f))%R =
  Sum (el_dofs dim el) (fun a => Sum (el_dofs dim el) (fun b => local u el a * kval (el_K el) a b * local u el b))%R.
Proof.
  rewrite (Sum_ext neq _ (fun e => Sum neq (fun f => u e * Sum (el_dofs dim el) (fun a => T (cell_dof dim (el_verts el) a) e * Sum (el_dofs dim el) (fun b => kval (el_K el) a b * T (cell_dof dim (el_verts el) b) f)) * u f))%R).
  - rewrite (quad_form neq (el_dofs dim el) (fun a e => T (cell_dof dim (el_verts el) a) e) (fun a f => Sum (el_dofs dim el) (fun b => kval (el_K el) a b * T (cell_dof dim (el_verts el) b) f)%R) u u). apply Sum_ext. intros a _. fold (local u el a).
    rewrite (Sum_ext neq _ (fun f => Sum (el_dofs dim el) (fun b => kval (el_K el) a b * (T (cell_dof dim (el_verts el) b) f * u f)))%R) by (intros f _; rewrite <- Sum_scal_r; apply Sum_ext; intros; ring).
    rewrite Sum_swap. rewrite <- Sum_scal. apply Sum_ext. intros b _. unfold local at 3. rewrite Sum_scal. ring.
  - intros e _. apply Sum_ext. intros f _. f_equal. f_equal. unfold el_matrix. apply Sum_ext. intros a _. rewrite <- Sum_scal. apply Sum_ext. intros; ring.
Qed.
Lemma Sum_Rsum {B} n (g : B -> Z -> R) l : Sum n (fun i => Rsum (map (fun x => g x i) l)) = Rsum (map (fun x => Sum n (g x)) l).
Proof. induction l as [|x l IH]; cbn [map]; [rewrite Rsum_nil; apply Sum_zero; reflexivity|]. rewrite Rsum_cons, <- IH, <- Sum_plus. apply Sum_ext. intros i _. rewrite Rsum_cons. reflexivity. Qed.
Lemma energy_ok els s' u : (forall e f, 0 <= e -> 0 <= f -> coef (as_A s') e f = Rsum (map (fun el => el_matrix dim s el e f) els)) ->
  Sum neq (fun e => Sum neq (fun f => u e * coef (as_A s') e f * u f))%R = Rsum (map (fun el => Sum (el_dofs dim el) (fun a => Sum (el_dofs dim el) (fun b => local u el a * kval (el_K el) a b * local u el b)))%R els).
Proof.
  intros H. rewrite (Sum_ext neq _ (fun e => Rsum (map (fun el => Sum neq (fun f => u e * el_matrix dim s el e f * u f)%R) els))).
  - rewrite Sum_Rsum. apply Rsum_map_ext. intros el _. apply energy_el.
  - intros e He. rewrite <- Sum_Rsum. apply Sum_ext. intros f Hf. rewrite H by lia. rewrite <- Rsum_map_scale, <- Rsum_map_scale_r. reflexivity.
Qed.

(* ---- expandSolution *)
Lemma dof_loop (step : Z -> list R -> Z -> res (list R)) (w : Z -> R -> R) r : zlen r = nodes * dim ->
  (forall r n j, zlen r = nodes * dim -> 0 <= n < nodes -> 0 <= j < dim -> exists r', step n r j = Ok r' /\ zlen r' = zlen r /\ forall d, nthR r' d = if d =? n * dim + j then w d (nthR r d) else nthR r d) ->
  exists r', foldM (fun r n => foldM (step n) (zrange 0 dim) r) (zrange 0 nodes) r = Ok r' /\ zlen r' = nodes * dim /\ forall d, 0 <= d < nodes * dim -> nthR r' d = w d (nthR r d).
Proof.
  intros L Hs. assert (0 <= nodes) as HN by exact (proj1 (proj2 HG)). pose proof e_HD as HD. set (P := fun D (x : list R) => zlen x = nodes * dim /\ forall d, nthR x d = if (0 <=? d) && (d <? D) then w d (nthR r d) else nthR r d).
  destruct (zloop (fun r n => foldM (step n) (zrange 0 dim) r) (fun n => P (n * dim)) 0 nodes r HN) as (r' & E & L' & H').
  - split; [exact L|]. intros d. destruct (Z.leb_spec 0 d); cbn [andb]; [|reflexivity]. destruct (Z.ltb_spec d (0 * dim)); [lia|reflexivity].
  - intros n x Hn Px. destruct (zloop (step n) (fun j => P (n * dim + j)) 0 dim x) as (x' & E & Px'); [lia|rewrite Z.add_0_r; exact Px| |exists x'; split; [exact E|]; replace ((n + 1) * dim) with (n * dim + dim) by lia; exact Px'].
    intros j y Hj [Ly Hy]. destruct (Hs y n j Ly Hn Hj) as (y' & E & L2 & H2). exists y'. split; [exact E|]. split; [congruence|]. intros d. rewrite H2, !Hy. assert (0 <= n * dim + j) by nia.
    destruct (Z.eqb_spec d (n * dim + j)) as [->|Nd].
    + destruct (Z.leb_spec 0 (n * dim + j)); [|lia]. destruct (Z.ltb_spec (n * dim + j) (n * dim + j)); [lia|]. destruct (Z.ltb_spec (n * dim + j) (n * dim + (j + 1))); [|lia]. reflexivity.
    + destruct (Z.leb_spec 0 d); cbn [andb]; [|reflexivity]. destruct (Z.ltb_spec d (n * dim + j)); destruct (Z.ltb_spec d (n * dim + (j + 1))); try lia; reflexivity.
  - exists r'. split; [exact E|]. split; [exact L'|]. intros d Hd. rewrite H'. destruct (Z.leb_spec 0 d); [|lia]. destruct (Z.ltb_spec d (nodes * dim)); [reflexivity|lia].
Qed.
Variable u : list R.
Hypothesis LU : zlen u = neq.
Lemma trans_slave d p : mm_find M' d = Some p -> Sum neq (fun e => T d e * nthR u e)%R =
  Rsum (map (fun m => if eq_of eqn (dof_key dim m) =? -1 then 0%R else (nthR u (eq_of eqn (dof_key dim m)) * md_coeff m)%R) (mp_master p)).
Proof.
  intros Hp. unfold trans. rewrite Hp. assert (forall m, In m (mp_master p) -> 0 <= dof_key dim m < nodes * dim) as HR by (intros m Hm; apply (e_MR d _ (md_coeff m)); exists p, m; tauto).
  rewrite (Sum_ext neq _ (fun e => Rsum (map (fun m => (if eq_of eqn (dof_key dim m) =? e then md_coeff m else 0) * nthR u e) (mp_master p)))%R) by (intros e _; rewrite <- Rsum_map_scale_r; reflexivity).
  rewrite Sum_Rsum. apply Rsum_map_ext. intros m Hm. destruct (eq_of_get dim nodes neq eqn e_LEN e_RNG _ (HR m Hm)) as [_ Hq].
  destruct (Z.eqb_spec (eq_of eqn (dof_key dim m)) (-1)) as [E|N].
  - apply Sum_zero. intros i Hi. destruct (Z.eqb_spec (eq_of eqn (dof_key dim m)) i); [lia|ring].
  - rewrite (Sum_pick neq (eq_of eqn (dof_key dim m))); [rewrite Z.eqb_refl; ring|lia|]. intros i Hi Ni. destruct (Z.eqb_spec (eq_of eqn (dof_key dim m)) i); [congruence|ring].
Qed.
Lemma trans_free d : mm_find M' d = None -> 0 <= eq_of eqn d < neq -> Sum neq (fun e => T d e * nthR u e)%R = nthR u (eq_of eqn d).
Proof.
  intros Hp Hq. unfold trans. rewrite Hp. rewrite (Sum_pick neq (eq_of eqn d)); [rewrite Z.eqb_refl; ring|lia|]. intros i Hi Ni. destruct (Z.eqb_spec (eq_of eqn d) i); [congruence|ring].
Qed.
Lemma master_sum_ok d p x : mm_find M' d = Some p -> master_sum dim eqn p u x = Ok (x + Sum neq (fun e => T d e * nthR u e))%R.
Proof.
  intros Hp. rewrite (trans_slave d p Hp). unfold master_sum. assert (forall m, In m (mp_master p) -> 0 <= dof_key dim m < nodes * dim) as HR by (intros m Hm; apply (e_MR d _ (md_coeff m)); exists p, m; tauto).
  revert x HR. generalize (mp_master p). induction l as [|m l IH]; intros x HR; cbn [foldM map]; [rewrite Rsum_nil; f_equal; ring|].
  destruct (eq_of_get dim nodes neq eqn e_LEN e_RNG _ (HR m (or_introl eq_refl))) as [E Hq]. rewrite E. cbn [bind]. rewrite Rsum_cons. destruct (Z.eqb_spec (eq_of eqn (dof_key dim m)) (-1)) as [E1|N1].
  - cbn [bind]. rewrite IH by (intros m' Hm'; apply HR; now right). f_equal. ring.
  - rewrite rget_at by lia. cbn [bind]. rewrite IH by (intros m' Hm'; apply HR; now right). f_equal. ring.
Qed.
Lemma fixed_value n i : fx_flag F n i = true -> 0 <= i < dim -> exists d v, fx_find F n = Some (d, v) /\ Z.testbit d i = true /\ rget v i = Ok (nthR v i).
Proof.
  intros Hf Hi. unfold fx_flag in Hf. destruct (fx_find F n) as [[d v]|] eqn:E; [|discriminate]. exists d, v. split; [reflexivity|]. split; [exact Hf|]. apply rget_at. destruct HG as (_ & _ & _ & _ & _ & HF). rewrite (HF n d v E). exact Hi.
Qed.
(* the value of a dof *)
Definition dof_value (d : Z) : R := if fx_flag F (d / dim) (d mod dim) then fixed_val dim F d else Sum neq (fun e => T d e * nthR u e)%R.
Lemma slave_not_fixed d p : mm_find M' d = Some p -> 0 <= d < nodes * dim /\ fx_flag F (d / dim) (d mod dim) = false.
Proof. intros Hp. apply HG. apply HI. unfold slaveof. congruence. Qed.
Lemma not_slave_free d : mm_find M' d = None -> fx_flag F (d / dim) (d mod dim) = false -> free_dof dim M F d.
Proof. intros Hp Hf. split; [|exact Hf]. intros Hs. apply HI in Hs. unfold slaveof in Hs. congruence. Qed.
Lemma expand_ok : exists r, expand_solution dim nodes s u = Ok r /\ zlen r = nodes * dim /\ forall d, 0 <= d < nodes * dim -> nthR r d = dof_value d.
Proof.
  unfold expand_solution. pose proof HI as (I1 & _). rewrite I1. pose proof e_HD as HD. assert (0 <= nodes) as HN by exact (proj1 (proj2 HG)).
  destruct (dof_loop (fun n r j =>
      let l := n * dim + j in
      match fx_find F n with
      | Some (d, v) => if Z.testbit d j then let* x := rget v j in rset r l x else
          let* q := rget eqn l in if q =? -1 then Ok r else let* x := rget u q in rset r l x
      | None => let* q := rget eqn l in if q =? -1 then Ok r else let* x := rget u q in rset r l x
      end) (fun d x => if fx_flag F (d / dim) (d mod dim) then fixed_val dim F d else match mm_find M' d with Some _ => x | None => nthR u (eq_of eqn d) end) (zrepeat 0%R (nodes * dim))) as (r1 & E1 & L1 & H1).
  - apply zlen_zrepeat. nia.
  - intros r n j L Hn Hj. assert (0 <= n * dim + j < nodes * dim) as Hd by nia. destruct (divmod dim n j Hj) as [D1 D2]. cbv zeta. destruct (fx_flag F n j) eqn:EF.
    + destruct (fixed_value n j EF Hj) as (d & v & E & Tb & Ev). rewrite E, Tb, Ev. cbn [bind]. destruct (rset_exists r (n * dim + j) (nthR v j)) as (r' & E' & _); [lia|]. destruct (rset_nthR _ _ _ _ E') as (L' & _ & G & _). exists r'. split; [exact E'|]. split; [exact L'|].
      intros d'. rewrite G. destruct (Z.eqb_spec d' (n * dim + j)) as [->|N]; [|reflexivity]. unfold fixed_val. rewrite D1, D2, EF, E. reflexivity.
    + assert (match fx_find F n with
      | Some (d, v) => if Z.testbit d j then let* x := rget v j in rset r (n * dim + j) x else
          let* q := rget eqn (n * dim + j) in if q =? -1 then Ok r else let* x := rget u q in rset r (n * dim + j) x
      | None => let* q := rget eqn (n * dim + j) in if q =? -1 then Ok r else let* x := rget u q in rset r (n * dim + j) x
      end = (let* q := rget eqn (n * dim + j) in if q =? -1 then Ok r else let* x := rget u q in rset r (n * dim + j) x)) as ->.
      { unfold fx_flag in EF. destruct (fx_find F n) as [[d v]|]; [rewrite EF; reflexivity|reflexivity]. }
      destruct (eq_of_get dim nodes neq eqn e_LEN e_RNG _ Hd) as [Eq Hq]. rewrite Eq. cbn [bind]. destruct (mm_find M' (n * dim + j)) as [p|] eqn:Ep.
      * assert (eq_of eqn (n * dim + j) = -1) as -> by (apply e_not_free; [exact Hd|]; intros [Hx _]; apply Hx; apply HI; unfold slaveof; congruence). rewrite Z.eqb_refl. exists r. split; [reflexivity|]. split; [reflexivity|].
        intros d'. destruct (Z.eqb_spec d' (n * dim + j)) as [->|N]; [|reflexivity]. rewrite D1, D2, EF, Ep. reflexivity.
      * assert (0 <= eq_of eqn (n * dim + j) < neq) as Hq2 by (apply e_free; [exact Hd|]; apply not_slave_free; [exact Ep|]; rewrite D1, D2; exact EF). destruct (Z.eqb_spec (eq_of eqn (n * dim + j)) (-1)); [lia|]. rewrite rget_at by lia. cbn [bind].
        destruct (rset_exists r (n * dim + j) (nthR u (eq_of eqn (n * dim + j)))) as (r' & E' & _); [lia|]. destruct (rset_nthR _ _ _ _ E') as (L' & _ & G & _). exists r'. split; [exact E'|]. split; [exact L'|].
        intros d'. rewrite G. destruct (Z.eqb_spec d' (n * dim + j)) as [->|N]; [|reflexivity]. rewrite D1, D2, EF, Ep. reflexivity.
  - cbv zeta in E1. rewrite E1. cbn [bind]. destruct (dof_loop (fun n r j =>
      match get_mpc dim M' n j with
      | Some p => let l := n * dim + j in let* x := rget r l in let* y := master_sum dim eqn p u x in rset r l y
      | None => Ok r
      end) (fun d x => match mm_find M' d with Some _ => (x + Sum neq (fun e => T d e * nthR u e))%R | None => x end) r1 L1) as (r2 & E2 & L2 & H2).
    + intros r n j L Hn Hj. assert (0 <= n * dim + j < nodes * dim) as Hd by nia. unfold get_mpc. destruct (mm_find M' (n * dim + j)) as [p|] eqn:Ep.
      * cbv zeta. rewrite rget_at by lia. cbn [bind]. rewrite (master_sum_ok _ _ _ Ep). cbn [bind]. destruct (rset_exists r (n * dim + j) (nthR r (n * dim + j) + Sum neq (fun e => T (n * dim + j)%Z e * nthR u e))%R) as (r' & E' & _); [lia|]. destruct (rset_nthR _ _ _ _ E') as (L' & _ & G & _). exists r'. split; [exact E'|]. split; [exact L'|].
        intros d'. rewrite G. destruct (Z.eqb_spec d' (n * dim + j)) as [->|N]; [|reflexivity]. rewrite Ep. reflexivity.
      * exists r. split; [reflexivity|]. split; [reflexivity|]. intros d'. destruct (Z.eqb_spec d' (n * dim + j)) as [->|N]; [|reflexivity]. rewrite Ep. reflexivity.
    + exists r2. split; [exact E2|]. split; [exact L2|]. intros d Hd. rewrite H2, H1 by exact Hd. unfold dof_value. destruct (mm_find M' d) as [p|] eqn:Ep.
      * destruct (slave_not_fixed d p Ep) as [_ ->]. assert (nthR (zrepeat 0%R (nodes * dim)) d = 0%R) as ->; [|ring]. apply nthR_get. rewrite zget_zrepeat by lia. reflexivity.
      * destruct (fx_flag F (d / dim) (d mod dim)) eqn:EF; [reflexivity|]. symmetry. apply trans_free; [exact Ep|]. apply e_free; [exact Hd|]. apply not_slave_free; assumption.
Qed.
(* a constraint holds exactly if its constant and its fixed masters add up to zero *)
Lemma constraint_ok r k p : zlen r = nodes * dim -> (forall d, 0 <= d < nodes * dim -> nthR r d = dof_value d) -> mm_find M' k = Some p ->
  mpc_value dim (nthR r) p = (nthR r k + defect dim F p)%R.
Proof.
  intros L H Hp. destruct (slave_not_fixed k p Hp) as [Hk NF]. assert (forall m, In m (mp_master p) -> 0 <= dof_key dim m < nodes * dim) as HR by (intros m Hm; apply (e_MR k _ (md_coeff m)); exists p, m; tauto).
  rewrite (H k Hk). unfold dof_value at 1. rewrite NF, (trans_slave k p Hp). unfold mpc_value, defect. match goal with |- (?c + ?x = ?y + (?c + ?z))%R => enough (x = y + z)%R as -> by ring end.
  rewrite <- Rsum_map_plus. apply Rsum_map_ext. intros m Hm. rewrite (H _ (HR m Hm)). unfold dof_value.
  assert (mm_find M' (dof_key dim m) = None) as Em.
  { destruct (mm_find M' (dof_key dim m)) eqn:E; [|reflexivity]. exfalso. destruct HI as (_ & _ & _ & HRes & _). apply (HRes k (dof_key dim m) (md_coeff m)); [exists p, m; tauto|]. unfold slaveof. congruence. }
  destruct (fx_flag F (dof_key dim m / dim) (dof_key dim m mod dim)) eqn:EF.
  - rewrite e_not_free; [rewrite Z.eqb_refl; ring|apply HR; exact Hm|]. intros [_ Hx]. congruence.
  - pose proof (e_free _ (HR m Hm) (not_slave_free _ Em EF)) as Hq. rewrite (trans_free _ Em Hq). destruct (Z.eqb_spec (eq_of eqn (dof_key dim m)) (-1)); [lia|]. ring.
Qed.
Lemma extract_ok r verts : In verts cells -> (forall d, 0 <= d < nodes * dim -> nthR r d = dof_value d) ->
  extract_values dim s u verts = Ok (map (fun a => nthR r (cell_dof dim verts a)) (zrange 0 (zlen verts * dim))).
Proof.
  intros Hv H. pose proof HI as (I1 & _). pose proof e_HD as HD. unfold extract_values. rewrite I1.
  assert (forall n, In n verts -> 0 <= n < nodes) as VR by (intros n Hn; destruct HG as (_ & _ & HV & _); apply (HV verts n Hv Hn)).
  rewrite (mapM_all_Ok _ (fun n => map (fun i => nthR r (n * dim + i)) (zrange 0 dim))).
  - cbn [bind]. f_equal. clear -HD. unfold cell_dof.
    assert (forall v2 v1, concat (map (fun n => map (fun i => nthR r (n * dim + i)) (zrange 0 dim)) v2) = map (fun a => nthR r match zget (v1 ++ v2) (a / dim) with Some n => n * dim + a mod dim | None => -1 end) (zrange (zlen v1 * dim) (zlen (v1 ++ v2) * dim))) as G.
    { induction v2 as [|n v2 IH]; intros v1; cbn [map concat].
      - rewrite app_nil_r, zrange_empty by lia. reflexivity.
      - rewrite (zrange_app (zlen v1 * dim) (zlen (v1 ++ [n]) * dim)) by (rewrite !zlen_app; change (zlen [n]) with 1; pose proof (zlen_nonneg (n :: v2)); assert (zlen (n :: v2) = 1 + zlen v2) as Ez by (unfold zlen; cbn [length]; lia); pose proof (zlen_nonneg v2); nia).
        rewrite map_app. f_equal.
        + assert (zrange (zlen v1 * dim) (zlen (v1 ++ [n]) * dim) = map (fun i => zlen v1 * dim + i) (zrange 0 dim)) as ->.
          { unfold zrange. rewrite map_map. rewrite zlen_app. change (zlen [n]) with 1. replace (Z.to_nat ((zlen v1 + 1) * dim - zlen v1 * dim)) with (Z.to_nat (dim - 0)) by lia. apply map_ext. intros a. lia. }
          rewrite map_map. apply map_ext_in. intros i Hi. apply In_zrange in Hi. destruct (divmod dim (zlen v1) i Hi) as [D1 D2]. rewrite D1, D2. rewrite zget_app_r by lia. replace (zlen v1 - zlen v1) with 0 by lia. reflexivity.
        + replace (v1 ++ n :: v2) with ((v1 ++ [n]) ++ v2) by (rewrite <- app_assoc; reflexivity). apply IH. }
    exact (G verts []).
  - intros n Hn. apply mapM_all_Ok. intros i Hi. apply In_zrange in Hi. pose proof (VR n Hn) as Rn. assert (0 <= n * dim + i < nodes * dim) as Hd by nia. destruct (divmod dim n i Hi) as [D1 D2]. rewrite (H _ Hd). unfold dof_value. rewrite D1, D2.
    destruct (fx_flag F n i) eqn:EF.
    + destruct (fixed_value n i EF Hi) as (d & v & E & Tb & Ev). rewrite E, Tb, Ev. unfold fixed_val. rewrite D1, D2, E. reflexivity.
    + assert (match get_mpc dim M' n i with Some p => master_sum dim eqn p u 0 | None => let* q := rget eqn (n * dim + i) in rget u q end = Ok (Sum neq (fun e => T (n * dim + i)%Z e * nthR u e))%R) as G.
      { unfold get_mpc. destruct (mm_find M' (n * dim + i)) as [p|] eqn:Ep; [rewrite (master_sum_ok _ _ _ Ep); f_equal; ring|]. pose proof (e_free _ Hd (not_slave_free _ Ep ltac:(rewrite D1, D2; exact EF))) as Hq.
        rewrite (proj1 (eq_of_get dim nodes neq eqn e_LEN e_RNG _ Hd)). cbn [bind]. rewrite rget_at by lia. rewrite trans_free by assumption. reflexivity. }
      unfold fx_flag in EF. destruct (fx_find F n) as [[d v]|]; [rewrite EF|]; exact G.
Qed.
End Ready.
