From Verif Require Import BaseFacts RBaseFacts Lin_Facts Steady_Proofs Euler_Proofs2 Impl_Proofs Matx_Proofs Hnum_Proofs Hyb_Proofs Hyb_Proofs2 Hyb_Proofs3 Hyb_Proofs4 Hyb_Proofs5 Hyb_Proofs6 Hyb_Proofs7 Hyb_Proofs8 Hyb_Proofs9 Eld_Proofs2 Bound_Proofs Bound_Proofs3 Lsv_Proofs Lsv_Proofs2 Lsv_Proofs3 Lsv_Proofs4 Lsv_Proofs5 Upb_Proofs Mim_Proofs Mim_Proofs2 Tens_Proofs Tens_Proofs2 Tens_Proofs3 Tens_Proofs6 Tens_Proofs7 Tens_Proofs8 Matx_Proofs3 Tens_Proofs9 Tens_Spec.
Open Scope Z_scope.
Notation cg := (map uf_g (grid_faces one_cell cube_at)).

(* ---- one cubic cell, periodic conditions with closed top and bottom ---- *)
Definition plane_periodic := [true; true; true; true; false; false].
Lemma pl_partners : exists l areas, find_periodic_partners same_list cg plane_periodic tol6 = Ok (l, areas) /\ unique_candidates l /\
  forall i, 0 <= i < 6 -> exists f, In f l /\ b_bid f = i + 1 /\ b_canon f = i /\ (i < 4 -> b_pbid f = other i + 1).
Proof.
  destruct (find_spec same_list cg plane_periodic tol6 (fun l => Permutation_refl l) eq_refl) as [(_ & [H|(f & Hf & H)])|(l & areas & E & P)].
  - exfalso. apply H. reflexivity.
  - exfalso. rewrite cg_bdy in *. destruct (cg_in f Hf) as (i & Hi & ->). apply (H i). apply cg_side; auto.
  - exists l, areas. split; [exact E|].
    assert (F : forall f, In f l -> 0 <= b_index f < 6 /\ b_bid f = b_index f + 1 /\ b_canon f = b_index f /\ b_area f = 1%R /\ b_cent f = (0, 0, 0)%R).
    { intros f Hf. destruct (po_entries _ _ _ _ _ P f Hf) as (x & Ex & Eb & Ea & Es & Ec). rewrite cg_bdy in *. pose proof (zget_Some_range _ _ _ Ex) as Hi. change (zlen cg) with 6 in Hi. rewrite (cg_get _ Hi) in Ex. injection Ex as <-. cbn [gf_bid gf_area gf_cent] in *. apply cg_side in Es; [|exact Hi].
      split; [exact Hi|]. split; [exact Eb|]. split; [exact Es|]. split; [exact Ea|]. rewrite Ec, Es. destruct (six_cases _ Hi) as [-> | [-> | [-> | [-> | [-> | ->]]]]]; reflexivity. }
    assert (U : unique_candidates l).
    { intros a b b' Ha Hb Hb' (O & _) (O' & _). unfold opposite in *. destruct (F b Hb) as (_ & _ & C & _). destruct (F b' Hb') as (_ & _ & C' & _). congruence. }
    split; [exact U|].
    assert (G : forall i, 0 <= i < 6 -> exists f, In f l /\ b_index f = i). { intros i Hi. destruct (po_faces _ _ _ _ _ P i _ (eq_trans (f_equal (fun z => zget z i) cg_bdy) (cg_get i Hi))) as (f & Hf & Ef & _). eauto. }
    intros i Hi. destruct (G i Hi) as (f & Hf & Ef). assert (Ho : 0 <= other i < 6) by (destruct (six_cases i Hi) as [-> | [-> | [-> | [-> | [-> | ->]]]]]; cbn; lia). destruct (G (other i) Ho) as (o & Ho' & Eo). exists f.
    destruct (F f Hf) as (_ & Bf & Cf & Af & Df). destruct (F o Ho') as (_ & Bo & Co & Ao & Do). split; [exact Hf|]. split; [congruence|]. split; [congruence|]. intros H4.
    destruct (complete_prop same_list cg plane_periodic tol6 l areas (fun l => Permutation_refl l) eq_refl E f o Hf Ho') as (o' & Ho2 & (O & _) & _ & Q2).
    { rewrite Cf, Ef. destruct (six_cases i Hi) as [-> | [-> | [-> | [-> | [-> | ->]]]]]; reflexivity || lia. }
    { split; [unfold opposite; rewrite Cf, Co, Ef, Eo; reflexivity|]. rewrite Af, Ao, Df, Do. split; [rewrite Rminus_diag_eq, Rabs_R0 by reflexivity; lra|].
      unfold vdist, vget. cbn [Z.eqb Pos.eqb fst snd]. replace ((0 - 0) ^ 2 + (0 - 0) ^ 2 + (0 - 0) ^ 2)%R with 0%R by ring. rewrite sqrt_0. lra. }
    destruct (F o' Ho2) as (_ & Bo' & Co' & _). unfold opposite in O. rewrite Q2, Bo', <- Co', O, Cf, Ef. reflexivity.
Qed.
Definition like2 (d : Z) (bc : hbc) : Prop := 0 <= d < 3 /\ forall i, 0 <= i < 6 ->
  if i <? 4 then hb_cond bc (i + 1) = CPeriodic (per_value d i) /\ hb_partner bc (i + 1) = other i + 1 else hb_cond bc (i + 1) = CNeumann 0.
Lemma pl_setup d b : 0 <= d < 3 -> exists b', setup_upscaling same_list cg 2 d 1 1 true b = Ok b' /\ like2 d (hbc_of b') /\ forall i, 0 <= i < 6 -> zget (t_canon b') (i + 1) = Some (i + 1).
Proof.
  intros Hd. destruct pl_partners as (l & areas & E & U & F). destruct (periodic_setup same_list cg d 1%R 1%R true b (fun l => Permutation_refl l) Hd cg_ids) as [(_ & E')|(l' & areas' & b' & E' & Es & A & B)]; cbn [negb] in E'; change [true; true; true; true; false; false] with plane_periodic in E'; rewrite E in E'; [discriminate|]. injection E' as <- <-.
  exists b'. split; [exact Es|]. destruct (B U) as (Q3 & _). split; [split; [exact Hd|]|]; intros i Hi; destruct (F i Hi) as (f & Hf & Bf & Cf & Pf); destruct (A f Hf) as (Q1 & Q2 & _); specialize (Q3 f Hf); rewrite Bf, Cf in *; [|exact Q1].
  unfold hbc_of. cbn [hb_cond hb_partner]. rewrite Q2, Q3. unfold periodic_flow, per_value. cbn [andb]. destruct (Z.ltb_spec i 4), (Z.leb_spec 4 i); try lia; [|reflexivity]. split; [|exact (Pf ltac:(lia))]. destruct (i =? 2 * d); [reflexivity|]. destruct (i =? 2 * d + 1); reflexivity.
Qed.
Lemma pl_like d b b' : 0 <= d < 3 -> setup_upscaling same_list cg 2 d 1 1 true b = Ok b' -> like2 d (hbc_of b') /\ forall i, 0 <= i < 6 -> zget (t_canon b') (i + 1) = Some (i + 1).
Proof. intros Hd E. destruct (pl_setup d b Hd) as (b2 & E2 & A). rewrite E2 in E. injection E as ->. exact A. Qed.
Lemma pl_partners_at d bc k r k' r' : like2 d bc -> partners one_cell bc k r k' r' -> k = 0 /\ k' = 0 /\ 0 <= r < 4 /\ r' = other r.
Proof.
  intros (Hd & C) (e & e' & (H & Ec) & (H' & _) & E). apply one_half in H. apply one_half in H'. destruct H as (-> & Hr), H' as (-> & Hr'). rewrite one_cond in Ec by exact Hr. rewrite (proj2 (one_nbr r Hr)), (proj2 (one_nbr r' Hr')) in E. specialize (C r Hr). destruct (Z.ltb_spec r 4); [|rewrite C in Ec; discriminate]. destruct C as (_ & Q). rewrite Q in E. repeat split; lia.
Qed.
Lemma other4 r : 0 <= r < 4 -> 0 <= other r < 4.
Proof. intros Hr. destruct (six_cases r ltac:(lia)) as [-> | [-> | [-> | [-> | [-> | ->]]]]]; cbn; lia. Qed.
Lemma pl_periodic_ok d bc : like2 d bc -> periodic_ok one_cell bc.
Proof.
  intros L. split.
  - intros k r e k' r' e' (H & _) (H' & _) E. apply one_half in H. apply one_half in H'. destruct H as (-> & Hr), H' as (-> & Hr'). rewrite (proj2 (one_nbr r Hr)), (proj2 (one_nbr r' Hr')) in E. lia.
  - intros k r e (H & E). apply one_half in H. destruct H as (-> & Hr). rewrite one_cond in E by exact Hr. destruct L as (Hd & C). pose proof (C r Hr) as Cr. destruct (Z.ltb_spec r 4); [|rewrite Cr in E; discriminate]. destruct Cr as (C1 & C2). rewrite C1 in E. injection E as <-. destruct (other_range r Hr) as (O1 & O2 & O3). pose proof (other4 r ltac:(lia)). pose proof (C (other r) O1) as Co. destruct (Z.ltb_spec (other r) 4); [|lia]. destruct Co as (C3 & C4).
    exists 0, (other r). rewrite (proj2 (one_nbr r Hr)), (proj2 (one_nbr (other r) O1)). split; [|split; [congruence|split; [congruence|lia]]]. split; [apply one_half; auto|]. rewrite one_cond by exact O1. rewrite C3, other_value by assumption. reflexivity.
Qed.
Lemma pl_block K : good_rock K -> block same_list one_cell cube_at (rock_ip K) 2 true low_half hi_half.
Proof.
  intros G. destruct (one_rock K G) as (Rk & Hm). split; [reflexivity|]. split; [exact one_piece|]. split; [exact one_geometry|]. split; [intros; unfold low_half, hi_half; lra|]. split; [intros k r H _; apply one_half in H; destruct H as (-> & Hr); rewrite (proj2 (one_nbr r Hr)); lia|].
  split; [intros _; split; [intros l; apply Permutation_refl|exact cg_ids]|]. intros d b b' Hd E. destruct (pl_like d b b' Hd E) as (L & C). split; [|apply cg_box_faces; exact C].
  split; [exact one_conforming|]. split; [exact one_counts|]. split; [exact (pl_periodic_ok d _ L)|]. split; [|reflexivity]. destruct (mimetic_cells orth2 one_cell cube_at _ _ _ one_geometry Rk) as (_ & X & _). exact X.
Qed.
Lemma pl_translates : translates same_list one_cell cube_at true low_half hi_half.
Proof.
  intros d b b' Hd E k r k' r' e He (Hh & Hn & Hc) P. destruct (pl_like d b b' Hd E) as (L & C). destruct (pl_partners_at _ _ _ _ _ _ L P) as (-> & -> & Hr4 & ->). assert (Hr : 0 <= r < 6) by lia. rewrite (proj2 (one_nbr r Hr)), C in Hc by exact Hr. assert (r = 2 * e) by (assert (H : forall x y : Z, Some x = Some y -> x = y) by congruence; apply H in Hc; lia). subst r.
  destruct (other_range _ Hr) as (Ho & _). unfold cube_at, low_half, hi_half. split; intros j Hj.
  - rewrite !cube_cen by assumption. destruct (three_cases e He) as [-> | [-> | ->]], (three_cases j Hj) as [-> | [-> | ->]]; unfold cube_off, ident; cbn; lra.
  - destruct (cube_offset _ j Hr Hj) as (_ & -> & _). destruct (cube_offset _ j Ho Hj) as (_ & -> & _). destruct (three_cases e He) as [-> | [-> | ->]], (three_cases j Hj) as [-> | [-> | ->]]; unfold cube_n; cbn; lra.
Qed.
(* the exact pressures: linear along x and y, constant for the third problem *)
Definition slope2 (d : Z) (j : Z) : R := if d =? 2 then 0%R else slope d j.
Definition start2 (d : Z) : R := if d =? 2 then 0%R else cube_off 0 d.
Definition exact2 (d : Z) : list R := map (fun r => linear_pressure 3 (start2 d) (slope2 d) (mf_cen (face Mim_Proofs2.cube r))) (zrange 0 6).
Lemma exact2_at d r : 0 <= r < 6 -> nthR (exact2 d) r = linear_pressure 3 (start2 d) (slope2 d) (mf_cen (face Mim_Proofs2.cube r)).
Proof. intros Hr. destruct (six_cases r Hr) as [-> | [-> | [-> | [-> | [-> | ->]]]]]; reflexivity. Qed.
Lemma pressure2 d r : 0 <= d < 3 -> 0 <= r < 6 -> linear_pressure 3 (start2 d) (slope2 d) (mf_cen (face Mim_Proofs2.cube r)) = (if d =? 2 then 0 else cube_off 0 d - cube_off r d)%R.
Proof.
  intros Hd Hr. unfold start2, slope2. destruct (Z.eqb_spec d 2) as [-> |N]; [unfold linear_pressure, dot; rewrite Sum3; ring|]. apply cube_pressure; assumption.
Qed.
Lemma pl_linear d bc : like2 d bc -> linear_bc 3 one_cell bc cube_at unit_K 1 (start2 d) (slope2 d) /\ nthR (exact2 d) 0 = 0%R.
Proof.
  intros L. pose proof L as (Hd & C). split; [|rewrite exact2_at, pressure2 by lia; destruct (d =? 2); ring].
  split; [|split].
  - intros k r p H E. apply one_half in H. destruct H as (-> & Hr). rewrite one_cond in E by exact Hr. specialize (C r Hr). destruct (r <? 4); [destruct C as (C & _)|]; rewrite C in E; discriminate.
  - intros k r p H E. apply one_half in H. destruct H as (-> & Hr). rewrite one_cond in E by exact Hr. specialize (C r Hr). destruct (Z.ltb_spec r 4) as [|H4]; [destruct C as (C & _); rewrite C in E; discriminate|]. rewrite C in E. injection E as <-.
    unfold cube_at, darcy_flux, dot, mvec. rewrite (Sum_ext 3 _ (fun j => cube_n r j * slope2 d j)%R).
    + rewrite Sum3. destruct (three_cases d Hd) as [-> | [-> | ->]], (six_cases r Hr) as [-> | [-> | [-> | [-> | [-> | ->]]]]]; try lia; unfold cube_n, slope2, slope, ident; cbn; lra.
    + intros j Hj. destruct (cube_offset r j Hr Hj) as (_ & -> & _). f_equal. rewrite (Sum_pick 3 j); [|exact Hj|intros i Hi Nn; rewrite unit_entry by assumption; unfold ident; destruct (Z.eqb_spec j i); [lia|ring]]. rewrite unit_entry by assumption. unfold ident. rewrite Z.eqb_refl. ring.
  - intros k r k' r' v P E. destruct (pl_partners_at _ _ _ _ _ _ L P) as (-> & -> & Hr4 & ->). assert (Hr : 0 <= r < 6) by lia. destruct (other_range r Hr) as (Ho & _). rewrite one_cond in E by exact Hr. specialize (C r Hr). destruct (Z.ltb_spec r 4); [|lia]. destruct C as (Cr & _). rewrite Cr in E. injection E as <-. unfold cube_at. rewrite !pressure2 by assumption. split.
    + destruct (three_cases d Hd) as [-> | [-> | ->]], (six_cases r Hr) as [-> | [-> | [-> | [-> | [-> | ->]]]]]; try lia; unfold per_value, cube_off; cbn; lra.
    + intros j Hj. destruct (cube_offset _ j Hr Hj) as (_ & -> & _). destruct (cube_offset _ j Ho Hj) as (_ & -> & _). destruct (six_cases r Hr) as [-> | [-> | [-> | [-> | [-> | ->]]]]], (three_cases j Hj) as [-> | [-> | ->]]; unfold cube_n; cbn; lra.
Qed.
Lemma pl_solution d bc st s dy s' : like2 d bc -> discretised one_cell bc (rock_ip unit_K) (zrepeat 0%R (zlen one_cell)) st s dy -> s' = s \/ regularise s dy = Ok s' -> is_solution (matrix_of s') (sy_rhs s') (exact2 d) = true.
Proof.
  intros L D Hs. destruct (pl_linear d bc L) as (Lb & Hz). destruct (one_rock unit_K unit_good) as (Rk & Hm). pose proof D as (D1 & _). destruct (one_num bc st D1) as (U & Nm). pose proof (pl_periodic_ok d bc L) as PO.
  assert (S : solves s (unknowns st) (nthR (exact2 d))).
  { apply (exact_solves 3 orth2 one_cell bc cube_at unit_K 1 (rock_ip unit_K) (start2 d) (slope2 d) one_geometry Hm one_conforming one_counts PO Lb st s dy D). intros k r H. apply one_half in H. destruct H as (-> & Hr). rewrite Nm by exact Hr. apply exact2_at. exact Hr. }
  pose proof (hom_problem 3 orth2 one_cell bc cube_at unit_K 1 (rock_ip unit_K) (start2 d) (slope2 d) one_geometry Hm one_conforming one_counts PO) as P.
  destruct (pat_len _ _ _ _ _ _ _ P D) as (_ & Lr & _). rewrite U in *.
  apply is_solution_iff. unfold matrix_of. cbn [lm_val].
  destruct Hs as [-> |Rg]; [rewrite Lr; split; [reflexivity|exact S]|].
  destruct (reg_ok _ _ _ _ P _ _ _ D ltac:(rewrite U; lia)) as (s2 & Rg2 & Er & Ev). rewrite Rg in Rg2. injection Rg2 as <-. rewrite Er, Lr. split; [reflexivity|]. intros i Hi. rewrite <- (S i Hi). apply Sum_ext. intros j Hj. rewrite Ev.
  destruct (dy_reg dy) eqn:Ed; [|reflexivity]. destruct (Z.eqb_spec i 0) as [-> |]; [|reflexivity]. destruct (Z.eqb_spec j 0) as [-> |]; [|reflexivity]. cbn [andb]. rewrite Hz. ring.
Qed.
Definition plane_search : krylov := search (map exact2 (zrange 0 3)).
Lemma pl_tensor ty b sv : 0 <= ty <= 3 -> exists s, flow_tensor plane_search same_list one_cell cube_at (rock_ip unit_K) 2 true ty 0 6 b sv = Ok s.
Proof.
  intros Ht. destruct (one_rock unit_K unit_good) as (Rk & _). destruct (mimetic_cells orth2 one_cell cube_at _ _ _ one_geometry Rk) as (FM & _ & _).
  destruct (tensor_total same_list one_cell cube_at (rock_ip unit_K) 2 true low_half hi_half (pl_block unit_K unit_good) (or_intror (or_intror eq_refl)) FM plane_search ty 0 6 one_faces (search_len _) Ht b sv) as [H|(_ & F)]; [exact H|exfalso].
  destruct F as [(Nb & d & b0 & Hd & E)|(d & b0 & b' & Hd & E & st & s & dy & s' & M & x & n & D & Hs & Q)].
  - destruct (pl_setup d b0 Hd) as (b' & E' & _). rewrite E' in E. discriminate.
  - destruct (pl_like d b0 b' Hd E) as (L & _). pose proof (pl_solution d _ st s dy s' L D Hs) as I. unfold plane_search in Q.
    rewrite (search_finds _ ty (matrix_of s') M (sy_rhs s') x n (exact2 d)) in Q; [discriminate| |exact I]. apply in_map_iff. exists d. split; [reflexivity|]. apply In_zrange. lia.
Qed.
Lemma cube_plane ty b sv : 0 <= ty <= 3 -> exists S s, flow_tensor S same_list one_cell cube_at (rock_ip unit_K) 2 true ty 0 6 b sv = Ok s /\
  upscaled_by same_list one_cell cube_at (rock_ip unit_K) 2 true low_half hi_half (ts_cols s) /\ permeability one_cell cube_at (rock_ip unit_K) (fun _ i j => 1 * entry unit_K i j)%R /\
  translates same_list one_cell cube_at true low_half hi_half /\ tensor_is (ts_cols s) (plane_part ident).
Proof.
  intros Ht. destruct (pl_tensor ty b sv Ht) as (s & E). destruct (one_rock unit_K unit_good) as (Rk & _). destruct (mimetic_cells orth2 one_cell cube_at _ _ _ one_geometry Rk) as (FM & _ & PL). exists plane_search, s. split; [exact E|].
  assert (U : upscaled_by same_list one_cell cube_at (rock_ip unit_K) 2 true low_half hi_half (ts_cols s)) by (eexists _, ty, 0, 6, b, sv, s; split; [apply search_exact|]; split; [exact (pl_block unit_K unit_good)|]; split; [exact FM|]; split; [exact one_faces|]; split; [exact E|reflexivity]).
  assert (LI : forall c i j, 0 <= c < zlen one_cell -> 0 <= i < 3 -> 0 <= j < 3 -> (1 * entry unit_K i j)%R = ident i j) by (intros c i j _ Hi Hj; rewrite unit_entry by assumption; apply Rmult_1_l).
  split; [exact U|]. split; [exact PL|]. split; [exact pl_translates|]. destruct (periodic_symmetric _ _ _ _ _ _ _ _ U) as (k & Tk & _). apply (tensor_ext _ _ _ Tk). apply (periodic_uniform_plane _ _ _ _ _ _ _ _ U (fun _ i j => 1 * entry unit_K i j)%R PL pl_translates ident LI k Tk eq_refl).
Qed.
