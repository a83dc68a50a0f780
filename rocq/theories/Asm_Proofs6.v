(* Statements about the assembly handler; orders; fixed nodes; cases. *)
From Verif Require Import RBaseFacts BaseFacts Lin_Facts Steady_Proofs Euler_Proofs2 Impl_Proofs5 Mim_Proofs Smat_Proofs Asm_Proofs Asm_Proofs2 Asm_Proofs3 Asm_Proofs4 Asm_Proofs5 Asm_Spec.
From Coq Require Import Lra.
Open Scope Z_scope.

Lemma numbers_ok dim nodes M F first : 0 < dim -> 0 <= nodes -> exists eqn next, preprocess dim nodes M F first = Ok (eqn, next) /\ first <= next /\
  numbering (nodes * dim) first next (free_dof dim M F) eqn.
Proof. apply preprocess_ok. Qed.
(* what the numbering means: a bijection between the free dofs and the equations *)
Lemma numbering_bijective N first last free eqn : numbering N first last free eqn ->
  (forall d d' q, free d -> free d' -> zget eqn d = Some q -> zget eqn d' = Some q -> d = d') /\
  (forall q, first <= q < last -> exists d, (0 <= d < N /\ free d /\ zget eqn d = Some q) /\ forall d', 0 <= d' < N -> free d' -> zget eqn d' = Some q -> d' = d).
Proof.
  intros (L & H1 & H2 & H3 & H4). assert (forall d d' q, free d -> free d' -> zget eqn d = Some q -> zget eqn d' = Some q -> d = d') as Inj.
  { intros d d' q Hf Hf' Hq Hq'. destruct (Z.lt_trichotomy d d') as [Hl|[E|Hl]]; [|exact E|]; exfalso; [pose proof (H4 _ _ _ _ Hf Hf' Hl Hq Hq')|pose proof (H4 _ _ _ _ Hf' Hf Hl Hq' Hq)]; lia. }
  split; [exact Inj|]. intros q Hq. destruct (H3 q Hq) as (d & Hd & Hf & Hg). exists d. split; [tauto|]. intros d' Hd' Hf' Hg'. eapply Inj; eassumption.
Qed.
(* a second preprocessing starts where the first one ended *)
Lemma numbers_again dim nodes M F eqn neq : 0 < dim -> 0 <= nodes -> preprocess dim nodes M F 0 = Ok (eqn, neq) ->
  exists eqn' neq', preprocess dim nodes M F neq = Ok (eqn', neq') /\ forall d q, 0 <= d < nodes * dim -> free_dof dim M F d -> zget eqn d = Some q -> exists q', zget eqn' d = Some q' /\ q < neq <= q'.
Proof.
  intros HD HN E. destruct (preprocess_ok dim nodes M F 0 HD HN) as (e0 & n0 & E0 & H0 & N0). rewrite E in E0. injection E0 as <- <-.
  destruct (preprocess_ok dim nodes M F neq HD HN) as (e1 & n1 & E1 & H1 & N1). exists e1, n1. split; [exact E1|]. intros d q Hd Hf Hq.
  destruct (proj1 (proj2 (proj2 N0)) d Hd Hf) as (q0 & Eq0 & R0). rewrite Hq in Eq0. injection Eq0 as <-. destruct (proj1 (proj2 (proj2 N1)) d Hd Hf) as (q1 & Eq1 & R1). exists q1. split; [exact Eq1|lia].
Qed.
Lemma resolve_iff dim M : wf_mpcs dim M -> ((exists fuel M', resolve_all fuel dim M = Some (Ok M')) <-> ~ cyclic dim M).
Proof.
  intros W. split.
  - intros (fuel & M' & E) C. rewrite (resolve_diverges dim M W C) in E. discriminate.
  - intros NC. destruct (resolve_terminates dim M W NC) as (f0 & H). destruct (H f0 (Nat.le_refl _)) as (M' & E). exists f0, M'. exact E.
Qed.
Lemma init_facts dim nodes cells M F fuel s : grid_ok dim nodes cells M F -> wf_mpcs dim M -> init_assembly fuel dim nodes cells M F = Some (Ok s) ->
  numbering (nodes * dim) 0 (as_neq s) (free_dof dim M F) (as_meqn s) /\ wf_smat (as_A s) /\ dims (as_A s) (as_neq s) (as_neq s) /\
  (forall e f, stored (as_A s) e f <-> 0 <= e /\ 0 <= f /\ exists v, In v cells /\ exists a b, 0 <= a < zlen v * dim /\ 0 <= b < zlen v * dim /\
      acts dim (as_mpcs s) (as_meqn s) (cell_dof dim v a) e /\ acts dim (as_mpcs s) (as_meqn s) (cell_dof dim v b) f) /\
  (forall k, slaveof (as_mpcs s) k <-> slaveof M k) /\ resolved dim (as_mpcs s) /\ (no_loss dim M -> forall u, obeys dim (as_mpcs s) u <-> obeys dim M u).
Proof. intros HG W E. pose proof (init_inv dim nodes cells M F fuel s HG W E) as (I1 & I2 & I3 & I4 & I5 & I6 & I7 & I8 & I9 & I10 & I11 & I12). tauto. Qed.
Lemma assembled dim nodes cells M F fuel s els : grid_ok dim nodes cells M F -> dim <= 3 -> wf_mpcs dim M -> init_assembly fuel dim nodes cells M F = Some (Ok s) ->
  (forall el, In el els -> In (el_verts el) cells) -> exists s', add_elements dim els s = Ok s' /\ dims (as_A s') (as_neq s) (as_neq s) /\ (forall e f, stored (as_A s') e f <-> stored (as_A s) e f) /\
  (forall e f, 0 <= e -> 0 <= f -> coef (as_A s') e f = Rsum (map (fun el => el_matrix dim s el e f) els)) /\
  zlen (as_b s') = as_neq s /\ (forall e, 0 <= e -> nthR (as_b s') e = Rsum (map (fun el => el_load dim s el e) els)).
Proof.
  intros HG H3 W E Hels. destruct (elements_ok dim nodes cells M F s HG (init_inv dim nodes cells M F fuel s HG W E) els Hels H3) as (s' & E' & H1 & H2 & H4 & H5 & H6 & H7 & H8 & H9 & H10 & H11). exists s'. tauto.
Qed.
Lemma assembled_symmetric dim nodes cells M F fuel s els s' : grid_ok dim nodes cells M F -> dim <= 3 -> wf_mpcs dim M -> init_assembly fuel dim nodes cells M F = Some (Ok s) ->
  (forall el, In el els -> In (el_verts el) cells) -> (forall el a b, In el els -> kval (el_K el) a b = kval (el_K el) b a) -> add_elements dim els s = Ok s' ->
  forall e f, coef (as_A s') e f = coef (as_A s') f e.
Proof.
  intros HG H3 W E Hels HK E' e f. destruct (elements_ok dim nodes cells M F s HG (init_inv dim nodes cells M F fuel s HG W E) els Hels H3) as (s2 & E2 & _ & _ & _ & _ & W2 & _ & _ & C & _). rewrite E' in E2. injection E2 as <-.
  assert (forall e f, ~ (0 <= e /\ 0 <= f) -> coef (as_A s') e f = 0%R) as Z0 by (intros x y N; apply coef_stored; [exact W2|]; intros St; apply (stored_range _ _ _ W2) in St; lia).
  destruct (Z_le_dec 0 e) as [He|He]; [destruct (Z_le_dec 0 f) as [Hf|Hf]|]; [|rewrite !Z0 by lia; reflexivity|rewrite !Z0 by lia; reflexivity].
  rewrite !C by assumption. apply Rsum_map_ext. intros el Hel. apply el_matrix_sym. intros a b. apply HK. exact Hel.
Qed.
Lemma assembled_energy dim nodes cells M F fuel s els s' u : grid_ok dim nodes cells M F -> dim <= 3 -> wf_mpcs dim M -> init_assembly fuel dim nodes cells M F = Some (Ok s) ->
  (forall el, In el els -> In (el_verts el) cells) -> add_elements dim els s = Ok s' ->
  Sum (as_neq s) (fun e => Sum (as_neq s) (fun f => u e * coef (as_A s') e f * u f))%R = Rsum (map (el_energy dim s u) els).
Proof.
  intros HG H3 W E Hels E'. destruct (elements_ok dim nodes cells M F s HG (init_inv dim nodes cells M F fuel s HG W E) els Hels H3) as (s2 & E2 & _ & _ & _ & _ & _ & _ & _ & C & _). rewrite E' in E2. injection E2 as <-.
  rewrite (energy_ok dim s els s' u C). reflexivity.
Qed.
Lemma expanded dim nodes cells M F fuel s u : grid_ok dim nodes cells M F -> wf_mpcs dim M -> init_assembly fuel dim nodes cells M F = Some (Ok s) -> zlen u = as_neq s ->
  exists r, expand_solution dim nodes s u = Ok r /\ zlen r = nodes * dim /\
    (forall d, 0 <= d < nodes * dim -> is_fixed dim F d -> nthR r d = fixed_val dim F d) /\
    (forall d, 0 <= d < nodes * dim -> ~ is_fixed dim F d -> nthR r d = displacement dim s (nthR u) d) /\
    (forall verts, In verts cells -> extract_values dim s u verts = Ok (map (fun a => nthR r (cell_dof dim verts a)) (zrange 0 (zlen verts * dim)))).
Proof.
  intros HG W E LU. pose proof (init_inv dim nodes cells M F fuel s HG W E) as HI. destruct (expand_ok dim nodes cells M F s HG HI u LU) as (r & Er & L & H). exists r. split; [exact Er|]. split; [exact L|]. split; [|split].
  - intros d Hd Hf. rewrite (H d Hd). unfold dof_value. unfold is_fixed in Hf. rewrite Hf. reflexivity.
  - intros d Hd Hf. rewrite (H d Hd). unfold dof_value. unfold is_fixed in Hf. destruct (fx_flag F (d / dim) (d mod dim)); [congruence|]. reflexivity.
  - intros verts Hv. apply (extract_ok dim nodes cells M F s HG HI u LU r verts Hv H).
Qed.
(* the resolved constraint of a slave holds exactly if constant and fixed masters add up to zero *)
Lemma expanded_constraints dim nodes cells M F fuel s u r k p : grid_ok dim nodes cells M F -> wf_mpcs dim M -> init_assembly fuel dim nodes cells M F = Some (Ok s) -> zlen u = as_neq s ->
  expand_solution dim nodes s u = Ok r -> mm_find (as_mpcs s) k = Some p -> (nthR r k = mpc_value dim (nthR r) p <-> defect dim F p = 0%R).
Proof.
  intros HG W E LU Er Hp. pose proof (init_inv dim nodes cells M F fuel s HG W E) as HI. destruct (expand_ok dim nodes cells M F s HG HI u LU) as (r' & Er' & L & H). rewrite Er in Er'. injection Er' as <-.
  pose proof (constraint_ok dim nodes cells M F s HG HI u r k p L H Hp) as HC. split; lra.
Qed.
Lemma expanded_homogeneous dim nodes cells M F fuel s u r : grid_ok dim nodes cells M F -> wf_mpcs dim M -> init_assembly fuel dim nodes cells M F = Some (Ok s) -> zlen u = as_neq s ->
  no_loss dim M -> homogeneous dim M F -> expand_solution dim nodes s u = Ok r -> obeys dim M (nthR r).
Proof.
  intros HG W E LU NL [H0 HF] Er. pose proof (init_inv dim nodes cells M F fuel s HG W E) as HI. pose proof HI as (_ & _ & _ & _ & _ & Hob & _). apply Hob; [exact NL|]. intros k p Hp.
  apply (expanded_constraints dim nodes cells M F fuel s u r k p HG W E LU Er Hp). unfold defect. rewrite Rsum_map_zero.
  - assert (obeys dim (as_mpcs s) (fun _ => 0%R)) as HZ.
    { apply Hob; [exact NL|]. intros k' p' Hp'. unfold mpc_value. rewrite (H0 _ _ Hp'), Rsum_map_zero; [ring|]. intros m _. ring. }
    specialize (HZ k p Hp). unfold mpc_value in HZ. rewrite Rsum_map_zero in HZ by (intros m _; ring). lra.
  - intros m _. destruct (fx_flag F (dof_key dim m / dim) (dof_key dim m mod dim)) eqn:EF; [|reflexivity]. rewrite (HF _ EF). ring.
Qed.

(* ---- orders *)
Section Lex.
Context {A : Type} (lt : A -> A -> bool) (SW : strict_weak lt).
Lemma sw_irr x : lt x x = false. Proof. apply SW. Qed.
Lemma sw_tr x y z : lt x y = true -> lt y z = true -> lt x z = true. Proof. apply SW. Qed.
Lemma sw_asym x y : lt x y = true -> lt y x = false.
Proof. intros H. destruct (lt y x) eqn:E; [|reflexivity]. pose proof (sw_tr _ _ _ H E) as C. rewrite sw_irr in C. discriminate. Qed.
Lemma sw_inc x y z : lt x y = false -> lt y x = false -> lt y z = false -> lt z y = false -> lt x z = false /\ lt z x = false. Proof. apply SW. Qed.
Lemma sw_lt_eq x y z : lt x y = true -> lt y z = false -> lt z y = false -> lt x z = true.
Proof.
  intros H H1 H2. destruct (lt x z) eqn:E; [reflexivity|]. exfalso. destruct (lt z x) eqn:E2; [rewrite (sw_tr _ _ _ E2 H) in H2; discriminate|]. destruct (sw_inc x z y E E2 H2 H1) as [C _]. congruence.
Qed.
Lemma sw_eq_lt x y z : lt x y = false -> lt y x = false -> lt y z = true -> lt x z = true.
Proof.
  intros H1 H2 H. destruct (lt x z) eqn:E; [reflexivity|]. exfalso. destruct (lt z x) eqn:E2; [rewrite (sw_tr _ _ _ H E2) in H2; discriminate|]. destruct (sw_inc y x z H2 H1 E E2) as [C _]. congruence.
Qed.
(* first by lt, then by lt2 *)
Lemma lex_pair {B} (f : B -> A) (lt2 : B -> B -> bool) : strict_weak lt2 -> strict_weak (fun x y => if lt (f x) (f y) then true else if lt (f y) (f x) then false else lt2 x y).
Proof.
  intros (I2 & T2 & E2). split; [|split].
  - intros x. rewrite sw_irr. apply I2.
  - intros x y z. destruct (lt (f x) (f y)) eqn:Exy; [intros _|destruct (lt (f y) (f x)) eqn:Eyx; [discriminate|intros H1]]; (destruct (lt (f y) (f z)) eqn:Eyz; [intros _|destruct (lt (f z) (f y)) eqn:Ezy; [discriminate|intros H2]]).
    + rewrite (sw_tr _ _ _ Exy Eyz). reflexivity.
    + rewrite (sw_lt_eq _ _ _ Exy Eyz Ezy). reflexivity.
    + rewrite (sw_eq_lt _ _ _ Exy Eyx Eyz). reflexivity.
    + destruct (sw_inc _ _ _ Exy Eyx Eyz Ezy) as [-> ->]. eapply T2; eassumption.
  - intros x y z. destruct (lt (f x) (f y)) eqn:Exy; [discriminate|]. destruct (lt (f y) (f x)) eqn:Eyx; [discriminate|]. destruct (lt (f y) (f z)) eqn:Eyz; [discriminate|]. destruct (lt (f z) (f y)) eqn:Ezy; [discriminate|].
    destruct (sw_inc _ _ _ Exy Eyx Eyz Ezy) as [-> ->]. apply E2.
Qed.
End Lex.
Lemma Z_sw : strict_weak Z.ltb.
Proof. split; [|split]; intros; repeat match goal with |- context [?a <? ?b] => destruct (Z.ltb_spec a b) | H : context [?a <? ?b] |- _ => destruct (Z.ltb_spec a b) end; try discriminate; try split; try lia; reflexivity. Qed.
Lemma R_sw : strict_weak Rltb.
Proof.
  assert (forall a b, Rltb a b = false <-> (b <= a)%R) as F by (intros a b; split; [intros H; destruct (Rlt_le_dec a b) as [L|L]; [apply Rltb_true in L; congruence|exact L]|intros H; destruct (Rltb a b) eqn:E; [apply Rltb_true in E; lra|reflexivity]]).
  split; [|split]; intros *; rewrite ?F, ?Rltb_true; intros; try split; lra.
Qed.
Lemma none_sw {A} : strict_weak (fun _ _ : A => false).
Proof. split; [reflexivity|]. split; [discriminate|]. split; reflexivity. Qed.
Lemma sw_ext {A} (f g : A -> A -> bool) : (forall x y, f x y = g x y) -> strict_weak f -> strict_weak g.
Proof. intros H (A1 & A2 & A3). split; [intros x; rewrite <- H; apply A1|]. split; [intros x y z; rewrite <- !H; apply A2|intros x y z; rewrite <- !H; apply A3]. Qed.
Lemma dof_less_sw only : strict_weak (dof_less only).
Proof.
  assert (strict_weak (fun a b : mdof => if only then false else Rltb (md_coeff a) (md_coeff b))) as H0.
  { destruct only; [apply none_sw|]. destruct R_sw as (A1 & A2 & A3). split; [intros x; apply A1|]. split; [intros x y z; apply A2|intros x y z; apply A3]. }
  exact (lex_pair Z.ltb Z_sw md_node _ (lex_pair Z.ltb Z_sw md_dof _ H0)).
Qed.
Lemma masters_less_sw only : strict_weak (masters_less only).
Proof.
  pose proof (dof_less_sw only) as D. set (lt := dof_less only) in *.
  split; [|split].
  - induction x as [|a l IH]; cbn [masters_less]; [reflexivity|]. fold lt. rewrite (sw_irr lt D). exact IH.
  - induction x as [|a l IH]; intros [|b r] [|c t]; cbn [masters_less]; try discriminate; try reflexivity. fold lt.
    destruct (lt a b) eqn:Eab; [intros _|destruct (lt b a) eqn:Eba; [discriminate|intros H1]]; (destruct (lt b c) eqn:Ebc; [intros _|destruct (lt c b) eqn:Ecb; [discriminate|intros H2]]).
    + rewrite (sw_tr lt D _ _ _ Eab Ebc). reflexivity.
    + rewrite (sw_lt_eq lt D _ _ _ Eab Ebc Ecb). reflexivity.
    + rewrite (sw_eq_lt lt D _ _ _ Eab Eba Ebc). reflexivity.
    + destruct (sw_inc lt D _ _ _ Eab Eba Ebc Ecb) as [-> ->]. eapply IH; eassumption.
  - induction x as [|a l IH]; intros [|b r] [|c t]; cbn [masters_less]; try discriminate; try (split; reflexivity). fold lt.
    destruct (lt a b) eqn:Eab; [discriminate|]. destruct (lt b a) eqn:Eba; [discriminate|]. destruct (lt b c) eqn:Ebc; [discriminate|]. destruct (lt c b) eqn:Ecb; [discriminate|]. destruct (sw_inc lt D _ _ _ Eab Eba Ebc Ecb) as [-> ->]. apply IH.
Qed.
Lemma mpc_less_sw only : strict_weak (mpc_less only).
Proof.
  assert (strict_weak (fun a b : mpc => if dof_less only (mp_slave a) (mp_slave b) then true else if dof_less only (mp_slave b) (mp_slave a) then false else if only then false else masters_less only (mp_master a) (mp_master b))) as (A1 & A2 & A3).
  { apply (lex_pair (dof_less only) (dof_less_sw only) mp_slave (fun a b => if only then false else masters_less only (mp_master a) (mp_master b))). destruct only; [apply none_sw|]. destruct (masters_less_sw false) as (B1 & B2 & B3). split; [intros x; apply B1|]. split; [intros x y z; apply B2|intros x y z; apply B3]. }
  split; [|split].
  - intros [a|]; [apply A1|reflexivity].
  - intros [a|] [b|] [c|]; cbn [mpc_less]; try discriminate; try reflexivity. apply A2.
  - intros [a|] [b|] [c|]; cbn [mpc_less]; try discriminate; try (split; reflexivity). apply A3.
Qed.
(* with compareSlaveDofOnly two constraints are equivalent exactly if they constrain the same dof *)
Lemma mpc_same_slave a b : (mpc_less true (Some a) (Some b) = false /\ mpc_less true (Some b) (Some a) = false) <-> md_node (mp_slave a) = md_node (mp_slave b) /\ md_dof (mp_slave a) = md_dof (mp_slave b).
Proof.
  unfold mpc_less, dof_less. repeat match goal with |- context [?x <? ?y] => destruct (Z.ltb_spec x y) end; try lia; split; intros [? ?]; try discriminate; try lia; split; try lia; reflexivity.
Qed.

(* ---- fixed nodes and adding constraints *)
Lemma fx_find_set F n e x : fx_find (fx_set F n e) x = if x =? n then Some e else fx_find F x.
Proof.
  induction F as [|[n' e'] F IH]; cbn [fx_set fx_find]; [rewrite Z.eqb_sym; reflexivity|]. destruct (Z.ltb_spec n n') as [L|L]; cbn [fx_find].
  - rewrite (Z.eqb_sym n x). reflexivity.
  - destruct (Z.eqb_spec n' n) as [->|N]; cbn [fx_find].
    + rewrite (Z.eqb_sym n x). destruct (x =? n); reflexivity.
    + destruct (Z.eqb_spec n' x) as [->|N2]; [destruct (Z.eqb_spec x n); [congruence|reflexivity]|]. exact IH.
Qed.
Lemma update_fixed_ok dim F node dir vals : 0 <= dim -> zlen vals = dim -> (forall n d v, fx_find F n = Some (d, v) -> zlen v = dim) -> 
  exists F', update_fixed dim F node (dir, vals) = Ok F' /\
    (forall n d v, fx_find F' n = Some (d, v) -> zlen v = dim) /\
    (forall n, n <> node -> fx_find F' n = fx_find F n) /\
    (forall i, fx_flag F' node i = fx_flag F node i || Z.testbit dir i) /\
    (forall i, 0 <= i < dim -> Z.testbit dir i = true -> exists d v, fx_find F' node = Some (d, v) /\ nthR v i = nthR vals i) /\
    (forall i, 0 <= i < dim -> Z.testbit dir i = false -> fx_flag F node i = true -> exists d v d' v', fx_find F node = Some (d, v) /\ fx_find F' node = Some (d', v') /\ nthR v' i = nthR v i).
Proof.
  intros HD LV HF. unfold update_fixed. cbn [fst snd]. destruct (fx_find F node) as [[d v]|] eqn:E.
  - destruct (Z.eqb_spec d dir) as [->|N].
    + eexists. split; [reflexivity|]. split; [|split; [|split; [|split]]].
      * intros n d' v'. rewrite fx_find_set. destruct (n =? node); [intros [= <- <-]; exact LV|apply HF].
      * intros n Nn. rewrite fx_find_set. destruct (Z.eqb_spec n node); [congruence|reflexivity].
      * intros i. unfold fx_flag. rewrite fx_find_set, Z.eqb_refl, E. now destruct (Z.testbit dir i).
      * intros i Hi Hb. exists dir, vals. rewrite fx_find_set, Z.eqb_refl. split; reflexivity.
      * intros i Hi Hb Hf. unfold fx_flag in Hf. rewrite E in Hf. congruence.
    + destruct (zloop (fun v i => if Z.testbit dir i then let* x := rget vals i in rset v i x else Ok v)
        (fun k w => zlen w = dim /\ forall i, 0 <= i < dim -> nthR w i = if Z.testbit dir i && (i <? k) then nthR vals i else nthR v i) 0 dim v HD) as (w & Ew & Lw & Hw).
      * split; [apply (HF node d v E)|]. intros i Hi. destruct (Z.ltb_spec i 0); [lia|]. rewrite andb_false_r. reflexivity.
      * intros i w Hi [Lw Hw]. destruct (Z.testbit dir i) eqn:Eb.
        -- rewrite rget_at by lia. cbn [bind]. destruct (rset_exists w i (nthR vals i)) as (w' & E' & _); [lia|]. destruct (rset_nthR _ _ _ _ E') as (L' & _ & G & _). exists w'. split; [exact E'|]. split; [lia|]. intros j Hj. rewrite G.
           destruct (Z.eqb_spec j i) as [->|Nj]; [rewrite Eb; destruct (Z.ltb_spec i (i + 1)); [reflexivity|lia]|]. rewrite Hw by exact Hj. destruct (Z.ltb_spec j i); destruct (Z.ltb_spec j (i + 1)); try lia; reflexivity.
        -- exists w. split; [reflexivity|]. split; [exact Lw|]. intros j Hj. rewrite Hw by exact Hj. destruct (Z.eq_dec j i) as [->|Nj]; [rewrite Eb; reflexivity|]. destruct (Z.ltb_spec j i); destruct (Z.ltb_spec j (i + 1)); try lia; reflexivity.
      * rewrite Ew. cbn [bind]. eexists. split; [reflexivity|]. split; [|split; [|split; [|split]]].
        -- intros n d' v'. rewrite fx_find_set. destruct (n =? node); [intros [= <- <-]; exact Lw|apply HF].
        -- intros n Nn. rewrite fx_find_set. destruct (Z.eqb_spec n node); [congruence|reflexivity].
        -- intros i. unfold fx_flag. rewrite fx_find_set, Z.eqb_refl, E. apply Z.lor_spec.
        -- intros i Hi Hb. eexists _, w. rewrite fx_find_set, Z.eqb_refl. split; [reflexivity|]. rewrite Hw, Hb by exact Hi. destruct (Z.ltb_spec i dim); [reflexivity|lia].
        -- intros i Hi Hb Hf. eexists d, v, _, w. split; [reflexivity|]. rewrite fx_find_set, Z.eqb_refl. split; [reflexivity|]. rewrite Hw, Hb by exact Hi. reflexivity.
  - eexists. split; [reflexivity|]. split; [|split; [|split; [|split]]].
    + intros n d' v'. rewrite fx_find_set. destruct (n =? node); [intros [= <- <-]; exact LV|apply HF].
    + intros n Nn. rewrite fx_find_set. destruct (Z.eqb_spec n node); [congruence|reflexivity].
    + intros i. unfold fx_flag. rewrite fx_find_set, Z.eqb_refl, E. reflexivity.
    + intros i Hi Hb. exists dir, vals. rewrite fx_find_set, Z.eqb_refl. split; reflexivity.
    + intros i Hi Hb Hf. unfold fx_flag in Hf. rewrite E in Hf. discriminate.
Qed.
Lemma add_mpc_ok dim F M p : wf_mpcs dim M -> (forall m, In m (mp_master p) -> 1 <= md_dof m <= dim /\ (mpc_tol < Rabs (md_coeff m))%R) ->
  wf_mpcs dim (add_mpc dim F M p) /\
  (forall k, mm_find (add_mpc dim F M p) k = match mm_find M k with Some q => Some q | None => if (k =? dof_key dim (mp_slave p)) && negb (fx_flag F (md_node (mp_slave p)) (md_dof (mp_slave p) - 1)) then Some p else None end).
Proof.
  intros W Hp. split; [apply add_mpc_wf; assumption|]. intros k. unfold add_mpc. destruct (fx_flag _ _ _); [rewrite andb_false_r; now destruct (mm_find M k)|]. rewrite mm_find_insert by apply W. rewrite andb_true_r. reflexivity.
Qed.
(* masters added one by one: exactly those with coefficients larger than the tolerance, in order *)
Lemma add_masters_ok l : forall p, fold_left (fun p (m : Z * Z * R) => add_master p (fst (fst m)) (snd (fst m)) (snd m)) l p =
  mkMpc (mp_slave p) (mp_master p ++ map (fun m => mkMdof (fst (fst m)) (snd (fst m)) (snd m)) (filter (fun m => if Rlt_dec mpc_tol (Rabs (snd m)) then true else false) l)).
Proof.
  induction l as [|m l IH]; intros p; cbn [fold_left filter map]; [rewrite app_nil_r; now destruct p|]. rewrite IH. unfold add_master. pose proof (big_coeff (snd m)) as B.
  destruct (Rltb (snd m) (- mpc_tol) || Rltb mpc_tol (snd m)); destruct (Rlt_dec mpc_tol (Rabs (snd m))) as [L|L]; cbn [mp_slave mp_master map].
  - rewrite <- app_assoc. reflexivity.
  - exfalso. apply L, B. reflexivity.
  - apply B in L. discriminate.
  - reflexivity.
Qed.

(* ---- a case: dof 3 = 2 dof 0, dof 6 = 3 + 1/2 dof 3 on a triangle whose first node is held in x *)
Definition ex_mpcs : mpcmap := [(3, mkMpc (mkMdof 1 1 0) [mkMdof 0 1 2]); (6, mkMpc (mkMdof 2 1 3) [mkMdof 1 1 (/ 2)])].
Definition ex_fixed : fixmap := [(0, (2, [5; 0; 0]%R))].
Lemma ex_couples k x c : couples 3 ex_mpcs k x c <-> (k = 3 /\ x = 0 /\ c = 2%R) \/ (k = 6 /\ x = 3 /\ c = (/ 2)%R).
Proof.
  unfold couples, ex_mpcs. cbn [mm_find]. split.
  - intros (p & m & Hp & Hm & Hx & Hc). destruct (Z.eqb_spec 3 k) as [<-|N].
    + injection Hp as <-. destruct Hm as [<-|[]]. left. cbn in Hx, Hc. subst. tauto.
    + destruct (Z.eqb_spec 6 k) as [<-|N2]; [|discriminate]. injection Hp as <-. destruct Hm as [<-|[]]. right. cbn in Hx, Hc. subst. tauto.
  - intros [(-> & -> & ->)|(-> & -> & ->)]; cbn; eexists _, _; (split; [reflexivity|]); (split; [left; reflexivity|]); split; reflexivity.
Qed.
Lemma ex_chain k x c : chain 3 ex_mpcs k x c -> (x = 0 /\ (k = 3 /\ c = 2%R \/ k = 6 /\ c = (/ 2 * 2)%R)) \/ (x = 3 /\ k = 6 /\ c = (/ 2)%R).
Proof.
  induction 1 as [k x c H|k y x c d H _ IH]; apply ex_couples in H; destruct H as [(-> & -> & ->)|(-> & -> & ->)]; try tauto.
  - destruct IH as [(_ & [(E & _)|(E & _)])|(_ & E & _)]; discriminate.
  - destruct IH as [(-> & [(_ & ->)|(E & _)])|(_ & E & _)]; [|discriminate|discriminate]. left. tauto.
Qed.
Lemma tol_small : (mpc_tol < / 2)%R.
Proof. unfold mpc_tol. apply Rinv_lt_contravar; [|lra]. apply Rmult_lt_0_compat; [lra|]. apply pow_lt. lra. Qed.
Lemma ex_ok : wf_mpcs 3 ex_mpcs /\ ~ cyclic 3 ex_mpcs /\ no_loss 3 ex_mpcs /\ grid_ok 3 3 [[0; 1; 2]] ex_mpcs ex_fixed /\ ~ resolved 3 ex_mpcs.
Proof.
  pose proof tol_small as T. split; [|split; [|split; [|split]]].
  - split; [cbn; repeat split; intros; lia|]. intros k p. unfold ex_mpcs. cbn [mm_find]. destruct (Z.eqb_spec 3 k) as [<-|]; [|destruct (Z.eqb_spec 6 k) as [<-|]; [|discriminate]].
    + intros [= <-]. split; [reflexivity|]. intros m [<-|[]]. cbn. split; [lia|]. rewrite Rabs_pos_eq; lra.
    + intros [= <-]. split; [reflexivity|]. intros m [<-|[]]. cbn. split; [lia|]. rewrite Rabs_pos_eq; lra.
  - intros (k & c & H). apply ex_chain in H. destruct H as [(E & [(E2 & _)|(E2 & _)])|(E & E2 & _)]; lia.
  - intros k x c H. apply ex_chain in H. destruct H as [(_ & [(_ & ->)|(_ & ->)])|(_ & _ & ->)]; rewrite Rabs_pos_eq; lra.
  - split; [lia|]. split; [lia|]. split; [intros v n [<-|[]] Hn; destruct Hn as [<-|[<-|[<-|[]]]]; lia|]. split; [intros k x c H; apply ex_couples in H; destruct H as [(_ & -> & _)|(_ & -> & _)]; lia|]. split.
    + intros k Hk. assert (k = 3 \/ k = 6) as [-> | ->]; [|split; [lia|reflexivity]|split; [lia|reflexivity]]. unfold slaveof, ex_mpcs in Hk. cbn [mm_find] in Hk. destruct (Z.eqb_spec 3 k); [lia|]. destruct (Z.eqb_spec 6 k); [lia|]. congruence.
    + intros n d v H. unfold ex_fixed in H. cbn [fx_find] in H. destruct (0 =? n); inversion H. reflexivity.
  - intros H. apply (H 6 3 (/ 2)%R); [apply ex_couples; tauto|]. discriminate.
Qed.
(* a cyclic pair of constraints *)
Definition ex_cycle : mpcmap := [(0, mkMpc (mkMdof 0 1 0) [mkMdof 1 1 1]); (3, mkMpc (mkMdof 1 1 0) [mkMdof 0 1 1])].
Lemma ex_cycle_ok : wf_mpcs 3 ex_cycle /\ cyclic 3 ex_cycle.
Proof.
  pose proof tol_small as T. split.
  - split; [cbn; repeat split; intros; lia|]. intros k p. unfold ex_cycle. cbn [mm_find]. destruct (Z.eqb_spec 0 k) as [<-|]; [|destruct (Z.eqb_spec 3 k) as [<-|]; [|discriminate]]; (intros [= <-]; split; [reflexivity|]; intros m [<-|[]]; cbn; split; [lia|]; rewrite Rabs_pos_eq; lra).
  - exists 0, (1 * 1)%R. apply chain_more with 3; [|apply chain_one]; (eexists _, _; split; [reflexivity|]; split; [left; reflexivity|]; split; reflexivity).
Qed.
