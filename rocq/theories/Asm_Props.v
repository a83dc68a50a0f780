From Verif Require Import Asm_Proofs2 Asm_Proofs5 Asm_Proofs6 Asm_Spec.
Open Scope Z_scope.

(* C84: equation numbers *)
Theorem C84_numbers : forall dim nodes M F first, 0 < dim -> 0 <= nodes -> exists eqn next, preprocess dim nodes M F first = Ok (eqn, next) /\ first <= next /\
  numbering (nodes * dim) first next (free_dof dim M F) eqn.
Proof. exact Asm_Proofs6.numbers_ok. Qed.
Theorem C84_bijective : forall N first last free eqn, numbering N first last free eqn ->
  (forall d d' q, free d -> free d' -> zget eqn d = Some q -> zget eqn d' = Some q -> d = d') /\
  (forall q, first <= q < last -> exists d, (0 <= d < N /\ free d /\ zget eqn d = Some q) /\ forall d', 0 <= d' < N -> free d' -> zget eqn d' = Some q -> d' = d).
Proof. exact Asm_Proofs6.numbering_bijective. Qed.
Theorem C84_again : forall dim nodes M F eqn neq, 0 < dim -> 0 <= nodes -> preprocess dim nodes M F 0 = Ok (eqn, neq) ->
  exists eqn' neq', preprocess dim nodes M F neq = Ok (eqn', neq') /\ forall d q, 0 <= d < nodes * dim -> free_dof dim M F d -> zget eqn d = Some q -> exists q', zget eqn' d = Some q' /\ q < neq <= q'.
Proof. exact Asm_Proofs6.numbers_again. Qed.

(* C85: resolving chains of constraints *)
Theorem C85_terminates : forall dim M, wf_mpcs dim M -> ~ cyclic dim M -> exists fuel0, forall fuel, (fuel0 <= fuel)%nat -> exists M', resolve_all fuel dim M = Some (Ok M').
Proof. exact Asm_Proofs2.resolve_terminates. Qed.
Theorem C85_result : forall dim M fuel r, wf_mpcs dim M -> resolve_all fuel dim M = Some r -> exists M', r = Ok M' /\ wf_mpcs dim M' /\
  (forall k, slaveof M' k <-> slaveof M k) /\ resolved dim M' /\ (forall k x c, couples dim M' k x c -> chain dim M k x c) /\
  (no_loss dim M -> forall u, obeys dim M' u <-> obeys dim M u) /\ (resolved dim M -> forall k, mm_find M' k = mm_find M k).
Proof. exact Asm_Proofs2.resolve_result. Qed.

(* C86: cyclic constraints *)
Theorem C86_iff : forall dim M, wf_mpcs dim M -> ((exists fuel M', resolve_all fuel dim M = Some (Ok M')) <-> ~ cyclic dim M).
Proof. exact Asm_Proofs6.resolve_iff. Qed.
Theorem C86_diverges : forall dim M, wf_mpcs dim M -> cyclic dim M -> forall fuel, resolve_all fuel dim M = None.
Proof. exact Asm_Proofs2.resolve_diverges. Qed.

(* C87: assembly *)
Theorem C87_starts : forall dim nodes cells M F, grid_ok dim nodes cells M F -> wf_mpcs dim M -> ~ cyclic dim M ->
  exists fuel0, forall fuel, (fuel0 <= fuel)%nat -> exists s, init_assembly fuel dim nodes cells M F = Some (Ok s).
Proof. exact Asm_Proofs5.init_total. Qed.
Theorem C87_pattern : forall dim nodes cells M F fuel s, grid_ok dim nodes cells M F -> wf_mpcs dim M -> init_assembly fuel dim nodes cells M F = Some (Ok s) ->
  numbering (nodes * dim) 0 (as_neq s) (free_dof dim M F) (as_meqn s) /\ wf_smat (as_A s) /\ dims (as_A s) (as_neq s) (as_neq s) /\
  (forall e f, stored (as_A s) e f <-> 0 <= e /\ 0 <= f /\ exists v, In v cells /\ exists a b, 0 <= a < zlen v * dim /\ 0 <= b < zlen v * dim /\
      acts dim (as_mpcs s) (as_meqn s) (cell_dof dim v a) e /\ acts dim (as_mpcs s) (as_meqn s) (cell_dof dim v b) f) /\
  (forall k, slaveof (as_mpcs s) k <-> slaveof M k) /\ resolved dim (as_mpcs s) /\ (no_loss dim M -> forall u, obeys dim (as_mpcs s) u <-> obeys dim M u).
Proof. exact Asm_Proofs6.init_facts. Qed.
Theorem C87_assembled : forall dim nodes cells M F fuel s els, grid_ok dim nodes cells M F -> dim <= 3 -> wf_mpcs dim M -> init_assembly fuel dim nodes cells M F = Some (Ok s) ->
  (forall el, In el els -> In (el_verts el) cells) -> exists s', add_elements dim els s = Ok s' /\ dims (as_A s') (as_neq s) (as_neq s) /\ (forall e f, stored (as_A s') e f <-> stored (as_A s) e f) /\
  (forall e f, 0 <= e -> 0 <= f -> coef (as_A s') e f = Rsum (map (fun el => el_matrix dim s el e f) els)) /\
  zlen (as_b s') = as_neq s /\ (forall e, 0 <= e -> nthR (as_b s') e = Rsum (map (fun el => el_load dim s el e) els)).
Proof. exact Asm_Proofs6.assembled. Qed.
Theorem C87_symmetric : forall dim nodes cells M F fuel s els s', grid_ok dim nodes cells M F -> dim <= 3 -> wf_mpcs dim M -> init_assembly fuel dim nodes cells M F = Some (Ok s) ->
  (forall el, In el els -> In (el_verts el) cells) -> (forall el a b, In el els -> kval (el_K el) a b = kval (el_K el) b a) -> add_elements dim els s = Ok s' ->
  forall e f, coef (as_A s') e f = coef (as_A s') f e.
Proof. exact Asm_Proofs6.assembled_symmetric. Qed.
Theorem C87_energy : forall dim nodes cells M F fuel s els s' u, grid_ok dim nodes cells M F -> dim <= 3 -> wf_mpcs dim M -> init_assembly fuel dim nodes cells M F = Some (Ok s) ->
  (forall el, In el els -> In (el_verts el) cells) -> add_elements dim els s = Ok s' ->
  Sum (as_neq s) (fun e => Sum (as_neq s) (fun f => u e * coef (as_A s') e f * u f))%R = Rsum (map (el_energy dim s u) els).
Proof. exact Asm_Proofs6.assembled_energy. Qed.

(* C88: expanded solutions *)
Theorem C88_values : forall dim nodes cells M F fuel s u, grid_ok dim nodes cells M F -> wf_mpcs dim M -> init_assembly fuel dim nodes cells M F = Some (Ok s) -> zlen u = as_neq s ->
  exists r, expand_solution dim nodes s u = Ok r /\ zlen r = nodes * dim /\
    (forall d, 0 <= d < nodes * dim -> is_fixed dim F d -> nthR r d = fixed_val dim F d) /\
    (forall d, 0 <= d < nodes * dim -> ~ is_fixed dim F d -> nthR r d = displacement dim s (nthR u) d) /\
    (forall verts, In verts cells -> extract_values dim s u verts = Ok (map (fun a => nthR r (cell_dof dim verts a)) (zrange 0 (zlen verts * dim)))).
Proof. exact Asm_Proofs6.expanded. Qed.
Theorem C88_constraint : forall dim nodes cells M F fuel s u r k p, grid_ok dim nodes cells M F -> wf_mpcs dim M -> init_assembly fuel dim nodes cells M F = Some (Ok s) -> zlen u = as_neq s ->
  expand_solution dim nodes s u = Ok r -> mm_find (as_mpcs s) k = Some p -> (nthR r k = mpc_value dim (nthR r) p <-> defect dim F p = 0%R).
Proof. exact Asm_Proofs6.expanded_constraints. Qed.
Theorem C88_homogeneous : forall dim nodes cells M F fuel s u r, grid_ok dim nodes cells M F -> wf_mpcs dim M -> init_assembly fuel dim nodes cells M F = Some (Ok s) -> zlen u = as_neq s ->
  no_loss dim M -> homogeneous dim M F -> expand_solution dim nodes s u = Ok r -> obeys dim M (nthR r).
Proof. exact Asm_Proofs6.expanded_homogeneous. Qed.

(* C118: order of constraints *)
Theorem C118_less : forall only, strict_weak (mpc_less only).
Proof. exact Asm_Proofs6.mpc_less_sw. Qed.
Theorem C118_same_slave : forall a b, (mpc_less true (Some a) (Some b) = false /\ mpc_less true (Some b) (Some a) = false) <-> md_node (mp_slave a) = md_node (mp_slave b) /\ md_dof (mp_slave a) = md_dof (mp_slave b).
Proof. exact Asm_Proofs6.mpc_same_slave. Qed.

(* C119: fixing nodes and adding constraints *)
Theorem C119_fix : forall dim F node dir vals, 0 <= dim -> zlen vals = dim -> (forall n d v, fx_find F n = Some (d, v) -> zlen v = dim) -> 
  exists F', update_fixed dim F node (dir, vals) = Ok F' /\
    (forall n d v, fx_find F' n = Some (d, v) -> zlen v = dim) /\
    (forall n, n <> node -> fx_find F' n = fx_find F n) /\
    (forall i, fx_flag F' node i = fx_flag F node i || Z.testbit dir i) /\
    (forall i, 0 <= i < dim -> Z.testbit dir i = true -> exists d v, fx_find F' node = Some (d, v) /\ nthR v i = nthR vals i) /\
    (forall i, 0 <= i < dim -> Z.testbit dir i = false -> fx_flag F node i = true -> exists d v d' v', fx_find F node = Some (d, v) /\ fx_find F' node = Some (d', v') /\ nthR v' i = nthR v i).
Proof. exact Asm_Proofs6.update_fixed_ok. Qed.
Theorem C119_add : forall dim F M p, wf_mpcs dim M -> (forall m, In m (mp_master p) -> 1 <= md_dof m <= dim /\ (mpc_tol < Rabs (md_coeff m))%R) ->
  wf_mpcs dim (add_mpc dim F M p) /\
  (forall k, mm_find (add_mpc dim F M p) k = match mm_find M k with Some q => Some q | None => if (k =? dof_key dim (mp_slave p)) && negb (fx_flag F (md_node (mp_slave p)) (md_dof (mp_slave p) - 1)) then Some p else None end).
Proof. exact Asm_Proofs6.add_mpc_ok. Qed.
Theorem C119_masters : forall l, forall p, fold_left (fun p (m : Z * Z * R) => add_master p (fst (fst m)) (snd (fst m)) (snd m)) l p =
  mkMpc (mp_slave p) (mp_master p ++ map (fun m => mkMdof (fst (fst m)) (snd (fst m)) (snd m)) (filter (fun m => if Rlt_dec mpc_tol (Rabs (snd m)) then true else false) l)).
Proof. exact Asm_Proofs6.add_masters_ok. Qed.

(* on a triangle: dof 3 = 2 dof 0, dof 6 = 3 + 1/2 dof 3; the first node is held in y *)
Example C85_case : wf_mpcs 3 ex_mpcs /\ ~ cyclic 3 ex_mpcs /\ no_loss 3 ex_mpcs /\ grid_ok 3 3 [[0; 1; 2]] ex_mpcs ex_fixed /\ ~ resolved 3 ex_mpcs.
Proof. exact ex_ok. Qed.
(* two dofs that are each other's master *)
Example C86_case : wf_mpcs 3 ex_cycle /\ cyclic 3 ex_cycle.
Proof. exact ex_cycle_ok. Qed.
Print Assumptions C84_numbers. Print Assumptions C84_bijective. Print Assumptions C84_again. Print Assumptions C85_terminates. Print Assumptions C85_result. Print Assumptions C86_iff. Print Assumptions C86_diverges. Print Assumptions C87_starts. Print Assumptions C87_pattern. Print Assumptions C87_assembled. Print Assumptions C87_symmetric. Print Assumptions C87_energy. Print Assumptions C88_values. Print Assumptions C88_constraint. Print Assumptions C88_homogeneous. Print Assumptions C118_less. Print Assumptions C118_same_slave. Print Assumptions C119_fix. Print Assumptions C119_add. Print Assumptions C119_masters.
