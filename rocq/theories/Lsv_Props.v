From Verif Require Import Lsv_Proofs Lsv_Proofs2 Lsv_Proofs4 Lsv_Proofs5 Lsv_Proofs6 Bound_Spec Hyb_Proofs9 Hnum_Proofs2 Lsv_Spec.
Open Scope Z_scope.

(* C187: which preconditioner a solve uses *)
Theorem C187_history : forall K ops sv log, sv_run K fresh ops = Some (sv, log) -> forall i c, zget log i = Some c ->
  0 <= lc_type c <= 3 /\ (lc_type c = 0 -> lc_prec c = lc_op c) /\
  (lc_type c <> 0 -> exists j b, 0 <= j <= i /\ zget log j = Some b /\ lc_type b = lc_type c /\ lc_new b = true /\ lc_op b = lc_prec c /\
     forall m c', j < m <= i -> zget log m = Some c' -> lc_type c' = 0 \/ (lc_new c' = false /\ lc_type c' = lc_type c)).
Proof. exact Lsv_Proofs.reuse_history. Qed.
Theorem C187_runs : forall K ops sv log, sv_run K fresh ops = Some (sv, log) ->
  forall g bc ip src, problem g bc ip src -> forall st s d, discretised g bc ip src st s d -> ip_spd g ip -> 0 < zlen g ->
  forall c, sv_grid sv = Some (g, st) -> call_for c bc ip src -> 0 <= sc_type c <= 3 ->
  (sc_type c = 0 \/ sc_same c = false \/
   exists j b, zget log j = Some b /\ lc_type b = sc_type c /\ forall m c', j < m -> zget log m = Some c' -> lc_type c' = 0) ->
  (forall ty A M b x n, zlen (fst (K ty A M b x n)) = zlen b) ->
  exists sv' lc, let answer := K (lc_type lc) (lc_op lc) (lc_prec lc) (lc_rhs lc) (lc_start lc) (lc_maxit lc) in
    sv_solve K sv c = (sv', [lc], if snd answer then Ok tt else Throw) /\
    (snd answer = true -> recover g st ip d (fst answer) = Ok (sv_sol sv')).
Proof. exact Lsv_Proofs4.solve_runs. Qed.
Theorem C187_first_refuted : forall K ops sv log, sv_run K fresh ops = Some (sv, log) -> (forall o, In o ops -> ~ builds o) ->
  forall c g st s d, sv_grid sv = Some (g, st) -> assemble g (sc_bc c) st (sc_ip c) (sc_src c) = Ok (s, d) -> 1 <= sc_type c <= 3 -> sc_same c = true ->
  sv_solve K sv c = (sv, [], UB).
Proof. exact Lsv_Proofs.reuse_first. Qed.
Theorem C187_class_refuted : forall K ops sv log, sv_run K fresh ops = Some (sv, log) ->
  forall j b, zget log j = Some b -> lc_type b <> 0 -> (forall m c', j < m -> zget log m = Some c' -> lc_type c' = 0) ->
  forall c g st s d, sv_grid sv = Some (g, st) -> assemble g (sc_bc c) st (sc_ip c) (sc_src c) = Ok (s, d) -> 1 <= sc_type c <= 3 -> sc_same c = true ->
  sc_type c <> lc_type b -> sv_solve K sv c = (sv, [], Throw).
Proof. exact Lsv_Proofs.reuse_other_class. Qed.
Theorem C187_stale_refuted : exists K ops sv c1 c2, sv_run K fresh ops = Some (sv, [c1; c2]) /\
  ops = [SInit row3 ends_bc; SSolve (Lsv_Model.mkCall ends_bc ex_ip ex_src 1 false 0); SInit row3 ring_bc; SSolve (Lsv_Model.mkCall ring_bc ex_ip ex_src 1 true 0)] /\
  lc_prec c2 = lc_op c1 /\ lm_pat (lc_prec c2) <> lm_pat (lc_op c2).
Proof. exact Lsv_Proofs6.stale_preconditioner. Qed.

(* C188: the system handed to the iterative solver *)
Theorem C188_system : forall g bc ip src, problem g bc ip src -> forall st s d, discretised g bc ip src st s d ->
  forall K sv c sv' lc r, sv_grid sv = Some (g, st) -> call_for c bc ip src -> sv_solve K sv c = (sv', [lc], r) ->
  lc_type lc = sc_type c /\ lc_rhs lc = sy_rhs s /\ lm_pat (lc_op lc) = sy_pat s /\ lc_maxit lc = (if 0 <? sc_maxit c then sc_maxit c else unknowns st) /\
  (lc_new lc = true <-> sc_type c = 0 \/ sc_same c = false) /\ (lc_new lc = true -> lc_prec lc = lc_op lc) /\
  (~ no_dirichlet g bc \/ lc_new lc = false -> forall i j, lm_val (lc_op lc) i j = sy_val s i j) /\
  (no_dirichlet g bc -> lc_new lc = true -> forall i j, lm_val (lc_op lc) i j = if (i =? 0) && (j =? 0) then (2 * sy_val s i j)%R else sy_val s i j) /\
  (sc_type c = 0 -> lc_start lc = zrepeat 0%R (unknowns st)).
Proof. exact Lsv_Proofs2.handed_system. Qed.
Theorem C188_start : forall g bc ip src, problem g bc ip src -> forall st s d, discretised g bc ip src st s d -> ip_spd g ip ->
  forall K sv c sv' lc r, sv_grid sv = Some (g, st) -> call_for c bc ip src -> sc_type c <> 0 -> sv_solve K sv c = (sv', [lc], r) ->
  zlen (lc_start lc) = unknowns st /\
  (forall i, 0 <= i < unknowns st -> (alone (lc_op lc) (unknowns st) i -> (lm_val (lc_op lc) i i * nthR (lc_start lc) i)%R = nthR (lc_rhs lc) i) /\
     (~ alone (lc_op lc) (unknowns st) i -> nthR (lc_start lc) i = 0%R)) /\
  (forall k r p, half g k r -> cond_at g bc k r = Some (CDirichlet p) -> nthR (lc_start lc) (num st k r) = p).
Proof. exact Lsv_Proofs4.start_vector. Qed.

(* C189: outcome of a solve *)
Theorem C189_solution : forall g bc ip src, problem g bc ip src -> forall st s d, discretised g bc ip src st s d -> ip_spd g ip -> 0 < zlen g ->
  (no_dirichlet g bc -> connected g bc /\ balanced g bc src) ->
  forall K sv c sv' lc x, sv_grid sv = Some (g, st) -> call_for c bc ip src -> sv_solve K sv c = (sv', [lc], Ok tt) ->
  K (lc_type lc) (lc_op lc) (lc_prec lc) (lc_rhs lc) (lc_start lc) (lc_maxit lc) = (x, true) -> zlen x = unknowns st -> solved lc (unknowns st) x ->
  exists ps vs, sv_sol sv' = (ps, vs) /\ darcy_law g ip st x ps vs /\ conserving g src vs /\ flow_conditions g bc st x vs.
Proof. exact Lsv_Proofs2.exact_solve. Qed.
Theorem C189_success : forall K sv c sv' l, sv_solve K sv c = (sv', l, Ok tt) -> exists g st s d lc x, sv_grid sv = Some (g, st) /\ sv_grid sv' = Some (g, st) /\
  assemble g (sc_bc c) st (sc_ip c) (sc_src c) = Ok (s, d) /\ l = [lc] /\ K (lc_type lc) (lc_op lc) (lc_prec lc) (lc_rhs lc) (lc_start lc) (lc_maxit lc) = (x, true) /\
  recover g st (sc_ip c) d x = Ok (sv_sol sv').
Proof. exact Lsv_Proofs.success_converged. Qed.
Theorem C189_failure : forall K sv c sv' l, sv_solve K sv c = (sv', l, Throw) -> sv_sol sv' = sv_sol sv /\ sv_grid sv' = sv_grid sv.
Proof. exact Lsv_Proofs.failure_keeps. Qed.

(* C190: the matrix does not depend on the boundary values *)
Theorem C190_values : forall g bc bc' ip src src', problem g bc ip src -> problem g bc' ip src' -> same_kinds bc bc' ->
  init_structure g bc' = init_structure g bc /\
  forall st s d s' d', discretised g bc ip src st s d -> assemble g bc' st ip src' = Ok (s', d') -> same_matrices (unknowns st) (matrix_of s) (matrix_of s').
Proof. exact Lsv_Proofs2.values_matrix. Qed.
Theorem C190_upscaling : forall K srt g gf ip bct twodim ty maxit b sv b' sv' log, 0 <= bct <= 2 -> unique_ids gf -> 0 < zlen g ->
  (forall pdd b b', 0 <= pdd < 3 -> setup_upscaling srt gf bct pdd 1 1 twodim b = Ok b' -> problem g (hbc_of b') ip (zrepeat 0%R (zlen g))) ->
  perm_directions K srt g gf ip bct twodim ty maxit b sv = Ok (b', sv', log) ->
  exists st c0 c1 c2, log = [c0; c1; c2] /\ sv_grid sv' = Some (g, st) /\ (forall c, In c log -> lc_type c = ty) /\ lc_new c0 = true /\
  (bct = 0 \/ ty = 0 -> forall c, In c log -> lc_new c = true /\ lc_prec c = lc_op c) /\
  (bct <> 0 -> ty <> 0 -> forall c, c = c1 \/ c = c2 -> lc_new c = false /\ lc_prec c = lc_op c0 /\ same_but_first (unknowns st) (lc_op c) (lc_prec c) /\
     (~ no_dirichlet g (hbc_of b') -> same_matrices (unknowns st) (lc_op c) (lc_prec c)) /\
     (no_dirichlet g (hbc_of b') -> lm_val (lc_prec c) 0 0 = (2 * lm_val (lc_op c) 0 0)%R)).
Proof. exact Lsv_Proofs5.directions_reuse. Qed.

Example C187_case : forall ty, 1 <= ty <= 3 -> exists st sv0 sv1 sv2 c1 c2 s d, discretised row3 ends_bc ex_ip ex_src st s d /\ ip_spd row3 ex_ip /\ sv_grid sv0 = Some (row3, st) /\
  sv_run lazy_solver fresh [SInit row3 ends_bc] = Some (sv0, []) /\
  sv_solve lazy_solver sv0 (Lsv_Model.mkCall ends_bc ex_ip ex_src ty false 0) = (sv1, [c1], Ok tt) /\ sv_solve lazy_solver sv1 (Lsv_Model.mkCall ends_bc ex_ip ex_src ty true 0) = (sv2, [c2], Ok tt) /\
  sv_run lazy_solver fresh [SInit row3 ends_bc; SSolve (Lsv_Model.mkCall ends_bc ex_ip ex_src ty false 0); SSolve (Lsv_Model.mkCall ends_bc ex_ip ex_src ty true 0)] = Some (sv2, [c1; c2]) /\ lc_new c1 = true /\ lc_new c2 = false.
Proof. exact solve_case. Qed.
Example C188_case : problem row3 ends_bc ex_ip ex_src /\ problem row3 ring_bc ex_ip ex_src /\ no_dirichlet row3 ring_bc.
Proof. exact (conj (ex_problem _ ends_periodic) (conj (ex_problem _ ring_periodic) ring_no_dirichlet)). Qed.
Example C189_case : connected row3 ring_bc /\ balanced row3 ring_bc ex_src /\ ~ no_dirichlet row3 ends_bc.
Proof.
  split; [exact (row3_connected ring_bc)|]. split; [unfold balanced; change (zlen row3) with 3; cbv; lra|]. intros H. exact (H 0 0 1%R (row3_half' 0 0 ltac:(auto) ltac:(auto)) eq_refl).
Qed.
Example C190_case : forall ty, 1 <= ty <= 3 -> unique_ids Bound_Spec.two_faces /\ 0 < zlen row3 /\
  (forall pdd b b', 0 <= pdd < 3 -> setup_upscaling (fun l => l) Bound_Spec.two_faces 2 pdd 1 1 false b = Ok b' -> problem row3 (hbc_of b') ex_ip (zrepeat 0%R (zlen row3))) /\
  exists b' sv' log, perm_directions lazy_solver (fun l => l) row3 Bound_Spec.two_faces ex_ip 2 false ty 0 bcs_empty fresh = Ok (b', sv', log) /\ no_dirichlet row3 (hbc_of b').
Proof. exact perm_case. Qed.
Print Assumptions C187_history. Print Assumptions C187_runs. Print Assumptions C187_first_refuted. Print Assumptions C187_class_refuted. Print Assumptions C187_stale_refuted. Print Assumptions C188_system. Print Assumptions C188_start. Print Assumptions C189_solution. Print Assumptions C189_success. Print Assumptions C189_failure. Print Assumptions C190_values. Print Assumptions C190_upscaling.
