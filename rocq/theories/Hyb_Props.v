From Verif Require Import Hnum_Proofs2 Hyb_Proofs7 Hyb_Proofs8 Hyb_Proofs9 Hyb_Spec.
Open Scope Z_scope.

(* C72: the structure is set up and every assembled entry belongs to it: neither step leaves its arrays *)
Theorem C72_structure : forall g bc ip src, problem g bc ip src -> exists st s d, discretised g bc ip src st s d.
Proof. exact disc_ex. Qed.

(* C66: cell pressures and outfluxes obey Darcy's law and conserve mass whatever the contact pressures *)
Theorem C66_conservation : forall g bc ip src, problem g bc ip src -> forall st s d, discretised g bc ip src st s d ->
  forall soln, zlen soln = unknowns st -> exists ps vs, recover g st ip d soln = Ok (ps, vs) /\ zlen ps = zlen g /\ half_table g vs /\ darcy_law g ip st soln ps vs /\ conserving g src vs.
Proof. exact conserve_ok. Qed.
(* ... so solve conserves mass with each of its linear solvers, whatever they return *)
Theorem C66_solve : forall g bc ip src, problem g bc ip src -> forall st s d, discretised g bc ip src st s d ->
  forall linsolver_type same_matrix lin, 0 <= linsolver_type <= 3 -> 0 < unknowns st -> (forall s, zlen (lin s) = unknowns st) ->
  exists ps vs, hybrid_solve g bc st ip src linsolver_type same_matrix lin = Ok (ps, vs) /\ conserving g src vs.
Proof. exact solve_conserves. Qed.
Theorem C66_unknown_solver : forall g bc ip src st s d, discretised g bc ip src st s d -> forall linsolver_type same_matrix lin, linsolver_type < 0 \/ 3 < linsolver_type ->
  hybrid_solve g bc st ip src linsolver_type same_matrix lin = Throw.
Proof. exact solve_unknown. Qed.

(* C67, C68: the assembled equations say exactly that fluxes are continuous and boundary conditions hold *)
Theorem C67_equations : forall g bc ip src, problem g bc ip src -> forall st s d, discretised g bc ip src st s d -> ip_spd g ip ->
  forall soln ps vs, zlen soln = unknowns st -> recover g st ip d soln = Ok (ps, vs) ->
  (solves s (unknowns st) (nthR soln) <-> flow_conditions g bc st soln vs).
Proof. exact solves_iff. Qed.
Theorem C68_periodic : forall g bc ip src, problem g bc ip src -> forall st s d, discretised g bc ip src st s d -> ip_spd g ip ->
  forall soln ps vs, zlen soln = unknowns st -> recover g st ip d soln = Ok (ps, vs) -> solves s (unknowns st) (nthR soln) ->
  forall k r k' r' dp, partners g bc k r k' r' -> cond_at g bc k r = Some (CPeriodic dp) ->
  (nthR soln (num st k r) - nthR soln (num st k' r') = dp)%R /\ (at2 vs k r + at2 vs k' r' = 0)%R.
Proof. exact periodic_solution. Qed.

(* C69: the matrix *)
Theorem C69_symmetric : forall g bc ip src, problem g bc ip src -> forall st s d, discretised g bc ip src st s d -> symmetric (unknowns st) (sy_val s).
Proof. exact sym_ok. Qed.
Theorem C69_semidefinite : forall g bc ip src, problem g bc ip src -> forall st s d, discretised g bc ip src st s d -> ip_spd g ip -> nonneg_form (unknowns st) (sy_val s).
Proof. exact psd_ok. Qed.
Theorem C69_definite : forall g bc ip src, problem g bc ip src -> forall st s d, discretised g bc ip src st s d -> ip_spd g ip -> anchored g bc -> positive_form (unknowns st) (sy_val s).
Proof. exact pd_ok. Qed.
(* all solutions have the same fluxes, and there is only one when pressure is prescribed somewhere *)
Theorem C69_unique : forall g bc ip src, problem g bc ip src -> forall st s d, discretised g bc ip src st s d -> ip_spd g ip ->
  forall x y ps vs ps' vs', zlen x = unknowns st -> zlen y = unknowns st -> solves s (unknowns st) (nthR x) -> solves s (unknowns st) (nthR y) ->
  recover g st ip d x = Ok (ps, vs) -> recover g st ip d y = Ok (ps', vs') ->
  (forall k r, half g k r -> at2 vs k r = at2 vs' k r) /\ (anchored g bc -> x = y /\ ps = ps').
Proof. exact fluxes_unique. Qed.

(* C114: problems without prescribed pressure *)
Theorem C114_flag : forall g bc ip src, problem g bc ip src -> forall st s d, discretised g bc ip src st s d -> (dy_reg d = true <-> no_dirichlet g bc).
Proof. exact reg_iff. Qed.
Theorem C114_regularised : forall g bc ip src, problem g bc ip src -> forall st s d, discretised g bc ip src st s d -> ip_spd g ip ->
  0 < zlen g -> no_dirichlet g bc -> connected g bc -> exists s', regularise s d = Ok s' /\ positive_form (unknowns st) (sy_val s') /\
  forall x, solves s' (unknowns st) x ->
    (solves s (unknowns st) x <-> Sum (zlen g) (fun k => nthR src (idx g k)) = Sum (zlen g) (fun k => Sum (nfaces g k) (outflux_at g bc k))) /\
    (solves s (unknowns st) x -> x 0 = 0%R).
Proof. exact reg_pd. Qed.
Theorem C114_dirichlet : forall g bc ip src, problem g bc ip src -> forall st s d, discretised g bc ip src st s d -> ~ no_dirichlet g bc -> regularise s d = Ok s.
Proof. exact reg_dirichlet. Qed.

(* C71: postProcessFluxes *)
Theorem C71_post : forall g bc st nfaces cflux, conforming g -> counts_agree g -> periodic_ok g bc -> init_structure g bc = Ok st -> unknowns st <= nfaces -> half_table g cflux ->
  exists t m, post_process g st nfaces cflux = Ok (t, m) /\ half_table g t /\
  (forall k r k' r', joined g bc k r k' r' -> at2 t k r = ((at2 cflux k r - at2 cflux k' r') / 2)%R) /\
  (forall k r, half g k r -> (forall k' r', ~ joined g bc k r k' r') -> at2 t k r = at2 cflux k r) /\
  (0 <= m)%R /\ (forall k r, half g k r -> (Rabs (at2 t k r - at2 cflux k r) <= m)%R) /\ (m = 0%R \/ exists k r, half g k r /\ Rabs (at2 t k r - at2 cflux k r) = m).
Proof. exact post_main. Qed.

(* C115: a linear pressure field in a homogeneous medium is reproduced exactly *)
Theorem C115_patch : forall dim orth g bc geo K mob ip p0 a, geometry dim g geo -> homogeneous dim orth g geo K mob ip -> conforming g -> counts_agree g -> periodic_ok g bc ->
  linear_bc dim g bc geo K mob p0 a -> forall st s d, discretised g bc ip (zrepeat 0%R (zlen g)) st s d ->
  (exists x, zlen x = unknowns st /\ solves s (unknowns st) (nthR x)) /\
  forall x ps vs, zlen x = unknowns st -> solves s (unknowns st) (nthR x) -> recover g st ip d x = Ok (ps, vs) ->
    (forall k r, half g k r -> at2 vs k r = darcy_flux dim (geo k) mob (entry K) a r) /\
    (anchored g bc -> (forall k, 0 <= k < zlen g -> nthR ps k = linear_pressure dim p0 a (mc_cen (geo k))) /\
                      (forall k r, half g k r -> nthR x (num st k r) = linear_pressure dim p0 a (mf_cen (face (geo k) r)))).
Proof. exact patch_ok. Qed.
Theorem C115_regularised : forall dim orth g bc geo K mob ip p0 a, geometry dim g geo -> homogeneous dim orth g geo K mob ip -> conforming g -> counts_agree g -> periodic_ok g bc ->
  linear_bc dim g bc geo K mob p0 a -> forall st s d, discretised g bc ip (zrepeat 0%R (zlen g)) st s d ->
  forall s' x ps vs, 0 < zlen g -> connected g bc -> regularise s d = Ok s' -> zlen x = unknowns st -> solves s' (unknowns st) (nthR x) -> recover g st ip d x = Ok (ps, vs) ->
  forall k r, half g k r -> at2 vs k r = darcy_flux dim (geo k) mob (entry K) a r.
Proof. exact patch_reg. Qed.
Example C66_case : problem row3 ends_bc ex_ip ex_src /\ ip_spd row3 ex_ip /\ anchored row3 ends_bc.
Proof. exact (conj (ex_problem _ ends_periodic) (conj ex_spd ends_anchored)). Qed.
Example C68_case : problem row3 ring_bc ex_ip ex_src /\ no_dirichlet row3 ring_bc /\ connected row3 ring_bc /\ partners row3 ring_bc 0 0 2 1.
Proof. exact (conj (ex_problem _ ring_periodic) (conj ring_no_dirichlet (conj (row3_connected _) ring_partners))). Qed.
Example C114_case : problem row3 neumann_bc ex_ip ex_src /\ no_dirichlet row3 neumann_bc /\ connected row3 neumann_bc.
Proof. exact (conj (ex_problem _ neumann_periodic) (conj neumann_no_dirichlet (row3_connected _))). Qed.
Example C115_case : geometry 1 row3 bar /\ homogeneous 1 bar_orth row3 bar bar_K 3 bar_ip /\ periodic_ok row3 bar_bc /\ linear_bc 1 row3 bar_bc bar bar_K 3 5 (fun _ => 1%R).
Proof. exact (conj bar_geometry (conj bar_hom (conj bar_periodic bar_linear))). Qed.
Print Assumptions C72_structure. Print Assumptions C66_conservation. Print Assumptions C66_solve. Print Assumptions C66_unknown_solver. Print Assumptions C67_equations. Print Assumptions C68_periodic. Print Assumptions C69_symmetric. Print Assumptions C69_semidefinite. Print Assumptions C69_definite. Print Assumptions C69_unique.
Print Assumptions C114_flag. Print Assumptions C114_regularised. Print Assumptions C114_dirichlet. Print Assumptions C71_post. Print Assumptions C115_patch. Print Assumptions C115_regularised.
