(* IncompFlowSolverHybrid.hpp: the linear solvers behind solve(), and what the solver object keeps from
   one call to the next; UpscalerBase_impl.hpp: how the upscaling calls it. *)
From Verif Require Export Hyb_Model Bound_Model.
Open Scope Z_scope.

(* a matrix in BCRSMatrix format: S_ without the right-hand side *)
(* IncompFlowSolverHybrid.hpp:923 *)
Record lmat := mkLm { lm_pat : list (list Z); lm_val : Z -> Z -> R }.
(* S_, the matrix of the assembled system *)
(* 923 *)
Definition matrix_of (s : hsys) : lmat := mkLm (sy_pat s) (sy_val s).

(* precond_ (1464-1466) after precond_.reset(new Precond( *opS_, ...)): its class (1 AMG 1473, 2 KAMG 1607,
   3 FastAMG 1542; numbered as linsolver_type in 670-692) and the matrix it was constructed from *)
Record lprec := mkLp { lp_type : Z; lp_mat : lmat }.

(* the iterative solver, e.g. linsolve( *opS_, precond, residTol, maxit, verbosity).apply(soln_, rhs_, result)
   (1392-1401, 1507-1524, 1573-1590, 1638-1655): an oracle given the class of solver, the operator, the
   matrix of the preconditioner, the right-hand side, the start vector and the iteration limit; it
   returns the vector and result.converged.  Tolerances, verbosity and AMG parameters are part of the
   oracle. *)
Definition krylov := Z -> lmat -> lmat -> list R -> list R -> Z -> list R * bool.
(* what one call of the iterative solver is given, and whether it was preceded by building a new
   preconditioner (1478-1506 and 1380-1390): the observable trace *)
(* 1392-1401, 1507-1524, 1573-1590, 1638-1655 *)
Record lcall := mkLc { lc_type : Z; lc_new : bool; lc_op : lmat; lc_prec : lmat; lc_rhs : list R; lc_start : list R; lc_maxit : Z }.

(* (maxit>0)?maxit:S_.N() *)
(* 1394, 1507, 1573, 1638 *)
Definition iterations (maxit n : Z) : Z := if 0 <? maxit then maxit else n.

(* the loop over the row ri: no stored entry off the diagonal differs from zero *)
(* 1516-1519, 1582-1585, 1647-1650 *)
Definition decoupled (s : hsys) (i : Z) (row : list Z) : bool :=
  forallb (fun j => (j =? i) || (if Req_EM_T (sy_val s i j) 0 then true else false)) row.
(* soln_ = 0 and soln_[i] = rhs_[i]/S_[i][i] in decoupled rows; a zero diagonal entry makes the quotient
   not finite and a diagonal entry that is not stored cannot be read (both modelled as UB) *)
(* 1510-1521, 1576-1587, 1641-1652 *)
Definition start_guess (s : hsys) : res (list R) :=
  foldM (fun x ir => let '(i, row) := ir in
    if decoupled s i row then
      if sy_has s i i then
        let* b := rget (sy_rhs s) i in let* q := mdiv b (sy_val s i i) in rset x i q
      else UB
    else Ok x) (combine (zrange 0 (zlen (sy_pat s))) (sy_pat s)) (zrepeat 0%R (zlen (sy_rhs s))).

(* linsolve.apply and the test of result.converged *)
(* 1401-1407, 1524-1530, 1590-1596, 1655-1661 *)
Definition apply_solver (K : krylov) (c : lcall) : res (list R) :=
  let '(x, converged) := K (lc_type c) (lc_op c) (lc_prec c) (lc_rhs c) (lc_start c) (lc_maxit c) in
  if converged then Ok x else Throw.

(* 1371-1408 solveLinearSystem *)
Definition ilu_call (s : hsys) (d : hdyn) (maxit : Z) : res lcall :=
  let* s := regularise s d in
  Ok (mkLc 0 true (matrix_of s) (matrix_of s) (sy_rhs s) (zrepeat 0%R (zlen (sy_rhs s))) (iterations maxit (zlen (sy_pat s)))).

(* 1507-1521 (and 1573-1587, 1638-1652): dereferencing the null precond_ is UB; dynamic_cast to another
   class throws std::bad_cast *)
Definition use_precond (ty : Z) (new : bool) (p : option lprec) (s : hsys) (maxit : Z) : res lcall :=
  match p with
  | None => UB
  | Some q =>
      if lp_type q =? ty then
        let* x := start_guess s in
        Ok (mkLc ty new (matrix_of s) (lp_mat q) (sy_rhs s) x (iterations maxit (zlen (sy_pat s))))
      else Throw
  end.
(* 1469-1521 solveLinearSystemAMG, 1538-1587 solveLinearSystemFastAMG, 1603-1652 solveLinearSystemKAMG: the
   preconditioner left behind and the call of the iterative solver.  opS_ refers to S_, so it always
   stands for the current matrix. *)
Definition amg_call (ty : Z) (same : bool) (s : hsys) (d : hdyn) (maxit : Z) (p : option lprec) : option lprec * res lcall :=
  if same then (p, use_precond ty false p s maxit)
  else match regularise s d with
       | Ok s' => let p' := Some (mkLp ty (matrix_of s')) in (p', use_precond ty true p' s' maxit)
       | Throw => (p, Throw)
       | UB => (p, UB)
       end.
(* 670-694: the switch over linsolver_type *)
Definition lin_call (ty : Z) (same : bool) (s : hsys) (d : hdyn) (maxit : Z) (p : option lprec) : option lprec * res lcall :=
  if ty =? 0 then (p, ilu_call s d maxit)
  else if (1 <=? ty) && (ty <=? 3) then amg_call ty same s d maxit p
  else (p, Throw).

(* the members kept between calls: the grid and its structure (pgrid_, flowSolution_.cellFaces_, S_'s
   structure), precond_ and the flow solution; 385-430, 903-930, 1464-1466 *)
Record solver := mkSv { sv_grid : option (list hcell * hstruct); sv_prec : option lprec; sv_sol : list R * list (list R) }.
(* 390-400: a new object *)
Definition fresh : solver := mkSv None None ([], []).
(* 459-472 init and 478-497 clear: precond_ and opS_ are not cleared; the flow solution is allocated with
   zeros (1051-1053, 1215-1219) *)
Definition sv_init (g : list hcell) (bc : hbc) (sv : solver) : res solver :=
  if zlen g =? 0 then Ok (mkSv None (sv_prec sv) ([], []))
  else
    let* st := init_structure g bc in
    Ok (mkSv (Some (g, st)) (sv_prec sv) (zrepeat 0%R (zlen g), map (fun row => map (fun _ => 0%R) row) (nm_cf (hs_num st)))).

(* the arguments of solve (647-657); the fluid and the saturations enter through the inner product *)
Record scall := mkCall { sc_bc : hbc; sc_ip : hip; sc_src : list R; sc_type : Z; sc_same : bool; sc_maxit : Z }.
(* 658-696 solve: the new state, what the iterative solver was given, and the outcome *)
Definition sv_solve (K : krylov) (sv : solver) (c : scall) : solver * list lcall * res unit :=
  match sv_grid sv with
  | None => (sv, [], UB)
  | Some (g, st) =>
      match assemble g (sc_bc c) st (sc_ip c) (sc_src c) with
      | Throw => (sv, [], Throw)
      | UB => (sv, [], UB)
      | Ok (s, d) =>
          let '(p, r) := lin_call (sc_type c) (sc_same c) s d (sc_maxit c) (sv_prec sv) in
          let sv := mkSv (sv_grid sv) p (sv_sol sv) in
          match r with
          | Throw => (sv, [], Throw)
          | UB => (sv, [], UB)
          | Ok lc =>
              match apply_solver K lc with
              | Throw => (sv, [lc], Throw)
              | UB => (sv, [lc], UB)
              | Ok x =>
                  match recover g st (sc_ip c) d x with
                  | Ok sol => (mkSv (sv_grid sv) p sol, [lc], Ok tt)
                  | Throw => (sv, [lc], Throw)
                  | UB => (sv, [lc], UB)
                  end
              end
          end
      end
  end.

(* the calls a user can make *)
(* 459-472, 647-696 *)
Inductive sop := SInit (g : list hcell) (bc : hbc) | SSolve (c : scall).
(* one of them; an exception leaves the object usable, after undefined behaviour (or a failed init)
   there is no state any more *)
(* 459-472, 647-696 *)
Definition sv_step (K : krylov) (sv : solver) (o : sop) : option (solver * list lcall) :=
  match o with
  | SInit g bc => match sv_init g bc sv with Ok sv' => Some (sv', []) | _ => None end
  | SSolve c => let '(sv', l, r) := sv_solve K sv c in match r with UB => None | _ => Some (sv', l) end
  end.
(* a sequence of calls: the final state and everything the iterative solver was given, in order *)
(* 459-472, 647-696 *)
Fixpoint sv_run (K : krylov) (sv : solver) (ops : list sop) : option (solver * list lcall) :=
  match ops with
  | [] => Some (sv, [])
  | o :: r =>
      match sv_step K sv o with
      | None => None
      | Some (sv', l) => match sv_run K sv' r with None => None | Some (sv'', l') => Some (sv'', l ++ l') end
      end
  end.

(* bcond_ as the flow solver reads it: flowCond(bid) (BoundaryConditions.hpp:387-394) and
   getPeriodicPartner(bid) (BoundaryConditions.hpp:263-266); an id outside the tables, which the code
   would read out of range, is given no flow and partner 0 *)
Definition fcond_of (c : cond) : fcond :=
  match c_type c with Dirichlet => CDirichlet (c_val c) | Periodic => CPeriodic (c_val c) | Neumann => CNeumann (c_val c) end.
(* BoundaryConditions.hpp:263-266, 387-394 *)
Definition hbc_of (b : bcs) : hbc :=
  mkHBc (fun i => match zget (t_flow b) i with Some c => fcond_of c | None => CNeumann 0 end)
        (fun i => match zget (t_partner b) i with Some j => j | None => 0 end).
(* UpscalerBase_impl.hpp:248-263: one direction of upscaleEffectivePerm up to the flow solve; the grid is
   seen as a list of cells by the solver and as a list of faces by setupUpscalingConditions *)
Definition perm_direction (K : krylov) (srt : list bface -> list bface) (g : list hcell) (gf : list gface) (ip : hip)
    (bct : Z) (twodim : bool) (ty maxit : Z) (st : bcs * solver * list lcall) (pdd : Z) : res (bcs * solver * list lcall) :=
  let '(b, sv, log) := st in
  let* b := setup_upscaling srt gf bct pdd 1 1 twodim b in
  let* sv := if pdd =? 0 then sv_init g (hbc_of b) sv else Ok sv in
  let c := mkCall (hbc_of b) ip (zrepeat 0%R (zlen g)) ty (negb (bct =? 0) && negb (pdd =? 0)) maxit in
  let '(sv, l, r) := sv_solve K sv c in
  let* _ := r in
  Ok (b, sv, log ++ l).
(* UpscalerBase_impl.hpp:247-263: the three directions, without the averaging of the fluxes *)
Definition perm_directions (K : krylov) (srt : list bface -> list bface) (g : list hcell) (gf : list gface) (ip : hip)
    (bct : Z) (twodim : bool) (ty maxit : Z) (b : bcs) (sv : solver) : res (bcs * solver * list lcall) :=
  foldM (perm_direction K srt g gf ip bct twodim ty maxit) (zrange 0 3) (b, sv, []).
