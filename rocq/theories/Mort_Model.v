(* The mortar saddle point system of opm/elasticity: mortar_utils.hpp, mortar_evaluator.hpp, mortar_schur.hpp,
   mortar_schur_precond.hpp, uzawa_solver.hpp, applier.hpp, the multiplier preconditioners of setupSolvers
   (elasticity_upscale_impl.hpp 891-1000) and logutils.hpp. Vectors are lists of reals. Linear solvers and
   preconditioners for the displacement block are arbitrary functions. *)
From Verif Require Export Smat_Model Matx_Model.
Open Scope Z_scope.

(* ---- ISTL BCRSMatrix operations used here (dune/istl/bcrsmatrix.hh, without DUNE_ISTL_WITH_CHECKING: the
   vectors may be longer than the matrix) *)
(* usmv(alpha, x, y): y += alpha A x; umv is alpha = 1, mmv is alpha = -1 *)
(* mortar_evaluator.hpp 47, 61-63, mortar_schur_precond.hpp 85, uzawa_solver.hpp 71 *)
Definition usmv (alpha : R) (m : smat) (x y : list R) : res (list R) :=
  foldM (fun y e => let '(i, j, a) := e in
    let* xj := rget x j in let* yi := rget y i in rset y i (yi + alpha * (a * xj))%R) (entries m) y.
(* mv(x, y): y = A x, row by row *)
(* mortar_evaluator.hpp 46, mortar_schur.hpp 55 *)
Definition mv (m : smat) (x y : list R) : res (list R) :=
  let* y := foldM (fun y i => rset y i 0%R) (zrange 0 (sm_n m)) y in usmv 1 m x y.
(* usmtv(alpha, x, y): y += alpha A^T x *)
(* mortar_schur.hpp 63 *)
Definition usmtv (alpha : R) (m : smat) (x y : list R) : res (list R) :=
  foldM (fun y e => let '(i, j, a) := e in
    let* xi := rget x i in let* yj := rget y j in rset y j (yj + alpha * (a * xi))%R) (entries m) y.
(* mtv(x, y): all of y is cleared first *)
(* mortar_evaluator.hpp 49, 65, uzawa_solver.hpp 66 *)
Definition mtv (m : smat) (x y : list R) : res (list R) := usmtv 1 m x (zrepeat 0%R (zlen y)).

(* ---- mortar_utils.hpp *)
(* 27-31 extractBlock *)
Definition vextract (y : list R) (len start : Z) : res (list R) := mapM (fun i => rget y (start + i)) (zrange 0 len).
(* 38-41 injectBlock *)
Definition vinject (x y : list R) (len start : Z) : res (list R) :=
  foldM (fun x i => let* v := rget y i in rset x (start + i) v) (zrange 0 len) x.

(* ---- mortar_evaluator.hpp *)
(* 41-51 MortarEvaluator::apply *)
Definition mortar_apply (A B : smat) (x y : list R) : res (list R) :=
  let* lambda := vextract x (sm_m B) (sm_n A) in
  let* y := mv A x y in
  let* y := usmv 1 B lambda y in
  let* l2 := mtv B x (zrepeat 0%R (zlen lambda)) in
  vinject y l2 (sm_m B) (sm_n A).
(* 57-69 MortarEvaluator::applyscaleadd *)
Definition mortar_scaleadd (alpha : R) (A B : smat) (x y : list R) : res (list R) :=
  let* y := usmv alpha A x y in
  let* lambda := vextract x (sm_m B) (sm_n A) in
  let* y := usmv 1 B lambda y in
  let* l2 := mtv B x (zrepeat 0%R (zlen lambda)) in
  foldM (fun y i => let* l := rget l2 (i - sm_n A) in let* v := rget y i in rset y i (v + alpha * l)%R)
        (zrange (sm_n A) (zlen y)) y.

(* ---- applier.hpp 22-77 OperatorApplier: a preconditioner or an inverse operator. The vectors returned by
   pre are the new solution and right-hand side. *)
Record applier := mkApplier { ap_pre : list R -> list R -> list R * list R; ap_apply : list R -> list R -> list R; ap_post : list R -> list R }.
(* a solver: initial guess and right-hand side; the right-hand side is overwritten with what is left of it *)
(* Dune::InverseOperator, applier.hpp 45-77 *)
Definition solver := list R -> list R -> list R * list R.
(* 50-55, 63-66, 73-75 InverseApplier *)
Definition inverse_applier (s : solver) : applier := mkApplier (fun x b => (x, b)) (fun x b => fst (s x b)) (fun x => x).

(* ---- mortar_schur.hpp *)
(* 52-64 MortarBlockEvaluator::applyscaleadd; init is what the fresh vector temp of line 56 holds *)
Definition block_scaleadd (op : applier) (B : smat) (init : list R) (alpha : R) (x y : list R) : res (list R) :=
  let* temp1 := mv B x (zrepeat 0%R (sm_n B)) in
  let '(_, temp1) := ap_pre op init temp1 in
  let '(temp, temp1) := ap_pre op (zrepeat 0%R (sm_n B)) temp1 in
  let temp := ap_apply op temp temp1 in
  let temp := ap_post op temp in
  usmtv alpha B temp y.
(* 42-46 MortarBlockEvaluator::apply *)
Definition block_apply (op : applier) (B : smat) (init : list R) (x y : list R) : res (list R) :=
  block_scaleadd op B init 1 x (zrepeat 0%R (zlen y)).

(* ---- uzawa_solver.hpp 57-77 UzawaSolver::apply *)
Definition uzawa (inner outer : solver) (B : smat) (x b : list R) : res (list R) :=
  let* u := vextract b (sm_n B) 0 in
  let '(u2, u) := inner (zrepeat 0%R (zlen u)) u in
  let* lambda := mtv B u2 (zrepeat 0%R (sm_m B)) in
  let '(lambda2, lambda) := outer (zrepeat 0%R (zlen lambda)) lambda in
  let* u := vextract b (sm_n B) 0 in
  let* u := usmv (-1) B lambda2 u in
  let '(u2, u) := inner (zrepeat 0%R (zlen u2)) u in
  let* x := vinject x u2 (sm_n B) 0 in
  vinject x lambda2 (sm_m B) (sm_n B).

(* ---- mortar_schur_precond.hpp *)
(* 71-93 MortarSchurPre::apply; lsolve is the LU solver of the multiplier block, apre the displacement
   preconditioner, init2 what the resized vector temp2 of line 79 holds *)
Definition schur_apply (apre : list R -> list R -> list R) (lsolve : solver) (B : smat) (symmetric : bool) (init2 : list R)
    (v d : list R) : res (list R) :=
  let* temp := vextract d (sm_m B) (sm_n B) in
  let '(temp2, _) := lsolve init2 temp in
  let* v := vinject v temp2 (sm_m B) (sm_n B) in
  let* temp := vextract d (sm_n B) 0 in
  let* temp := if symmetric then Ok temp else usmv (-1) B temp2 temp in
  vinject v (apre (zrepeat 0%R (sm_n B)) temp) (sm_n B) 0.
(* 57-66 MortarSchurPre::pre *)
Definition schur_pre (pre : list R -> list R -> list R * list R) (B : smat) (x b : list R) : res (list R * list R) :=
  let* tx := vextract x (sm_n B) 0 in
  let* tb := vextract b (sm_n B) 0 in
  let '(tx, tb) := pre tx tb in
  let* x := vinject x tx (sm_n B) 0 in
  let* b := vinject b tb (sm_n B) 0 in Ok (x, b).

(* ---- elasticity_upscale_impl.hpp *)
(* 891-905 applyMortarBlock: column i of the dense matrix T (B.M() by B.M(), stored by columns here). Both
   vectors have the length of the displacement block. *)
Definition mortar_column (op : applier) (B : smat) (init : list R) (i : Z) : res (list R) :=
  let* v := rset (zrepeat 0%R (sm_n B)) i 1%R in
  let* v2 := block_apply op B init v (zrepeat 0%R (sm_n B)) in
  mapM (fun j => rget v2 j) (zrange 0 (sm_m B)).
(* 971-979 the columns, in the order the chunks are worked on *)
Definition mortar_columns (op : applier) (B : smat) (init : list R) (order : list Z) (T : list (list R)) : res (list (list R)) :=
  foldM (fun T i => let* c := mortar_column op B init i in rset T i c) order T.
(* 984-996 the diagonal of the simple preconditioner, in double arithmetic with a finite intermediate quotient *)
Definition simple_diag (A : smat) (row : Z) : res R :=
  let* r := rget (sm_rows A) row in
  let alpha := racc (fun e => if fst e =? row then 0%R else Rabs (snd e)) r in
  let* d := sm_at A row row in
  let* q := mdiv d alpha in mdiv 1 q.

(* ---- logutils.hpp *)
(* 27-42 LoggerHelper: the group offsets *)
Definition log_sizes (max chunks : Z) : res (list Z) :=
  foldM (fun s i => let* v := rget s i in rset s i (v + 1)) (zrange (chunks - Z.rem max chunks) chunks) (zrepeat (Z.quot max chunks) chunks).
(* 27-42 *)
Definition log_groups (max chunks : Z) : res (list Z) :=
  let* sizes := log_sizes max chunks in
  let* g := vresize chunks 0 in
  let* g := rset g 0 0 in
  let* g := foldM (fun g i => let* p := rget g (i - 1) in let* s := rget sizes (i - 1) in rset g i (p + s)) (zrange 1 chunks) g in
  Ok (g ++ [max]).
(* 46-49 group *)
Definition log_group (g : list Z) (i : Z) : res (Z * Z) :=
  let* a := rget g i in let* b := rget g (i + 1) in Ok (a, b).
