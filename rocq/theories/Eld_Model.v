(* Model of the program upscale_elasticity (examples/upscale_elasticity.cpp) and of the set-up of its linear
   solvers: opm/elasticity/elasticity_upscale.hpp (LinSolParams), elasticity_upscale_impl.hpp (setupSolvers, solve)
   and elasticity_preconditioners.hpp, elasticity_preconditioners.cpp.  Line numbers without a file name are those
   of elasticity_upscale_impl.hpp.  Parameters are given as what the parameter group finds (None: not given).
   The AMG and Schwarz methods, the Krylov solvers and the factorisations are represented by what they are made
   from. *)
From Verif Require Export Asm_Model Matx_Model Elast_Model.
From Verif Require Mpi_Model.
From Coq Require Export String Ascii Reals.
Open Scope string_scope.
Open Scope list_scope.
Open Scope Z_scope.

(* param.getDefault *)
(* elasticity_upscale.hpp:126-170; upscale_elasticity.cpp:152-190 *)
Definition pdef {A} (p : option A) (d : A) : A := match p with Some x => x | None => d end.

(* ------- linear solver parameters *)
(* elasticity_upscale.hpp:57-63 *)
Inductive pre_kind := PreAmg | PreFast | PreSchwarz | PreTwoLevel | PreUndetermined.
(* elasticity_upscale.hpp:66-72 *)
Inductive mpre_kind := MSimple | MSchur | MSchurAmg | MSchurSchwarz | MSchurTwoLevel.
(* elasticity_upscale.hpp:75-80 *)
Inductive smooth_kind := Ssor | SmSchwarz | SmJacobi | SmIlu.
(* the parameters as given *)
(* elasticity_upscale.hpp:126-170 *)
Record lin_in := mkLinIn {
  li_type : option string; li_restart : option Z; li_tol : option R; li_maxit : option Z; li_pre_steps : option Z; li_post_steps : option Z;
  li_coarsen : option Z; li_symmetric : option bool; li_report : option bool; li_pre : option string; li_mortarpre : option string;
  li_uzawa : option bool; li_zcells : option Z; li_smoother : option string }.
(* elasticity_upscale.hpp:82-120: LinSolParams *)
Record lin := mkLin {
  ln_iterative : bool; ln_restart : Z; ln_tol : R; ln_maxit : Z; ln_pre_steps : Z; ln_post_steps : Z;
  ln_coarsen : Z; ln_symmetric : bool; ln_report : bool; ln_pre : pre_kind; ln_mortarpre : mpre_kind;
  ln_uzawa : bool; ln_zcells : Z; ln_smoother : smooth_kind }.
(* elasticity_upscale.hpp:139-153 *)
Definition pre_of (s : string) : pre_kind :=
  let s := if String.eqb s "" then "heuristic" else s in
  if String.eqb s "schwarz" then PreSchwarz else if String.eqb s "fastamg" then PreFast
  else if String.eqb s "twolevel" then PreTwoLevel else if String.eqb s "heuristic" then PreUndetermined else PreAmg.
(* elasticity_upscale.hpp:155-165 *)
Definition mpre_of (s : string) : mpre_kind :=
  if String.eqb s "simple" then MSimple else if String.eqb s "amg" then MSchurAmg else if String.eqb s "schwarz" then MSchurSchwarz
  else if String.eqb s "twolevel" then MSchurTwoLevel else MSchur.
(* elasticity_upscale.hpp:170-181; the warning is left out *)
Definition smoother_of (s : string) : smooth_kind :=
  if String.eqb s "schwarz" then SmSchwarz else if String.eqb s "ilu" then SmIlu else if String.eqb s "jacobi" then SmJacobi else Ssor.
(* elasticity_upscale.hpp:124-185 LinSolParams::parse *)
Definition parse_lin (p : lin_in) : lin :=
  let symmetric := pdef (li_symmetric p) true in
  let s0 := pdef (li_pre_steps p) 2 in
  let s1 := pdef (li_post_steps p) 2 in
  mkLin (String.eqb (pdef (li_type p) "iterative") "iterative") (pdef (li_restart p) 1000) (pdef (li_tol p) (1 / 100000000)%R) (pdef (li_maxit p) 10000)
    s0 (if symmetric then s0 else s1) (pdef (li_coarsen p) 5000) symmetric (pdef (li_report p) false) (pre_of (pdef (li_pre p) ""))
    (mpre_of (pdef (li_mortarpre p) "schur")) (pdef (li_uzawa p) false) (pdef (li_zcells p) 2) (smoother_of (pdef (li_smoother p) "ssor")).

(* ------- parameters of the program *)
(* upscale_elasticity.cpp:89-93 *)
Inductive method := MNone | MMpc | MMortar.
(* upscale_elasticity.cpp:160-166: None: the member is not assigned *)
Definition method_of (s : string) : option method :=
  let m := None in
  let m := if String.eqb s "mpc" then Some MMpc else m in
  let m := if String.eqb s "mortar" then Some MMortar else m in
  if String.eqb s "none" then Some MNone else m.
(* std::string::find: the position of the first occurrence *)
(* upscale_elasticity.cpp:184 *)
Fixpoint find_str (pat s : string) : option nat :=
  if String.prefix pat s then Some O
  else match s with EmptyString => None | String _ t => option_map Datatypes.S (find_str pat t) end.
(* upscale_elasticity.cpp:183-185 *)
Definition vtu_name (s : string) : string := match find_str ".vtu" s with Some i => substring 0 i s | None => s end.

(* ------- grid and coordinates *)
(* upscale_elasticity.cpp:152-157: coordinates are read as integers, -1 if not given *)
Definition coordinate (o : option Z) : R := IZR (pdef o (-1)).
(* upscale_elasticity.cpp:291-294 cell sizes of the uniform grid *)
Definition cell_size (max : R) (cells : Z) : res R := if Rltb (-1) max then mdiv max (IZR cells) else Ok 1%R.
(* upscale_elasticity.cpp:305-310: the coordinates used; [found] is what findBoundaries finds *)
Definition box_used (mn mx : list R) (found : list R * list R) : res (list R * list R) :=
  let* x1 := rget mx 0 in let* x0 := rget mn 0 in
  if Rltb x1 0 || Rltb x0 0 then Ok found else Ok (mn, mx).
(* upscale_elasticity.cpp:315-324: cells to collapse in z; dims: the logical cartesian size *)
Definition zcells_used (z : Z) (mn mx : list R) (dims : list Z) : res Z :=
  if z =? -1 then
    let* z1 := rget mx 2 in let* z0 := rget mn 2 in let* n2 := rget dims 2 in
    let* hz := mdiv (z1 - z0) (IZR n2) in
    let* x1 := rget mx 0 in let* x0 := rget mn 0 in let* y1 := rget mx 1 in let* y0 := rget mn 1 in
    let* n0 := rget dims 0 in let* n1 := rget dims 1 in
    let* hp := mdiv (sqrt ((x1 - x0) * (y1 - y0))) (IZR (Z.max n0 n1)) in
    let* q := mdiv (2 * hp) hz in
    Ok (Mpi_Model.ctrunc (q + 1 / 2))
  else Ok z.
(* upscale_elasticity.cpp:333-346 *)
Definition pre_used (p : pre_kind) (mn mx : list R) (dims : list Z) : res pre_kind :=
  match p with
  | PreUndetermined =>
      let h := fun d => let* a := rget mx d in let* b := rget mn d in let* n := rget dims d in mdiv (a - b) (IZR n) in
      let* hx := h 0 in let* hy := h 1 in let* hz := h 2 in
      let* aspect := mdiv (sqrt (hx * hy)) hz in
      Ok (if Rltb 80 aspect then PreTwoLevel else PreAmg)
  | p => Ok p
  end.
(* the classes of preconditioners *)
(* elasticity_preconditioners.hpp:65-68, 97-107, 138-139, 159-171 *)
Inductive pc_type := TAmg (s : smooth_kind) | TFast | TSchwarz | TTwoLevel (s : smooth_kind).
(* upscale_elasticity.cpp:455-466 runAMG, 490-497: the class, by the parameter as parsed *)
Definition pc_main (pre : pre_kind) (s : smooth_kind) : pc_type :=
  match pre with PreFast => TFast | PreSchwarz => TSchwarz | PreTwoLevel => TTwoLevel s | _ => TAmg s end.

(* ------- set-up of the solvers *)
(* the value of copy after the set-up of a preconditioner *)
(* elasticity_preconditioners.hpp:132, 198; elasticity_preconditioners.cpp:33, 72 *)
Definition pc_copy (t : pc_type) : bool := match t with TSchwarz => false | _ => true end.
(* a preconditioner object: the primary one, a copy of it made for a thread or for a column of the multiplier
   block, one made for the multiplier block only or a copy of it for a column *)
(* 918-920, 942-972, 1021-1022, 1045-1046 *)
Inductive pc_obj := Primary | ThreadCopy (i : Z) | ColumnCopy (i : Z) | Own (t : pc_type) | OwnCopy (t : pc_type) (i : Z).
(* a solver and the preconditioner it was given *)
(* 1018, 1028-1041, 1047-1050, 1058-1061 *)
Inductive solver_obj := Cg (p : pc_obj) | Minres (p : pc_obj) | Gmres (p : pc_obj) | Uzawa (p : pc_obj) | Lu.
(* 935-941: the primary preconditioner serves for the multiplier block *)
Definition same_pre (m : mpre_kind) (p : pre_kind) : bool :=
  match m, p with
  | MSchur, _ | MSchurAmg, PreAmg | MSchurSchwarz, PreSchwarz | MSchurTwoLevel, PreTwoLevel => true
  | _, _ => false
  end.
(* 947-969: the class made for the multiplier block otherwise *)
Definition own_pre (m : mpre_kind) : pc_type :=
  match m with MSchurSchwarz => TSchwarz | MSchurTwoLevel => TTwoLevel Ssor | _ => TAmg Ssor end.
(* 932-976: the preconditioner applied for every column of the dense matrix, and copy afterwards; bm is B.M() *)
Definition column_pcs (l : lin) (main : pc_type) (bm : Z) : res (list pc_obj * bool) :=
  if bm <=? 0 then UB
  else if same_pre (ln_mortarpre l) (ln_pre l) then
    let copy := pc_copy main in
    Ok (map (fun i => if copy then (if i =? 0 then Primary else ColumnCopy i) else Primary) (zrange 0 bm), copy)
  else
    let t := own_pre (ln_mortarpre l) in
    let copy := pc_copy t in
    Ok (map (fun i => if copy then (if i =? 0 then Own t else OwnCopy t i) else Own t) (zrange 0 bm), copy).
(* the result of setupSolvers: solvers, preconditioners of the columns (none for the simple method), operator and
   size of the load vectors *)
(* 907-1071 *)
Record solvers := mkSolvers { so_list : list solver_obj; so_columns : list pc_obj; so_op : smat; so_size : Z }.
(* 1020-1024, 1044-1047: the preconditioner of thread i *)
Definition thread_pc (copy : bool) (i : Z) : pc_obj := if copy then (if i =? 0 then Primary else ThreadCopy i) else Primary.
(* 907-1071 setupSolvers; threads: omp_get_max_threads(); the column preconditioners of SIMPLE are the matrix of
   C97/C125.  Without multipliers B has no rows. *)
Definition setup_solvers (l : lin) (main : pc_type) (threads : Z) (A B : smat) : res solvers :=
  let siz := sm_n A in
  if ln_iterative l then
    let copy := pc_copy main in
    if negb (sm_n B =? 0) then
      let siz := siz + sm_m B in
      let* c := match ln_mortarpre l with MSimple => Ok ([], copy) | _ => column_pcs l main (sm_m B) end in
      let copy := snd c in
      let sl :=
        if ln_uzawa l then [Uzawa Primary]
        else if ln_symmetric l then map (fun i => Minres (thread_pc copy i)) (zrange 0 threads)
        else map (fun i => Gmres (thread_pc copy i)) (zrange 0 threads) in
      Ok (mkSolvers sl (fst c) A siz)
    else Ok (mkSolvers (map (fun i => Cg (thread_pc copy i)) (zrange 0 threads)) [] A siz)
  else
    let* op := if negb (sm_n B =? 0) then augment A B 0 (sm_m A) true else Ok A in
    Ok (mkSolvers (Lu :: map (fun _ => Lu) (zrange 1 threads)) [] op (sm_n op)).

(* ------- subdomains of the Schwarz method *)
(* insertion of an equation, if there is one *)
(* elasticity_preconditioners.cpp:60-66 *)
Definition sub_insert (rows : list (list Z)) (r e : Z) : res (list (list Z)) := if -1 <? e then adj_insert rows (r, e) else Ok rows.
(* elasticity_preconditioners.cpp:56-68: dof m of node idx *)
Definition sub_dof (M : mpcmap) (meqn : list Z) (r idx : Z) (rows : list (list Z)) (m : Z) : res (list (list Z)) :=
  match get_mpc 3 M idx m with
  | Some p => foldM (fun rows d => let* e := rget meqn (md_node d * 3 + m) in sub_insert rows r e) (mp_master p) rows
  | None => let* e := rget meqn (idx * 3 + m) in sub_insert rows r e
  end.
(* elasticity_preconditioners.cpp:41-70 Schwarz::setup2; a cell: its logical indices i, j and its nodes.  There is
   one subdomain for every column of cells (cps is 1) *)
Definition subdomains (nel1 nel2 : Z) (M : mpcmap) (meqn : list Z) (cells : list ((Z * Z) * list Z)) : res (list (list Z)) :=
  foldM (fun rows c =>
      foldM (fun rows n => let* idx := rget (snd c) n in
          foldM (sub_dof M meqn (fst (fst c) + nel1 * snd (fst c)) idx) (zrange 0 3) rows) (zrange 0 8) rows)
    cells (zrepeat [] (nel1 * nel2)).

(* ------- load cases *)
(* what a linear solver does: it returns a solution, throws an ISTLError leaving a vector behind, or throws
   something else *)
(* 1084-1089 *)
Inductive sresult := Solved (u : list R) | Istl (u : list R) | Other.
(* 1073-1090 solve: by thread t, with the load vector b *)
Definition solve (apply : solver_obj -> list R -> list R -> sresult) (sl : list solver_obj) (t : Z) (b : list R) : res (list R) :=
  let* s := rget sl t in
  match apply s (zrepeat 0%R (zlen b)) b with
  | Solved u => Ok u
  | Istl u => Ok u
  | Other => Throw
  end.
(* upscale_elasticity.cpp:375-378: threads that work on the load cases *)
Definition threads_used (l : lin) (threads : Z) : Z := if ln_uzawa l then 1 else threads.
(* upscale_elasticity.cpp:382-414 one load case: the solution is read ("results") or computed; [load] is the load
   vector, [stress] the average stress *)
Definition load_case (inspect : string) (stored : Z -> res (list R)) (load : Z -> res (list R)) (apply : solver_obj -> list R -> list R -> sresult)
    (sl : list solver_obj) (thread : Z -> Z) (stress : Z -> list R -> res (list R)) (i : Z) : res (list R) :=
  let* u := if String.eqb inspect "results" then stored i else (let* b := load i in solve apply sl (thread i) b) in
  let* v := stress i u in
  mapM (fun j => let* x := rget v j in Ok (clamp x)) (zrange 0 6).
(* upscale_elasticity.cpp:330-331, 381-414 the matrix before the exchange of rows and columns; None: inspect=mesh ends the
   program before *)
Definition run_cases (inspect : string) (stored : Z -> res (list R)) (load : Z -> res (list R)) (apply : solver_obj -> list R -> list R -> sresult)
    (sl : list solver_obj) (thread : Z -> Z) (stress : Z -> list R -> res (list R)) : res (option (list (list R))) :=
  if String.eqb inspect "mesh" then Ok None
  else let* C := mapM (load_case inspect stored load apply sl thread stress) (zrange 0 6) in Ok (Some C).
