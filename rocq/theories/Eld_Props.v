From Verif Require Import Eld_Proofs Eld_Proofs2 Eld_Spec.
Open Scope Z_scope.

(* C182: parameters of the elasticity program *)
Theorem C182_defaults : parse_lin (mkLinIn None None None None None None None None None None None None None None) =
  mkLin true 1000 (1 / 100000000) 10000 2 2 5000 true false PreUndetermined MSchur false 2 Ssor.
Proof. exact Eld_Proofs.lin_defaults. Qed.
Theorem C182_given : forall p, let l := parse_lin p in
  (forall z, li_restart p = Some z -> ln_restart l = z) /\ (forall x, li_tol p = Some x -> ln_tol l = x) /\ (forall z, li_maxit p = Some z -> ln_maxit l = z) /\
  (forall z, li_pre_steps p = Some z -> ln_pre_steps l = z) /\ (forall z, li_coarsen p = Some z -> ln_coarsen l = z) /\ (forall b, li_symmetric p = Some b -> ln_symmetric l = b) /\
  (forall b, li_report p = Some b -> ln_report l = b) /\ (forall b, li_uzawa p = Some b -> ln_uzawa l = b) /\ (forall z, li_zcells p = Some z -> ln_zcells l = z).
Proof. exact Eld_Proofs.lin_given. Qed.
Theorem C182_steps : forall p, let l := parse_lin p in
  (ln_symmetric l = true -> ln_post_steps l = ln_pre_steps l) /\
  (ln_symmetric l = false -> forall z, li_post_steps p = Some z -> ln_post_steps l = z).
Proof. exact Eld_Proofs.lin_steps. Qed.
Theorem C182_type : forall p, ln_iterative (parse_lin p) = true <-> says (li_type p) "iterative" "iterative".
Proof. exact Eld_Proofs.lin_type. Qed.
Theorem C182_pre : forall p, let l := parse_lin p in
  (ln_pre l = PreSchwarz <-> says (li_pre p) "" "schwarz") /\ (ln_pre l = PreFast <-> says (li_pre p) "" "fastamg") /\
  (ln_pre l = PreTwoLevel <-> says (li_pre p) "" "twolevel") /\ (ln_pre l = PreUndetermined <-> says (li_pre p) "" "" \/ says (li_pre p) "" "heuristic").
Proof. exact Eld_Proofs.lin_pre. Qed.
Theorem C182_mortarpre : forall p, let l := parse_lin p in
  (ln_mortarpre l = MSimple <-> says (li_mortarpre p) "schur" "simple") /\ (ln_mortarpre l = MSchurAmg <-> says (li_mortarpre p) "schur" "amg") /\
  (ln_mortarpre l = MSchurSchwarz <-> says (li_mortarpre p) "schur" "schwarz") /\ (ln_mortarpre l = MSchurTwoLevel <-> says (li_mortarpre p) "schur" "twolevel").
Proof. exact Eld_Proofs.lin_mortarpre. Qed.
Theorem C182_smoother : forall p, let l := parse_lin p in
  (ln_smoother l = SmSchwarz <-> says (li_smoother p) "ssor" "schwarz") /\ (ln_smoother l = SmIlu <-> says (li_smoother p) "ssor" "ilu") /\
  (ln_smoother l = SmJacobi <-> says (li_smoother p) "ssor" "jacobi").
Proof. exact Eld_Proofs.lin_smoother. Qed.
Theorem C182_method : forall s m, method_of s = Some m <-> s = spelled m.
Proof. exact Eld_Proofs.method_ok. Qed.
Theorem C182_method_refuted : method_of "MPC" = None /\ method_of "Mortar" = None.
Proof. exact Eld_Proofs.method_missing. Qed.
Theorem C182_vtu : forall s, ((forall a, ~ occurs_after a ".vtu" s) -> vtu_name s = s) /\
  ((exists a, occurs_after a ".vtu" s) -> occurs_after (vtu_name s) ".vtu" s /\ forall a, occurs_after a ".vtu" s -> (String.length (vtu_name s) <= String.length a)%nat).
Proof. exact Eld_Proofs.vtu_ok. Qed.

(* C183: coordinates, cells and preconditioner derived from the grid *)
Theorem C183_coordinates : forall o, exists z, coordinate o = IZR z /\ (o = None -> z = -1) /\ (forall v, o = Some v -> z = v).
Proof. exact Eld_Proofs.coordinate_int. Qed.
Theorem C183_box : forall x0 y0 z0 x1 y1 z1 found, box_used [x0; y0; z0] [x1; y1; z1] found = Ok (if Rltb x1 0 || Rltb x0 0 then found else ([x0; y0; z0], [x1; y1; z1])).
Proof. exact Eld_Proofs.box_ok. Qed.
Theorem C183_box_refuted : forall ox0 ox1 found, 0 <= ox0 -> 0 <= ox1 -> box_used [coordinate (Some ox0); coordinate None; coordinate None] [coordinate (Some ox1); coordinate None; coordinate None] found =
  Ok ([IZR ox0; (-1)%R; (-1)%R], [IZR ox1; (-1)%R; (-1)%R]).
Proof. exact Eld_Proofs.box_incomplete. Qed.
Theorem C183_cells : forall o cells h, cell_size (coordinate o) cells = Ok h -> (forall v, o = Some v -> -1 < v -> (IZR cells * h = IZR v)%R) /\ ((o = None \/ exists v, o = Some v /\ v <= -1) -> h = 1%R).
Proof. exact Eld_Proofs.cell_size_ok. Qed.
Theorem C183_cells_defined : forall o cells, 0 < cells -> exists h, cell_size (coordinate o) cells = Ok h.
Proof. exact Eld_Proofs.cell_size_uniform. Qed.
Theorem C183_zcells : forall z mn mx dims x0 y0 z0 x1 y1 z1 nx ny nz, boxed mn mx dims x0 y0 z0 x1 y1 z1 nx ny nz ->
  exists r, zcells_used z mn mx dims = Ok r /\ (z <> -1 -> r = z) /\
    (z = -1 -> let q := (2 * (sqrt ((x1 - x0) * (y1 - y0)) / IZR (Z.max nx ny)) / ((z1 - z0) / IZR nz))%R in 0 <= r /\ (IZR r - 1 / 2 <= q < IZR r + 1 / 2)%R).
Proof. exact Eld_Proofs.zcells_ok. Qed.
Theorem C183_heuristic : forall p mn mx dims x0 y0 z0 x1 y1 z1 nx ny nz, boxed mn mx dims x0 y0 z0 x1 y1 z1 nx ny nz ->
  exists r, pre_used p mn mx dims = Ok r /\ (p <> PreUndetermined -> r = p) /\
    (p = PreUndetermined -> (r = PreTwoLevel /\ (80 * ((z1 - z0) / IZR nz) < sqrt ((x1 - x0) / IZR nx * ((y1 - y0) / IZR ny)))%R) \/
      (r = PreAmg /\ (sqrt ((x1 - x0) / IZR nx * ((y1 - y0) / IZR ny)) <= 80 * ((z1 - z0) / IZR nz))%R)).
Proof. exact Eld_Proofs.pre_used_ok. Qed.
Theorem C183_class : forall p s, (pc_main p s = TFast <-> p = PreFast) /\ (pc_main p s = TSchwarz <-> p = PreSchwarz) /\ (pc_main p s = TTwoLevel s <-> p = PreTwoLevel) /\
  (pc_main p s = TAmg s <-> p = PreAmg \/ p = PreUndetermined).
Proof. exact Eld_Proofs.class_given. Qed.
Theorem C183_class_refuted : forall p s r, p = PreUndetermined -> r = PreTwoLevel -> pc_main p s = TAmg s /\ pc_main r s = TTwoLevel s.
Proof. exact Eld_Proofs.class_undetermined. Qed.

(* C184: set-up of the linear solvers *)
Theorem C184_size : forall l main t A B n m, system A B n m -> exists s, setup_solvers l main t A B = Ok s /\ so_size s = n + m.
Proof. exact Eld_Proofs2.setup_size. Qed.
Theorem C184_operator : forall l main t A B n m s, system A B n m -> setup_solvers l main t A B = Ok s ->
  (ln_iterative l = true -> so_op s = A) /\
  (ln_iterative l = false -> dims (so_op s) (n + m) (n + m) /\ forall i j, 0 <= i < n + m -> 0 <= j < n + m -> coef (so_op s) i j = saddle n (coef A) (coef B) i j).
Proof. exact Eld_Proofs2.setup_operator. Qed.
Theorem C184_threads : forall l main t A B n m s i, system A B n m -> setup_solvers l main t A B = Ok s -> 1 <= t -> 0 <= i < threads_used l t ->
  exists x, zget (so_list s) i = Some x /\
    (ln_iterative l = false -> x = Lu) /\
    (ln_iterative l = true -> m = 0 -> exists p, x = Cg p) /\
    (ln_iterative l = true -> 0 < m -> ln_uzawa l = true -> x = Uzawa Primary) /\
    (ln_iterative l = true -> 0 < m -> ln_uzawa l = false -> ln_symmetric l = true -> exists p, x = Minres p) /\
    (ln_iterative l = true -> 0 < m -> ln_uzawa l = false -> ln_symmetric l = false -> exists p, x = Gmres p).
Proof. exact Eld_Proofs2.setup_threads. Qed.
Theorem C184_shared : forall l main t A B n m s i j x y p, system A B n m -> setup_solvers l main t A B = Ok s -> ln_uzawa l = false -> 0 <= i < t -> 0 <= j < t -> i <> j ->
  zget (so_list s) i = Some x -> zget (so_list s) j = Some y -> pc_of x = Some p -> (pc_of y = Some p <-> last_schwarz l main m).
Proof. exact Eld_Proofs2.setup_shared. Qed.
Theorem C184_shared_refuted : exists l, ln_mortarpre l = MSchurSchwarz /\ ln_pre l = PreAmg /\
  forall A B n m t, system A B n m -> 0 < m -> 2 <= t -> exists s, setup_solvers l (pc_main PreAmg (ln_smoother l)) t A B = Ok s /\ pc_copy (pc_main PreAmg (ln_smoother l)) = true /\
    zget (so_list s) 0 = Some (Minres Primary) /\ zget (so_list s) 1 = Some (Minres Primary).
Proof. exact Eld_Proofs2.shared_refuted. Qed.
Theorem C184_columns : forall l main t A B n m s, system A B n m -> setup_solvers l main t A B = Ok s -> ln_iterative l = true -> 0 < m -> ln_mortarpre l <> MSimple ->
  zlen (so_columns s) = m /\ forall c p, zget (so_columns s) c = Some p -> class_of main p = if separate l m then own_pre (ln_mortarpre l) else main.
Proof. exact Eld_Proofs2.column_classes. Qed.
Theorem C184_columns_refuted : forall l t A B n m s sm, system A B n m -> 0 < m -> ln_iterative l = true -> ln_pre l = PreTwoLevel -> ln_mortarpre l = MSchurTwoLevel ->
  setup_solvers l (pc_main PreUndetermined sm) t A B = Ok s -> zlen (so_columns s) = m /\ forall c p, zget (so_columns s) c = Some p -> class_of (pc_main PreUndetermined sm) p = TAmg sm.
Proof. exact Eld_Proofs2.heuristic_refuted. Qed.
Theorem C184_undefined : forall l main t A B, ln_iterative l = true -> ln_mortarpre l <> MSimple -> sm_n B <> 0 -> sm_m B <= 0 -> setup_solvers l main t A B = UB.
Proof. exact Eld_Proofs2.no_multipliers_ub. Qed.

(* C185: subdomains of the Schwarz method *)
Theorem C185_subdomains : forall nodes cells M F fuel s nel1 nel2, grid_ok 3 nodes (map snd cells) M F -> wf_mpcs 3 M -> aligned 3 M -> columns_ok nel1 nel2 cells ->
  init_assembly fuel 3 nodes (map snd cells) M F = Some (Ok s) ->
  exists rows, subdomains nel1 nel2 (as_mpcs s) (as_meqn s) cells = Ok rows /\ zlen rows = nel1 * nel2 /\ (forall row, In row rows -> increasing row) /\
    (forall r e, in_sub rows r e <-> 0 <= e /\ exists c, In c cells /\ column nel1 c = r /\ touches (as_mpcs s) (as_meqn s) c e) /\
    (forall e f, stored (as_A s) e f -> exists r, in_sub rows r e /\ in_sub rows r f).
Proof. exact Eld_Proofs2.subdomains_ok. Qed.
Theorem C185_cover : forall nodes cells M F fuel s nel1 nel2 rows, grid_ok 3 nodes (map snd cells) M F -> wf_mpcs 3 M -> aligned 3 M -> columns_ok nel1 nel2 cells ->
  init_assembly fuel 3 nodes (map snd cells) M F = Some (Ok s) -> subdomains nel1 nel2 (as_mpcs s) (as_meqn s) cells = Ok rows ->
  (forall n, 0 <= n < nodes -> exists c, In c cells /\ In n (snd c)) -> forall e, 0 <= e < as_neq s -> exists r, 0 <= r < nel1 * nel2 /\ in_sub rows r e.
Proof. exact Eld_Proofs2.subdomains_cover. Qed.
Theorem C185_skew_refuted : wf_mpcs 3 skew_mpcs /\ columns_ok 1 1 [skew_cell] /\ touches skew_mpcs skew_eqn skew_cell 0 /\ subdomains 1 1 skew_mpcs skew_eqn [skew_cell] = Ok [[]].
Proof. exact Eld_Proofs2.skew_refuted. Qed.

(* C186: the load cases of the program *)
Theorem C186_rows : forall inspect stored load apply sl thread stress C, run_cases inspect stored load apply sl thread stress = Ok (Some C) ->
  inspect <> "mesh"%string /\ zlen C = 6 /\ forall i, 0 <= i < 6 -> exists row, zget C i = Some row /\ load_case inspect stored load apply sl thread stress i = Ok row.
Proof. exact Eld_Proofs2.cases_ok. Qed.
Theorem C186_row : forall inspect stored load apply sl thread stress i row, load_case inspect stored load apply sl thread stress i = Ok row ->
  exists u v, (inspect = "results"%string -> stored i = Ok u) /\ (inspect <> "results"%string -> exists b, load i = Ok b /\ solve apply sl (thread i) b = Ok u) /\
    stress i u = Ok v /\ zlen row = 6 /\ forall j, 0 <= j < 6 -> exists x, zget v j = Some x /\ zget row j = Some (clamp x).
Proof. exact Eld_Proofs2.case_ok. Qed.
Theorem C186_solved : forall inspect stored load apply sl thread stress i row (sys : list R -> list R -> Prop), inspect <> "results"%string ->
  (forall s z b u, apply s z b = Solved u -> sys b u) -> (forall s z b u, apply s z b <> Istl u) -> load_case inspect stored load apply sl thread stress i = Ok row ->
  exists b u v, load i = Ok b /\ sys b u /\ stress i u = Ok v /\ forall j, 0 <= j < 6 -> exists x, zget v j = Some x /\ zget row j = Some (clamp x).
Proof. exact Eld_Proofs2.case_solved. Qed.
Theorem C186_solver : forall l main t A B n m s apply i b, system A B n m -> setup_solvers l main t A B = Ok s -> 1 <= t -> 0 <= i < threads_used l t -> solve apply (so_list s) i b <> UB.
Proof. exact Eld_Proofs2.solve_defined. Qed.
Theorem C186_failure : forall apply sl t b s u, zget sl t = Some s -> apply s (zrepeat 0%R (zlen b)) b = Istl u -> solve apply sl t b = Ok u.
Proof. exact Eld_Proofs2.solve_failure. Qed.
Theorem C186_mesh : forall stored load apply sl thread stress, run_cases "mesh" stored load apply sl thread stress = Ok None.
Proof. exact Eld_Proofs2.cases_mesh. Qed.

Example C182_case : vtu_name "out.vtu" = "out"%string /\ vtu_name "a.vtu.vtu" = "a"%string /\ occurs_after "out" ".vtu" "out.vtu" /\ method_of "mpc" = Some MMpc.
Proof. repeat split. now exists ""%string. Qed.
Example C183_case : boxed [0; 0; 0]%R [1; 1; 1]%R [2; 2; 2] 0 0 0 1 1 1 2 2 2.
Proof. repeat split; lra || lia. Qed.
Definition C184_A : smat := mkSmat 1 1 [[(0, 2%R)]].
Definition C184_B : smat := mkSmat 1 1 [[(0, 1%R)]].
Example C184_case : system C184_A C184_B 1 1 /\ system C184_A (mkSmat 0 0 []) 1 0.
Proof.
  assert (forall x, wf_smat (mkSmat 1 1 [[(0, x)]])) as W.
  { intros x. unfold wf_smat. cbn [sm_n sm_m sm_rows]. split; [reflexivity|]. split; [lia|]. intros row [<-|[]]. split; [cbn; split; [intros y []|exact I]|]. intros e [<-|[]]. cbn. lia. }
  split; (split; [lia|]; split; [apply W|]; split; [split; reflexivity|]); [right|left; split; reflexivity].
  split; [|lia]. split; [apply W|]. split; [apply W|]. split; split; reflexivity.
Qed.
Definition C185_cells : list ((Z * Z) * list Z) := [((0, 0), [0; 1; 2; 3; 4; 5; 6; 7])].
Definition C185_mpcs : mpcmap := [(0, mkMpc (mkMdof 0 1 0) [mkMdof 1 1 1])].
Example C185_case : grid_ok 3 8 (map snd C185_cells) C185_mpcs [] /\ wf_mpcs 3 C185_mpcs /\ aligned 3 C185_mpcs /\ columns_ok 1 1 C185_cells /\
  (forall n, 0 <= n < 8 -> exists c, In c C185_cells /\ In n (snd c)).
Proof.
  assert (forall k p, mm_find C185_mpcs k = Some p -> k = 0 /\ p = mkMpc (mkMdof 0 1 0) [mkMdof 1 1 1]) as F.
  { intros k p E. cbn in E. destruct k; try discriminate. injection E as <-. split; reflexivity. }
  assert (forall k x c, couples 3 C185_mpcs k x c -> k = 0 /\ x = 3) as C.
  { intros k x c (p & m & E & Hm & <- & _). apply F in E as [-> ->]. destruct Hm as [<-|[]]. split; reflexivity. }
  split; [|split; [|split; [|split]]].
  - split; [lia|]. split; [lia|]. split; [intros v n [<-|[]] Hn; cbn in Hn; intuition lia|]. split; [intros k x c H; apply C in H; lia|]. split; [|discriminate].
    intros k H. unfold slaveof in H. destruct (mm_find C185_mpcs k) as [p|] eqn:E; [|congruence]. apply F in E as [-> _]. split; [lia|reflexivity].
  - split; [cbn; split; [intros y []|exact I]|]. intros k p E. apply F in E as [-> ->]. split; [reflexivity|]. intros m [<-|[]]. cbn. split; [lia|]. unfold mpc_tol. rewrite Rabs_R1, <- Rinv_1. apply Rinv_lt_contravar; lra.
  - intros k x c H. apply C in H as [-> ->]. reflexivity.
  - split; [lia|]. split; [lia|]. intros c [<-|[]]. cbn. repeat split; lia.
  - intros n Hn. exists ((0, 0), [0; 1; 2; 3; 4; 5; 6; 7]). split; [now left|]. cbn. lia.
Qed.
Example C185_value : exists s, init_assembly 5 3 8 (map snd C185_cells) C185_mpcs [] = Some (Ok s) /\ as_neq s = 23.
Proof.
  assert (Rltb mpc_tol (Rabs 1) = true) as T by (apply RBaseFacts.Rltb_true; unfold mpc_tol; rewrite Rabs_R1, <- Rinv_1; apply Rinv_lt_contravar; lra).
  destruct C185_case as (G & W & _). destruct (Asm_Proofs5.init_ok 3 8 (map snd C185_cells) C185_mpcs [] 5 (Ok C185_mpcs) G W) as (s & E & I).
  - unfold resolve_all. cbn [map fst fold_left C185_mpcs resolve mm_find Z.eqb mp_master zlen length Z.of_nat]. cbn [master_loop]. cbn. rewrite T. reflexivity.
  - exists s. split; [exact E|]. unfold init_assembly in E. assert (resolve_all 5 3 C185_mpcs = Some (Ok C185_mpcs)) as R by (unfold resolve_all; cbn; rewrite T; reflexivity). rewrite R in E. cbn [bind] in E.
    destruct (preprocess 3 8 C185_mpcs [] 0) as [[q n]| |] eqn:P; try discriminate. cbn in P. injection P as <- <-. cbn [bind] in E.
    destruct (adjacency _ _ _ _ _) as [adj| |]; try discriminate. cbn [bind fst snd] in E. destruct (from_adjacency _ _ _) as [A| |]; try discriminate. cbn [bind] in E. injection E as <-. reflexivity.
Qed.
Example C186_case : exists C, run_cases "" (fun _ => UB) (fun i => Ok [IZR i]) (fun _ _ b => Solved b) [Lu] (fun _ => 0) (fun _ u => Ok [1; 2; 3; 4; 5; 6]%R) = Ok (Some C) /\ zlen C = 6.
Proof. eexists. split; reflexivity. Qed.
Print Assumptions C182_defaults. Print Assumptions C182_given. Print Assumptions C182_steps. Print Assumptions C182_type. Print Assumptions C182_pre. Print Assumptions C182_mortarpre. Print Assumptions C182_smoother. Print Assumptions C182_method. Print Assumptions C182_method_refuted. Print Assumptions C182_vtu. Print Assumptions C183_coordinates. Print Assumptions C183_box. Print Assumptions C183_box_refuted. Print Assumptions C183_cells. Print Assumptions C183_cells_defined. Print Assumptions C183_zcells. Print Assumptions C183_heuristic. Print Assumptions C183_class. Print Assumptions C183_class_refuted. Print Assumptions C184_size. Print Assumptions C184_operator. Print Assumptions C184_threads. Print Assumptions C184_shared. Print Assumptions C184_shared_refuted. Print Assumptions C184_columns. Print Assumptions C184_columns_refuted. Print Assumptions C184_undefined. Print Assumptions C185_subdomains. Print Assumptions C185_cover. Print Assumptions C185_skew_refuted. Print Assumptions C186_rows. Print Assumptions C186_row. Print Assumptions C186_solved. Print Assumptions C186_solver. Print Assumptions C186_failure. Print Assumptions C186_mesh.
