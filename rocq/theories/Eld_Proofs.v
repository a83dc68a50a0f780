(* Parameters, coordinates and solvers of the elasticity program. *)
From Coq Require Import Lra Lia.
From Verif Require Import BaseFacts RBaseFacts Smat_Proofs Mort_Proofs2 Eld_Spec.
From Verif Require Mpi_Model.
Open Scope Z_scope.

(* ---- parameters *)
Lemma lin_defaults : parse_lin (mkLinIn None None None None None None None None None None None None None None) =
  mkLin true 1000 (1 / 100000000) 10000 2 2 5000 true false PreUndetermined MSchur false 2 Ssor.
Proof. reflexivity. Qed.
Lemma lin_given p : let l := parse_lin p in
  (forall z, li_restart p = Some z -> ln_restart l = z) /\ (forall x, li_tol p = Some x -> ln_tol l = x) /\ (forall z, li_maxit p = Some z -> ln_maxit l = z) /\
  (forall z, li_pre_steps p = Some z -> ln_pre_steps l = z) /\ (forall z, li_coarsen p = Some z -> ln_coarsen l = z) /\ (forall b, li_symmetric p = Some b -> ln_symmetric l = b) /\
  (forall b, li_report p = Some b -> ln_report l = b) /\ (forall b, li_uzawa p = Some b -> ln_uzawa l = b) /\ (forall z, li_zcells p = Some z -> ln_zcells l = z).
Proof. cbn. repeat split; intros z ->; reflexivity. Qed.
Lemma lin_steps p : let l := parse_lin p in
  (ln_symmetric l = true -> ln_post_steps l = ln_pre_steps l) /\
  (ln_symmetric l = false -> forall z, li_post_steps p = Some z -> ln_post_steps l = z).
Proof. cbn. split; [intros ->; reflexivity|intros -> z ->; reflexivity]. Qed.
Ltac words := repeat match goal with |- context [String.eqb ?s ?w] => destruct (String.eqb_spec s w); [subst|] end.
Lemma lin_type p : ln_iterative (parse_lin p) = true <-> says (li_type p) "iterative" "iterative".
Proof.
  cbn. unfold pdef, says. destruct (li_type p) as [w|].
  - destruct (String.eqb_spec w "iterative"); split; [subst; auto|reflexivity|discriminate|]. intros [E|[E _]]; [injection E as ->; contradiction|discriminate].
  - split; [auto|reflexivity].
Qed.
Lemma lin_pre p : let l := parse_lin p in
  (ln_pre l = PreSchwarz <-> says (li_pre p) "" "schwarz") /\ (ln_pre l = PreFast <-> says (li_pre p) "" "fastamg") /\
  (ln_pre l = PreTwoLevel <-> says (li_pre p) "" "twolevel") /\ (ln_pre l = PreUndetermined <-> says (li_pre p) "" "" \/ says (li_pre p) "" "heuristic").
Proof.
  cbn. unfold pdef, says. destruct (li_pre p) as [w|].
  - unfold pre_of. destruct (String.eqb_spec w "") as [->|N0]; cbn [String.eqb Ascii.eqb Bool.eqb].
    + repeat split; try discriminate; intros; intuition discriminate.
    + destruct (String.eqb_spec w "schwarz") as [->|N1]; [repeat split; try discriminate; intros; intuition discriminate|].
      destruct (String.eqb_spec w "fastamg") as [->|N2]; [repeat split; try discriminate; intros; intuition discriminate|].
      destruct (String.eqb_spec w "twolevel") as [->|N3]; [repeat split; try discriminate; intros; intuition discriminate|].
      destruct (String.eqb_spec w "heuristic") as [->|N4]; repeat split; try discriminate; intros; intuition congruence.
  - cbn. repeat split; try discriminate; intros; intuition discriminate.
Qed.
Lemma lin_mortarpre p : let l := parse_lin p in
  (ln_mortarpre l = MSimple <-> says (li_mortarpre p) "schur" "simple") /\ (ln_mortarpre l = MSchurAmg <-> says (li_mortarpre p) "schur" "amg") /\
  (ln_mortarpre l = MSchurSchwarz <-> says (li_mortarpre p) "schur" "schwarz") /\ (ln_mortarpre l = MSchurTwoLevel <-> says (li_mortarpre p) "schur" "twolevel").
Proof.
  cbn. unfold pdef, says. destruct (li_mortarpre p) as [w|].
  - unfold mpre_of. destruct (String.eqb_spec w "simple") as [->|N1]; [repeat split; try discriminate; intros; intuition discriminate|].
      destruct (String.eqb_spec w "amg") as [->|N2]; [repeat split; try discriminate; intros; intuition discriminate|].
      destruct (String.eqb_spec w "schwarz") as [->|N3]; [repeat split; try discriminate; intros; intuition discriminate|].
      destruct (String.eqb_spec w "twolevel") as [->|N4]; repeat split; try discriminate; intros; intuition congruence.
  - cbn. repeat split; try discriminate; intros; intuition discriminate.
Qed.
Lemma lin_smoother p : let l := parse_lin p in
  (ln_smoother l = SmSchwarz <-> says (li_smoother p) "ssor" "schwarz") /\ (ln_smoother l = SmIlu <-> says (li_smoother p) "ssor" "ilu") /\
  (ln_smoother l = SmJacobi <-> says (li_smoother p) "ssor" "jacobi").
Proof.
  cbn. unfold pdef, says. destruct (li_smoother p) as [w|].
  - unfold smoother_of. destruct (String.eqb_spec w "schwarz") as [->|N1]; [repeat split; try discriminate; intros; intuition discriminate|].
      destruct (String.eqb_spec w "ilu") as [->|N2]; [repeat split; try discriminate; intros; intuition discriminate|].
      destruct (String.eqb_spec w "jacobi") as [->|N3]; repeat split; try discriminate; intros; intuition congruence.
  - cbn. repeat split; try discriminate; intros; intuition discriminate.
Qed.
Lemma method_ok s m : method_of s = Some m <-> s = spelled m.
Proof.
  unfold method_of, spelled. destruct (String.eqb_spec s "none") as [->|N1]; [destruct m; cbn; split; congruence|].
  destruct (String.eqb_spec s "mortar") as [->|N2]; [destruct m; cbn; split; congruence|].
  destruct (String.eqb_spec s "mpc") as [->|N3]; destruct m; split; congruence.
Qed.
Lemma method_missing : method_of "MPC" = None /\ method_of "Mortar" = None.
Proof. split; reflexivity. Qed.

(* ---- the name of the output *)
Lemma prefix_app pat s : String.prefix pat s = true <-> exists b, s = (pat ++ b)%string.
Proof.
  revert s. induction pat as [|c pat IH]; intros s.
  - cbn. split; [intros _; now exists s|]. intros _. destruct s; reflexivity.
  - destruct s as [|d s]; cbn [String.prefix String.append]; [split; [discriminate|intros (b & E); discriminate]|].
    destruct (Ascii.ascii_dec c d) as [->|N].
    + rewrite IH. split; intros (b & E); exists b; [now rewrite E|now injection E].
    + split; [discriminate|]. intros (b & E). injection E as E _. congruence.
Qed.
Lemma sub_zero s : substring 0 0 s = EmptyString.
Proof. destruct s; reflexivity. Qed.
Lemma sub_rest pat b : substring (String.length pat) (String.length (pat ++ b) - String.length pat) (pat ++ b) = b.
Proof.
  induction pat as [|d pat IHp]; cbn [String.append String.length Nat.sub]; [|exact IHp]. rewrite Nat.sub_0_r.
  induction b as [|d b IHb]; [reflexivity|]. cbn. f_equal. exact IHb.
Qed.
Lemma find_found pat s : forall i, find_str pat s = Some i -> s = (substring 0 i s ++ pat ++ substring (i + String.length pat) (String.length s - (i + String.length pat)) s)%string /\
  forall a, occurs_after a pat s -> (i <= String.length a)%nat.
Proof.
  induction s as [|c s IH]; intros i E; cbn [find_str] in E.
  - destruct (String.prefix pat "") eqn:P; [|discriminate]. injection E as <-. split; [|intros; lia].
    apply prefix_app in P as (b & Eb). destruct pat; [reflexivity|discriminate].
  - destruct (String.prefix pat (String c s)) eqn:P.
    + injection E as <-. split; [|intros; lia]. apply prefix_app in P as (b & Eb). rewrite Eb, sub_zero. cbn [String.append Nat.add]. now rewrite sub_rest.
    + destruct (find_str pat s) as [j|] eqn:F; [|discriminate]. injection E as <-. destruct (IH j eq_refl) as [E1 E2]. split.
      * cbn [substring String.append String.length Nat.add Nat.sub]. f_equal. exact E1.
      * intros a (b & Eb). destruct a as [|d a]; cbn [String.append] in Eb.
        -- assert (String.prefix pat (String c s) = true) by (apply prefix_app; now exists b). congruence.
        -- injection Eb as -> Eb. cbn [String.length]. apply le_n_S, E2. now exists b.
Qed.
Lemma find_missing pat s : find_str pat s = None -> forall a, ~ occurs_after a pat s.
Proof.
  induction s as [|c s IH]; intros E a (b & Eb); cbn [find_str] in E.
  - destruct (String.prefix pat "") eqn:P; [discriminate|]. destruct a; [|discriminate].
    assert (String.prefix pat "" = true) by (apply prefix_app; now exists b). congruence.
  - destruct (String.prefix pat (String c s)) eqn:P; [discriminate|]. destruct (find_str pat s) as [j|]; [discriminate|].
    destruct a as [|d a]; cbn [String.append] in Eb.
    + assert (String.prefix pat (String c s) = true) by (apply prefix_app; now exists b). congruence.
    + injection Eb as -> Eb. apply (IH eq_refl a). now exists b.
Qed.
Lemma substring_len s : forall i, (i <= String.length s)%nat -> String.length (substring 0 i s) = i.
Proof. induction s as [|c s IH]; intros [|i] H; cbn in *; try reflexivity; [lia|]. f_equal. apply IH. lia. Qed.
Lemma find_range pat s i : find_str pat s = Some i -> (i <= String.length s)%nat.
Proof.
  revert i. induction s as [|c s IH]; intros i; cbn [find_str]; destruct (String.prefix _ _); try (intros E; injection E as <-; lia); [discriminate|].
  destruct (find_str pat s) as [j|]; [|discriminate]. intros E. injection E as <-. cbn. specialize (IH j eq_refl). lia.
Qed.
Lemma vtu_ok s : ((forall a, ~ occurs_after a ".vtu" s) -> vtu_name s = s) /\
  ((exists a, occurs_after a ".vtu" s) -> occurs_after (vtu_name s) ".vtu" s /\ forall a, occurs_after a ".vtu" s -> (String.length (vtu_name s) <= String.length a)%nat).
Proof.
  unfold vtu_name. destruct (find_str ".vtu" s) as [i|] eqn:E.
  - destruct (find_found _ _ _ E) as [E1 E2]. split.
    + intros N. exfalso. eapply N. eexists. exact E1.
    + intros _. split; [eexists; exact E1|]. intros a Ha. rewrite substring_len by (eapply find_range; exact E). apply E2. exact Ha.
  - pose proof (find_missing _ _ E) as H. split; [reflexivity|]. intros (a & Ha). exfalso. exact (H a Ha).
Qed.

(* ---- coordinates *)
Lemma coordinate_int o : exists z, coordinate o = IZR z /\ (o = None -> z = -1) /\ (forall v, o = Some v -> z = v).
Proof. exists (pdef o (-1)). split; [reflexivity|]. split; [intros ->; reflexivity|intros v ->; reflexivity]. Qed.
Lemma box_ok x0 y0 z0 x1 y1 z1 found : box_used [x0; y0; z0] [x1; y1; z1] found = Ok (if Rltb x1 0 || Rltb x0 0 then found else ([x0; y0; z0], [x1; y1; z1])).
Proof. unfold box_used. cbn. destruct (_ || _); reflexivity. Qed.
Lemma box_incomplete ox0 ox1 found : 0 <= ox0 -> 0 <= ox1 -> box_used [coordinate (Some ox0); coordinate None; coordinate None] [coordinate (Some ox1); coordinate None; coordinate None] found =
  Ok ([IZR ox0; (-1)%R; (-1)%R], [IZR ox1; (-1)%R; (-1)%R]).
Proof.
  intros H0 H1. rewrite box_ok. unfold coordinate, pdef. replace (Rltb (IZR ox1) 0) with false; [replace (Rltb (IZR ox0) 0) with false; [reflexivity|]|];
    symmetry; apply Rltb_false; apply IZR_le; assumption.
Qed.
Lemma cell_size_ok o cells h : cell_size (coordinate o) cells = Ok h -> (forall v, o = Some v -> -1 < v -> (IZR cells * h = IZR v)%R) /\ ((o = None \/ exists v, o = Some v /\ v <= -1) -> h = 1%R).
Proof.
  unfold cell_size, mdiv, fdiv, coordinate. destruct (Rltb (-1) _) eqn:E.
  - apply Rltb_true in E. destruct (Req_EM_T (IZR cells) 0) as [Q|Q]; [discriminate|]. intros H. injection H as <-. split.
    + intros v -> _. cbn. field. exact Q.
    + intros [->|(v & -> & Hv)]; cbn in E; [lra|]. apply IZR_le in Hv. lra.
  - apply Rltb_false in E. intros H. injection H as <-. split; [|reflexivity]. intros v -> Hv. cbn in E. apply IZR_lt in Hv. lra.
Qed.
Lemma cell_size_uniform o cells : 0 < cells -> exists h, cell_size (coordinate o) cells = Ok h.
Proof.
  intros H. unfold cell_size, mdiv, fdiv. destruct (Rltb _ _); [|now eexists]. destruct (Req_EM_T (IZR cells) 0) as [Q|Q]; [|now eexists].
  apply IZR_lt in H. lra.
Qed.
Lemma mdiv_ok x y : y <> 0%R -> mdiv x y = Ok (x / y)%R.
Proof. intros H. unfold mdiv, fdiv. destruct (Req_EM_T y 0); [contradiction|reflexivity]. Qed.
Lemma IZR_pos z : 0 < z -> (0 < IZR z)%R.
Proof. intros H. apply IZR_lt in H. exact H. Qed.
Lemma trunc_close x : (0 <= x)%R -> (IZR (Mpi_Model.ctrunc x) <= x < IZR (Mpi_Model.ctrunc x) + 1)%R.
Proof.
  intros H. unfold Mpi_Model.ctrunc. replace (Rltb x 0) with false by (symmetry; apply Rltb_false; exact H). destruct (base_Int_part x). lra.
Qed.
Lemma zcells_ok z mn mx dims x0 y0 z0 x1 y1 z1 nx ny nz : boxed mn mx dims x0 y0 z0 x1 y1 z1 nx ny nz ->
  exists r, zcells_used z mn mx dims = Ok r /\ (z <> -1 -> r = z) /\
    (z = -1 -> let q := (2 * (sqrt ((x1 - x0) * (y1 - y0)) / IZR (Z.max nx ny)) / ((z1 - z0) / IZR nz))%R in 0 <= r /\ (IZR r - 1 / 2 <= q < IZR r + 1 / 2)%R).
Proof.
  intros (-> & -> & -> & Hx & Hy & Hz & Nx & Ny & Nz). unfold zcells_used. destruct (Z.eqb_spec z (-1)) as [->|N]; [|exists z; repeat split; tauto].
  cbn [rget zget Z.ltb Z.compare Z.to_nat Pos.to_nat Pos.iter_op nth_error Nat.add bind].
  change (rget [x1; y1; z1] 2) with (Ok z1). change (rget [x0; y0; z0] 2) with (Ok z0). change (rget [nx; ny; nz] 2) with (Ok nz). cbn [bind].
  pose proof (IZR_pos _ Nz) as Pz. assert (0 < IZR (Z.max nx ny))%R as Pm by (apply IZR_pos; lia).
  rewrite mdiv_ok by lra. cbn [bind]. change (rget [x1; y1; z1] 0) with (Ok x1). change (rget [x0; y0; z0] 0) with (Ok x0). change (rget [x1; y1; z1] 1) with (Ok y1). change (rget [x0; y0; z0] 1) with (Ok y0).
  change (rget [nx; ny; nz] 0) with (Ok nx). change (rget [nx; ny; nz] 1) with (Ok ny). cbn [bind]. rewrite mdiv_ok by lra. cbn [bind].
  assert (0 < (z1 - z0) / IZR nz)%R as Ph by (apply Rdiv_lt_0_compat; lra). rewrite mdiv_ok by lra. cbn [bind].
  set (q := (2 * (sqrt ((x1 - x0) * (y1 - y0)) / IZR (Z.max nx ny)) / ((z1 - z0) / IZR nz))%R).
  assert (0 <= q)%R as Pq.
  { unfold q. apply Rlt_le. apply Rdiv_lt_0_compat; [|exact Ph]. apply Rmult_lt_0_compat; [lra|]. apply Rdiv_lt_0_compat; [|exact Pm]. apply sqrt_lt_R0. apply Rmult_lt_0_compat; lra. }
  exists (Mpi_Model.ctrunc (q + 1 / 2)). split; [reflexivity|]. split; [congruence|]. intros _. pose proof (trunc_close (q + 1 / 2) ltac:(lra)). split; [|lra].
  assert (-1 < Mpi_Model.ctrunc (q + 1 / 2)); [|lia]. apply lt_IZR. lra.
Qed.
Lemma pre_used_ok p mn mx dims x0 y0 z0 x1 y1 z1 nx ny nz : boxed mn mx dims x0 y0 z0 x1 y1 z1 nx ny nz ->
  exists r, pre_used p mn mx dims = Ok r /\ (p <> PreUndetermined -> r = p) /\
    (p = PreUndetermined -> (r = PreTwoLevel /\ (80 * ((z1 - z0) / IZR nz) < sqrt ((x1 - x0) / IZR nx * ((y1 - y0) / IZR ny)))%R) \/
      (r = PreAmg /\ (sqrt ((x1 - x0) / IZR nx * ((y1 - y0) / IZR ny)) <= 80 * ((z1 - z0) / IZR nz))%R)).
Proof.
  intros (-> & -> & -> & Hx & Hy & Hz & Nx & Ny & Nz). destruct p; try (eexists; split; [reflexivity|]; split; [reflexivity|discriminate]).
  unfold pre_used. change (rget [x1; y1; z1] 0) with (Ok x1). change (rget [x1; y1; z1] 1) with (Ok y1). change (rget [x1; y1; z1] 2) with (Ok z1).
  change (rget [x0; y0; z0] 0) with (Ok x0). change (rget [x0; y0; z0] 1) with (Ok y0). change (rget [x0; y0; z0] 2) with (Ok z0).
  change (rget [nx; ny; nz] 0) with (Ok nx). change (rget [nx; ny; nz] 1) with (Ok ny). change (rget [nx; ny; nz] 2) with (Ok nz). cbn [bind].
  pose proof (IZR_pos _ Nx). pose proof (IZR_pos _ Ny). pose proof (IZR_pos _ Nz). rewrite !mdiv_ok by lra. cbn [bind].
  assert (0 < (z1 - z0) / IZR nz)%R as Ph by (apply Rdiv_lt_0_compat; lra). rewrite mdiv_ok by lra. cbn [bind]. eexists. split; [reflexivity|]. split; [congruence|]. intros _.
  set (h := ((z1 - z0) / IZR nz)%R) in *. set (w := sqrt _). assert (w = w / h * h)%R as Ew by (field; lra).
  destruct (Rltb 80 (w / h)) eqn:E; [apply Rltb_true in E|apply Rltb_false in E]; [left|right]; (split; [reflexivity|]); rewrite Ew; nra.
Qed.
Lemma class_undetermined p s r : p = PreUndetermined -> r = PreTwoLevel -> pc_main p s = TAmg s /\ pc_main r s = TTwoLevel s.
Proof. intros -> ->. split; reflexivity. Qed.
Lemma class_given p s : (pc_main p s = TFast <-> p = PreFast) /\ (pc_main p s = TSchwarz <-> p = PreSchwarz) /\ (pc_main p s = TTwoLevel s <-> p = PreTwoLevel) /\
  (pc_main p s = TAmg s <-> p = PreAmg \/ p = PreUndetermined).
Proof. destruct p; cbn; intuition discriminate. Qed.
