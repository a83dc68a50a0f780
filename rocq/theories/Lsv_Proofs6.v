(* concrete runs meeting the hypotheses of the theorems *)
From Coq Require Import Permutation.
From Verif Require Import BaseFacts RBaseFacts Lin_Facts Steady_Proofs Hnum_Proofs Hnum_Proofs2 Bound_Spec Bound_Proofs Bound_Proofs2 Bound_Proofs3 Hyb_Proofs8 Hyb_Proofs9 Eld_Proofs2 Lsv_Spec Lsv_Proofs Lsv_Proofs2 Lsv_Proofs3 Lsv_Proofs4 Lsv_Proofs5.
Open Scope Z_scope.

(* an iterative solver that always reports success *)
Definition lazy_solver : krylov := fun _ _ _ b _ _ => (map (fun _ => 0%R) b, true).
Lemma lazy_len ty A M b x n : zlen (fst (lazy_solver ty A M b x n)) = zlen b.
Proof. cbn. apply zlen_map'. Qed.
Lemma lazy_ok ty A M b x n : snd (lazy_solver ty A M b x n) = true.
Proof. reflexivity. Qed.

Lemma run_snoc K ops : forall sv sv' log o, sv_run K sv ops = Some (sv', log) ->
  sv_run K sv (ops ++ [o]) = match sv_step K sv' o with Some (sv'', l) => Some (sv'', log ++ l) | None => None end.
Proof.
  induction ops as [|p ops IH]; intros sv sv' log o H; cbn [sv_run app] in *.
  - injection H as <- <-. destruct (sv_step K sv o) as [(s & l)|]; [rewrite app_nil_r|]; reflexivity.
  - destruct (sv_step K sv p) as [(s & l)|]; [|discriminate]. destruct (sv_run K s ops) as [(s2 & l2)|] eqn:E; [|discriminate]. injection H as <- <-. rewrite (IH _ _ _ o E). destruct (sv_step K s2 o) as [(s3 & l3)|]; [rewrite app_assoc|]; reflexivity.
Qed.

Definition ring_like (bc : hbc) (q : R) : Prop := hb_cond bc 1 = CPeriodic q /\ hb_cond bc 2 = CPeriodic (- q) /\ hb_partner bc 1 = 2 /\ hb_partner bc 2 = 1.
Lemma ring_like_periodic bc q : ring_like bc q -> periodic_ok row3 bc.
Proof.
  intros (C1 & C2 & P1 & P2). assert (forall k r d, periodic row3 bc k r d -> (k = 0 /\ r = 0 /\ d = q) \/ (k = 2 /\ r = 1 /\ d = (- q)%R)) as A.
  { intros k r d (H & E). destruct (row3_bdry _ _ _ _ H E) as [(-> & -> & Q)|(-> & -> & Q)]; [left|right]; repeat split; congruence. }
  split.
  - intros k r d k' r' d' X Y. destruct (A _ _ _ X) as [(-> & -> & _)|(-> & -> & _)], (A _ _ _ Y) as [(-> & -> & _)|(-> & -> & _)]; intros Q; vm_compute in Q; try discriminate; auto.
  - intros k r d X. destruct (A _ _ _ X) as [(-> & -> & ->)|(-> & -> & ->)].
    + exists 2, 1. split; [split; [apply row3_half'; auto|change (Some (hb_cond bc 2) = Some (CPeriodic (- q))); congruence]|]. split; [change (2 = hb_partner bc 1); auto|]. split; [change (hb_partner bc 2 = 1); exact P2|lia].
    + exists 0, 0. split; [split; [apply row3_half'; auto|change (Some (hb_cond bc 1) = Some (CPeriodic (- - q))); rewrite C1; do 2 f_equal; lra]|]. split; [change (1 = hb_partner bc 2); auto|]. split; [change (hb_partner bc 1 = 2); exact P1|lia].
Qed.
Lemma two_setup pdd b : 0 <= pdd < 3 -> exists b', setup_upscaling (fun l => l) Bound_Spec.two_faces 2 pdd 1 1 false b = Ok b' /\ ring_like (hbc_of b') (if pdd =? 0 then 1 else 0).
Proof.
  intros Hd. destruct two_partner as (l & areas & a & o & E & Ha & Ho & Ba & Bo & Pa & Po & UC & Ca & Co).
  destruct (periodic_setup (fun l => l) Bound_Spec.two_faces pdd 1%R 1%R false b (fun l => Permutation_refl l) Hd two_faces_ids) as [(_ & E')|(l' & areas' & b' & E' & Es & A & B)]; cbn [negb] in E'; rewrite E in E'; [discriminate|]. injection E' as <- <-.
  exists b'. split; [exact Es|]. destruct (A a Ha) as (_ & Fa & _). destruct (A o Ho) as (_ & Fo & _). destruct (B UC) as (Q & _). pose proof (Q a Ha) as Qa. pose proof (Q o Ho) as Qo. rewrite Ba, Bo, Pa, Po, Ca, Co in *.
  unfold ring_like, hbc_of. cbn [hb_cond hb_partner]. rewrite Fa, Fo, Qa, Qo. repeat split; unfold periodic_flow, fcond_of; cbn [andb Z.leb Z.compare]; assert (pdd = 0 \/ pdd = 1 \/ pdd = 2) as [-> | [-> | ->]] by lia; cbn; try reflexivity; f_equal; lra.
Qed.
Lemma two_problem pdd b b' : 0 <= pdd < 3 -> setup_upscaling (fun l => l) Bound_Spec.two_faces 2 pdd 1 1 false b = Ok b' -> problem row3 (hbc_of b') ex_ip (zrepeat 0%R (zlen row3)) /\ no_dirichlet row3 (hbc_of b').
Proof.
  intros Hd E. destruct (two_setup pdd b Hd) as (b2 & E2 & R). rewrite E2 in E. injection E as ->. split.
  - destruct (ex_problem (hbc_of b') (ring_like_periodic _ _ R)) as (A & B & C & D & _). split; [exact A|]. split; [exact B|]. split; [exact C|]. split; [exact D|]. reflexivity.
  - destruct R as (C1 & C2 & _). intros k r p H X. destruct (row3_bdry _ _ _ _ H X) as [(_ & _ & Q)|(_ & _ & Q)]; congruence.
Qed.
(* one solve of a run *)
Lemma lazy_step ops sv log bc st ty same : sv_run lazy_solver fresh ops = Some (sv, log) -> sv_grid sv = Some (row3, st) -> init_structure row3 bc = Ok st -> problem row3 bc ex_ip (zrepeat 0%R (zlen row3)) -> 0 <= ty <= 3 ->
  (ty = 0 \/ same = false \/ exists j b, zget log j = Some b /\ lc_type b = ty /\ forall m c', j < m -> zget log m = Some c' -> lc_type c' = 0) ->
  exists sv' lc, sv_solve lazy_solver sv (Lsv_Model.mkCall bc ex_ip (zrepeat 0%R (zlen row3)) ty same 0) = (sv', [lc], Ok tt) /\ lc_type lc = ty /\
  sv_grid sv' = Some (row3, st) /\ sv_run lazy_solver fresh (ops ++ [SSolve (Lsv_Model.mkCall bc ex_ip (zrepeat 0%R (zlen row3)) ty same 0)]) = Some (sv', log ++ [lc]).
Proof.
  intros HR Eg Ei P Ht Hu. destruct (disc_ex _ _ _ _ P) as (st' & s & d & D). pose proof D as (D1 & D2). rewrite Ei in D1. injection D1 as <-.
  destruct (solve_runs lazy_solver ops sv log HR row3 bc ex_ip _ P st s d D ex_spd ltac:(reflexivity) (Lsv_Model.mkCall bc ex_ip (zrepeat 0%R (zlen row3)) ty same 0) Eg ltac:(repeat split) Ht Hu lazy_len) as (sv' & lc & E & _). cbv zeta in E. rewrite lazy_ok in E.
  exists sv', lc. split; [exact E|]. destruct ((fun H => solve_call _ _ _ _ _ _ _ _ _ _ Eg H E) D2) as (s' & T & _). split; [exact T|]. destruct (solve_keeps _ _ _ _ _ E) as (G & _). split; [congruence|].
  rewrite (run_snoc _ _ _ _ _ _ HR). cbn [sv_step]. rewrite E. reflexivity.
Qed.
Lemma perm_runs ty : 1 <= ty <= 3 -> exists b' sv' log, perm_directions lazy_solver (fun l => l) row3 Bound_Spec.two_faces ex_ip 2 false ty 0 bcs_empty fresh = Ok (b', sv', log) /\ no_dirichlet row3 (hbc_of b').
Proof.
  intros Ht. destruct (two_setup 0 bcs_empty ltac:(lia)) as (b0 & S0 & _). destruct (two_setup 1 b0 ltac:(lia)) as (b1 & S1 & _). destruct (two_setup 2 b1 ltac:(lia)) as (b2 & S2' & _).
  destruct (two_problem 0 _ _ ltac:(lia) S0) as (P0 & _). destruct (two_problem 1 _ _ ltac:(lia) S1) as (P1 & _). destruct (two_problem 2 _ _ ltac:(lia) S2') as (P2 & N2).
  assert (K01 : same_kinds (hbc_of b0) (hbc_of b1)) by (apply rel_kinds; eapply (periodic_rel _ _ 0 1); eauto; lia). assert (K12 : same_kinds (hbc_of b1) (hbc_of b2)) by (apply rel_kinds; eapply (periodic_rel _ _ 1 2); eauto; lia).
  destruct (disc_ex _ _ _ _ P0) as (st & s & d & (I0 & _)). assert (I1 : init_structure row3 (hbc_of b1) = Ok st) by (rewrite <- (kinds_structure row3 _ _ K01); exact I0). assert (I2 : init_structure row3 (hbc_of b2) = Ok st) by (rewrite <- (kinds_structure row3 _ _ K12); exact I1).
  destruct (sv_init row3 (hbc_of b0) fresh) as [sv| |] eqn:Ev; [|exfalso; unfold sv_init in Ev; change (zlen row3 =? 0) with false in Ev; cbn iota in Ev; rewrite I0 in Ev; discriminate..].
  assert (G : sv_grid sv = Some (row3, st)) by (unfold sv_init in Ev; change (zlen row3 =? 0) with false in Ev; cbn iota in Ev; rewrite I0 in Ev; injection Ev as <-; reflexivity).
  assert (R : sv_run lazy_solver fresh [SInit row3 (hbc_of b0)] = Some (sv, [])) by (cbn [sv_run sv_step]; rewrite Ev; reflexivity).
  destruct (lazy_step _ _ _ _ _ ty false R G I0 P0 ltac:(lia) ltac:(auto)) as (v0 & c0 & A0 & T0 & G0 & R0).
  destruct (lazy_step _ _ _ _ _ ty true R0 G0 I1 P1 ltac:(lia)) as (v1 & c1 & A1 & T1 & G1 & R1).
  { right; right. exists 0, c0. split; [reflexivity|]. split; [exact T0|]. intros m c' Hm H. apply zget_Some_range in H. cbn in H. lia. }
  destruct (lazy_step _ _ _ _ _ ty true R1 G1 I2 P2 ltac:(lia)) as (v2 & c2 & A2 & T2 & G2 & R2).
  { right; right. exists 1, c1. split; [reflexivity|]. split; [exact T1|]. intros m c' Hm H. apply zget_Some_range in H. cbn in H. lia. }
  exists b2, v2, [c0; c1; c2]. split; [|exact N2]. unfold perm_directions. rewrite three. cbn [foldM perm_direction]. rewrite S0. cbn [bind Z.eqb]. rewrite Ev. cbn [bind]. cbn [negb andb]. rewrite A0. cbn [bind foldM perm_direction]. rewrite S1. cbn [bind Z.eqb negb andb]. rewrite A1. cbn [bind foldM perm_direction]. rewrite S2'. cbn [bind Z.eqb negb andb]. rewrite A2. reflexivity.
Qed.
Lemma perm_case ty : 1 <= ty <= 3 -> unique_ids Bound_Spec.two_faces /\ 0 < zlen row3 /\
  (forall pdd b b', 0 <= pdd < 3 -> setup_upscaling (fun l => l) Bound_Spec.two_faces 2 pdd 1 1 false b = Ok b' -> problem row3 (hbc_of b') ex_ip (zrepeat 0%R (zlen row3))) /\
  exists b' sv' log, perm_directions lazy_solver (fun l => l) row3 Bound_Spec.two_faces ex_ip 2 false ty 0 bcs_empty fresh = Ok (b', sv', log) /\ no_dirichlet row3 (hbc_of b').
Proof. intros Ht. split; [exact two_faces_ids|]. split; [reflexivity|]. split; [intros pdd b b' Hd E; eapply two_problem; eassumption|apply perm_runs; exact Ht]. Qed.
(* a solve with each kind of solver, and one that reuses *)
Lemma solve_case ty : 1 <= ty <= 3 -> exists st sv0 sv1 sv2 c1 c2 s d, discretised row3 ends_bc ex_ip ex_src st s d /\ ip_spd row3 ex_ip /\ sv_grid sv0 = Some (row3, st) /\
  sv_run lazy_solver fresh [SInit row3 ends_bc] = Some (sv0, []) /\
  sv_solve lazy_solver sv0 (Lsv_Model.mkCall ends_bc ex_ip ex_src ty false 0) = (sv1, [c1], Ok tt) /\ sv_solve lazy_solver sv1 (Lsv_Model.mkCall ends_bc ex_ip ex_src ty true 0) = (sv2, [c2], Ok tt) /\
  sv_run lazy_solver fresh [SInit row3 ends_bc; SSolve (Lsv_Model.mkCall ends_bc ex_ip ex_src ty false 0); SSolve (Lsv_Model.mkCall ends_bc ex_ip ex_src ty true 0)] = Some (sv2, [c1; c2]) /\ lc_new c1 = true /\ lc_new c2 = false.
Proof.
  intros Ht. pose proof (ex_problem ends_bc ends_periodic) as P. destruct (disc_ex _ _ _ _ P) as (st & s & d & D). pose proof D as (D1 & D2).
  destruct (sv_init row3 ends_bc fresh) as [sv| |] eqn:Ev; [|exfalso; unfold sv_init in Ev; change (zlen row3 =? 0) with false in Ev; cbn iota in Ev; rewrite D1 in Ev; discriminate..].
  assert (G : sv_grid sv = Some (row3, st)) by (unfold sv_init in Ev; change (zlen row3 =? 0) with false in Ev; cbn iota in Ev; rewrite D1 in Ev; injection Ev as <-; reflexivity).
  assert (R : sv_run lazy_solver fresh [SInit row3 ends_bc] = Some (sv, [])) by (cbn [sv_run sv_step]; rewrite Ev; reflexivity).
  set (k1 := Lsv_Model.mkCall ends_bc ex_ip ex_src ty false 0). set (k2 := Lsv_Model.mkCall ends_bc ex_ip ex_src ty true 0).
  destruct (solve_runs lazy_solver _ sv _ R row3 ends_bc ex_ip _ P st s d D ex_spd ltac:(reflexivity) k1 G ltac:(repeat split) ltac:(cbn; lia) ltac:(cbn; auto) lazy_len) as (sv1 & c1 & E1 & _). cbv zeta in E1. rewrite lazy_ok in E1.
  destruct (solve_keeps _ _ _ _ _ E1) as (G1 & _). rewrite G in G1. destruct ((fun H => solve_call _ _ _ _ _ _ _ _ _ _ G H E1) D2) as (s1 & T1 & _ & _ & _ & N1 & _).
  assert (R1 : sv_run lazy_solver fresh ([SInit row3 ends_bc] ++ [SSolve k1]) = Some (sv1, [] ++ [c1])) by (rewrite (run_snoc _ _ _ _ _ _ R); cbn [sv_step]; rewrite E1; reflexivity).
  destruct (solve_runs lazy_solver _ sv1 _ R1 row3 ends_bc ex_ip _ P st s d D ex_spd ltac:(reflexivity) k2 G1 ltac:(repeat split) ltac:(cbn; lia)) with (2 := lazy_len) as (sv2 & c2 & E2 & _).
  { right; right. exists 0, c1. split; [reflexivity|]. split; [exact T1|]. intros m c' Hm H. apply zget_Some_range in H. cbn in H. lia. }
  cbv zeta in E2. rewrite lazy_ok in E2. destruct ((fun H => solve_call _ _ _ _ _ _ _ _ _ _ G1 H E2) D2) as (s2 & T2 & _ & _ & _ & N2 & _).
  exists st, sv, sv1, sv2, c1, c2, s, d. split; [exact D|]. split; [exact ex_spd|]. split; [exact G|]. split; [exact R|]. split; [exact E1|]. split; [exact E2|]. split.
  - change [SInit row3 ends_bc; SSolve k1; SSolve k2] with (([SInit row3 ends_bc] ++ [SSolve k1]) ++ [SSolve k2]). rewrite (run_snoc _ _ _ _ _ _ R1). cbn [sv_step]. rewrite E2. reflexivity.
  - cbn [sc_type sc_same k1 k2] in N1, N2. destruct (Z.eqb_spec ty 0); [lia|]. cbn in N1, N2. split; [apply N1|apply N2].
Qed.
Definition first_column (r : res hstruct) : option (list Z) := match r with Ok st => zget (hs_pat st) 2 | _ => None end.
(* initialising again does not drop the preconditioner *)
Lemma stale_preconditioner : exists K ops sv c1 c2, sv_run K fresh ops = Some (sv, [c1; c2]) /\
  ops = [SInit row3 ends_bc; SSolve (Lsv_Model.mkCall ends_bc ex_ip ex_src 1 false 0); SInit row3 ring_bc; SSolve (Lsv_Model.mkCall ring_bc ex_ip ex_src 1 true 0)] /\
  lc_prec c2 = lc_op c1 /\ lm_pat (lc_prec c2) <> lm_pat (lc_op c2).
Proof.
  destruct (solve_case 1 ltac:(lia)) as (st & sv0 & sv1 & sv2 & c1 & c2' & s & d & D & _ & G0 & R0 & E1 & _ & _ & N1 & _).
  set (k1 := Lsv_Model.mkCall ends_bc ex_ip ex_src 1 false 0) in *. set (k2 := Lsv_Model.mkCall ring_bc ex_ip ex_src 1 true 0).
  assert (R1 : sv_run lazy_solver fresh ([SInit row3 ends_bc] ++ [SSolve k1]) = Some (sv1, [] ++ [c1])) by (rewrite (run_snoc _ _ _ _ _ _ R0); cbn [sv_step]; rewrite E1; reflexivity).
  pose proof (ex_problem ring_bc ring_periodic) as P. destruct (disc_ex _ _ _ _ P) as (st' & s' & d' & D'). pose proof D' as (D1 & D2).
  destruct (sv_init row3 ring_bc sv1) as [sv3| |] eqn:Ev; [|exfalso; unfold sv_init in Ev; change (zlen row3 =? 0) with false in Ev; cbn iota in Ev; rewrite D1 in Ev; discriminate..].
  assert (G : sv_grid sv3 = Some (row3, st')) by (unfold sv_init in Ev; change (zlen row3 =? 0) with false in Ev; cbn iota in Ev; rewrite D1 in Ev; injection Ev as <-; reflexivity).
  assert (R3 : sv_run lazy_solver fresh (([SInit row3 ends_bc] ++ [SSolve k1]) ++ [SInit row3 ring_bc]) = Some (sv3, ([] ++ [c1]) ++ [])) by (rewrite (run_snoc _ _ _ _ _ _ R1); cbn [sv_step]; rewrite Ev; reflexivity).
  destruct ((fun H => solve_call _ _ _ _ _ _ _ _ _ _ G0 H E1) (proj2 D)) as (s1 & T1 & O1 & _ & _ & Q1 & _).
  destruct (solve_runs lazy_solver _ sv3 _ R3 row3 ring_bc ex_ip _ P st' s' d' D' ex_spd ltac:(reflexivity) k2 G ltac:(repeat split) ltac:(cbn; lia)) with (2 := lazy_len) as (sv4 & c2 & E2 & _).
  { right; right. exists 0, c1. split; [reflexivity|]. split; [exact T1|]. intros m c' Hm H. apply zget_Some_range in H. cbn in H. lia. }
  cbv zeta in E2. rewrite lazy_ok in E2. destruct ((fun H => solve_call _ _ _ _ _ _ _ _ _ _ G H E2) D2) as (s2 & T2 & O2 & _ & _ & N2 & _). cbn in N2. destruct N2 as (-> & N2).
  assert (R4 : sv_run lazy_solver fresh ((([SInit row3 ends_bc] ++ [SSolve k1]) ++ [SInit row3 ring_bc]) ++ [SSolve k2]) = Some (sv4, [c1; c2])) by (rewrite (run_snoc _ _ _ _ _ _ R3); cbn [sv_step]; rewrite E2; reflexivity).
  exists lazy_solver, ((([SInit row3 ends_bc] ++ [SSolve k1]) ++ [SInit row3 ring_bc]) ++ [SSolve k2]), sv4, c1, c2. split; [exact R4|]. split; [reflexivity|].
  assert (X : lc_prec c2 = lc_op c1).
  { destruct (reuse_history _ _ _ _ R4 1 c2 eq_refl) as (_ & _ & H). destruct (H ltac:(rewrite T2; cbn; lia)) as (j & b & Hj & Gj & Tb & Nb & Ob & _). assert (j = 0 \/ j = 1) as [-> | ->] by lia; [injection Gj as <-; congruence|]. injection Gj as <-. congruence. }
  split; [exact X|]. rewrite X, O1, O2. cbn [matrix_of lm_pat]. cbn in Q1. destruct Q1 as (Q1 & _). rewrite (proj1 (regularise_inv _ _ _ Q1)).
  destruct (pat_len _ _ _ _ _ _ _ (ex_problem ends_bc ends_periodic) D) as (_ & L1). destruct (pat_len _ _ _ _ _ _ _ P D') as (_ & L2).
  assert (B1 : first_column (init_structure row3 ends_bc) = Some [2; 0]) by (vm_compute; reflexivity). assert (B2 : first_column (init_structure row3 ring_bc) = Some [2; 0; 1; 3]) by (vm_compute; reflexivity).
  rewrite (proj1 D) in B1. rewrite D1 in B2. cbn [first_column] in B1, B2. intros Eq. rewrite (proj2 L1), (proj2 L2) in Eq. congruence.
Qed.
