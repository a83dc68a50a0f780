From Verif Require Import Sim_Proofs Sim_Proofs2 Sim_Spec.
Open Scope Z_scope.

(* C177: control parameters and initial saturation of a simulator *)
Theorem C177_control : forall p s, si_step (init_control p s) = (match sp_stepsize p with Some x => x | None => si_step s end * 86400)%R /\ si_steps (init_control p s) = match sp_steps p with Some n => n | None => si_steps s end.
Proof. exact Sim_Proofs.control_ok. Qed.
Theorem C177_repeated : forall n p, sp_stepsize p = None -> si_step (Nat.iter n (init_control p) sim_new) = (86400 ^ n)%R.
Proof. exact Sim_Proofs.step_repeated. Qed.
Theorem C177_uniform : forall p nc, (sp_from_file p = None \/ sp_from_file p = Some false) -> 0 <= nc -> exists l, init_saturation p nc = Ok l /\ zlen l = nc /\ forall i, 0 <= i < nc -> nthR l i = match sp_sat p with Some x => x | None => 0%R end.
Proof. exact Sim_Proofs.saturation_uniform. Qed.
Theorem C177_file : forall p nc l, sp_from_file p = Some true -> (init_saturation p nc = Ok l <-> exists f, sp_file p = Some (Some f) /\ zlen l = nc /\
  match sf_count f with Some n => n = nc /\ l = sf_values f | None => nc = 0 end).
Proof. exact Sim_Proofs.saturation_file. Qed.
Theorem C177_init : forall p cells s t s', sim_init p cells s = Ok (t, s') -> init_saturation p (zlen cells) = Ok (si_sat s') /\ si_steps s' = si_steps (init_control p s) /\ si_step s' = si_step (init_control p s) /\
  exists s0, si_psolver s0 = si_psolver s /\ flex_sources p cells s0 = Ok (t, s').
Proof. exact Sim_Proofs2.init_ok. Qed.

(* C178: sources in boxes *)
Theorem C178_rates : forall p cells s, usable (sp_inj p) -> usable (sp_prod p) -> cells_ok cells -> exists ti tp s', flex_sources p cells s = Ok ((ti, tp), s') /\
  (forall i c, zget cells i = Some c ->
     (in_block (sp_prod p) c -> nthR (si_psolver s') i = (- (density_of (sp_prod p) * sc_vol c))%R) /\
     (~ in_block (sp_prod p) c -> in_block (sp_inj p) c -> nthR (si_psolver s') i = (density_of (sp_inj p) * sc_vol c)%R) /\
     (~ in_block (sp_prod p) c -> ~ in_block (sp_inj p) c -> nthR (si_psolver s') i = nthR (si_psolver s) i)) /\
  (forall i c x y, zget cells i = Some c -> (in_block (sp_inj p) c -> x = density_of (sp_inj p) * sc_vol c)%R -> (~ in_block (sp_inj p) c -> x = 0%R) ->
     (in_block (sp_prod p) c -> y = density_of (sp_prod p) * sc_vol c)%R -> (~ in_block (sp_prod p) c -> y = 0%R) -> entry_sum (si_inj s') i = (x - y)%R) /\
  (forall f, (forall c, In c cells -> in_block (sp_inj p) c -> f c = density_of (sp_inj p) * sc_vol c)%R -> (forall c, In c cells -> ~ in_block (sp_inj p) c -> f c = 0%R) -> ti = Rsum (map f cells)) /\
  (forall f, (forall c, In c cells -> in_block (sp_prod p) c -> f c = density_of (sp_prod p) * sc_vol c)%R -> (forall c, In c cells -> ~ in_block (sp_prod p) c -> f c = 0%R) -> tp = (- Rsum (map f cells))%R).
Proof. exact Sim_Proofs.sources_ok. Qed.
Theorem C178_consistent : forall p cells s s' t, usable (sp_inj p) -> usable (sp_prod p) -> cells_ok cells -> si_psolver s = [] -> (forall c, In c cells -> in_block (sp_inj p) c -> ~ in_block (sp_prod p) c) ->
  flex_sources p cells s = Ok (t, s') -> forall i, 0 <= i < zlen cells -> entry_sum (si_inj s') i = nthR (si_psolver s') i.
Proof. exact Sim_Proofs.sources_consistent. Qed.
Theorem C178_order : forall p cells s s' t, usable (sp_inj p) -> usable (sp_prod p) -> cells_ok cells -> flex_sources p cells s = Ok (t, s') ->
  (in_order (si_inj s') <-> forall c c', In c cells -> In c' cells -> in_block (sp_inj p) c -> in_block (sp_prod p) c' -> sc_index c < sc_index c').
Proof. exact Sim_Proofs.sources_order. Qed.
Theorem C178_density : forall p cells s b, sp_inj p = Some b -> bl_density b = None -> flex_sources p cells s = Throw.
Proof. exact Sim_Proofs.density_missing. Qed.
Theorem C178_overlap_refuted : exists p cells t s', usable (sp_inj p) /\ usable (sp_prod p) /\ cells_ok cells /\ flex_sources p cells sim_new = Ok (t, s') /\ entry_sum (si_inj s') 0 <> nthR (si_psolver s') 0.
Proof. exact Sim_Proofs2.overlap_refuted. Qed.
Theorem C178_stale_refuted : exists p1 p2 cells t1 s1 t2 s2, usable (sp_inj p1) /\ usable (sp_inj p2) /\ sp_prod p1 = None /\ sp_prod p2 = None /\ cells_ok cells /\
  flex_sources p1 cells sim_new = Ok (t1, s1) /\ flex_sources p2 cells s1 = Ok (t2, s2) /\ entry_sum (si_inj s2) 0 = 0%R /\ nthR (si_psolver s2) 0 = 2%R.
Proof. exact Sim_Proofs2.stale_refuted. Qed.
Theorem C178_order_refuted : exists p cells t s', usable (sp_inj p) /\ usable (sp_prod p) /\ cells_ok cells /\ (forall c, In c cells -> in_block (sp_inj p) c -> ~ in_block (sp_prod p) c) /\ flex_sources p cells sim_new = Ok (t, s') /\ ~ in_order (si_inj s').
Proof. exact Sim_Proofs2.order_refuted. Qed.

(* C179: run of a simulator *)
Theorem C179_steps : forall {F} (flow : Z -> list R -> res F) transport s i o, (forall dt j sat f sat', transport dt j sat f = Ok sat' -> zlen sat' = zlen sat) -> zget (fst (sim_run flow transport s)) i = Some o ->
  exists f, flow i (before (si_sat s) (fst (sim_run flow transport s)) i) = Ok f /\ transport (si_step s) i (before (si_sat s) (fst (sim_run flow transport s)) i) f = Ok (fst o) /\
    is_max_change (snd o) (zlen (fst o)) (fst o) (before (si_sat s) (fst (sim_run flow transport s)) i).
Proof. exact @Sim_Proofs2.run_steps. Qed.
Theorem C179_finished : forall {F} (flow : Z -> list R -> res F) transport s out final, (forall dt j sat f sat', transport dt j sat f = Ok sat' -> zlen sat' = zlen sat) -> sim_run flow transport s = (out, Ok final) ->
  zlen out = Z.max 0 (si_steps s) /\ final = before (si_sat s) out (zlen out).
Proof. exact @Sim_Proofs2.run_end. Qed.
Theorem C179_failed : forall {F} (flow : Z -> list R -> res F) transport s out e, (forall dt j sat f sat', transport dt j sat f = Ok sat' -> zlen sat' = zlen sat) -> sim_run flow transport s = (out, e) -> (forall final, e <> Ok final) ->
  zlen out < si_steps s /\ forall f sat', flow (zlen out) (before (si_sat s) out (zlen out)) = Ok f -> transport (si_step s) (zlen out) (before (si_sat s) out (zlen out)) f <> Ok sat'.
Proof. exact @Sim_Proofs2.run_failure. Qed.

(* C180: grid and properties of a simulator *)
Theorem C180_eclipse : forall md j p f, gp_format p = Some "eclipse"%string -> gp_file p = Some f -> gp_ecl p <> Some true ->
  exists s, setup_grid md j p = Ok s /\
    (let usej := match gp_usej p with Some b => b | None => j end in
     let e := setup_eclipse f (given (gp_periodic p) false) (given (gp_turn p) false) (given (gp_clip p) false) (given (gp_unique p) false)
       (match gp_threshold p with Some t => t * md | None => 0 end)%R (given (gp_rocks p) "no_list"%string) usej
       (if usej then match gp_sigma p with Some x => x | None => 1 end else 1)%R (if usej then match gp_theta p with Some x => x | None => 0 end else 0)%R in
     su_grid s = su_grid e /\ su_props s = su_props e /\ su_unique s = su_unique e /\
     (su_visc s = su_visc e <-> gp_visc1 p = None /\ gp_visc2 p = None) /\
     (forall v, su_visc s = Some v -> (forall x, gp_visc1 p = Some x -> fst v = x) /\ (gp_visc1 p = None -> fst v = (1 / 1000)%R) /\ (forall x, gp_visc2 p = Some x -> snd v = x) /\ (gp_visc2 p = None -> snd v = (3 / 1000)%R))).
Proof. exact Sim_Proofs2.setup_eclipse_ok. Qed.
Theorem C180_rocks : forall md j p f, gp_format p = Some "eclipse"%string -> gp_file p = Some f -> gp_ecl p <> Some true ->
  exists s t r u si th, setup_grid md j p = Ok s /\ su_props s = FromDeck t r u si th /\
    (r = None <-> gp_rocks p = None \/ gp_rocks p = Some "no_list"%string) /\ (forall n, r = Some n <-> gp_rocks p = Some n /\ n <> "no_list"%string).
Proof. exact Sim_Proofs2.setup_rocks. Qed.
Theorem C180_cartesian : forall md j p, gp_format p = None \/ gp_format p = Some "cartesian"%string -> exists dims sizes poro perm, setup_grid md j p = Ok (mkSetup (Cartesian dims sizes) None (Uniform poro (perm * md)) (given (gp_unique p) false)) /\
  Forall2 (fun o n => o = Some n \/ o = None /\ n = 1) (gp_dims p) dims /\ Forall2 (fun o x => o = Some x \/ o = None /\ x = 1%R) (gp_sizes p) sizes /\
  (gp_poro p = Some poro \/ gp_poro p = None /\ poro = (1 / 5)%R) /\ (gp_perm p = Some perm \/ gp_perm p = None /\ perm = 100%R).
Proof. exact Sim_Proofs2.setup_cartesian. Qed.
Theorem C180_rejected : forall md j p, setup_grid md j p = Throw <-> 
  (gp_format p = Some "eclipse"%string /\ (gp_file p = None \/ gp_ecl p = Some true)) \/ (exists f, gp_format p = Some f /\ f <> "eclipse"%string /\ f <> "cartesian"%string).
Proof. exact Sim_Proofs2.setup_throws. Qed.
Theorem C180_outcome : forall md j p, (exists s, setup_grid md j p = Ok s) \/ setup_grid md j p = Throw.
Proof. exact Sim_Proofs2.setup_outcome. Qed.
Theorem C180_same_grid : forall md j p s, gp_format p <> None -> gp_clip p <> Some true -> setup_grid md j p = Ok s -> init_cp_grid p = Ok (su_grid s).
Proof. exact Sim_Proofs2.grids_agree. Qed.
Theorem C180_format : forall p, gp_format p = None -> init_cp_grid p = Throw /\ forall md j, exists s, setup_grid md j p = Ok s.
Proof. exact Sim_Proofs2.cp_format_required. Qed.
Theorem C180_clip_refuted : exists p s g, setup_grid 1%R false p = Ok s /\ init_cp_grid p = Ok g /\ su_grid s <> g.
Proof. exact Sim_Proofs2.clip_ignored. Qed.

(* C181: comparison of result files *)
Theorem C181_accepted : forall at_ rt f g, let a := flat_map line_numbers f in let b := flat_map line_numbers g in
  (compare_files at_ rt f g = Ok tt <-> zlen a = zlen b /\ forall i, 0 <= i < zlen a -> close at_ rt (nthR a i) (nthR b i)) /\ (compare_files at_ rt f g <> Ok tt -> compare_files at_ rt f g = Throw).
Proof. exact Sim_Proofs2.compare_ok. Qed.
Theorem C181_numbers : forall l, exists pre rest, l = pre ++ rest /\ line_numbers l = map snd pre /\ (forall w x, In (w, x) pre -> ~ comment_word w) /\ (rest = [] \/ exists w x t, rest = (w, x) :: t /\ comment_word w).
Proof. exact Sim_Proofs2.line_ok. Qed.
Theorem C181_same : forall at_ rt f, (0 <= at_)%R -> compare_files at_ rt f f = Ok tt.
Proof. exact Sim_Proofs2.compare_same. Qed.
Theorem C181_symmetric : forall at_ rt f g, compare_files at_ rt f g = compare_files at_ rt g f.
Proof. exact Sim_Proofs2.compare_sym. Qed.

Example C177_case : exists s, init_saturation (mkSparam None None (Some true) (Some (Some (mkSatFile (Some 2) [1 / 2; 1]%R))) None None None) 2 = Ok s /\ s = [1 / 2; 1]%R.
Proof. eexists. split; reflexivity. Qed.
Example C177_refused : init_saturation (mkSparam None None (Some true) (Some (Some (mkSatFile (Some 2) [1 / 2]%R))) None None None) 2 = Throw.
Proof. reflexivity. Qed.
Example C178_case : usable (Some (mkBlock [0; 0; 0]%R [1; 1; 1]%R (Some 2%R))) /\ cells_ok [mkScell 0 1%R [1 / 2; 1 / 2; 1 / 2]%R; mkScell 1 1%R [3 / 2; 1 / 2; 1 / 2]%R].
Proof.
  split; [split; [split; reflexivity|discriminate]|]. intros i c E. unfold zget in E. destruct (Z.ltb_spec i 0); [discriminate|].
  destruct (Z.to_nat i) as [|[|n]] eqn:Q; cbn in E; [| |destruct n; discriminate]; injection E as <-; (split; [cbn; lia|reflexivity]).
Qed.
Example C179_case : sim_run (fun _ s => Ok s) (fun dt _ s (f : list R) => Ok (map (fun x => (x + dt)%R) s)) (mkSim 1 0%R [0%R] [] []) = ([([0 + 0]%R, smax 0 (Rabs (0 + 0 - 0)))%R], Ok [0 + 0]%R).
Proof. reflexivity. Qed.
Example C180_case : exists s, setup_grid 1%R true (mkGparam (Some "eclipse"%string) (Some "a"%string) None None None None None None None (Some 2%R) None (Some 5%R) None [] [] None None None) = Ok s /\ su_visc s = Some (5, 3 / 1000)%R.
Proof. eexists. split; reflexivity. Qed.
Example C181_case : close 1 0 2 3 /\ ~ close 1 0 2 4 /\ comment_word "#x".
Proof.
  unfold close. split; [left; replace (2 - 3)%R with (-(1))%R by ring; rewrite Rabs_Ropp, Rabs_R1; lra|]. split; [|now exists "x"%string].
  replace (2 - 4)%R with (-(2))%R by ring. rewrite Rabs_Ropp, (Rabs_right 2) by lra. intros [H|[H|[H _]]]; lra.
Qed.
Print Assumptions C177_control. Print Assumptions C177_repeated. Print Assumptions C177_uniform. Print Assumptions C177_file. Print Assumptions C177_init. Print Assumptions C178_rates. Print Assumptions C178_consistent. Print Assumptions C178_order. Print Assumptions C178_density. Print Assumptions C178_overlap_refuted. Print Assumptions C178_stale_refuted. Print Assumptions C178_order_refuted. Print Assumptions C179_steps. Print Assumptions C179_finished. Print Assumptions C179_failed. Print Assumptions C180_eclipse. Print Assumptions C180_rocks. Print Assumptions C180_cartesian. Print Assumptions C180_rejected. Print Assumptions C180_outcome. Print Assumptions C180_same_grid. Print Assumptions C180_format. Print Assumptions C180_clip_refuted. Print Assumptions C181_accepted. Print Assumptions C181_numbers. Print Assumptions C181_same. Print Assumptions C181_symmetric.
