(* SteadyStateUpscalerImplicit_impl.hpp and SteadyStateUpscaler_impl.hpp: the relative permeability tensors
   computed from a steady state, with the flow problems of Tens_Model; the loop of the explicit variant and
   SteadyStateUpscalerManager.hpp.  Scalar mobilities (ReservoirPropertyCapillary.hpp). *)
From Verif Require Export Rpc_Model Steady_Model Icap_Model.
Open Scope Z_scope.

(* ------- relative permeability tensors *)
(* a grid with everything upscaleEffectivePerm needs; su_ip gives the matrices of the flow solver for the
   total mobilities of the cells (by cell index), the permeabilities being those of the model; twodim_hack is
   false *)
(* UpscalerBase_impl.hpp:231-286 *)
Record ssups := mkSsu { su_K : krylov; su_srt : list bface -> list bface; su_g : list hcell; su_geo : Z -> mcell;
  su_ip : list R -> hip; su_bct : Z; su_ty : Z; su_maxit : Z; su_nf : Z }.
(* upscaleEffectivePerm; the result is an OwnCMatrix *)
(* UpscalerBase_impl.hpp:231-286 *)
Definition upscale_total (u : ssups) (tot : list R) (st : ustate) : res (mat * ustate) :=
  let* s := flow_tensor (su_K u) (su_srt u) (su_g u) (su_geo u) (su_ip u tot) (su_bct u) false (su_ty u) (su_maxit u) (su_nf u) (fst st) (snd st) in
  let* d := tensor_data (ts_cols s) in
  Ok (mkMat 3 3 COrd d, (ts_bcs s, ts_solver s)).
(* UpscalerBase_impl.hpp:219-226 upscaleSinglePhase *)
Definition single_tensor (u : ssups) (st : ustate) : res (mat * ustate) := upscale_total u (zrepeat tracer_total (zlen (su_g u))) st.
(* the total mobilities of ReservoirPropertyFixedMobility as the flow solver adds them up *)
(* ReservoirPropertyFixedMobility.hpp:55-60; MimeticIPEvaluator.hpp:298-312 *)
Definition fixed_totals (mobs : list R) : res (list R) :=
  mapM (fun c => let* m := fixed_mobilities mobs c in Ok (Rsum m)) (zrange 0 (zlen mobs)).
(* SteadyStateUpscalerImplicit_impl.hpp:366-370; SteadyStateUpscaler_impl.hpp:264-268 *)
Definition fixed_tensor (u : ssups) (mobs : list R) (st : ustate) : res (mat * ustate) :=
  let* t := fixed_totals mobs in upscale_total u t st.
(* the two fluids: relative permeability of a phase (0, 1) in a cell at a saturation, viscosities, limits *)
(* ReservoirPropertyCapillary_impl.hpp:45-70; SteadyStateUpscalerImplicit.hpp:118-119 *)
Record fluids := mkFl { fl_kr : Z -> Z -> R -> R; fl_mu : Z -> R; fl_thr : R; fl_contrast : R }.
(* the mobilities of a phase after thresholdMobility *)
(* SteadyStateUpscalerImplicit_impl.hpp:335-364; SteadyStateUpscaler_impl.hpp:235-262 *)
Definition limited_mobilities (fl : fluids) (ph : Z) (sat : list R) (n : Z) : res (list R) :=
  let* ms := mapM (fun c => let* s := rget sat c in Ok [fl_kr fl ph c s / fl_mu fl ph]%R) (zrange 0 n) in
  Ok (List.concat (phase_mobilities (fl_thr fl) (fl_mu fl ph) (fl_contrast fl) ms)).
(* SteadyStateUpscalerImplicit_impl.hpp:375-388; SteadyStateUpscaler_impl.hpp:273-284 *)
Definition relperm_tensor (eff K : mat) (mu : R) : res mat :=
  let* i := inverse3x3 K in let* l := matprod eff i in Ok (mscale l mu).
(* SteadyStateUpscalerImplicit_impl.hpp:333-389; SteadyStateUpscaler_impl.hpp:234-285: from the steady state
   saturations to the tensors of both phases *)
Definition steady_relperms (u : ssups) (fl : fluids) (sat : list R) (K : mat) (st : ustate) : res ((mat * mat) * ustate) :=
  let n := zlen (su_g u) in
  let* m1 := limited_mobilities fl 0 sat n in
  let* m2 := limited_mobilities fl 1 sat n in
  let* w := fixed_tensor u m1 st in
  let* o := fixed_tensor u m2 (snd w) in
  let* kw := relperm_tensor (fst w) K (fl_mu fl 0) in
  let* ko := relperm_tensor (fst o) K (fl_mu fl 1) in
  Ok ((kw, ko), snd o).
(* SteadyStateUpscalerImplicit_impl.hpp:170-389 upscaleSteadyState: tensors, last_saturation_state_ and success;
   [after] is the state of the flow solver after the loop *)
Definition implicit_steady (u : ssups) (fl : fluids) (p : sparams) (pv : list R) (tr : tsolver) (sat0 : list R) (K : mat) (after : sstate -> ustate)
    : res ((mat * mat) * list R * bool) :=
  let* s := steady_run p pv tr sat0 in
  let* r := steady_relperms u fl (ss_sat s) K (after s) in
  Ok (fst r, ss_sat s, ss_stat s).

(* ------- the explicit variant *)
(* simulation_steps_ and sat_change_threshold_ (default 0.0, line 60) *)
(* SteadyStateUpscaler_impl.hpp:56-60 *)
Record xparams := mkXp { xp_steps : Z; xp_change : R }.
(* transportSolve followed by the pressure solve: the new saturations, possibly depending on the earlier ones *)
(* SteadyStateUpscaler_impl.hpp:178-188 *)
Definition xsolver := list (list R) -> list R -> res (list R).
(* SteadyStateUpscaler_impl.hpp:214-219: maxdiff *)
Definition max_diff (sat old : list R) : res R :=
  foldM (fun m i => let* s := rget sat i in let* o := rget old i in Ok (smax m (Rabs (s - o)))) (zrange 0 (zlen sat)) 0%R.
(* SteadyStateUpscaler_impl.hpp:177-232: the rest of the loop; [hist] are the saturations after the steps done *)
Fixpoint x_loop (n : nat) (p : xparams) (tr : xsolver) (hist : list (list R)) (sat old : list R) : res (list (list R) * list R) :=
  match n with
  | O => Ok (hist, sat)
  | S m =>
      let* s := tr hist sat in
      let* d := max_diff s old in
      if Rltb d (xp_change p) then Ok (hist ++ [s], s) else x_loop m p tr (hist ++ [s]) s s
  end.
(* SteadyStateUpscaler_impl.hpp:176-232 *)
Definition explicit_run (p : xparams) (tr : xsolver) (sat0 : list R) : res (list (list R) * list R) :=
  x_loop (Z.to_nat (xp_steps p)) p tr [] sat0 sat0.
(* SteadyStateUpscaler_impl.hpp:129-286 upscaleSteadyState: tensors and last_saturation_state_ *)
Definition explicit_steady (u : ssups) (fl : fluids) (p : xparams) (tr : xsolver) (sat0 : list R) (K : mat) (after : list (list R) -> ustate)
    : res ((mat * mat) * list R) :=
  let* s := explicit_run p tr sat0 in
  let* r := steady_relperms u fl (snd s) K (after (fst s)) in
  Ok (fst r, snd s).
(* a run of the manager: pressure drop, start saturations, final saturations *)
(* SteadyStateUpscalerManager.hpp:222-232 *)
Record xrun := mkXrun { xr_sat : R; xr_pdrop : R; xr_start : list R; xr_final : list R }.
(* SteadyStateUpscalerManager.hpp:216-238: the pressure drops of one saturation.  [run] is upscaleSteadyState,
   which may depend on the runs before; an exception leaves the loops *)
Fixpoint x_series (run : list xrun -> R -> R -> list R -> res (list R)) (before : list xrun) (s : R) (init : list R) (pdrops : list R) : res (list xrun) :=
  match pdrops with
  | [] => Ok before
  | p :: t => let* f := run before s p init in x_series run (before ++ [mkXrun s p init f]) s f t
  end.
(* SteadyStateUpscalerManager.hpp:214-239: all saturations; the list of runs *)
Fixpoint x_manager (run : list xrun -> R -> R -> list R -> res (list R)) (num_cells : Z) (before : list xrun) (ctl : list (R * list R)) : res (list xrun) :=
  match ctl with
  | [] => Ok before
  | (s, pd) :: t => let* b := x_series run before s (zrepeat s num_cells) pd in x_manager run num_cells b t
  end.
