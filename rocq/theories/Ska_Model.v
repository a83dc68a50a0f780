(* SteadyStateUpscaler_impl.hpp and SteadyStateUpscalerImplicit_impl.hpp for anisotropic relative permeabilities
   (UpscalingTraitsAnisoRelperm): mobilities are diagonal tensors and the inner product is that of
   MimeticIPAnisoRelpermEvaluator.hpp. *)
From Verif Require Export Fluid_Model Ssk_Model.
Open Scope Z_scope.

(* the densities and mobility tensors of the phases in one cell, as computeDynamicParams asks for them *)
(* MimeticIPAnisoRelpermEvaluator.hpp:312-326 *)
Definition cell_phases : Type := list (R * mat).
(* a grid with everything upscaleEffectivePerm needs; au_ip gives the matrices of the flow solver for the phases
   of the cells (by cell index); twodim_hack is false *)
(* UpscalerBase_impl.hpp:231-286 *)
Record asups := mkAsu { au_K : krylov; au_srt : list bface -> list bface; au_g : list hcell; au_geo : Z -> mcell;
  au_ip : list cell_phases -> hip; au_bct : Z; au_ty : Z; au_maxit : Z; au_nf : Z }.
(* UpscalerBase_impl.hpp:231-286 upscaleEffectivePerm; the result is an OwnCMatrix *)
Definition aups_total (u : asups) (phs : list cell_phases) (st : ustate) : res (mat * ustate) :=
  let* s := flow_tensor (au_K u) (au_srt u) (au_g u) (au_geo u) (au_ip u phs) (au_bct u) false (au_ty u) (au_maxit u) (au_nf u) (fst st) (snd st) in
  let* d := tensor_data (ts_cols s) in
  Ok (mkMat 3 3 COrd d, (ts_bcs s, ts_solver s)).
(* ReservoirPropertyTracerFluid.hpp:53-60 phaseMobility *)
Definition tracer_tensor (phase : Z) (s : R) (m : mat) : res mat :=
  let* e := meye m in Ok (mscale e (if phase =? 0 then s else 1 - s)%R).
(* the phases of a cell of the tracer fluid at saturation 1; pmob is one buffer *)
(* MimeticIPAnisoRelpermEvaluator.hpp:306-326; ReservoirPropertyTracerFluid.hpp:53-67; UpscalerBase_impl.hpp:237-238 *)
Definition tracer_cell : res cell_phases :=
  let* a := tracer_tensor 0 1 (mnew FOrd 3 3) in
  let* b := tracer_tensor 1 1 a in
  Ok [(1%R, a); (1%R, b)].
(* UpscalerBase_impl.hpp:219-226 upscaleSinglePhase *)
Definition asingle_tensor (u : asups) (st : ustate) : res (mat * ustate) :=
  let* c := tracer_cell in aups_total u (zrepeat c (zlen (au_g u))) st.
(* the phases of a cell of the fluid with fixed mobilities *)
(* ReservoirPropertyFixedMobility.hpp:62-76; MimeticIPAnisoRelpermEvaluator.hpp:306-326 *)
Definition fixed_cell (mob : mat) : res cell_phases :=
  let* a := massign (mnew FOrd 3 3) mob in
  let* b := mzero a in
  Ok [(1%R, a); (0%R, b)].
(* SteadyStateUpscalerImplicit_impl.hpp:366-370; SteadyStateUpscaler_impl.hpp:264-268 *)
Definition afixed_tensor (u : asups) (mobs : list mat) (st : ustate) : res (mat * ustate) :=
  let* phs := mapM fixed_cell mobs in aups_total u phs st.
(* SteadyStateUpscalerImplicit_impl.hpp:116-125; SteadyStateUpscaler_impl.hpp:101-110 maxMobility for matrices *)
Definition max_tensor (m1 : R) (m : mat) : res R :=
  foldM (fun x i => let* y := mget m i i in Ok (smax x y)) (zrange 0 (Z.min (m_rows m) (m_cols m))) m1.
(* the fluid, relperm_threshold_ and maximum_mobility_contrast_ *)
(* SteadyStateUpscalerImplicit.hpp:118-119 *)
Record afluids := mkAfl { al_fluid : afluid; al_thr : R; al_contrast : R }.
(* viscosityFirstPhase, viscositySecondPhase *)
(* ReservoirPropertyCommon.hpp:111-117 *)
Definition al_mu (fl : afluids) (ph : Z) : R := if ph =? 0 then af_mu1 (al_fluid fl) else af_mu2 (al_fluid fl).
(* phaseMobility at the steady state *)
(* SteadyStateUpscalerImplicit_impl.hpp:341-345, 357-363 *)
Definition steady_mobility (fl : afluids) (ph : Z) (sat : list R) (c : Z) : res mat :=
  let* s := rget sat c in amob (al_fluid fl) ph c s (mnew COrd 3 3).
(* the mobilities of a phase after thresholdMobility (the matrix variant is that of ImplicitCapillarity_impl.hpp) *)
(* SteadyStateUpscalerImplicit_impl.hpp:335-364; SteadyStateUpscaler_impl.hpp:235-262 *)
Definition limited_tensors (fl : afluids) (ph : Z) (sat : list R) (n : Z) : res (list mat) :=
  let* mx := foldM (fun mx c => let* m := steady_mobility fl ph sat c in max_tensor mx m) (zrange 0 n) 0%R in
  let* abs := mdiv (al_thr fl) (al_mu fl ph) in
  let* rel := mdiv mx (al_contrast fl) in
  mapM (fun c => let* m := steady_mobility fl ph sat c in threshold_tensor m (smax abs rel)) (zrange 0 n).
(* SteadyStateUpscalerImplicit_impl.hpp:333-389; SteadyStateUpscaler_impl.hpp:234-285: from the steady state
   saturations to the tensors of both phases *)
Definition aniso_relperms (u : asups) (fl : afluids) (sat : list R) (K : mat) (st : ustate) : res ((mat * mat) * ustate) :=
  let n := zlen (au_g u) in
  let* m1 := limited_tensors fl 0 sat n in
  let* m2 := limited_tensors fl 1 sat n in
  let* w := afixed_tensor u m1 st in
  let* o := afixed_tensor u m2 (snd w) in
  let* kw := relperm_tensor (fst w) K (al_mu fl 0) in
  let* ko := relperm_tensor (fst o) K (al_mu fl 1) in
  Ok ((kw, ko), snd o).
(* SteadyStateUpscalerImplicit_impl.hpp:170-389 upscaleSteadyState: tensors, last_saturation_state_ and success;
   [after] is the state of the flow solver after the loop *)
Definition aniso_implicit (u : asups) (fl : afluids) (p : sparams) (pv : list R) (tr : tsolver) (sat0 : list R) (K : mat) (after : sstate -> ustate)
    : res ((mat * mat) * list R * bool) :=
  let* s := steady_run p pv tr sat0 in
  let* r := aniso_relperms u fl (ss_sat s) K (after s) in
  Ok (fst r, ss_sat s, ss_stat s).
(* SteadyStateUpscaler_impl.hpp:129-286 upscaleSteadyState: tensors and last_saturation_state_ *)
Definition aniso_explicit (u : asups) (fl : afluids) (p : xparams) (tr : xsolver) (sat0 : list R) (K : mat) (after : list (list R) -> ustate)
    : res ((mat * mat) * list R) :=
  let* s := explicit_run p tr sat0 in
  let* r := aniso_relperms u fl (snd s) K (after (fst s)) in
  Ok (fst r, snd s).
