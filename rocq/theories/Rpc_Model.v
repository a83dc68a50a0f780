(* RelPermUtils.cpp: from the pressure points to the relative permeability curves.  The cell permeabilities
   are those of Relp_Model, the single-phase upscaling that of Tens_Model and the curves that of Visc_Model
   (helper_relperm).  One process; the distribution of the points is the one of Mpi_Model. *)
From Verif Require Export Visc_Model Tens_Model.
Open Scope Z_scope.

(* the fluid of upscaleSinglePhase *)
(* ReservoirPropertyTracerFluid.hpp:44-48 phaseMobilities *)
Definition tracer_mobilities (s : R) : list R := [s; 1 - s]%R.
(* the mobility the flow solver sees: upscaleEffectivePerm solves with saturation one *)
(* UpscalerBase_impl.hpp:240, 257; MimeticIPEvaluator.hpp:298-312 *)
Definition tracer_total : R := Rsum (tracer_mobilities 1).

(* a grid with everything upscaleEffectivePerm needs.  us_ip gives the matrices of the flow solver for the
   permeabilities (xx, yy, zz) of the cells in iteration order; twodim_hack is false (RelPermUtils.cpp:655) *)
(* RelPermUtils.cpp:650-674; UpscalerBase_impl.hpp:210-226 *)
Record upscaler := mkUps { us_K : krylov; us_srt : list bface -> list bface; us_g : list hcell; us_geo : Z -> mcell;
  us_ip : list (R * R * R) -> hip; us_bct : Z; us_ty : Z; us_maxit : Z; us_nf : Z }.
(* the boundary conditions and the flow solver, which the upscaler keeps between its calls *)
(* UpscalerBase.hpp:165-166 *)
Definition ustate : Type := bcs * solver.
(* UpscalerBase_impl.hpp:281-283: data() of upscaled_K, rows first.  UB: an entry is not a finite number, which
   the program would carry on *)
Definition tensor_data (cols : list (list (option R))) : res (list R) :=
  mapM (fun q => let* col := rget cols (Z.rem q 3) in let* x := rget col (Z.quot q 3) in match x with Some v => Ok v | None => UB end) (zrange 0 9).
(* setPermeability for every cell and upscaleSinglePhase *)
(* RelPermUtils.cpp:381-385, 1157-1161; UpscalerBase_impl.hpp:210-226 *)
Definition upscale_cells (u : upscaler) (ts : list (R * R * R)) (st : ustate) : res (list R * ustate) :=
  let* s := flow_tensor (us_K u) (us_srt u) (us_g u) (us_geo u) (us_ip u ts) (us_bct u) false (us_ty u) (us_maxit u) (us_nf u) (fst st) (snd st) in
  let* d := tensor_data (ts_cols s) in
  Ok (d, (ts_bcs s, ts_solver s)).
(* RelPermUtils.cpp:355-390 upscaleSinglePhasePermeability *)
Definition upscale_single (u : upscaler) (h : helper) (kmin : R) (st : ustate) : res (list R * ustate) :=
  let* ts := single_perms h kmin in upscale_cells u ts st.
(* RelPermUtils.cpp:1059-1162, 1179-1183: one phase of one pressure point; the row of PhasePerm *)
Definition point_phase (u : upscaler) (h : helper) (pv : list R) (tec : Z) (p : R) (acc : list (list R) * ustate) (ph : Z) : res (list (list R) * ustate) :=
  let* r := phase_perms h pv ph p in
  let* k := upscale_cells u (fst r) (snd acc) in
  let* row := mapM (get_voigt (fst k)) (zrange 0 tec) in
  Ok (fst acc ++ [row], snd k).
(* RelPermUtils.cpp:1047-1190: one pressure point, all phases *)
Definition one_point (u : upscaler) (h : helper) (pv : list R) (tec : Z) (both : bool) (acc : list (list (list R)) * ustate) (p : R) : res (list (list (list R)) * ustate) :=
  let* r := foldM (point_phase u h pv tec p) (zrange 0 (if both then 2 else 1)) ([], snd acc) in
  Ok (fst acc ++ [fst r], snd r).
(* RelPermUtils.cpp:1046-1190: all pressure points *)
Definition all_points (u : upscaler) (h : helper) (pv : list R) (tec : Z) (both : bool) (ps : list R) (st : ustate) : res (list (list (list R)) * ustate) :=
  foldM (one_point u h pv tec both) ps ([], st).
(* RelPermUtils.cpp:386-388, 993-1190, 311-353: upscaleSinglePhasePermeability, upscalePermeability and getRelPerm
   for a phase.  [inv] is the inversion by LAPACK (Matrix.hpp:780-801) and [kmin] is minSinglePhasePerm. *)
Definition relperm_curves (u : upscaler) (h : helper) (inv : list R -> list R) (pv : list R) (kmin : R) (tec : Z) (both check : bool) (thresh : R) (ps : list R) (st : ustate) (ph : Z) : res (list (list R)) :=
  let* k := upscale_single u h kmin st in
  let* r := all_points u h pv tec both ps (snd k) in
  let* rows := mapM (fun x => rget x ph) (fst r) in
  helper_relperm check thresh (zlen ps) tec (inv (fst k)) rows.
