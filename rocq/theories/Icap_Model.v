(* Model of opm/porsol/euler/ImplicitCapillarity_impl.hpp, of the vector norms in
   opm/core/transport/implicit/NormSupport.hpp, of ReservoirPropertyFixedMobility.hpp and of the
   parts of SteadyStateUpscalerImplicit_impl.hpp before and after the steady state iteration.
   Doubles are reals; a quotient with zero denominator is UB.  The pressure solver and the root
   finder are arguments. *)
From Verif Require Export Euler_Model Matx_Model.
Open Scope Z_scope.

(* ------- capillary mobility *)
(* ImplicitCapillarity_impl.hpp:163: the lower limit 1e-10 *)
Definition cap_floor : R := (/ 10000000000)%R.
(* ReservoirPropertyCapillary.hpp:54-73 setToSum, setToInverse, operator*= and
   ImplicitCapillarity_impl.hpp:151-165, ImplicitCapillarity.cpp:43-46: m1, m2 are the phase
   mobilities of a cell *)
Definition cap_mobility (m1 m2 : R) : res R :=
  let* ti := mdiv 1 (m1 + m2)%R in
  Ok (smax (m1 * ti * m2)%R cap_floor).
(* ImplicitCapillarity_impl.hpp:124-131 thresholdMobility for matrices *)
Definition threshold_tensor (m : mat) (t : R) : res mat :=
  foldM (fun m i => let* x := mget m i i in mset m i i (smax x t)) (zrange 0 (Z.min (m_rows m) (m_cols m))) m.
(* ReservoirPropertyCapillaryAnisotropicRelperm.hpp:69-91 and ImplicitCapillarity_impl.hpp:151-165
   for 3 by 3 tensors; [inv] is invert (Matrix.hpp, LAPACK): it replaces a matrix by its inverse
   or fails *)
Definition cap_tensor (inv : mat -> res mat) (m1 m2 : mat) : res mat :=
  let* tot := madd m1 m2 in
  let* ti := inv tot in
  let* a := mprod m1 ti m1 in
  let* b := mprod a m2 a in
  threshold_tensor b cap_floor.
(* ReservoirPropertyFixedMobility.hpp:62-69 phaseMobility: mobilities of the cells *)
Definition fixed_mobility (mobs : list R) (phase cell : Z) : res R :=
  if phase =? 0 then rget mobs cell else Ok 0%R.
(* ReservoirPropertyFixedMobility.hpp:55-60 phaseMobilities *)
Definition fixed_mobilities (mobs : list R) (cell : Z) : res (list R) :=
  let* m := rget mobs cell in Ok [m; 0%R].

(* ------- boundary conditions of the capillary pressure *)
(* ImplicitCapillarity_impl.hpp:168-174: cap_press_bcs *)
Definition cap_conditions (conds : list cond) : list cond :=
  map (fun c => if is_periodic c then mkCond Periodic 0%R else c) conds.

(* ------- the transport step *)
(* ImplicitCapillarity.hpp: the members used by transportSolve *)
(* ImplicitCapillarity.hpp:116-123 *)
Record icfg := mkIcfg { ic_visc : bool; ic_grav : bool; ic_check : bool; ic_clamp : bool; ic_relax : R }.
(* ImplicitCapillarity_impl.hpp:178-180: the problem handed to computeResidual: the methods of the
   configuration, no capillary term *)
Definition cap_problem (c : icfg) (p : eprob) : eprob :=
  mkEprob (ep_cells p) (ep_cond p) (ep_partner p) (ep_drho p) (ep_grav p) (ep_mob p) (ep_pc p) (ep_ff p)
    (ep_inj p) (ic_visc c) (ic_grav c) false.
(* ImplicitCapillarity_impl.hpp:176-183: the source terms of the pressure equation *)
Definition cap_sources (c : icfg) (p : eprob) (sat : list R) : res (list R) :=
  let* r := compute_residual (cap_problem c p) sat in Ok (map Ropp r).
(* ImplicitCapillarity_impl.hpp:200-202: cap_press_range; min_element and max_element of an empty
   vector are dereferenced (UB) *)
Definition press_range (cp : list R) : res R :=
  match cp with
  | [] => UB
  | x :: t => Ok (fold_left smax t x - fold_left smin t x)%R
  end.
(* the pressure solver: cell mobilities, conditions and sources to cell pressures *)
(* ImplicitCapillarity_impl.hpp:187-192 *)
Definition psolver := list R -> list cond -> list R -> res (list R).
(* ImplicitCapillarity_impl.hpp:203-210: bracketZero followed by RegulaFalsi::solve (opm-common)
   for a functor and an initial range: the argument of the last evaluation of the functor, or an
   exception *)
Definition rfinder := (R -> res (option R)) -> R -> res R.
(* MatchSaturatedVolumeFunctor.hpp:87-108: the saturations of one evaluation, which
   lastSaturations() returns *)
Definition shifted_sats (inv : Z -> R -> R) (cp : list R) (n : Z) (dp : R) : res (list R) :=
  mapM (fun c => let* p := rget cp c in Ok (inv c (p + dp)%R)) (zrange 0 n).
(* ImplicitCapillarity_impl.hpp:215-217 *)
Definition relax_sats (w : R) (old new : list R) : res (list R) :=
  mapM (fun i => let* a := rget old i in let* b := rget new i in Ok ((1 - w) * a + w * b)%R) (zrange 0 (zlen old)).
(* ImplicitCapillarity_impl.hpp:138-229 transportSolve and 233-249 checkAndPossiblyClampSat (the
   text of EulerUpstream_impl.hpp:337-352): (returned normally, saturation left behind); fc are
   the flow conditions by boundary id, pv the pore volumes, inv saturationFromCapillaryPressure *)
Definition cap_step (c : icfg) (p : eprob) (fc : list cond) (pv : list R) (inv : Z -> R -> R)
    (psolve : psolver) (find : rfinder) (sat : list R) : res (bool * list R) :=
  let* mobs := mapM (fun i => let* s := rget sat i in cap_mobility (ep_mob p 0 i s) (ep_mob p 1 i s)) (zrange 0 (zlen sat)) in
  let* src := cap_sources c p sat in
  let* cp := psolve mobs (cap_conditions fc) src in
  let* range := press_range cp in
  let* dp := find (match_volume pv inv sat cp) range in
  let* new := shifted_sats inv cp (zlen pv) dp in
  let* s := relax_sats (ic_relax c) sat new in
  Ok (if ic_check c || ic_clamp c then check_all (ic_clamp c) [] s else (true, s)).

(* ------- norms *)
(* NormSupport.hpp:46-81 MaxAbs, SumAbs, Euclid and 84-97 AccumulationNorm over doubles *)
Definition norm_max (v : list R) : R := fold_left (fun x y => smax (Rabs x) (Rabs y)) v 0%R.
(* NormSupport.hpp:46-97 with SumAbs *)
Definition norm_sum (v : list R) : R := fold_left (fun x y => Rabs x + Rabs y)%R v 0%R.
(* NormSupport.hpp:46-97 with Euclid *)
Definition norm_euclid (v : list R) : R := sqrt (fold_left (fun x y => Rabs x + Rabs y * Rabs y)%R v 0%R).

(* ------- upscaled relative permeability *)
(* SteadyStateUpscalerImplicit_impl.hpp:371-383: lambda = eff_K inv(K), k_r = mu lambda *)
Definition upscaled_relperm (eff K : mat) (mu : R) : res mat :=
  let* ki := inverse3x3 K in
  let* lambda := matprod eff ki in
  Ok (mscale lambda mu).

(* ------- time parameters *)
(* SteadyStateUpscalerImplicit_impl.hpp:89-90, 96 (init_stepsize in days, max_stepsize in years):
   a parameter that is not given has the current value as default, and the result is converted *)
Definition init_time (given : option R) (unit current : R) : R :=
  (match given with Some v => v | None => current end * unit)%R.
(* initImpl called again and again with the given parameters *)
(* SteadyStateUpscalerImplicit_impl.hpp:89-96 *)
Fixpoint init_times (given : list (option R)) (unit current : R) : R :=
  match given with
  | [] => current
  | g :: t => init_times t unit (init_time g unit current)
  end.
