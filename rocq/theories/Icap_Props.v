From Verif Require Import Icap_Proofs Icap_Proofs2 Icap_Proofs3 Icap_Proofs4 Icap_Proofs5 Icap_Spec.
Open Scope Z_scope.

(* C142: capillary mobility of a cell *)
Theorem C142_value : forall m1 m2, (0 <= m1)%R -> (0 <= m2)%R -> (0 < m1 + m2)%R ->
  exists k, cap_mobility m1 m2 = Ok k /\ k = Rmax (in_series m1 m2) (/ 10000000000) /\
    (/ 10000000000 <= k)%R /\ (k <= Rmax (Rmin m1 m2) (/ 10000000000))%R /\ cap_mobility m2 m1 = Ok k.
Proof. exact Icap_Proofs.cap_mobility_ok. Qed.
Theorem C142_undefined : forall m1 m2, (m1 + m2 = 0)%R -> cap_mobility m1 m2 = UB.
Proof. exact Icap_Proofs.cap_mobility_undefined. Qed.
Theorem C142_tensor : forall inv m1 m2 o f g, inverts inv -> holds m1 o 3 3 f -> holds m2 o 3 3 g ->
  symmetric3 f -> symmetric3 g -> det3 (fun i j => f i j + g i j)%R <> 0%R ->
  exists m t h, cap_tensor inv m1 m2 = Ok m /\ holds m o 3 3 h /\ symmetric3 h /\ inverse_of (fun i j => f i j + g i j)%R t /\
    (forall i j, 0 <= i < 3 -> 0 <= j < 3 -> h i j = if i =? j then Rmax (mmul 3 (mmul 3 f t) g i j) (/ 10000000000) else mmul 3 (mmul 3 f t) g i j).
Proof. exact Icap_Proofs4.tensor_ok. Qed.
Theorem C142_diagonal : forall inv m1 m2 o f g, inverts inv -> holds m1 o 3 3 f -> holds m2 o 3 3 g ->
  (forall i j, 0 <= i < 3 -> 0 <= j < 3 -> i <> j -> f i j = 0%R /\ g i j = 0%R) -> (forall i, 0 <= i < 3 -> (f i i + g i i <> 0)%R) ->
  exists m, cap_tensor inv m1 m2 = Ok m /\
    holds m o 3 3 (fun i j => if i =? j then Rmax (in_series (f i i) (g i i)) (/ 10000000000) else 0%R).
Proof. exact Icap_Proofs4.tensor_diagonal. Qed.
Theorem C142_fixed : forall mobs c m, zget mobs c = Some m ->
  fixed_mobility mobs 0 c = Ok m /\ (forall ph, ph <> 0 -> fixed_mobility mobs ph c = Ok 0%R) /\ fixed_mobilities mobs c = Ok [m; 0%R].
Proof. exact Icap_Proofs.fixed_ok. Qed.

(* C143: the capillary pressure problem *)
Theorem C143_conditions : forall conds i c, zget conds i = Some c ->
  zlen (cap_conditions conds) = zlen conds /\
  exists c', zget (cap_conditions conds) i = Some c' /\ c_type c' = c_type c /\
    (c_type c = Periodic -> c_val c' = 0%R) /\ (c_type c <> Periodic -> c_val c' = c_val c).
Proof. exact Icap_Proofs.conditions_ok. Qed.
Theorem C143_sources : forall c p sat src, cap_sources c p sat = Ok src ->
  exists bm outs, build_bid_map p = Ok bm /\
    mapM (fun cf => face_update (cap_problem c p) bm sat (fst cf) (snd cf)) (all_faces (ep_cells p)) = Ok outs /\
    let ts := combine (all_faces (ep_cells p)) outs in
    zlen src = zlen sat /\
    (forall k, 0 <= k < zlen (ep_cells p) -> zlen (ep_cells p) <= zlen sat ->
       nthR src k = (- (net_source p k (nthR sat k) + Rsum (map (contribution k) ts)))%R) /\
    Rsum src = (Rsum (map wall_term ts) - Rsum (map (fun k => net_source p k (nthR sat k)) (zrange 0 (zlen (ep_cells p)))))%R.
Proof. exact Icap_Proofs.sources_ok. Qed.
Theorem C143_closed : forall c p sat src, cap_sources c p sat = Ok src ->
  (forall k, 0 <= k < zlen (ep_cells p) -> ep_inj p k = 0%R) ->
  (forall bm cf, build_bid_map p = Ok bm -> In cf (all_faces (ep_cells p)) -> leads_elsewhere p bm cf) ->
  Rsum src = 0%R.
Proof. exact Icap_Proofs.closed_ok. Qed.
Theorem C143_no_capillary : forall c p pc visc grav cap sat, cap_sources c (mkEprob (ep_cells p) (ep_cond p) (ep_partner p) (ep_drho p) (ep_grav p) (ep_mob p) pc (ep_ff p) (ep_inj p) visc grav cap) sat = cap_sources c p sat.
Proof. exact Icap_Proofs5.no_capillary. Qed.
Theorem C143_switched_off : forall c p sat src, ic_visc c = false -> ic_grav c = false -> cap_sources c p sat = Ok src -> zlen (ep_cells p) <= zlen sat ->
  forall k, 0 <= k < zlen (ep_cells p) -> nthR src k = (- net_source p k (nthR sat k))%R.
Proof. exact Icap_Proofs5.switched_off. Qed.

(* C144: the saturation after an implicit capillary step *)
Theorem C144_step : forall c p fc pv inv psolve find sat b t, zlen sat = zlen pv ->
  cap_step c p fc pv inv psolve find sat = Ok (b, t) ->
  exists mobs src cp range dp,
    zlen mobs = zlen sat /\
    (forall i, 0 <= i < zlen sat -> cap_mobility (ep_mob p 0 i (nthR sat i)) (ep_mob p 1 i (nthR sat i)) = Ok (nthR mobs i)) /\
    cap_sources c p sat = Ok src /\ psolve mobs (cap_conditions fc) src = Ok cp /\ press_range cp = Ok range /\
    find (match_volume pv inv sat cp) range = Ok dp /\ zlen pv <= zlen cp /\
    let x := relaxed (ic_relax c) sat cp inv dp in
    zlen t = zlen sat /\
    (b = true -> forall i, 0 <= i < zlen sat ->
       (ic_clamp c = true -> nthR t i = Rmin 1 (Rmax 0 (x i))) /\ (ic_clamp c = false -> nthR t i = x i) /\
       (ic_clamp c = false -> ic_check c = true -> (- / 1000 <= nthR t i <= 1 + / 1000)%R)) /\
    (b = false -> ic_clamp c = false /\ ic_check c = true /\ (forall i, 0 <= i < zlen sat -> nthR t i = x i) /\
       exists i, 0 <= i < zlen sat /\ ~ (- / 1000 <= x i <= 1 + / 1000)%R).
Proof. exact Icap_Proofs2.cap_step_ok. Qed.
Theorem C144_start_range : forall cp, cp <> [] -> exists lo hi, In lo cp /\ In hi cp /\ (forall x, In x cp -> (lo <= x <= hi)%R) /\ press_range cp = Ok (hi - lo)%R.
Proof. exact Icap_Proofs2.press_range_ok. Qed.
Theorem C144_volume : forall c p fc pv inv psolve find sat b t, zlen sat = zlen pv -> (0 < Rsum pv)%R -> ic_clamp c = false ->
  (forall m k s cp, psolve m k s = Ok cp -> zlen cp = zlen pv) ->
  cap_step c p fc pv inv psolve find sat = Ok (b, t) ->
  exists cp range dp v, find (match_volume pv inv sat cp) range = Ok dp /\ match_volume pv inv sat cp dp = Ok (Some v) /\
    water_volume pv (nthR t) = (water_volume pv (nthR sat) + ic_relax c * v * Rsum pv)%R.
Proof. exact Icap_Proofs2.volume_ok. Qed.
Theorem C144_conserved : forall c p fc pv inv psolve find tol sat b t, zlen sat = zlen pv -> (0 < Rsum pv)%R -> ic_clamp c = false -> (0 <= ic_relax c)%R ->
  (forall m k s cp, psolve m k s = Ok cp -> zlen cp = zlen pv) ->
  (forall f r dp v, find f r = Ok dp -> f dp = Ok (Some v) -> (Rabs v <= tol)%R) ->
  cap_step c p fc pv inv psolve find sat = Ok (b, t) ->
  (Rabs (water_volume pv (nthR t) - water_volume pv (nthR sat)) <= ic_relax c * tol * Rsum pv)%R.
Proof. exact Icap_Proofs2.conserved_ok. Qed.
Theorem C144_in_range : forall c p fc pv inv psolve find lo hi sat b t, zlen sat = zlen pv -> (0 <= ic_relax c <= 1)%R ->
  (forall i, 0 <= i < zlen sat -> (0 <= lo i)%R /\ (hi i <= 1)%R /\ (lo i <= nthR sat i <= hi i)%R /\ forall q, (lo i <= inv i q <= hi i)%R) ->
  cap_step c p fc pv inv psolve find sat = Ok (b, t) ->
  b = true /\ forall i, 0 <= i < zlen sat -> (lo i <= nthR t i <= hi i)%R.
Proof. exact Icap_Proofs2.range_ok. Qed.
Theorem C144_undefined : forall c p fc pv inv psolve find sat i, 0 <= i < zlen sat ->
  (ep_mob p 0 i (nthR sat i) + ep_mob p 1 i (nthR sat i) = 0)%R -> cap_step c p fc pv inv psolve find sat = UB.
Proof. exact Icap_Proofs2.undefined_ok. Qed.

(* C145: vector norms *)
Theorem C145_maximum : forall v, ((forall x, In x v -> Rabs x <= norm_max v) /\ (v <> [] -> exists x, In x v /\ norm_max v = Rabs x) /\ (v = [] -> norm_max v = 0))%R.
Proof. exact Icap_Proofs5.norm_max_spec. Qed.
Theorem C145_sum : forall v, norm_sum v = Rsum (map Rabs v).
Proof. exact Icap_Proofs3.norm_sum_val. Qed.
Theorem C145_euclid : forall v, norm_euclid v = sqrt (Rsum (map (fun x => x * x)%R v)).
Proof. exact Icap_Proofs5.norm_euclid_spec. Qed.
Theorem C145_max_is_norm : is_norm norm_max.
Proof. exact Icap_Proofs3.max_norm. Qed.
Theorem C145_sum_is_norm : is_norm norm_sum.
Proof. exact Icap_Proofs3.sum_norm. Qed.
Theorem C145_euclid_is_norm : is_norm norm_euclid.
Proof. exact Icap_Proofs3.euclid_norm. Qed.
Theorem C145_equivalent : forall v, (norm_max v <= norm_euclid v /\ norm_euclid v <= norm_sum v /\ norm_sum v <= INR (length v) * norm_max v)%R.
Proof. exact Icap_Proofs5.norms_compare. Qed.

(* C146: upscaled relative permeability *)
Theorem C146_relperm : forall eff K mu o o' e k, holds eff o 3 3 e -> holds K o' 3 3 k ->
  (det3 k <> 0%R -> k 2 2 <> 0%R ->
     exists m r, upscaled_relperm eff K mu = Ok m /\ holds m o 3 3 r /\
       (forall i j, 0 <= i < 3 -> 0 <= j < 3 -> mmul 3 r k i j = (mu * e i j)%R) /\
       (forall lam, (forall i j, 0 <= i < 3 -> 0 <= j < 3 -> e i j = (lam / mu * k i j)%R) -> mu <> 0%R ->
          forall i j, 0 <= i < 3 -> 0 <= j < 3 -> r i j = if i =? j then lam else 0%R)) /\
  (det3 k = 0%R \/ k 2 2 = 0%R -> upscaled_relperm eff K mu = UB).
Proof. exact Icap_Proofs4.relperm_ok. Qed.

(* C147: time parameters *)
Theorem C147_given : forall given v u cur, init_times (given ++ [Some v]) u cur = (v * u)%R.
Proof. exact Icap_Proofs4.init_given. Qed.
Theorem C147_repeated : forall n, forall u cur, init_times (repeat None n) u cur = (cur * u ^ n)%R.
Proof. exact Icap_Proofs4.init_repeated. Qed.
Theorem C147_after_given : forall n v u cur given, init_times (given ++ Some v :: repeat None n) u cur = (v * u ^ (S n))%R.
Proof. exact Icap_Proofs4.init_after_given. Qed.

Example C142_case : exists k, cap_mobility 1 3 = Ok k /\ k = Rmax (3 / 4) (/ 10000000000).
Proof. destruct (C142_value 1 3 ltac:(lra) ltac:(lra) ltac:(lra)) as (k & E & V & _). exists k. split; [exact E|]. rewrite V. f_equal. unfold in_series. lra. Qed.
Example C143_case : zget (cap_conditions [mkCond Dirichlet 2%R; mkCond Periodic 5%R]) 1 = Some (mkCond Periodic 0%R).
Proof. reflexivity. Qed.
(* a step that moves water from the wet to the dry cell and keeps its volume *)
Example C144_case : let c := mkIcfg true true true false 1 in let pv := [1; 1]%R in let inv := fun (_ : Z) (_ : R) => (/ 2)%R in
  let psolve := fun (_ : list R) (_ : list cond) (_ : list R) => Ok [0; 0]%R in
  (forall m k s cp, psolve m k s = Ok cp -> zlen cp = zlen pv) /\
  (forall f r dp v, ex_find 0 f r = Ok dp -> f dp = Ok (Some v) -> (Rabs v <= 0)%R) /\
  exists t, cap_step c ex_problem [] pv inv psolve (ex_find 0) [0; 1]%R = Ok (true, t) /\ t <> [0; 1]%R.
Proof. exact example_step. Qed.
Example C146_case : holds (mkMat 3 3 COrd [2; 0; 0; 0; 2; 0; 0; 0; 2]%R) COrd 3 3 (fun i j => if i =? j then 2%R else 0%R) /\ det3 (fun i j => if i =? j then 2%R else 0%R) <> 0%R.
Proof. exact example_perm. Qed.
Print Assumptions C142_value. Print Assumptions C142_undefined. Print Assumptions C142_tensor. Print Assumptions C142_diagonal. Print Assumptions C142_fixed. Print Assumptions C143_conditions. Print Assumptions C143_sources. Print Assumptions C143_closed. Print Assumptions C143_no_capillary. Print Assumptions C143_switched_off. Print Assumptions C144_step. Print Assumptions C144_start_range. Print Assumptions C144_volume. Print Assumptions C144_conserved. Print Assumptions C144_in_range. Print Assumptions C144_undefined. Print Assumptions C145_maximum. Print Assumptions C145_sum. Print Assumptions C145_euclid. Print Assumptions C145_max_is_norm. Print Assumptions C145_sum_is_norm. Print Assumptions C145_euclid_is_norm. Print Assumptions C145_equivalent. Print Assumptions C146_relperm. Print Assumptions C147_given. Print Assumptions C147_repeated. Print Assumptions C147_after_given.
