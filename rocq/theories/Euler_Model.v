(* Model of opm/porsol/euler: EulerUpstream_impl.hpp, EulerUpstreamResidual_impl.hpp,
   CflCalculator.hpp and MatchSaturatedVolumeFunctor.hpp, for scalar mobilities.  Doubles
   are reals; a division by zero that would yield a non-finite number is UB here unless
   said otherwise.  Debug assertions are not modelled. *)
From Verif Require Export RBase Bound_Model.
Open Scope Z_scope.

(* limits of int, EulerUpstream_impl.hpp:167 *)
Definition int_max : Z := 2147483647.
(* EulerUpstream_impl.hpp:167 *)
Definition int_min : Z := -2147483648.
(* std::ceil, EulerUpstream_impl.hpp:167 *)
Definition Zceil (x : R) : Z := - Int_part (- x).

(* ------- small steps *)
(* EulerUpstream.hpp members used below *)
(* EulerUpstream.hpp:138-141 *)
Record ecfg := mkEcfg { e_min : Z; e_max : Z; e_check : bool; e_clamp : bool }.
(* EulerUpstream_impl.hpp:337-352 checkAndPossiblyClampSat on one cell; None: throws *)
Definition check_cell (clamp : bool) (s : R) : option R :=
  if Rltb 1 s || Rltb s 0 then
    if clamp then Some (smax (smin s 1) 0)
    else if Rltb (1 + / 1000) s || Rltb s (- / 1000) then None else Some s
  else Some s.
(* EulerUpstream_impl.hpp:337-352 over the cells in order *)
Fixpoint check_all (clamp : bool) (done s : list R) : bool * list R :=
  match s with
  | [] => (true, done)
  | x :: t => match check_cell clamp x with
              | Some y => check_all clamp (done ++ [y]) t
              | None => (false, done ++ s)
              end
  end.
(* EulerUpstream_impl.hpp:360-388 smallTimeStep: resid is computeResidual; the result is
   (returned normally, saturation left behind) *)
Definition small_step (cfg : ecfg) (pv : list R) (resid : list R -> list R) (s : list R) (dt : R) : res (bool * list R) :=
  let r := resid s in
  let* s' := mapM (fun i =>
      let* x := rget s i in let* d := rget r i in let* v := rget pv i in
      match fdiv (dt * d)%R v with Some q => Ok (x + q)%R | None => UB end) (zrange 0 (zlen s)) in
  Ok (if e_check cfg || e_clamp cfg then check_all (e_clamp cfg) [] s' else (true, s')).

(* EulerUpstream_impl.hpp:163-172: number of small steps.  cfl_dt = 0 gives an infinite
   quotient, cut to INT_MAX; conversion of a NaN or of a value below INT_MIN is UB. *)
Definition step_count (cfg : ecfg) (cfl time : R) : res Z :=
  if Rltb time cfl then Ok (e_min cfg)
  else
    let* n := (match fdiv time cfl with
               | Some q => if Zceil q <? int_min then UB else Ok (Z.min (Zceil q) int_max)
               | None => if Rltb 0 time then Ok int_max else UB
               end) in
    Ok (Z.min (Z.max n (e_min cfg)) (e_max cfg)).
(* EulerUpstream_impl.hpp:194-200: n steps, stopping at the first that throws; step is
   smallTimeStep *)
Fixpoint do_steps (step : list R -> R -> res (bool * list R)) (n : nat) (s : list R) (dt : R) : res (bool * list R) :=
  match n with
  | O => Ok (true, s)
  | S m => let* r := step s dt in if fst r then do_steps step m (snd r) dt else Ok r
  end.
(* the outcome of transportSolve: returned normally, saturation of the caller, the number
   of steps of every attempt *)
(* EulerUpstream_impl.hpp:120-214 *)
Record eout := mkEout { eo_ok : bool; eo_sat : list R; eo_tries : list Z }.
(* EulerUpstream_impl.hpp:180-214: the retry loop; fuel is max_repeats minus repeats.
   nr_transport_steps *= 2 beyond INT_MAX is UB *)
Fixpoint retry (step : list R -> R -> res (bool * list R)) (time : R) (s0 : list R) (fuel : nat) (nr : Z) (tries : list Z) : res eout :=
  let* r := do_steps step (Z.to_nat nr) s0 (time / IZR nr)%R in
  let tries' := tries ++ [nr] in
  if fst r then Ok (mkEout true (snd r) tries')
  else match fuel with
       | O => Ok (mkEout false (snd r) tries')
       | S f => if int_max <? nr * 2 then UB else retry step time s0 f (nr * 2) tries'
       end.
(* EulerUpstream_impl.hpp:153-218 transportSolve given the CFL time *)
Definition transport_solve (cfg : ecfg) (step : list R -> R -> res (bool * list R)) (cfl time : R) (s : list R) : res eout :=
  let* n := step_count cfg cfl time in
  retry step time s 10 n [].

(* ------- residual *)
(* a face seen from a cell: boundary flag, boundary id, neighbour cell, area, outer normal,
   centroid, outflux *)
(* the face iterator of EulerUpstreamResidual_impl.hpp:100-260 *)
Record eface := mkEface { ef_bdry : bool; ef_bid : Z; ef_nb : Z; ef_area : R; ef_n : vec; ef_cent : vec; ef_flux : R }.
(* the cell iterator of EulerUpstreamResidual_impl.hpp:100-260: centroid, permeability, faces *)
Record ecell := mkEcell { ec_cent : vec; ec_perm : Z -> Z -> R; ec_faces : list eface }.
(* what the residual computer refers to: cells in index order, saturation conditions and
   partners by boundary id, density difference, gravity, phase mobility (phase, cell,
   saturation), capillary pressure and fractional flow (cell, saturation), injection rate,
   methods switched on *)
(* EulerUpstreamResidual.hpp:104-120 *)
Record eprob := mkEprob {
  ep_cells : list ecell; ep_cond : list cond; ep_partner : list Z;
  ep_drho : R; ep_grav : vec; ep_mob : Z -> Z -> R -> R; ep_pc : Z -> R -> R; ep_ff : Z -> R -> R;
  ep_inj : Z -> R; ep_visc : bool; ep_useg : bool; ep_cap : bool }.

(* Dune::FieldVector operations used by EulerUpstreamResidual_impl.hpp:128-255, 495-527 *)
Definition vdot (a b : vec) : R := (vget a 0 * vget b 0 + vget a 1 * vget b 1 + vget a 2 * vget b 2)%R.
(* difference, EulerUpstreamResidual_impl.hpp:128-255 *)
Definition vsub (a b : vec) : vec := (vget a 0 - vget b 0, vget a 1 - vget b 1, vget a 2 - vget b 2)%R.
(* sum, EulerUpstreamResidual_impl.hpp:128-255 *)
Definition vadd (a b : vec) : vec := (vget a 0 + vget b 0, vget a 1 + vget b 1, vget a 2 + vget b 2)%R.
(* multiple, EulerUpstreamResidual_impl.hpp:128-255 *)
Definition vscale (k : R) (a : vec) : vec := (k * vget a 0, k * vget a 1, k * vget a 2)%R.
(* two_norm, EulerUpstreamResidual_impl.hpp:128-255 *)
Definition vnorm (a : vec) : R := sqrt (vdot a a).
(* Matrix.hpp:668-708 prod(matrix, vector) *)
Definition mvec (K : Z -> Z -> R) (v : vec) : vec :=
  (vdot (K 0 0, K 0 1, K 0 2) v, vdot (K 1 0, K 1 1, K 1 2) v, vdot (K 2 0, K 2 1, K 2 2) v).
(* Average.hpp:50-60 arithmeticAverage *)
Definition aver (a b : R) : R := ((a + b) / 2)%R.

(* EulerUpstreamResidual_impl.hpp:388-408: bid_to_face_; None is a default iterator.  All
   faces with their cells in iteration order. *)
Definition all_faces (cells : list ecell) : list (Z * eface) :=
  flat_map (fun ic => map (fun f => (fst ic, f)) (ec_faces (snd ic))) (combine (zrange 0 (zlen cells)) cells).
(* EulerUpstreamResidual_impl.hpp:388-408 *)
Definition build_bid_map (p : eprob) : res (list (option (Z * eface))) :=
  let fs := all_faces (ep_cells p) in
  let maxbid := fold_left (fun m cf => Z.max m (ef_bid (snd cf))) fs 0 in
  foldM (fun m cf =>
      if ef_bdry (snd cf) then
        let* c := rget (ep_cond p) (ef_bid (snd cf)) in
        match c_type c with Periodic => rset m (ef_bid (snd cf)) (Some cf) | _ => Ok m end
      else Ok m) fs (zrepeat None (maxbid + 1)).

(* EulerUpstreamResidual_impl.hpp:167-202: upstream cells (0: this cell, 1: the other) of
   water and oil; m phase side is the mobility of a phase in a cell *)
Definition upstream (useg : bool) (flux Gfull : R) (m : Z -> Z -> R) : Z * Z :=
  let G := if useg then Gfull else 0%R in
  let triv := if Rleb 0 G then 0 else 1 in
  let ups := if Rleb 0 flux then 0 else 1 in
  let gnon := ((if triv =? 0 then -1 else 1) * (m triv ups * Gfull))%R in
  let upsn := if Rleb 0 (flux + gnon)%R then 0 else 1 in
  if triv =? 0 then (ups, upsn) else (upsn, ups).
(* EulerUpstreamResidual_impl.hpp:495-527 estimateCapPressureGradient on interior and
   periodic faces; UB: division by zero *)
Definition cap_gradient (cc fc nfc nc : vec) (cp0 cp1 : R) : res vec :=
  let d := (vnorm (vsub cc fc) + vnorm (vsub nc nfc))%R in
  let r := vsub (vadd (vsub nc nfc) fc) cc in
  match fdiv (cp1 - cp0)%R d, fdiv 1 (vnorm r) with
  | Some v, Some q => Ok (vscale v (vscale q r))
  | _, _ => UB
  end.
(* EulerUpstreamResidual_impl.hpp:128-255: the face term dS.  c0, s0 are this cell, c1, s1
   the other side, nbf the face of the other side (f itself inside the grid) *)
Definition face_term (p : eprob) (sat : list R) (c0 : Z) (s0 : R) (f : eface) (c1 : Z) (s1 : R) (nbf : eface) (wall : bool) : res R :=
  let* C0 := rget (ep_cells p) c0 in
  let* C1 := rget (ep_cells p) c1 in
  let K := fun i j => aver (ec_perm C0 i j) (ec_perm C1 i j) in
  let ginf := vscale (ep_drho p) (mvec K (ep_grav p)) in
  let Gfull := (ef_area f * vdot (ef_n f) ginf)%R in
  let m := fun ph side => if side =? 0 then ep_mob p ph c0 s0 else ep_mob p ph c1 s1 in
  let ups := upstream (ep_useg p) (ef_flux f) Gfull m in
  let mw := m 0 (fst ups) in
  let mo := m 1 (snd ups) in
  let sa := aver s0 s1 in
  let aw := aver (ep_mob p 0 c0 sa) (ep_mob p 0 c1 sa) in
  let ao := aver (ep_mob p 1 c0 sa) (ep_mob p 1 c1 sa) in
  match fdiv 1 (mw + mo)%R, fdiv 1 (aw + ao)%R with
  | Some ti, Some ati =>
      let visc := if ep_visc p then vdot (ef_n f) (vscale mw (vscale ti (vscale (ef_flux f) (ef_n f)))) else 0%R in
      let grav := if ep_useg p && negb (c0 =? c1)
                  then (ef_area f * vdot (ef_n f) (vscale mw (vscale ti (vscale mo ginf))))%R else 0%R in
      let* cap := (if ep_cap p && negb wall
                   then let* x0 := rget sat c0 in let* x1 := rget sat c1 in
                        let* g := cap_gradient (ec_cent C0) (ef_cent f) (ef_cent nbf) (ec_cent C1) (ep_pc p c0 x0) (ep_pc p c1 x1) in
                        Ok (ef_area f * vdot (ef_n f) (vscale aw (vscale ati (vscale ao (mvec K g)))))%R
                   else Ok 0%R) in
      Ok (visc + grav + cap)%R
  | _, _ => UB
  end.
(* EulerUpstreamResidual_impl.hpp:96-127, 256-264: one face of cell c0; None: skipped,
   otherwise (other cell, dS) *)
Definition face_update (p : eprob) (bm : list (option (Z * eface))) (sat : list R) (c0 : Z) (f : eface) : res (option (Z * R)) :=
  let* s0 := rget sat c0 in
  if ef_bdry f then
    let* c := rget (ep_cond p) (ef_bid f) in
    match c_type c with
    | Periodic =>
        let* pb := rget (ep_partner p) (ef_bid f) in
        let* nb := rget bm pb in
        match nb with
        | None => UB
        | Some (c1, nbf) =>
            if c1 <? c0 then Ok None
            else let* s1 := rget sat c1 in
                 let* d := face_term p sat c0 s0 f c1 s1 nbf false in Ok (Some (c1, d))
        end
    | _ => let* d := face_term p sat c0 s0 f c0 (c_val c) f true in Ok (Some (c0, d))
    end
  else if ef_nb f <? c0 then Ok None
  else let* s1 := rget sat (ef_nb f) in
       let* d := face_term p sat c0 s0 f (ef_nb f) s1 f false in Ok (Some (ef_nb f, d)).
(* EulerUpstreamResidual_impl.hpp:256-264 *)
Definition add_term (r : list R) (c0 : Z) (u : option (Z * R)) : res (list R) :=
  match u with
  | None => Ok r
  | Some (c1, d) =>
      let* x := rget r c0 in
      let* r1 := rset r c0 (x - d)%R in
      if c0 =? c1 then Ok r1
      else let* y := rget r1 c1 in rset r1 c1 (y + d)%R
  end.
(* EulerUpstreamResidual_impl.hpp:266-274: the source term *)
Definition source_term (p : eprob) (c : Z) (s : R) : R :=
  if Rltb (ep_inj p c) 0 then (ep_inj p c * ep_ff p c s)%R else ep_inj p c.
(* EulerUpstreamResidual_impl.hpp:92-275 UpdateForCell::operator() *)
Definition update_cell (p : eprob) (bm : list (option (Z * eface))) (sat : list R) (r : list R) (ic : Z * ecell) : res (list R) :=
  let* r1 := foldM (fun r f => let* u := face_update p bm sat (fst ic) f in add_term r (fst ic) u) (ec_faces (snd ic)) r in
  let* s0 := rget sat (fst ic) in
  let* x := rget r1 (fst ic) in
  rset r1 (fst ic) (x + source_term p (fst ic) s0)%R.
(* EulerUpstreamResidual_impl.hpp:460-490 computeResidual (serial loop over all cells) *)
Definition compute_residual (p : eprob) (sat : list R) : res (list R) :=
  let* bm := build_bid_map p in
  foldM (update_cell p bm sat) (combine (zrange 0 (zlen (ep_cells p))) (ep_cells p)) (zrepeat 0%R (zlen sat)).

(* ------- block iteration *)
(* EulerUpstreamResidual_impl.hpp:409-417: cell_iters_ after initFinal on n cells; an
   iterator is the number of its cell.  The vector is not cleared first. *)
Definition cell_iters (old : list Z) (n : Z) : list Z :=
  old ++ filter (fun c => c mod (Z.min 50 n) =? 0) (zrange 0 n) ++ [n].
(* EulerUpstreamResidual_impl.hpp:277-326 IndirectRange: beg_, end_ index the iterators;
   the splitting constructor with the part kept and the part taken *)
Definition split_range (r : Z * Z) : (Z * Z) * (Z * Z) :=
  let m := Z.quot (fst r + snd r) 2 in ((fst r, m), (m, snd r)).
(* EulerUpstreamResidual_impl.hpp:311-314 is_divisible *)
Definition divisible (r : Z * Z) : bool := 1 <? snd r - fst r.
(* a history of splits made by the scheduler *)
(* tbb::parallel_for, EulerUpstreamResidual_impl.hpp:486-490 *)
Inductive split_tree := Leaf | Node (l r : split_tree).
(* the ranges that are not split further; EulerUpstreamResidual_impl.hpp:277-326, 486 *)
Fixpoint leaves (t : split_tree) (r : Z * Z) : list (Z * Z) :=
  match t with
  | Leaf => [r]
  | Node a b => if divisible r then let s := split_range r in leaves a (fst s) ++ leaves b (snd s) else [r]
  end.
(* EulerUpstreamResidual_impl.hpp:336-343: the cells visited by the loop body for a range;
   UB when the start lies behind the end (the loop runs past it) *)
Definition visit_range (iters : list Z) (r : Z * Z) : res (list Z) :=
  let* a := rget iters (fst r) in
  let* b := rget iters (snd r) in
  if b <? a then UB else Ok (zrange a b).
(* EulerUpstreamResidual_impl.hpp:336-343, 486: all cells visited *)
Definition visit_all (iters : list Z) (t : split_tree) : res (list Z) :=
  let* ls := mapM (visit_range iters) (leaves t (0, zlen iters - 1)) in Ok (concat ls).

(* ------- CFL times *)
(* 1e100, 1e99: CflCalculator.hpp:59, EulerUpstream_impl.hpp:275-277 *)
Definition cfl_huge : R := IZR (10 ^ 100).
(* EulerUpstream_impl.hpp:275-277 *)
Definition cfl_start : R := IZR (10 ^ 99).
(* CflCalculator.hpp:55-83 findCFLtimeVelocity: cells are (pore volume, outfluxes); a zero
   flux gives an infinite limit or a NaN, neither compares below dt (None) *)
Definition cell_flux (fl : list R) : R :=
  let pn := fold_left (fun pn x => if Rltb 0 x then ((fst pn + x)%R, snd pn) else (fst pn, (snd pn - x)%R)) fl (0%R, 0%R) in
  smax (snd pn) (fst pn).
(* CflCalculator.hpp:55-83 *)
Definition cfl_velocity (factor : R) (cells : list (R * list R)) : res R :=
  foldM (fun dt c =>
      match fdiv (factor * fst c)%R (cell_flux (snd c)) with
      | None => Ok dt
      | Some x => if Req_EM_T x 0 then Throw else Ok (if Rltb x dt then x else dt)
      end) cells cfl_huge.
(* CflCalculator.hpp:91-134 findCFLtimeGravity: cells are (pore volume, gravity fluxes
   area * n.(K g drho) of the faces with the face permeability) *)
Definition cfl_gravity (factor : R) (cells : list (R * list R)) : R :=
  fold_left (fun dt c =>
      match fdiv (factor * fst c)%R (fold_left (fun a x => if Rltb 0 x then (a + x)%R else a) (snd c) 0%R) with
      | None => dt
      | Some x => if Rltb x dt then x else dt
      end) cells cfl_huge.
(* CflCalculator.hpp:117-122: the gravity flux of a face *)
Definition gravity_flux (K : Z -> Z -> R) (n g : vec) (drho area : R) : R :=
  (fold_left (fun a kq => a + vget n (snd kq) * (K (snd kq) (fst kq) * vget g (fst kq) * drho))%R
     (pairs (zrange 0 3) (zrange 0 3)) 0%R * area)%R.
(* CflCalculator.hpp:143-176 findCFLtimeCapillary: the values spatial_contrib of all faces;
   a zero factor is UB here *)
Definition cfl_capillary (factor : R) (contribs : list R) : res R :=
  foldM (fun dt x => match fdiv x factor with Some q => Ok (smin dt q) | None => UB end) contribs cfl_huge.
(* EulerUpstream_impl.hpp:265-331 computeCflTime: None means the part is switched off *)
Definition cfl_time (courant : R) (v g c : option R) : R :=
  let d := fun o => match o with Some x => x | None => cfl_start end in
  (smin (smin (d v) (d g)) (d c) * courant)%R.

(* ------- volume matching *)
(* MatchSaturatedVolumeFunctor.hpp:49-63 poreSatVolumes: cells are pore volumes in index order *)
Definition pore_sat_volumes (pv sat : list R) : res (R * R) :=
  foldM (fun a i => let* v := rget pv i in let* s := rget sat i in Ok ((fst a + v)%R, (snd a + v * s)%R))
        (zrange 0 (zlen pv)) (0%R, 0%R).
(* MatchSaturatedVolumeFunctor.hpp:87-94, 102-108: operator(); inv is
   saturationFromCapillaryPressure (cell, pressure); None: division by zero *)
Definition match_volume (pv : list R) (inv : Z -> R -> R) (orig_sat cap_press : list R) (dp : R) : res (option R) :=
  let* o := pore_sat_volumes pv orig_sat in
  let* sat := mapM (fun c => let* p := rget cap_press c in Ok (inv c (p + dp)%R)) (zrange 0 (zlen pv)) in
  let* v := pore_sat_volumes pv sat in
  Ok (fdiv (snd v - snd o)%R (fst v)).
