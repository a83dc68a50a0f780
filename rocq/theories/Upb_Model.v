(* Model of opm/upscaling/UpscalerBase_impl.hpp.  Doubles are reals; a quotient with
   zero denominator is None (not a finite number). *)
From Verif Require Export RBase Bound_Model.
Open Scope Z_scope.

(* ------- boundary condition type: UpscalerBase.hpp enum Fixed = 0, Linear = 1, Periodic = 2 *)
(* UpscalerBase_impl.hpp:139-174 init(deck, ...): the members that depend on the type *)
Record ubase := mkUbase { ub_type : Z; ub_unique : bool; ub_clip : bool; ub_periodic_ext : bool }.
(* UpscalerBase_impl.hpp:139-174 *)
Definition init_deck (bct : Z) : ubase :=
  mkUbase bct ((bct =? 1) || (bct =? 2)) ((bct =? 1) || (bct =? 2)) (bct =? 2).
(* UpscalerBase_impl.hpp:187-202 setBoundaryConditionType *)
Definition set_bctype (t : Z) (u : ubase) : res ubase :=
  if ((t =? 2) && negb (ub_type u =? 2)) || (negb (t =? 2) && (ub_type u =? 2)) then Throw
  else Ok (mkUbase t ((t =? 2) || (t =? 1)) (ub_clip u) (ub_periodic_ext u)).

(* ------- averages over cells *)
(* what the cell loops read: volume() and the cell's entries of the property object *)
(* UpscalerBase_impl.hpp:377-458 *)
Record ucell := mkUcell { u_vol : R; u_poro : R; u_ntg : R; u_swcr : R; u_sowcr : R }.
(* UpscalerBase_impl.hpp:377-386 *)
Definition upscale_porosity (cells : list ucell) : option R :=
  fdiv (racc (fun c => u_vol c * u_poro c)%R cells) (racc u_vol cells).
(* UpscalerBase_impl.hpp:390-400 *)
Definition upscale_net_porosity (cells : list ucell) : option R :=
  let net := racc (fun c => u_vol c * u_ntg c)%R cells in
  let pore := racc (fun c => u_vol c * u_poro c * u_ntg c)%R cells in
  if Rltb 0 net then fdiv pore net else Some 0%R.
(* UpscalerBase_impl.hpp:403-412 *)
Definition upscale_ntg (cells : list ucell) : option R :=
  fdiv (racc (fun c => u_vol c * u_ntg c)%R cells) (racc u_vol cells).
(* UpscalerBase_impl.hpp:415-432 *)
Definition upscale_swcr (ntg : bool) (cells : list ucell) : option R :=
  if ntg then fdiv (racc (fun c => u_vol c * u_poro c * u_ntg c * u_swcr c)%R cells)
                   (racc (fun c => u_vol c * u_poro c * u_ntg c)%R cells)
  else fdiv (racc (fun c => u_vol c * u_poro c * u_swcr c)%R cells)
            (racc (fun c => u_vol c * u_poro c)%R cells).
(* UpscalerBase_impl.hpp:435-452 *)
Definition upscale_sowcr (ntg : bool) (cells : list ucell) : option R :=
  if ntg then fdiv (racc (fun c => u_vol c * u_poro c * u_ntg c * u_sowcr c)%R cells)
                   (racc (fun c => u_vol c * u_poro c * u_ntg c)%R cells)
  else fdiv (racc (fun c => u_vol c * u_poro c * u_sowcr c)%R cells)
            (racc (fun c => u_vol c * u_poro c)%R cells).

(* ------- average velocity and effective permeability *)
(* a face of the double loop over cells and their faces, with its normal *)
(* UpscalerBase_impl.hpp:301-303, 350-352 *)
Record uface := mkUface { uf_g : gface; uf_n : vec }.

(* UpscalerBase_impl.hpp:293-339 computeAverageVelocity: accumulators (side1 flux and
   area, side2 flux and area).  (canon_bid - 1)/2 is C++ division (truncation). *)
Definition vel_step (b : bcs) (dir : Z) (a : (R * R) * (R * R)) (ff : uface * R)
    : res ((R * R) * (R * R)) :=
  let f := fst ff in let flux := snd ff in
  if gf_bid (uf_g f) =? 0 then Ok a
  else
    let* canon := rget (t_canon b) (gf_bid (uf_g f)) in
    if Z.quot (canon - 1) 2 =? dir then
      let q := (flux * vget (uf_n f) dir)%R in
      let area := gf_area (uf_g f) in
      if canon - 1 =? 2 * dir
      then Ok (((fst (fst a) + q)%R, (snd (fst a) + area)%R), snd a)
      else Ok (fst a, ((fst (snd a) + q)%R, (snd (snd a) + area)%R))
    else Ok a.
(* UpscalerBase_impl.hpp:293-339 *)
Definition average_velocity (b : bcs) (faces : list uface) (flux : list R) (dir : Z) : res (option R) :=
  let* a := foldM (vel_step b dir) (combine faces flux) ((0, 0), (0, 0))%R in
  Ok (match fdiv (fst (fst a)) (snd (fst a)), fdiv (fst (snd a)) (snd (snd a)) with
      | Some x, Some y => Some (/ 2 * (x + y))%R
      | _, _ => None
      end).
(* UpscalerBase_impl.hpp:345-371 computeDelta *)
Definition delta_step (b : bcs) (dir : Z) (a : (R * R) * (R * R)) (f : uface)
    : res ((R * R) * (R * R)) :=
  if gf_bid (uf_g f) =? 0 then Ok a
  else
    let* canon := rget (t_canon b) (gf_bid (uf_g f)) in
    if Z.quot (canon - 1) 2 =? dir then
      let area := gf_area (uf_g f) in
      let q := (area * vget (gf_cent (uf_g f)) dir)%R in
      if canon - 1 =? 2 * dir
      then Ok (((fst (fst a) + q)%R, (snd (fst a) + area)%R), snd a)
      else Ok (fst a, ((fst (snd a) + q)%R, (snd (snd a) + area)%R))
    else Ok a.
(* UpscalerBase_impl.hpp:342-374 *)
Definition compute_delta (b : bcs) (faces : list uface) (dir : Z) : res (option R) :=
  let* a := foldM (delta_step b dir) faces ((0, 0), (0, 0))%R in
  Ok (match fdiv (fst (snd a)) (snd (snd a)), fdiv (fst (fst a)) (snd (fst a)) with
      | Some y, Some x => Some (y - x)%R
      | _, _ => None
      end).

(* UpscalerBase_impl.hpp:251-284: one pressure drop direction.  The flow solver
   (init, solve, postProcessFluxes, getSolution().outflux) is the argument [solve]:
   direction and conditions to the outflux of every face; it may fail.
   A column is the three entries K(0..2, pdd). *)
Definition perm_column (srt : list bface -> list bface) (solve : Z -> bcs -> res (list R))
    (bct : Z) (twodim : bool) (faces : list uface) (pdd : Z) (b : bcs)
    : res (list (option R) * bcs) :=
  let* b' := setup_upscaling srt (map uf_g faces) bct pdd 1%R 1%R twodim b in
  let* flux := solve pdd b' in
  let* q := (if bct =? 0 then
               let* v := average_velocity b' faces flux pdd in
               rset [Some 0%R; Some 0%R; Some 0%R] pdd v
             else if (bct =? 1) || (bct =? 2) then
               mapM (average_velocity b' faces flux) (zrange 0 3)
             else Throw) in
  let* d := compute_delta b' faces pdd in
  Ok (map (fun x => match x, d with Some v, Some l => Some (v * l)%R | _, _ => None end) q, b').
(* UpscalerBase_impl.hpp:234-286 upscaleEffectivePerm: the three columns *)
Definition effective_perm (srt : list bface -> list bface) (solve : Z -> bcs -> res (list R))
    (bct : Z) (twodim : bool) (faces : list uface) (b : bcs) : res (list (list (option R))) :=
  let* r := foldM (fun st pdd => let* c := perm_column srt solve bct twodim faces pdd (snd st) in
                                 Ok (fst st ++ [fst c], snd c))
                  (zrange 0 3) ([], b) in
  Ok (fst r).
