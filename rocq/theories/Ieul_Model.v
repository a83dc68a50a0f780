(* Model of the setup and of the flux conversion of opm/porsol/euler/EulerUpstreamImplicit_impl.hpp and of the
   periodic half faces of opm/core/transport/implicit/SinglePointUpwindTwoPhase.hpp.
   The grid facade is the list of its cells (index and faces in the order of the iterators); mygrid_ is the
   C grid of Impl_Model.  Assertions are not part of a release build and are not modelled; that they hold is
   proved.  makeQPeriodic and tpfa_htrans_compute belong to other projects (contract in Ieul_Spec). *)
From Verif Require Export Impl_Model Matx_Model.
Open Scope Z_scope.
Open Scope list_scope.

(* GridInterfaceEuler.hpp:138-200: what the face iterator reports: index(), boundary(), boundaryId(),
   cellIndex() *)
Record iface := mkIface { if_index : Z; if_bnd : bool; if_bid : Z; if_cell : Z }.
(* BoundaryConditions.hpp:225-330: conditions by boundary id: satCond().isPeriodic(), getPeriodicPartner(),
   flowCond().isNeumann() with outflux() 0, satCond().saturation() *)
Record ibc := mkIbc { ib_per : Z -> bool; ib_partner : Z -> Z; ib_closed : Z -> bool; ib_sat : Z -> R }.
(* GridInterfaceEuler.hpp:302-355: the cells in iteration order, index and faces *)
Definition icells := list (Z * list iface).
(* EulerUpstreamImplicit_impl.hpp:152-154: the faces in the order of the two loops, with the cell index *)
Definition visits (cells : icells) : list (Z * iface) := flat_map (fun c => map (pair (fst c)) (snd c)) cells.

(* EulerUpstreamImplicit_impl.hpp:101-105: pore volumes *)
Definition ie_porevol (vol poro : Z -> R) (nc : Z) : list R := map (fun i => vol i * poro i)%R (zrange 0 nc).
(* EulerUpstreamImplicit_impl.hpp:121-127 *)
Definition ie_maxbid (cells : icells) : Z := fold_left (fun m v => Z.max m (if_bid (snd v))) (visits cells) 0.
(* EulerUpstreamImplicit_impl.hpp:135 *)
Definition on_periodic (b : ibc) (f : iface) : bool := if_bnd f && ib_per b (if_bid f).
(* EulerUpstreamImplicit_impl.hpp:129, 132-137: bid_to_face; None is a default constructed iterator *)
Definition bid_to_face (b : ibc) (cells : icells) : res (list (option iface)) :=
  foldM (fun t v => if on_periodic b (snd v) then rset t (if_bid (snd v)) (Some (snd v)) else Ok t)
    (visits cells) (zrepeat None (ie_maxbid cells + 1)).
(* EulerUpstreamImplicit_impl.hpp:130-144: egf_cf; cellFace(cell, local) is
   cell_faces[cell_facepos[cell] + local] *)
Definition face_map (g : tgrid) (cells : icells) : res (list Z) :=
  foldM (fun t ic =>
      foldM (fun t lf =>
          let* p := rget (t_pos g) (fst ic) in
          let* cf := rget (t_cf g) (p + fst lf) in
          rset t (if_index (snd lf)) cf) (combine (zrange 0 (zlen (snd ic))) (snd ic)) t)
    (combine (zrange 0 (zlen cells)) (map snd cells)) (zrepeat 0 (t_nf g)).

(* EulerUpstreamImplicit_impl.hpp:149-158: periodic_cells_, periodic_faces_, periodic_hfaces_,
   periodic_nbfaces_, direclet_cells_, direclet_sat_, direclet_hfaces_ and hf_ind *)
Record ist := mkIst { ip_cells : list Z; ip_faces : list Z; ip_hf : list Z; ip_nb : list Z;
                      id_cells : list Z; id_sat : list R; id_hf : list Z; ip_i : Z }.
(* EulerUpstreamImplicit_impl.hpp:161-197: one face of a cell *)
Definition ist_step (b : ibc) (bids : list (option iface)) (egf : list Z) (st : ist) (v : Z * iface) : res ist :=
  let f := snd v in
  let i := ip_i st in
  if if_bnd f then
    if ib_per b (if_bid f) then
      let* o := rget bids (ib_partner b (if_bid f)) in
      match o with
      | None => UB
      | Some nb =>
          let* fi := rget egf (if_index f) in
          let* fn := rget egf (if_index nb) in
          Ok (mkIst (ip_cells st ++ [fst v; if_cell nb]) (ip_faces st ++ [fi]) (ip_hf st ++ [i]) (ip_nb st ++ [fn])
                    (id_cells st) (id_sat st) (id_hf st) (i + 1))
      end
    else if negb (ib_closed b (if_bid f)) then
      Ok (mkIst (ip_cells st) (ip_faces st) (ip_hf st) (ip_nb st)
                (id_cells st ++ [fst v]) (id_sat st ++ [ib_sat b (if_bid f); (1 - ib_sat b (if_bid f))%R]) (id_hf st ++ [i]) (i + 1))
    else Ok (mkIst (ip_cells st) (ip_faces st) (ip_hf st) (ip_nb st) (id_cells st) (id_sat st) (id_hf st) (i + 1))
  else Ok (mkIst (ip_cells st) (ip_faces st) (ip_hf st) (ip_nb st) (id_cells st) (id_sat st) (id_hf st) (i + 1)).
(* EulerUpstreamImplicit_impl.hpp:203-213: saturations replaced by fractional flows; [mob] gives the
   mobilities of both phases in a cell (ImplicitTransportDefs.hpp:121-128) *)
Definition frac_flows (mob : Z -> R -> R * R) (cells : list Z) (sats : list R) : res (list R) :=
  foldM (fun s i =>
      let* c := rget cells i in
      let* s0 := rget s (2 * i) in
      let m := mob c s0 in
      let* fl := mdiv (fst m) (fst m + snd m)%R in
      let* s := rset s (2 * i) fl in
      rset s (2 * i + 1) (1 - fl)%R) (zrange 0 (zlen cells)) sats.
(* EulerUpstreamImplicit_impl.hpp:97-214 initObj, the lists *)
Definition ie_init (b : ibc) (mob : Z -> R -> R * R) (g : tgrid) (cells : icells) : res ist :=
  let* bids := bid_to_face b cells in
  let* egf := face_map g cells in
  let* st := foldM (ist_step b bids egf) (visits cells) (mkIst [] [] [] [] [] [] [] 0) in
  let* s := frac_flows mob (id_cells st) (id_sat st) in
  Ok (mkIst (ip_cells st) (ip_faces st) (ip_hf st) (ip_nb st) (id_cells st) s (id_hf st) (ip_i st)).

(* EulerUpstreamImplicit_impl.hpp:246-262: fluxes by face from the fluxes out of the half faces *)
Definition ie_faceflux (g : tgrid) (out : list R) : res (list R) :=
  let* numhf := rget (t_pos g) (t_nc g) in
  let* hs := half_faces g in
  foldM (fun ff h =>
      let f := snd (snd h) in
      let* o := rget out (fst h) in
      let* n0 := rget (t_fc g) (2 * f) in
      let sgn := (2 * (if Z.eqb n0 (fst (snd h)) then 1 else 0) - 1)%R in
      rset ff f (sgn * o)%R) hs (zrepeat 0%R numhf).
(* EulerUpstreamImplicit_impl.hpp:263-267 *)
Definition ie_sflux (out : list R) (hf : list Z) : res (list R) := mapM (fun i => let* o := rget out i in Ok (- o)%R) hf.
(* EulerUpstreamImplicit_impl.hpp:284-290: the sources handed to the solver: cell, flux, first saturation *)
Definition ie_sources (out : list R) (st : ist) : res (list tsource) :=
  let* fl := ie_sflux out (id_hf st) in
  mapM (fun i => let* c := rget (id_cells st) i in let* f := rget fl i in let* s := rget (id_sat st) (2 * i) in Ok (mkTsource c f s))
    (zrange 0 (zlen (id_cells st))).

(* SinglePointUpwindTwoPhase.hpp:311-350 makefhfQPeriodic *)
Definition periodic_halves (m : list Z) (pf hf nb : list Z) : res (list Z) :=
  match pf with
  | [] => Ok m
  | _ =>
      let* nbhf := mapM (fun i =>
          let* n := rget nb i in
          let* a := rget m (2 * n) in
          let p := if a <? 0 then 1 else 0 in
          rget m (2 * n + p)) (zrange 0 (zlen pf)) in
      foldM (fun m i =>
          let* f := rget pf i in
          let* h := rget hf i in
          let* a := rget m (2 * f) in
          let p := if a =? h then 1 else 0 in
          let* x := rget nbhf i in
          rset m (2 * f + p) x) (zrange 0 (zlen pf)) m
  end.
