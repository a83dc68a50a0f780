(* UpscalerBase_impl.hpp: upscaleEffectivePerm with the flow solver it calls.  The grid is one list of cells:
   the flow solver reads its topology, the boundary conditions and the averages its geometry. *)
From Verif Require Export Lsv_Model Upb_Model Mim_Model.
Open Scope Z_scope.

(* a point or normal of the (three-dimensional) grid interface as a triple *)
(* GridInterfaceEuler.hpp:123-139 *)
Definition vec_of (l : list R) : vec := match l with x :: y :: z :: _ => (x, y, z) | _ => (0, 0, 0)%R end.
(* one face of the double loops: boundaryId() is 0 on interior faces (GridInterfaceEuler.hpp:151-154), area(),
   centroid() and normal() (115-139) *)
Definition uface_of (f : hface) (m : mface) : uface :=
  mkUface (mkGface (match hf_nb f with Some _ => 0 | None => hf_bid f end) (mf_area m) (vec_of (mf_cen m))) (vec_of (mf_normal m)).
(* the faces of a cell with the given shape, in iteration order *)
(* UpscalerBase_impl.hpp:302-303, 351-352 *)
Definition cell_faces (c : hcell) (m : mcell) : list uface := map (fun fm => uface_of (fst fm) (snd fm)) (combine (hc_faces c) (mc_faces m)).
(* the double loop over the cells and their faces *)
(* UpscalerBase_impl.hpp:302-303, 351-352 *)
Definition grid_faces (g : list hcell) (geo : Z -> mcell) : list uface :=
  List.concat (map (fun kc => cell_faces (snd kc) (geo (fst kc))) (combine (zrange 0 (zlen g)) g)).

(* UpscalerBase_impl.hpp:266-279: Q *)
Definition mean_velocities (b : bcs) (bct pdd : Z) (faces : list uface) (flux : list R) : res (list (option R)) :=
  if bct =? 0 then let* v := average_velocity b faces flux pdd in rset [Some 0%R; Some 0%R; Some 0%R] pdd v
  else if (bct =? 1) || (bct =? 2) then mapM (average_velocity b faces flux) (zrange 0 3)
  else Throw.

(* what the loop over pdd carries along: bcond_, flow_solver_, the calls of the iterative solver so far, and
   the columns computed *)
(* UpscalerBase_impl.hpp:245-284 *)
Record tstate := mkTs { ts_bcs : bcs; ts_solver : solver; ts_log : list lcall; ts_cols : list (list (option R)) }.
(* UpscalerBase_impl.hpp:245-284: one direction.  flow_solver_.postProcessFluxes() changes the outfluxes
   that getSolution() hands to computeAverageVelocity; nf is the number of faces of the grid. *)
Definition tensor_direction (K : krylov) (srt : list bface -> list bface) (g : list hcell) (geo : Z -> mcell) (ip : hip)
    (bct : Z) (twodim : bool) (ty maxit nf : Z) (s : tstate) (pdd : Z) : res tstate :=
  let faces := grid_faces g geo in
  let* r := perm_direction K srt g (map uf_g faces) ip bct twodim ty maxit (ts_bcs s, ts_solver s, ts_log s) pdd in
  let '(b, sv, log) := r in
  match sv_grid sv with
  | None => UB
  | Some (g', st) =>
      let* t := post_process g' st nf (snd (sv_sol sv)) in
      let sv := mkSv (sv_grid sv) (sv_prec sv) (fst (sv_sol sv), fst t) in
      let* q := mean_velocities b bct pdd faces (List.concat (snd (sv_sol sv))) in
      let* d := compute_delta b faces pdd in
      Ok (mkTs b sv log (ts_cols s ++ [map (fun x => match x, d with Some v, Some l => Some (v * l)%R | _, _ => None end) q]))
  end.
(* UpscalerBase_impl.hpp:231-286 upscaleEffectivePerm: the columns of the tensor are ts_cols *)
Definition flow_tensor (K : krylov) (srt : list bface -> list bface) (g : list hcell) (geo : Z -> mcell) (ip : hip)
    (bct : Z) (twodim : bool) (ty maxit nf : Z) (b : bcs) (sv : solver) : res tstate :=
  foldM (tensor_direction K srt g geo ip bct twodim ty maxit nf) (zrange 0 3) (mkTs b sv [] []).
