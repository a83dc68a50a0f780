(* C64, C65, C113: the mimetic inner product.  c is a cell with well-formed geometry, the matrices Binv, fa, T1, T2 and
   out are the evaluator's arrays with any contents, and lapack_ok is what is used of the QR factorisation. *)
From Coq Require Import Lra.
From Verif Require Import BaseFacts RBaseFacts Lin_Facts Matx_Proofs Mim_Spec Mim_Proofs Mim_Proofs2.
Open Scope Z_scope.

(* the documented formula, for the stored and for the mobility-scaled matrix *)
Theorem C64_formula : forall dim orth c K, wf_cell dim c -> lapack_ok dim orth c -> let nf := zlen (mc_faces c) in
  forall Binv fa T1 T2 out totmob, shaped K COrd dim dim -> shaped Binv FOrd nf nf -> shaped fa FOrd nf nf -> shaped T1 FOrd nf dim -> shaped T2 FOrd nf dim -> shaped out FOrd nf nf ->
  exists q B, evaluate dim orth c K Binv fa T1 T2 = Ok B /\ qr_factor nf dim (fun i j => area c i * offset c i j)%R q /\ shaped B FOrd nf nf /\ shaped (get_inverse B totmob out) FOrd nf nf /\
    forall i j, 0 <= i < nf -> 0 <= j < nf ->
      entry B i j = inverse_ip dim c (entry K) q i j /\ entry (get_inverse B totmob out) i j = (totmob * inverse_ip dim c (entry K) q i j)%R.
Proof. exact matrix_ok. Qed.
Theorem C64_symmetric : forall dim orth c K Binv fa T1 T2 out totmob, wf_cell dim c -> lapack_ok dim orth c -> let nf := zlen (mc_faces c) in
  shaped K COrd dim dim -> shaped Binv FOrd nf nf -> shaped fa FOrd nf nf -> shaped T1 FOrd nf dim -> shaped T2 FOrd nf dim -> shaped out FOrd nf nf ->
  symmetric dim (entry K) -> exists B, evaluate dim orth c K Binv fa T1 T2 = Ok B /\ symmetric nf (entry (get_inverse B totmob out)).
Proof. exact iso_symmetric. Qed.
(* exact Darcy fluxes for every linear pressure field *)
Theorem C64_exact : forall dim orth c K Binv fa T1 T2 out totmob, wf_cell dim c -> lapack_ok dim orth c -> let nf := zlen (mc_faces c) in
  shaped K COrd dim dim -> shaped Binv FOrd nf nf -> shaped fa FOrd nf nf -> shaped T1 FOrd nf dim -> shaped T2 FOrd nf dim -> shaped out FOrd nf nf ->
  closed_cell dim c -> exists B, evaluate dim orth c K Binv fa T1 T2 = Ok B /\
  forall p0 g i, 0 <= i < nf -> mvec nf (entry (get_inverse B totmob out)) (pressure_drop dim c p0 g) i = darcy_flux dim c totmob (entry K) g i.
Proof. exact iso_exact. Qed.
(* no flow for hydrostatic pressure *)
Theorem C64_hydrostatic : forall dim orth c K Binv fa T1 T2 out totmob, wf_cell dim c -> lapack_ok dim orth c -> let nf := zlen (mc_faces c) in
  shaped K COrd dim dim -> shaped Binv FOrd nf nf -> shaped fa FOrd nf nf -> shaped T1 FOrd nf dim -> shaped T2 FOrd nf dim -> shaped out FOrd nf nf ->
  forall grav g0 mob_dens, closed_cell dim c -> totmob <> 0%R -> zlen grav = dim -> zlen g0 = nf ->
  exists B gf, evaluate dim orth c K Binv fa T1 T2 = Ok B /\ static_gflux dim c K grav g0 = Ok gf /\
  forall p0 i, 0 <= i < nf ->
    (mvec nf (entry (get_inverse B totmob out)) (pressure_drop dim c p0 (fun d => mob_dens / totmob * nthR grav d)) i + nthR (gravity_flux gf mob_dens) i = 0)%R.
Proof. exact iso_hydrostatic. Qed.
(* gravityTerm and gravityFlux discretise the same thing *)
Theorem C64_gravity : forall dim orth c K Binv fa T1 T2 out totmob, wf_cell dim c -> lapack_ok dim orth c -> let nf := zlen (mc_faces c) in
  shaped K COrd dim dim -> shaped Binv FOrd nf nf -> shaped fa FOrd nf nf -> shaped T1 FOrd nf dim -> shaped T2 FOrd nf dim -> shaped out FOrd nf nf ->
  forall grav g0 t0 mob_dens, closed_cell dim c -> totmob <> 0%R -> zlen grav = dim -> zlen g0 = nf -> zlen t0 = nf ->
  exists B gf gt, evaluate dim orth c K Binv fa T1 T2 = Ok B /\ static_gflux dim c K grav g0 = Ok gf /\ gravity_term_dyn c grav totmob mob_dens t0 = Ok gt /\
  forall i, 0 <= i < nf -> mvec nf (entry (get_inverse B totmob out)) (nthR gt) i = nthR (gravity_flux gf mob_dens) i.
Proof. exact iso_gravity. Qed.
Theorem C64_dynamic : forall mob rho n, zlen mob = n -> zlen rho = n -> dynamic_params mob rho = (Sum n (nthR mob), Sum n (fun i => nthR rho i * nthR mob i)%R).
Proof. exact dynamic_params_ok. Qed.
Theorem C65_semidefinite : forall dim orth c K Binv fa T1 T2 out totmob, wf_cell dim c -> lapack_ok dim orth c -> let nf := zlen (mc_faces c) in
  shaped K COrd dim dim -> shaped Binv FOrd nf nf -> shaped fa FOrd nf nf -> shaped T1 FOrd nf dim -> shaped T2 FOrd nf dim -> shaped out FOrd nf nf ->
  nonneg_form dim (entry K) -> (0 <= totmob)%R -> exists B, evaluate dim orth c K Binv fa T1 T2 = Ok B /\ nonneg_form nf (entry (get_inverse B totmob out)).
Proof. exact iso_psd. Qed.
Theorem C65_definite : forall dim orth c K Binv fa T1 T2 out totmob, wf_cell dim c -> lapack_ok dim orth c -> let nf := zlen (mc_faces c) in
  shaped K COrd dim dim -> shaped Binv FOrd nf nf -> shaped fa FOrd nf nf -> shaped T1 FOrd nf dim -> shaped T2 FOrd nf dim -> shaped out FOrd nf nf ->
  closed_cell dim c -> positive_form dim (entry K) -> (0 < totmob)%R -> exists B, evaluate dim orth c K Binv fa T1 T2 = Ok B /\ positive_form nf (entry (get_inverse B totmob out)).
Proof. exact iso_pd. Qed.
(* the unit cube with a full permeability tensor meets all hypotheses *)
Example C64_case : wf_cell 3 cube /\ closed_cell 3 cube /\ lapack_ok 3 (fun m => mscale m (sqrt 2)) cube /\ shaped cube_K COrd 3 3 /\ symmetric 3 (entry cube_K) /\ positive_form 3 (entry cube_K) /\ shaped (mnew FOrd 6 6) FOrd 6 6.
Proof.
  split; [exact cube_wf|]. split; [exact cube_closed|]. split; [exact cube_lapack|]. split; [apply cube_hyps|]. split; [apply cube_K_positive|]. split; [apply cube_K_positive|].
  eapply holds_shaped. apply holds_new; lia.
Qed.
Print Assumptions C64_formula. Print Assumptions C64_symmetric. Print Assumptions C64_exact. Print Assumptions C64_hydrostatic. Print Assumptions C64_gravity. Print Assumptions C64_dynamic. Print Assumptions C65_semidefinite. Print Assumptions C65_definite.

(* C113: tensor mobilities *)
Theorem C113_formula : forall dim orth c K grav phases ws, wf_cell dim c -> lapack_ok dim orth c -> let nf := zlen (mc_faces c) in
  shaped K COrd dim dim -> zlen grav = dim -> (forall rho m, In (rho, m) phases -> shaped m FOrd dim dim) -> aniso_work_ok dim nf ws ->
  let lK := mmul dim (mob_total phases) (entry K) in
  exists q B g, aniso_run dim orth c K grav phases ws = Ok (B, g) /\ qr_factor nf dim (fun i j => area c i * offset c i j)%R q /\
  holds B FOrd nf nf (inverse_ip dim c lK q) /\ zlen g = nf /\
  forall i, 0 <= i < nf -> nthR g i = dot dim (areavec c i) (mvec dim (mob_density phases) (mvec dim (entry K) (nthR grav))).
Proof. exact aniso_run_ok. Qed.
Theorem C113_exact : forall dim orth c K grav phases ws, wf_cell dim c -> lapack_ok dim orth c -> let nf := zlen (mc_faces c) in
  shaped K COrd dim dim -> zlen grav = dim -> (forall rho m, In (rho, m) phases -> shaped m FOrd dim dim) -> aniso_work_ok dim nf ws ->
  let lK := mmul dim (mob_total phases) (entry K) in
  closed_cell dim c -> exists B g, aniso_run dim orth c K grav phases ws = Ok (B, g) /\
  (forall p0 gr i, 0 <= i < nf -> mvec nf (entry B) (pressure_drop dim c p0 gr) i = darcy_flux dim c 1 lK gr i) /\
  forall i, 0 <= i < nf -> nthR g i = dot dim (areavec c i) (mvec dim (mob_density phases) (mvec dim (entry K) (nthR grav))).
Proof. exact aniso_exact. Qed.
Theorem C113_forms : forall dim orth c K grav phases ws, wf_cell dim c -> lapack_ok dim orth c -> let nf := zlen (mc_faces c) in
  shaped K COrd dim dim -> zlen grav = dim -> (forall rho m, In (rho, m) phases -> shaped m FOrd dim dim) -> aniso_work_ok dim nf ws ->
  let lK := mmul dim (mob_total phases) (entry K) in
  closed_cell dim c -> exists B g, aniso_run dim orth c K grav phases ws = Ok (B, g) /\
  (symmetric dim lK -> symmetric nf (entry B)) /\ (nonneg_form dim lK -> nonneg_form nf (entry B)) /\ (positive_form dim lK -> positive_form nf (entry B)).
Proof. exact aniso_forms. Qed.
(* symmetric permeability and symmetric mobility do not make the matrix symmetric *)
Theorem C113_symmetric_refuted : symmetric 3 (entry cube_K) /\ symmetric 3 (entry cube_mob) /\
  exists B g, aniso_run 3 (fun m => mscale m (sqrt 2)) cube cube_K [0; 0; 1]%R [(1%R, cube_mob)] cube_work = Ok (B, g) /\ entry B 0 2 <> entry B 2 0.
Proof. exact (conj (proj1 cube_K_positive) (conj cube_mob_symmetric cube_aniso_refuted)). Qed.
Example C113_case : aniso_work_ok 3 6 cube_work /\ (forall rho m, In (rho, m) [(1%R, cube_mob)] -> shaped m FOrd 3 3).
Proof. exact (conj cube_work_ok (proj2 (proj2 cube_hyps))). Qed.
Print Assumptions C113_formula. Print Assumptions C113_exact. Print Assumptions C113_forms. Print Assumptions C113_symmetric_refuted.
