From Verif Require Import Ieul_Proofs Ieul_Proofs2 Ieul_Proofs3 Ieul_Proofs4 Ieul_Proofs5 Impl_Spec Ieul_Spec.
Open Scope Z_scope.

(* C164: setup of the implicit transport solver *)
Theorem C164_lists : forall g b mob cells number, wf_grid g -> same_grid g cells number -> paired b cells ->
  (forall c s, 0 <= fst (mob c s) /\ 0 <= snd (mob c s) /\ 0 < fst (mob c s) + snd (mob c s))%R ->
  exists st, ie_init b mob g cells = Ok st /\
    ip_hf st = the_halves cells (is_periodic b cells) /\ zlen (ip_cells st) = 2 * zlen (ip_hf st) /\ zlen (ip_faces st) = zlen (ip_hf st) /\ zlen (ip_nb st) = zlen (ip_hf st) /\
    (forall k i, zget (ip_hf st) k = Some i -> exists j, partner_half b cells i j /\
       zget (ip_cells st) (2 * k) = Some (cell_at cells i) /\ zget (ip_cells st) (2 * k + 1) = Some (cell_at cells j) /\
       zget (ip_faces st) k = Some (nthZ (t_cf g) i) /\ zget (ip_nb st) k = Some (nthZ (t_cf g) j)) /\
    id_hf st = the_halves cells (is_open b cells) /\ zlen (id_cells st) = zlen (id_hf st) /\ zlen (id_sat st) = 2 * zlen (id_hf st) /\
    (forall k i, zget (id_hf st) k = Some i -> zget (id_cells st) k = Some (cell_at cells i) /\
       let m := mob (cell_at cells i) (ib_sat b (bid_at cells i)) in
       exists fl, zget (id_sat st) (2 * k) = Some fl /\ zget (id_sat st) (2 * k + 1) = Some (1 - fl)%R /\ fl = (fst m / (fst m + snd m))%R /\ (0 <= fl <= 1)%R).
Proof. exact Ieul_Proofs2.init_ok. Qed.
Theorem C164_assertions : forall g b cells number i, wf_grid g -> same_grid g cells number -> is_periodic b cells i = true ->
  let f := nthZ (t_cf g) i in
  (first_cell g f = -1 \/ second_cell g f = -1) /\ (first_cell g f = cell_at cells i \/ second_cell g f = cell_at cells i).
Proof. exact Ieul_Proofs2.assertions. Qed.
Theorem C164_mirrored : forall g b mob cells number st k i, wf_grid g -> same_grid g cells number -> paired b cells ->
  (forall c s, 0 <= fst (mob c s) /\ 0 <= snd (mob c s) /\ 0 < fst (mob c s) + snd (mob c s))%R -> ie_init b mob g cells = Ok st -> zget (ip_hf st) k = Some i ->
  exists k' j, k' <> k /\ zget (ip_hf st) k' = Some j /\ partner_half b cells i j /\ partner_half b cells j i /\
    zget (ip_cells st) (2 * k') = zget (ip_cells st) (2 * k + 1) /\ zget (ip_cells st) (2 * k' + 1) = zget (ip_cells st) (2 * k) /\
    zget (ip_faces st) k' = zget (ip_nb st) k /\ zget (ip_nb st) k' = zget (ip_faces st) k.
Proof. exact Ieul_Proofs2.mirrored. Qed.
Theorem C164_one_cell_wide_refuted : exists g b mob cells number st, wf_grid g /\ same_grid g cells number /\ paired b cells /\ ie_init b mob g cells = Ok st /\ ip_cells st = [0; 0; 0; 0].
Proof. exact Ieul_Proofs5.own_neighbour. Qed.

(* C165: face fluxes and sources of the implicit transport solver *)
Theorem C165_fluxes : forall g out, wf_grid g -> simple_grid g -> zlen out = zlen (t_cf g) -> t_nf g <= zlen (t_cf g) -> opposite_fluxes g out ->
  exists ff, ie_faceflux g out = Ok ff /\ (forall c f i, 0 <= c < t_nc g -> half_of g c f i -> (outward g c f * nthR ff f = nthR out i)%R) /\
    forall c, 0 <= c < t_nc g -> Rsum (map (fun f => outward g c f * nthR ff f)%R (faces g c)) = Rsum (map (nthR out) (cell_halves g c)).
Proof. exact Ieul_Proofs3.faceflux_ok. Qed.
Theorem C165_sources : forall g b mob cells number out st, wf_grid g -> same_grid g cells number -> paired b cells ->
  (forall c s, 0 <= fst (mob c s) /\ 0 <= snd (mob c s) /\ 0 < fst (mob c s) + snd (mob c s))%R -> zlen out = zlen (t_cf g) -> ie_init b mob g cells = Ok st ->
  ie_sources out st = Ok (map (fun i => mkTsource (cell_at cells i) (- nthR out i) (frac_at mob b cells i)) (the_halves cells (is_open b cells))).
Proof. exact Ieul_Proofs4.sources_ok. Qed.
Theorem C165_balance : forall g b mob cells number out g' st, wf_grid g -> simple_grid g -> same_grid g cells number -> paired b cells -> glued g b cells g' ->
  (forall c s, 0 <= fst (mob c s) /\ 0 <= snd (mob c s) /\ 0 < fst (mob c s) + snd (mob c s))%R ->
  zlen out = zlen (t_cf g) -> t_nf g <= zlen (t_cf g) -> opposite_fluxes g out -> closed_fluxes b cells out -> ie_init b mob g cells = Ok st ->
  exists ff src, ie_faceflux g' out = Ok ff /\ ie_sources out st = Ok src /\
    forall c, 0 <= c < t_nc g ->
      (Rsum (map (fun f => outward g' c f * nthR ff f) (conns g' c)) = Rsum (map (nthR out) (cell_halves g c)) + Rsum (map q_flux (filter (fun q => q_cell q =? c) src)))%R.
Proof. exact Ieul_Proofs4.flux_balance. Qed.

(* C166: periodic half faces of the implicit transport solver *)
Theorem C166_halves : forall g b mob cells number g' st m, wf_grid g -> simple_grid g -> same_grid g cells number -> paired b cells -> glued g b cells g' ->
  (forall c s, 0 <= fst (mob c s) /\ 0 <= snd (mob c s) /\ 0 < fst (mob c s) + snd (mob c s))%R ->
  ie_init b mob g cells = Ok st -> face_to_half g' = Ok m ->
  exists m', periodic_halves m (ip_faces st) (ip_hf st) (ip_nb st) = Ok m' /\ zlen m' = zlen m /\
    (forall i j, is_periodic b cells i = true -> partner_half b cells i j -> let f := nthZ (t_cf g) i in let s := own_slot g' (cell_at cells i) f in
       zget m' (2 * f + s) = Some i /\ zget m' (2 * f + (1 - s)) = Some j) /\
    (forall f s, 0 <= s <= 1 -> (forall i, is_periodic b cells i = true -> nthZ (t_cf g) i <> f) -> zget m' (2 * f + s) = zget m (2 * f + s)).
Proof. exact Ieul_Proofs4.halves_glued. Qed.

Example C165_case : wf_grid row_grid /\ simple_grid row_grid /\ same_grid row_grid row_cells row_number /\ paired row_bc row_cells /\ glued row_grid row_bc row_cells row_glued /\
  (forall c s, 0 <= fst (row_mob c s) /\ 0 <= snd (row_mob c s) /\ 0 < fst (row_mob c s) + snd (row_mob c s))%R /\
  zlen row_out = zlen (t_cf row_grid) /\ t_nf row_grid <= zlen (t_cf row_grid) /\ opposite_fluxes row_grid row_out /\ closed_fluxes row_bc row_cells row_out.
Proof. exact row_hypotheses. Qed.
Example C166_case : the_halves row_cells (is_periodic row_bc row_cells) = [0; 4] /\ the_halves row_cells (is_open row_bc row_cells) = [2] /\
  partner_half row_bc row_cells 0 4 /\ partner_half row_bc row_cells 4 0 /\
  face_to_half row_glued = Ok [1; 3; -1; 0; 4; -1; 2; -1; 5; -1] /\
  periodic_halves [1; 3; -1; 0; 4; -1; 2; -1; 5; -1] [1; 2] [0; 4] [2; 1] = Ok [1; 3; 4; 0; 4; 0; 2; -1; 5; -1].
Proof. exact row_halves. Qed.
Print Assumptions C164_lists. Print Assumptions C164_assertions. Print Assumptions C164_mirrored. Print Assumptions C164_one_cell_wide_refuted. Print Assumptions C165_fluxes. Print Assumptions C165_sources. Print Assumptions C165_balance. Print Assumptions C166_halves.
