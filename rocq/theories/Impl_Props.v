From Coq Require Import Lra Ranalysis1 Permutation.
From Verif Require Import BaseFacts RBaseFacts Steady_Proofs Euler_Spec Impl_Model Impl_Spec Impl_Proofs Impl_Proofs2 Impl_Proofs3 Impl_Proofs4 Impl_Proofs5.
Open Scope Z_scope.

(* C56: for every number of unknowns per cell the local buffer is filled exactly, block by block *)
Theorem C56_cell_buffer : forall ndof g k, 0 <= ndof ->
  (forall f, zlen (fst (fst (k_flux k f))) = ndof * ndof) -> (forall f, zlen (snd (fst (k_flux k f))) = ndof * ndof) -> (forall f, zlen (snd (k_flux k f)) = ndof) ->
  zlen (k_init k) = ndof -> zlen (k_accJ k) = ndof * ndof -> zlen (k_accF k) = ndof ->
  forall c, wf_grid g -> 0 <= c < t_nc g ->
  compute_cell_contrib ndof g c k =
  Ok (k_accJ k ++ flat_map (fun f => fst (fst (k_flux k f))) (conns g c) ++ flat_map (fun f => snd (fst (k_flux k f))) (conns g c)
      ++ k_init k ++ flat_map (fun f => snd (k_flux k f)) (conns g c) ++ k_accF k).
Proof. intros ndof g k H0 H1 H2 H3 H4 H5 H6 c. exact (contrib_ok ndof k g H0 H4 H5 H6 H1 H2 H3 c). Qed.
Print Assumptions C56_cell_buffer.
(* the two-cell ring of Impl_Proofs5 with three unknowns per cell *)
Example C56_case : wf_grid ring /\ conns ring 0 = [1; 0] /\ zlen (zrepeat 1%R (3 * 3)) = 3 * 3.
Proof. split; [exact ring_wf|]. split; reflexivity. Qed.

Theorem C57_pattern : forall g u dt src s0 s, wf_grid g -> (forall q, In q src -> 0 <= q_cell q < t_nc g) ->
  create_system g = Ok s0 -> assemble g u dt src s0 = Ok s ->
  forall c, 0 <= c < t_nc g -> exists row, zget (y_mat s) c = Some row /\ NoDup (map fst row) /\
    forall j, In j (map fst row) <-> j = c \/ exists f, In f (conns g c) /\ j = across g c f.
Proof. exact pattern_kept. Qed.
Print Assumptions C57_pattern.
Theorem C57_in_bounds : forall g u dt src, wf_grid g -> (forall q, In q src -> 0 <= q_cell q < t_nc g) ->
  exists s0 s, create_system g = Ok s0 /\ assemble g u dt src s0 = Ok s.
Proof. intros g u dt src W H. destruct (assembled g u dt src W H) as (s0 & s & A & B & _). eauto. Qed.
Print Assumptions C57_in_bounds.

Theorem C58_residual : forall g u dt src, wf_grid g -> (forall q, In q src -> 0 <= q_cell q < t_nc g) ->
  exists s0 s, create_system g = Ok s0 /\ assemble g u dt src s0 = Ok s /\ zlen (y_res s) = t_nc g /\
    (forall c, 0 <= c < t_nc g -> nthR (y_res s) c = balance g u (chosen g u) dt src c).
Proof. exact assembled. Qed.
Print Assumptions C58_residual.
(* fs: the faces between two cells; pp: pairs of half faces glued by periodicity *)
Theorem C58_conservation : forall g u dt src fs pp s0 s, wf_grid g -> (forall q, In q src -> 0 <= q_cell q < t_nc g) ->
  (forall f, In f fs -> first_cell g f <> second_cell g f) ->
  (forall p, In p pp -> matched g u p /\ u_trans u (snd (fst p)) = u_trans u (snd (snd p))) ->
  Permutation (half_conns g) (both_sides g fs ++ flat_map (fun p => [fst p; snd p]) pp) ->
  create_system g = Ok s0 -> assemble g u dt src s0 = Ok s ->
  Rsum (map (nthR (y_res s)) (zrange 0 (t_nc g))) =
  (Rsum (map (fun c => u_pv u c * u_ds u c) (zrange 0 (t_nc g))) + dt * Rsum (map (source_out u) src))%R.
Proof. exact conservation. Qed.
Print Assumptions C58_conservation.
(* glued faces with different transmissibilities *)
Theorem C58_periodic_refuted : exists g u dt s0 s, wf_grid g /\ create_system g = Ok s0 /\ assemble g u dt [] s0 = Ok s /\
  Permutation (half_conns g) (both_sides g [0] ++ flat_map (fun p => [fst p; snd p]) [((0, 1), (1, 2))]) /\
  first_cell g 0 <> second_cell g 0 /\ matched g u ((0, 1), (1, 2)) /\
  Rsum (map (nthR (y_res s)) (zrange 0 (t_nc g))) <> Rsum (map (fun c => u_pv u c * u_ds u c)%R (zrange 0 (t_nc g))).
Proof. exact conservation_refuted. Qed.
Print Assumptions C58_periodic_refuted.
(* a cell glued to itself *)
Theorem C58_self_refuted : exists g u dt s0 s, wf_grid g /\ create_system g = Ok s0 /\ assemble g u dt [] s0 = Ok s /\
  t_nc g = 1 /\ t_nf g = 2 /\ (forall f, 0 <= f < 2 -> first_cell g f = 0 /\ second_cell g f = 0) /\ u_dflux u 0 = u_dflux u 1 /\
  Rsum (map (nthR (y_res s)) (zrange 0 (t_nc g))) <> Rsum (map (fun c => u_pv u c * u_ds u c)%R (zrange 0 (t_nc g))).
Proof. exact self_refuted. Qed.
Print Assumptions C58_self_refuted.
Example C58_case : wf_grid ring /\ matched ring (ring_store (fun _ => 1%R)) ((0, 1), (1, 2)) /\
  Permutation (half_conns ring) (both_sides ring [0] ++ flat_map (fun p => [fst p; snd p]) [((0, 1), (1, 2))]).
Proof.
  split; [exact ring_wf|]. split; [apply ring_matched|]. rewrite ring_halves. change (both_sides ring [0]) with [(0, 0); (1, 0)]. cbn [flat_map fst snd app].
  apply (Permutation_middle [(0, 0); (1, 0)] [(1, 2)] (0, 1)).
Qed.

(* C59: the assembled matrix is the derivative of the residual with respect to the saturations, the upwind sides held fixed *)
Theorem C59_jacobian : forall g l0 l1 pc d0 d1 dpc pv trans gflux dflux sold s dt src s0 sys c j,
  let u := store_of l0 l1 pc d0 d1 dpc pv trans gflux dflux sold s in
  wf_grid g -> (forall q, In q src -> 0 <= q_cell q < t_nc g) ->
  (forall i, 0 <= i < t_nc g -> derivable_pt_lim (l0 i) (s i) (d0 i (s i)) /\ derivable_pt_lim (l1 i) (s i) (d1 i (s i)) /\ derivable_pt_lim (pc i) (s i) (dpc i (s i))) ->
  (forall f, In f (conns g c) -> total_mobility g u (chosen g u) f <> 0%R) ->
  (forall q, In q src -> (u_m0 u (q_cell q) + u_m1 u (q_cell q) <> 0)%R) ->
  create_system g = Ok s0 -> assemble g u dt src s0 = Ok sys -> 0 <= c < t_nc g ->
  derivable_pt_lim (fun t => balance g (store_of l0 l1 pc d0 d1 dpc pv trans gflux dflux sold (change s j t)) (chosen g u) dt src c) (s j) (entry (y_mat sys) c j).
Proof. exact jacobian_ok. Qed.
Print Assumptions C59_jacobian.
(* and the stored derivatives are with respect to the first saturation *)
Theorem C59_stored : forall fl c s x A B, let s0 := (s + x)%R in (l_min fl c <= s0 <= l_max fl c)%R ->
  (forall a b, l_mob fl c a b = (A a, B b)) -> derivable_pt_lim A s0 (fst (l_dmob fl c s0 (1 - s0))) -> derivable_pt_lim B (1 - s0) (snd (l_dmob fl c s0 (1 - s0))) ->
  let v := fst (init_cell fl c s x) in
  fst (fst v) = (A s0, B (1 - s0)%R) /\
  derivable_pt_lim (fun t => fst (l_mob fl c t (1 - t))) s0 (fst (snd (fst v))) /\ derivable_pt_lim (fun t => snd (l_mob fl c t (1 - t))) s0 (snd (snd (fst v))).
Proof. exact stored_derivatives. Qed.
Print Assumptions C59_stored.
(* linear mobilities s and 1-s and capillary pressure 1-s on the ring, one producer and one injector *)
Example C59_case :
  let l0 := fun (_ : Z) (x : R) => x in let l1 := fun (_ : Z) (x : R) => (1 - x)%R in let s := fun _ : Z => (/ 2)%R in
  let u := store_of l0 l1 l1 (fun _ _ => 1%R) (fun _ _ => (-1)%R) (fun _ _ => (-1)%R) (fun _ => 1%R) (fun _ => 1%R) (fun _ => 0%R) (fun _ => 1%R) s s in
  let src := [mkTsource 0 1%R 1%R; mkTsource 1 (-1)%R 0%R] in
  wf_grid ring /\ (forall q, In q src -> 0 <= q_cell q < t_nc ring) /\
  (forall i, 0 <= i < t_nc ring -> derivable_pt_lim (l0 i) (s i) 1%R /\ derivable_pt_lim (l1 i) (s i) (-1)%R /\ derivable_pt_lim (l1 i) (s i) (-1)%R) /\
  (forall f, In f (conns ring 0) -> total_mobility ring u (chosen ring u) f <> 0%R) /\
  (forall q, In q src -> (u_m0 u (q_cell q) + u_m1 u (q_cell q) <> 0)%R).
Proof.
  cbv zeta. split; [exact ring_wf|]. split; [intros q [<-|[<-|[]]]; cbn; lia|]. split.
  - intros i _. assert (D : derivable_pt_lim (fun x => 1 - x)%R (/ 2) (-1)%R).
    { replace (-1)%R with (0 - 1)%R by lra. apply (derivable_pt_lim_minus (fct_cte 1) id); [apply derivable_pt_lim_const|apply derivable_pt_lim_id]. }
    split; [apply derivable_pt_lim_id|]. split; exact D.
  - split; [intros f _; unfold total_mobility; cbn [u_m0 u_m1 store_of]; lra|]. intros q _. cbn [u_m0 u_m1 store_of]. lra.
Qed.

Theorem C60_upwind : forall u dflux gflux n, (forall c, 0 <= u_m0 u c)%R -> (forall c, 0 <= u_m1 u c)%R ->
  let p := upwind u dflux gflux n in
  (fst p = 0 \/ fst p = 1) /\ (snd p = 0 \/ snd p = 1) /\
  agrees (fst p) (dflux + u_m1 u (if snd p =? 0 then fst n else snd n) * gflux) /\
  agrees (snd p) (dflux - u_m0 u (if fst p =? 0 then fst n else snd n) * gflux).
Proof. exact upwind_ok. Qed.
Print Assumptions C60_upwind.
(* counter-current flow: the sides differ *)
Example C60_case : let u := ring_store (fun _ => 1%R) in (forall c, 0 <= u_m0 u c)%R /\ (forall c, 0 <= u_m1 u c)%R /\ upwind u 1 2 (0, 1) = (0, 1).
Proof.
  cbv zeta. split; [intros c; cbn; lra|]. split; [intros c; cbn; lra|]. unfold upwind. cbn [ring_store u_m0 u_m1].
  destruct (Rltb_spec 1 0), (Rltb_spec 2 0), (Rltb_spec 0 1), (Rltb_spec 0 2); try lra. cbn [negb andb orb].
  destruct (Rltb_spec (1 - 1 * 2) 0); [reflexivity|lra].
Qed.

Theorem C61_finish : forall fl x sat, zlen sat = 2 * zlen x ->
  exists s', finish_step fl x sat = Ok s' /\ zlen s' = zlen sat /\
    forall c, 0 <= c < zlen x ->
      nthR s' (2 * c) = Rmin (l_max fl c) (Rmax (l_min fl c) (nthR sat (2 * c) + nthR x c)) /\
      (nthR s' (2 * c) + nthR s' (2 * c + 1) = 1)%R /\
      ((l_min fl c <= l_max fl c)%R -> (l_min fl c <= nthR s' (2 * c) <= l_max fl c)%R).
Proof. exact finish_ok. Qed.
Print Assumptions C61_finish.
Theorem C61_iteration : forall fl sat x, zlen sat = 2 * zlen x ->
  exists vs ok, init_iteration fl sat x = Ok (vs, ok) /\ zlen vs = zlen x /\
    (ok = true <-> forall c, 0 <= c < zlen x -> (l_min fl c - / 100000 <= nthR sat (2 * c) + nthR x c <= l_max fl c + / 100000)%R) /\
    (forall c, 0 <= c < zlen x ->
       let s := Rmin (l_max fl c) (Rmax (l_min fl c) (nthR sat (2 * c) + nthR x c)) in
       zget vs c = Some (l_mob fl c s (1 - s), (fst (l_dmob fl c s (1 - s)), - snd (l_dmob fl c s (1 - s))), l_pc fl c s (1 - s))%R /\
       ((l_min fl c <= l_max fl c)%R -> (l_min fl c <= s <= l_max fl c)%R) /\
       ((l_min fl c <= nthR sat (2 * c) + nthR x c <= l_max fl c)%R -> s = (nthR sat (2 * c) + nthR x c)%R)).
Proof. exact init_ok. Qed.
Print Assumptions C61_iteration.
Theorem C61_start : forall nc sat, 0 <= nc -> zlen sat = 2 * nc ->
  (exists x, init_step true nc sat = Ok x /\ zlen x = nc /\ forall c, 0 <= c < nc -> (nthR sat (2 * c) + nthR x c = nthR sat (2 * c))%R) /\
  (exists x, init_step false nc sat = Ok x /\ zlen x = nc /\ forall c, 0 <= c < nc -> (nthR sat (2 * c) + nthR x c = / 2)%R).
Proof. exact init_step_ok. Qed.
Print Assumptions C61_start.
Example C61_case : zlen [0; 1; 1; 0]%R = 2 * zlen [2; -1]%R.
Proof. reflexivity. Qed.

(* C62: segments of the parameter storage do not overlap and stay inside, when there are at least as many half faces as faces *)
Theorem C62_storage : forall nc nf totconn s i k s' i' k', 0 <= nc -> 0 <= nf <= totconn ->
  valid_index nc nf totconn s i k -> valid_index nc nf totconn s' i' k' ->
  0 <= address nc totconn s i k < storage_size nc totconn /\
  (address nc totconn s i k = address nc totconn s' i' k' -> s = s' /\ i = i' /\ k = k').
Proof. exact storage_ok. Qed.
Print Assumptions C62_storage.
Theorem C62_faces_refuted : exists nc nf totconn, 0 <= nc /\ 0 <= totconn < nf /\ exists i, 0 <= i < nf /\ ~ address nc totconn STrans i 0 < storage_size nc totconn.
Proof. exact storage_refuted. Qed.
Print Assumptions C62_faces_refuted.
Example C62_case : valid_index 2 3 4 SDmob 1 1 /\ valid_index 2 3 4 STrans 2 0 /\ address 2 4 SDmob 1 1 = 7 /\ address 2 4 STrans 2 0 = 22 /\ storage_size 2 4 = 24.
Proof. repeat split; cbn; lia. Qed.

(* C112 *)
Theorem C112_transmissibility : forall g, wf_grid g -> forall ht, zlen ht = zlen (t_cf g) ->
  exists t, face_trans g ht = Ok t /\ zlen t = t_nf g /\
  forall f, 0 <= f < t_nf g -> nthR t f = (1 / Rsum (map (fun i => 1 / nthR ht i) (halves_of g f)))%R.
Proof. exact face_trans_ok. Qed.
Print Assumptions C112_transmissibility.
Theorem C112_series : forall g, wf_grid g -> forall ht f i1 i2, zlen ht = zlen (t_cf g) -> 0 <= f < t_nf g ->
  Permutation (halves_of g f) [i1; i2] -> (0 < nthR ht i1)%R -> (0 < nthR ht i2)%R ->
  exists t, face_trans g ht = Ok t /\ nthR t f = (nthR ht i1 * nthR ht i2 / (nthR ht i1 + nthR ht i2))%R.
Proof. exact series_ok. Qed.
Print Assumptions C112_series.
Theorem C112_half_faces : forall g, wf_grid g -> (forall c, 0 <= c < t_nc g -> NoDup (faces g c)) ->
  exists m, face_to_half g = Ok m /\ zlen m = 2 * t_nf g /\
  (forall c f i, 0 <= c < t_nc g -> half_of g c f i -> zget m (2 * f + (if first_cell g f =? c then 0 else 1)) = Some i) /\
  (forall k, 0 <= k < 2 * t_nf g -> (forall c f i, 0 <= c < t_nc g -> half_of g c f i -> k <> 2 * f + (if first_cell g f =? c then 0 else 1)) -> zget m k = Some (-1)).
Proof. exact face_to_half_ok. Qed.
Print Assumptions C112_half_faces.
Theorem C112_gravity : forall g, wf_grid g -> forall tr gx drho, zlen tr = t_nf g -> (forall c, 0 <= c < t_nc g -> NoDup (faces g c)) ->
  exists m dg, face_to_half g = Ok m /\ static_gravity g tr gx = Ok dg /\
  forall f a b, 0 <= a < t_nc g -> 0 <= b < t_nc g -> first_cell g f = a -> second_cell g f = b -> a <> b -> In f (faces g a) -> In f (faces g b) ->
    gravity_flux_face true drho m dg f = Ok (drho * nthR tr f * (gx a f - gx b f))%R /\ gravity_flux_face false drho m dg f = Ok 0%R.
Proof. exact gravity_ok. Qed.
Print Assumptions C112_gravity.
Example C112_case : wf_grid ring /\ (forall c, 0 <= c < t_nc ring -> NoDup (faces ring c)) /\ halves_of ring 0 = [1; 2] /\
  first_cell ring 0 = 0 /\ second_cell ring 0 = 1 /\ In 0 (faces ring 0) /\ In 0 (faces ring 1) /\ face_to_half ring = Ok [1; 2; -1; 0; 3; -1].
Proof.
  split; [exact ring_wf|]. split.
  - intros c Hc. destruct (case2 c Hc) as [-> | ->].
    + change (faces ring 0) with [1; 0]. repeat constructor; cbn; intuition lia.
    + change (faces ring 1) with [0; 2]. repeat constructor; cbn; intuition lia.
  - repeat split; vm_compute; auto.
Qed.
