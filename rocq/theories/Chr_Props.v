From Verif Require Import Chr_Proofs Chr_Spec.
Open Scope Z_scope.

(* C217: a chopper can be used again after any history *)
Theorem C217_reuse : forall d s imin imax jmin jmax zmin zmax reset, history d s -> imin < imax -> jmin < jmax ->
  match chop_deck d imin imax jmin jmax zmin zmax reset with
  | Ok m => exists s', chop_on d s imin imax jmin jmax zmin zmax reset = Done s' /\ cs_mem s' = m
  | Throw => exists s', chop_on d s imin imax jmin jmax zmin zmax reset = Raised s'
  | UB => chop_on d s imin imax jmin jmax zmin zmax reset = Undef
  end.
Proof. exact Chr_Proofs.reuse_history. Qed.

(* C218: a chop that throws *)
Theorem C218_failed : forall d s imin imax jmin jmax zmin zmax reset bm tm, wf_arrays (g_nx (dk_grid d)) (g_ny (dk_grid d)) (g_nz (dk_grid d)) (g_coord (dk_grid d)) (g_zcorn (dk_grid d)) -> box_within (g_nx (dk_grid d)) (g_ny (dk_grid d)) imin imax jmin jmax ->
  is_bottom_max (g_nx (dk_grid d)) (g_ny (dk_grid d)) (g_zcorn (dk_grid d)) bm -> is_top_min (g_nx (dk_grid d)) (g_ny (dk_grid d)) (g_nz (dk_grid d)) (g_zcorn (dk_grid d)) tm -> (Rmin zmax tm <= Rmax zmin bm)%R ->
  exists s', chop_on d s imin imax jmin jmax zmin zmax reset = Raised s' /\ let m := cs_mem s in let m' := cs_mem s' in
    m_nx m' = imax - imin /\ m_ny m' = jmax - jmin /\ zlen (m_coord m') = 6 * (imax - imin + 1) * (jmax - jmin + 1) /\
    (exists xc yc, zget (g_coord (dk_grid d)) (pillar_no (g_nx (dk_grid d)) imin jmin 0) = Some xc /\ zget (g_coord (dk_grid d)) (pillar_no (g_nx (dk_grid d)) imin jmin 1) = Some yc /\
      forall i j c v, 0 <= i <= imax - imin -> 0 <= j <= jmax - jmin -> 0 <= c < 6 -> zget (g_coord (dk_grid d)) (pillar_no (g_nx (dk_grid d)) (i + imin) (j + jmin) c) = Some v ->
      exists w, zget (m_coord m') (pillar_no (imax - imin) i j c) = Some w /\ (reset = false -> w = v) /\
        (reset = true -> (c = 0 \/ c = 3 -> w = (v - xc)%R) /\ (c = 1 \/ c = 4 -> w = (v - yc)%R) /\ (c = 2 -> w = 0%R) /\ (c = 5 -> w = (zmax - zmin)%R))) /\
    m_nz m' = m_nz m /\ m_zcorn m' = m_zcorn m /\ m_actnum m' = m_actnum m /\ m_poro m' = m_poro m /\ m_ntg m' = m_ntg m /\ m_swcr m' = m_swcr m /\ m_sowcr m' = m_sowcr m /\
    m_permx m' = m_permx m /\ m_permy m' = m_permy m /\ m_permz m' = m_permz m /\ m_satnum m' = m_satnum m.
Proof. exact Chr_Proofs.failed. Qed.

(* a chopper that has been used before *)
Example C217_case : exists s, history Grd_Proofs2.one_deck s /\ s <> fresh.
Proof. exact one_history. Qed.
(* a chop that fails after a successful one; the number of layers is that of the first block *)
Example C218_case : exists s s', history Grd_Proofs2.one_deck s /\ chop_on Grd_Proofs2.one_deck s 0 1 0 1 3 4 true = Raised s' /\ m_nz (cs_mem s') = 1.
Proof. exact one_failed. Qed.
Print Assumptions C217_reuse. Print Assumptions C218_failed.
