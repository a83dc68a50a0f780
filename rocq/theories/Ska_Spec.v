(* Vocabulary of steady state upscaling with anisotropic relative permeabilities *)
From Verif Require Export Fluid_Spec Ssk_Spec Ska_Model.
Open Scope Z_scope.

(* a diagonal matrix with positive diagonal *)
Definition diagonal_positive (k : Z -> Z -> R) : Prop :=
  forall i j, 0 <= i < 3 -> 0 <= j < 3 -> if i =? j then (0 < k i j)%R else k i j = 0%R.
(* 3 x 3 tensors whose sum, the total mobility, is diagonal and positive *)
Definition mobile (ph : cell_phases) : Prop :=
  (forall rho m, In (rho, m) ph -> shaped m FOrd 3 3) /\ diagonal_positive (mob_total ph).
(* the cells have the diagonal permeability Kc k, there is no gravity, and the matrices and gravity fluxes are those of
   the inner product for tensor mobilities *)
Definition tensor_cells (orth : mat -> mat) (g : list hcell) (geo : Z -> mcell) (Kc : Z -> mat) (phs : Z -> cell_phases) (ip : hip) : Prop :=
  forall k, 0 <= k < zlen g -> shaped (Kc k) COrd 3 3 /\ diagonal_positive (entry (Kc k)) /\ lapack_ok 3 orth (geo k) /\
    exists w, aniso_work_ok 3 (nfaces g k) w /\ aniso_run 3 orth (geo k) (Kc k) [0; 0; 0]%R (phs k) w = Ok (ip_binv ip (idx g k), ip_gflux ip (idx g k)).
(* an upscaler for a rectangular block without gravity whose cells have the diagonal permeabilities Kc, with a linear
   solver that solves exactly when it reports convergence *)
Definition tensor_block (orth : mat -> mat) (u : asups) (Kc : Z -> mat) (low hi : Z -> R) : Prop :=
  exact_solver (au_K u) /\ enough_faces (au_g u) (au_nf u) /\ conforming (au_g u) /\
  forall phs, zlen phs = zlen (au_g u) -> Forall mobile phs ->
    block (au_srt u) (au_g u) (au_geo u) (au_ip u phs) (au_bct u) false low hi /\
    tensor_cells orth (au_g u) (au_geo u) Kc (fun k => nth (Z.to_nat (idx (au_g u) k)) phs []) (au_ip u phs).
(* kr c d s is the relative permeability of phase ph along axis d in cell c at saturation s: from the rock of the cell, or
   quadratic *)
Definition relperms_of (fl : afluid) (ph n : Z) (kr : Z -> Z -> R -> R) : Prop :=
  forall c, 0 <= c < n -> exists rock k1 k2, acell_rock fl c rock /\ arelperms fl rock k1 k2 /\ forall d s, kr c d s = (if ph =? 0 then k1 d s else k2 d s).
(* positive viscosities, a positive threshold and a contrast of at least one *)
Definition afluids_ok (fl : afluids) : Prop := (0 < af_mu1 (al_fluid fl))%R /\ (0 < af_mu2 (al_fluid fl))%R /\ (0 < al_thr fl)%R /\ (1 <= al_contrast fl)%R.
(* a calculation with conditions bct: K is the upscaled single-phase permeability and t the relative permeability tensor of
   phase ph computed for the saturations sat; kr c d is the relative permeability along axis d in cell c *)
Definition aniso_kr (orth : mat -> mat) (u : asups) (Kc : Z -> mat) (low hi : Z -> R) (fl : afluids) (bct : Z) (sat : list R) (ph : Z)
    (kr : Z -> Z -> R) (K t : Z -> Z -> R) : Prop :=
  exists st st' st1 st2 mK mw mo krf, tensor_block orth u Kc low hi /\ afluids_ok fl /\ au_bct u = bct /\ zlen sat = zlen (au_g u) /\ 0 <= ph < 2 /\
    (forall p, 0 <= p < 2 -> relperms_of (al_fluid fl) p (zlen (au_g u)) (krf p)) /\ (forall c d, kr c d = krf ph c d (nthR sat c)) /\
    asingle_tensor u st = Ok (mK, st') /\ aniso_relperms u fl sat mK st1 = Ok ((mw, mo), st2) /\
    K = entry mK /\ t = entry (if ph =? 0 then mw else mo).
(* the cells and directions of a block *)
Definition entries_of (u : asups) (c d : Z) : Prop := 0 <= c < zlen (au_g u) /\ 0 <= d < 3.
