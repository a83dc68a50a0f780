From Verif Require Import Rpc_Proofs Rpc_Proofs2 Rpc_Proofs3 Rpc_Proofs4 Rpc_Proofs5 Tens_Proofs9 Rpc_Spec.
Open Scope Z_scope.

(* C199: upscaled relative permeabilities lie between zero and one *)
Theorem C199_total_mobility : forall s, Rsum (tracer_mobilities s) = 1%R.
Proof. exact Rpc_Proofs.tracer_one. Qed.
Theorem C199_shape : forall u h inv pv bct tec both ps ph ds cols, bct = 0 /\ tec = 3 \/ bct = 2 /\ tec = 9 -> relperm_run u h inv pv bct tec both ps ph ds cols ->
  zlen cols = tec /\ forall v, 0 <= v < tec -> exists col, zget cols v = Some col /\ zlen col = zlen ps.
Proof. exact Rpc_Proofs3.run_shape. Qed.
Theorem C199_fixed : forall u h inv pv both ps ph ds cols i p v, relperm_run u h inv pv 0 3 both ps ph ds cols -> zget ps i = Some p -> 0 <= v < 3 ->
  (0 < value cols v i)%R /\ (perms_ok h -> kr_ok h ph p -> (value cols v i <= 1)%R).
Proof. exact Rpc_Proofs3.fixed_range. Qed.
Theorem C199_periodic : forall u h inv pv both ps ph ds cols i p g, relperm_run u h inv pv 2 9 both ps ph ds cols -> zget ps i = Some p -> tensor_at cols i g ->
  symmetric 3 (Visc_Spec.tensor_of ds) /\ positive_form 3 (Visc_Spec.tensor_of ds) /\
  symmetric 3 (mmul 3 g (Visc_Spec.tensor_of ds)) /\ positive_form 3 (mmul 3 g (Visc_Spec.tensor_of ds)) /\
  (perms_ok h -> kr_ok h ph p -> forall x, (quad 3 (mmul 3 g (Visc_Spec.tensor_of ds)) x <= quad 3 (Visc_Spec.tensor_of ds) x)%R).
Proof. exact Rpc_Proofs3.periodic_range. Qed.
Theorem C199_aniso_refuted : exists u h inv pv ps p ds cols, relperm_run u h inv pv 0 3 false ps 0 ds cols /\ zget ps 0 = Some p /\
  (forall c d, In c (Relp_Spec.rock_cells h) -> given_dir h d -> (0 < cell_k h c d)%R) /\ kr_ok h 0 p /\ value cols 0 0 = 100%R.
Proof. exact Rpc_Proofs5.aniso_refuted. Qed.

(* C200: they rise and fall with the relative permeabilities of the cells *)
Theorem C200_fixed : forall u h inv pv both ps ph ds cols i j p q v, relperm_run u h inv pv 0 3 both ps ph ds cols -> zget ps i = Some p -> zget ps j = Some q -> flows_easier h ph p q -> 0 <= v < 3 ->
  (value cols v i <= value cols v j)%R.
Proof. exact Rpc_Proofs3.fixed_increasing. Qed.
Theorem C200_periodic : forall u h inv pv both ps ph ds cols i j p q g g', relperm_run u h inv pv 2 9 both ps ph ds cols -> zget ps i = Some p -> zget ps j = Some q -> flows_easier h ph p q -> tensor_at cols i g -> tensor_at cols j g' ->
  forall x, (quad 3 (mmul 3 g (Visc_Spec.tensor_of ds)) x <= quad 3 (mmul 3 g' (Visc_Spec.tensor_of ds)) x)%R.
Proof. exact Rpc_Proofs3.periodic_increasing. Qed.
Theorem C200_fixed_pressure : forall u h inv pv both ps ph (up : bool) ds cols i j p q v, relperm_run u h inv pv 0 3 both ps ph ds cols -> zget ps i = Some p -> zget ps j = Some q -> monotone_curves h ph up -> (p <= q)%R -> 0 <= v < 3 ->
  if up then (value cols v j <= value cols v i)%R else (value cols v i <= value cols v j)%R.
Proof. exact Rpc_Proofs3.fixed_pressure. Qed.
Theorem C200_periodic_pressure : forall u h inv pv both ps ph (up : bool) ds cols i j p q g g' x, relperm_run u h inv pv 2 9 both ps ph ds cols -> zget ps i = Some p -> zget ps j = Some q -> monotone_curves h ph up -> (p <= q)%R -> tensor_at cols i g -> tensor_at cols j g' ->
  if up then (quad 3 (mmul 3 g' (Visc_Spec.tensor_of ds)) x <= quad 3 (mmul 3 g (Visc_Spec.tensor_of ds)) x)%R else (quad 3 (mmul 3 g (Visc_Spec.tensor_of ds)) x <= quad 3 (mmul 3 g' (Visc_Spec.tensor_of ds)) x)%R.
Proof. exact Rpc_Proofs3.periodic_pressure. Qed.

(* C201: a relative permeability that is the same in all cells is returned *)
Theorem C201_fixed : forall u h inv pv both ps ph ds cols i p lam v, relperm_run u h inv pv 0 3 both ps ph ds cols -> zget ps i = Some p -> uniform_kr h ph p lam -> 0 <= v < 3 -> value cols v i = lam.
Proof. exact Rpc_Proofs3.fixed_uniform. Qed.
Theorem C201_periodic : forall u h inv pv both ps ph ds cols i p lam g, relperm_run u h inv pv 2 9 both ps ph ds cols -> zget ps i = Some p -> uniform_kr h ph p lam -> tensor_at cols i g ->
  forall r c, 0 <= r < 3 -> 0 <= c < 3 -> g r c = (lam * ident r c)%R.
Proof. exact Rpc_Proofs3.periodic_kr_uniform. Qed.
Theorem C201_exist : forall u h inv pv bct tec both ps ph orth low hi grav tol vols mr thresh st, bct = 0 /\ tec = 3 \/ bct = 2 /\ tec = 9 -> upscaler_ok orth u low hi -> run_ok u h pv -> inverts inv -> us_bct u = bct -> a_phase both ph ->
  length vols = length (h_ecl h) -> minmax_pc h grav tol vols = Ok mr -> (forall ts st, zlen ts = zlen (us_g u) -> positive_cells ts -> exists r, upscale_cells u ts st = Ok r) ->
  exists ds cols, relperm_run u h inv pv bct tec both ps ph ds cols /\ relperm_curves u h inv pv (mr_kmin mr) tec both false thresh ps st ph = Ok cols.
Proof. exact Rpc_Proofs5.curves_exist. Qed.

(* one cubic cell, straight-line curves: the runs exist and meet the hypotheses above *)
Example C199_case : exists ds cols, relperm_run (cube_ups 0) (cube_helper false 1) inv3 [1]%R 0 3 true [0; 1 / 2; 1]%R 1 ds cols /\ perms_ok (cube_helper false 1) /\ forall p, kr_ok (cube_helper false 1) 1 p.
Proof. destruct (ch_exists 0 3 false 1 true [0; 1 / 2; 1]%R 1 ltac:(lia) ltac:(unfold a_phase; lia)) as (ds & cols & Rn). exists ds, cols. split; [exact Rn|]. split; [exact ch_perms|]. intros p. apply ch_kr_ok. lia. Qed.
Example C199_periodic_case : exists ds cols, relperm_run (cube_ups 2) (cube_helper false 1) inv3 [1]%R 2 9 true [0; 1 / 2; 1]%R 0 ds cols /\ forall p, kr_ok (cube_helper false 1) 0 p.
Proof. destruct (ch_exists 2 9 false 1 true [0; 1 / 2; 1]%R 0 ltac:(lia) ltac:(unfold a_phase; lia)) as (ds & cols & Rn). exists ds, cols. split; [exact Rn|]. intros p. apply ch_kr_ok. lia. Qed.
Example C200_case : monotone_curves (cube_helper false 1) 0 true /\ monotone_curves (cube_helper false 1) 1 false.
Proof. exact (conj (ch_monotone 0 (or_introl eq_refl)) (ch_monotone 1 (or_intror eq_refl))). Qed.
Example C201_case : uniform_kr (cube_helper false 1) 0 (1 / 2) (1 / 2) /\ inverts inv3 /\ upscaler_ok orth2 (cube_ups 2) low_half hi_half.
Proof. exact (conj ch_uniform (conj inv3_inverts (cube_ups_ok 2 (or_intror eq_refl)))). Qed.
Print Assumptions C199_total_mobility. Print Assumptions C199_shape. Print Assumptions C199_fixed. Print Assumptions C199_periodic. Print Assumptions C199_aniso_refuted. Print Assumptions C200_fixed. Print Assumptions C200_periodic. Print Assumptions C200_fixed_pressure. Print Assumptions C200_periodic_pressure. Print Assumptions C201_fixed. Print Assumptions C201_periodic. Print Assumptions C201_exist.
