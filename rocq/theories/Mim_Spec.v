From Verif Require Export Mim_Model Matx_Spec.
Open Scope Z_scope.

(* face i of the cell: its area, its outward area vector and its centroid relative to the cell's *)
Definition face (c : mcell) (i : Z) : mface := nth (Z.to_nat i) (mc_faces c) (mkMFace 0 [] []).
Definition area (c : mcell) (i : Z) : R := mf_area (face c i).
Definition areavec (c : mcell) (i j : Z) : R := (mf_area (face c i) * nthR (mf_normal (face c i)) j)%R.
Definition offset (c : mcell) (i j : Z) : R := (nthR (mf_cen (face c i)) j - nthR (mc_cen c) j)%R.
(* all vectors have dim components, volume and areas are positive *)
Definition wf_cell (dim : Z) (c : mcell) : Prop :=
  0 < dim /\ zlen (mc_cen c) = dim /\ (0 < mc_vol c)%R /\
  forall f, In f (mc_faces c) -> (0 < mf_area f)%R /\ zlen (mf_cen f) = dim /\ zlen (mf_normal f) = dim.
(* what the divergence theorem gives for a cell with plane faces: sum of area vector times offset
   is volume times identity *)
Definition closed_cell (dim : Z) (c : mcell) : Prop :=
  forall a b, 0 <= a < dim -> 0 <= b < dim ->
    Sum (zlen (mc_faces c)) (fun i => areavec c i a * offset c i b)%R = (mc_vol c * ident a b)%R.
(* a QR factorisation: Q has orthonormal columns and C = Q R with R upper triangular *)
Definition qr_factor (rows cols : Z) (C Q : Z -> Z -> R) : Prop :=
  (forall a b, 0 <= a < cols -> 0 <= b < cols -> Sum rows (fun i => Q i a * Q i b)%R = ident a b) /\
  exists T, (forall a b, 0 <= b < a -> T a b = 0%R) /\
    forall i b, 0 <= i < rows -> 0 <= b < cols -> C i b = Sum cols (fun a => Q i a * T a b)%R.
(* what is used of LAPACK: for the matrix of the scaled offsets of this cell it returns an
   orthonormal factor *)
Definition lapack_ok (dim : Z) (orth : mat -> mat) (c : mcell) : Prop :=
  forall m, holds m FOrd (zlen (mc_faces c)) dim (fun i j => area c i * offset c i j)%R ->
  exists q, holds (orth m) FOrd (zlen (mc_faces c)) dim q /\
    qr_factor (zlen (mc_faces c)) dim (fun i j => area c i * offset c i j)%R q.
Definition symmetric (n : Z) (k : Z -> Z -> R) : Prop := forall i j, 0 <= i < n -> 0 <= j < n -> k i j = k j i.
(* x . A x *)
Definition quad (n : Z) (a : Z -> Z -> R) (x : Z -> R) : R := dot n x (mvec n a x).
Definition nonneg_form (n : Z) (a : Z -> Z -> R) : Prop := forall x, (0 <= quad n a x)%R.
Definition positive_form (n : Z) (a : Z -> Z -> R) : Prop :=
  forall x, (exists i, 0 <= i < n /\ x i <> 0%R) -> (0 < quad n a x)%R.
(* entry (r, c) of a matrix, and a matrix of the given shape whatever its contents *)
Definition entry (m : mat) (r c : Z) : R :=
  nthR (m_data m) (match m_ord m with COrd => r * m_cols m + c | FOrd => r + c * m_rows m end).
Definition shaped (m : mat) (o : ordering) (rows cols : Z) : Prop := holds m o rows cols (entry m).
(* the documented matrix (N K N' + t diag(A) (I - Q Q') diag(A)) / vol with t = 6/dim trace(K) *)
Definition regular_part (dim : Z) (c : mcell) (q : Z -> Z -> R) (i j : Z) : R :=
  (area c i * (ident i j - mmul dim q (fun l j => q j l) i j) * area c j)%R.
Definition inverse_ip (dim : Z) (c : mcell) (k q : Z -> Z -> R) (i j : Z) : R :=
  ((mmul dim (mmul dim (areavec c) k) (fun l j => areavec c j l) i j
    + 6 * Sum dim (fun a => k a a) / IZR dim * regular_part dim c q i j) / mc_vol c)%R.
(* the linear pressure p0 + g . x at the cell centroid minus its values at the face centroids *)
Definition pressure_drop (dim : Z) (c : mcell) (p0 : R) (g : Z -> R) (i : Z) : R :=
  ((p0 + dot dim g (nthR (mc_cen c))) - (p0 + dot dim g (nthR (mf_cen (face c i)))))%R.
(* Darcy's law: minus mobility times area vector times K grad p *)
Definition darcy_flux (dim : Z) (c : mcell) (mob : R) (k : Z -> Z -> R) (g : Z -> R) (i : Z) : R :=
  (- (mob * dot dim (areavec c i) (mvec dim k g)))%R.
(* phases with density and mobility tensor: total mobility and mobility weighted with density *)
Definition mob_total (phases : list (R * mat)) (r c : Z) : R := Rsum (map (fun p => entry (snd p) r c) phases).
Definition mob_density (phases : list (R * mat)) (r c : Z) : R := Rsum (map (fun p => fst p * entry (snd p) r c)%R phases).
(* the arrays the evaluator for tensor mobilities writes to *)
Record aniso_work := mkAWork { aw_second : mat; aw_fa : mat; aw_n : mat; aw_T2 : mat; aw_Kg : list R; aw_lambdaK : mat; aw_T2' : mat; aw_Binv : mat; aw_gflux : list R }.
Definition aniso_work_ok (dim nf : Z) (w : aniso_work) : Prop :=
  shaped (aw_second w) FOrd nf nf /\ shaped (aw_fa w) FOrd nf nf /\ shaped (aw_n w) FOrd nf dim /\ shaped (aw_T2 w) FOrd nf dim /\ zlen (aw_Kg w) = dim /\
  shaped (aw_lambdaK w) FOrd dim dim /\ shaped (aw_T2' w) FOrd nf dim /\ shaped (aw_Binv w) FOrd nf nf /\ zlen (aw_gflux w) = nf.
(* what the flow solver calls for a cell: buildStaticContrib, computeDynamicParams,
   getInverseMatrix and gravityFlux, giving the matrix and the gravity fluxes *)
Definition aniso_run (dim : Z) (orth : mat -> mat) (c : mcell) (K : mat) (grav : list R) (phases : list (R * mat)) (w : aniso_work) : res (mat * list R) :=
  let* s := aniso_static dim orth c K grav (aw_second w) (aw_fa w) (aw_n w) (aw_T2 w) (aw_Kg w) in
  let* d := aniso_dynamic dim K (snd s) phases (aw_lambdaK w) in
  let* B := aniso_inverse dim c (fst (fst s)) (snd (fst s)) (snd d) (aw_T2' w) (aw_Binv w) in
  let* g := aniso_gravity_flux (snd (fst s)) (fst d) (aw_gflux w) in Ok (B, g).
