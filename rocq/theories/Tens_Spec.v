From Coq Require Export Permutation.
From Verif Require Export Tens_Model Lsv_Spec Upb_Spec Hyb_Spec Mim_Spec.
Open Scope Z_scope.

(* an iterative solver that has solved the system exactly whenever it reports convergence *)
Definition exact_solver (K : krylov) : Prop := forall ty A M b x0 n x, K ty A M b x0 n = (x, true) ->
  zlen x = zlen b /\ forall i, 0 <= i < zlen b -> Sum (zlen b) (fun j => lm_val A i j * nthR x j)%R = nthR b i.
(* the columns of a 3 x 3 matrix k of finite numbers *)
Definition tensor_is (cols : list (list (option R))) (k : Z -> Z -> R) : Prop :=
  zlen cols = 3 /\ forall d, 0 <= d < 3 -> exists col, zget cols d = Some col /\ zlen col = 3 /\ forall i, 0 <= i < 3 -> zget col i = Some (Some (k i d)).
(* the cells hang together through interior faces *)
Definition in_one_piece (g : list hcell) : Prop := connected g (mkHBc (fun _ => CNeumann 0) (fun _ => 0)).
(* face r of cell k as the averages see it *)
Definition uf_at (g : list hcell) (geo : Z -> mcell) (k r : Z) : uface := uface_of (face_at g k r) (face (geo k) r).
(* face r of cell k is a boundary face on side s *)
Definition on_side_of (g : list hcell) (b : bcs) (k r s : Z) : Prop := half g k r /\ nbr g k r = None /\ zget (t_canon b) (bid g k r) = Some (s + 1).
(* a rectangular block with plane faces, set up for upscaling with conditions of type bct: every flow
   problem is one the solver is meant for and the boundary faces lie on the sides of the box *)
Definition block (srt : list bface -> list bface) (g : list hcell) (geo : Z -> mcell) (ip : hip) (bct : Z) (twodim : bool) (low hi : Z -> R) : Prop :=
  0 < zlen g /\ in_one_piece g /\ geometry 3 g geo /\ (forall d, 0 <= d < 3 -> (low d < hi d)%R) /\
  (forall k r, half g k r -> nbr g k r = None -> 1 <= bid g k r) /\
  (bct = 2 -> (forall l, Permutation (srt l) l) /\ unique_ids (map uf_g (grid_faces g geo))) /\
  forall pdd b b', 0 <= pdd < 3 -> setup_upscaling srt (map uf_g (grid_faces g geo)) bct pdd 1 1 twodim b = Ok b' ->
    problem g (hbc_of b') ip (zrepeat 0%R (zlen g)) /\ box_faces b' (grid_faces g geo) low hi.
(* the volume of the block and the integral of a quantity that is constant in each cell *)
Definition integral_of (g : list hcell) (geo : Z -> mcell) (f : Z -> R) : R := Sum (zlen g) (fun k => mc_vol (geo k) * f k)%R.
Definition block_volume (g : list hcell) (geo : Z -> mcell) : R := integral_of g geo (fun _ => 1%R).
(* no gravity, and matrices the flow solver is meant for *)
Definition flow_matrices (g : list hcell) (ip : hip) : Prop :=
  ip_spd g ip /\ forall k, 0 <= k < zlen g -> ip_gflux ip (idx g k) = zrepeat 0%R (nfaces g k).
(* cell k has the (positive definite) permeability L k: its matrix gives the exact flux for linear pressures *)
Definition permeability (g : list hcell) (geo : Z -> mcell) (ip : hip) (L : Z -> Z -> Z -> R) : Prop :=
  forall k, 0 <= k < zlen g -> symmetric 3 (L k) /\ positive_form 3 (L k) /\
    forall p0 a i, 0 <= i < nfaces g k -> mvec (nfaces g k) (Bk g ip k) (pressure_drop 3 (geo k) p0 a) i = darcy_flux 3 (geo k) 1 (L k) a i.
(* periodic partners are translates of each other: same centroid up to the extent of the box along the axis
   of their side, opposite area vectors *)
Definition translates (srt : list bface -> list bface) (g : list hcell) (geo : Z -> mcell) (twodim : bool) (low hi : Z -> R) : Prop :=
  forall pdd b b', 0 <= pdd < 3 -> setup_upscaling srt (map uf_g (grid_faces g geo)) 2 pdd 1 1 twodim b = Ok b' ->
  forall k r k' r' d, 0 <= d < 3 -> on_side_of g b' k r (2 * d) -> partners g (hbc_of b') k r k' r' ->
    (forall j, 0 <= j < 3 -> nthR (mf_cen (face (geo k') r')) j = (nthR (mf_cen (face (geo k) r)) j + ident d j * (hi d - low d))%R) /\
    (forall j, 0 <= j < 3 -> areavec (geo k) r j = (- areavec (geo k') r' j)%R).
(* nf is at least the number of faces of the grid, an interior face counted once *)
Definition enough_faces (g : list hcell) (nf : Z) : Prop := forall nm, enumerate_grid g = Ok nm -> nm_total nm <= nf.
(* k is the tensor computed by upscaleEffectivePerm for a rectangular block of cells, without gravity, with
   a linear solver that solves exactly when it reports convergence *)
Definition upscaled_by (srt : list bface -> list bface) (g : list hcell) (geo : Z -> mcell) (ip : hip) (bct : Z) (twodim : bool) (low hi : Z -> R) (cols : list (list (option R))) : Prop :=
  exists K ty maxit nf b sv s, exact_solver K /\ block srt g geo ip bct twodim low hi /\ flow_matrices g ip /\ enough_faces g nf /\
    flow_tensor K srt g geo ip bct twodim ty maxit nf b sv = Ok s /\ ts_cols s = cols.
(* the cells have permeability Kc k and total mobility mob k, there is no gravity, and the matrices are those
   of the mimetic inner product *)
Definition rock_cells (orth : mat -> mat) (g : list hcell) (geo : Z -> mcell) (Kc : Z -> mat) (mob : Z -> R) (ip : hip) : Prop :=
  forall k, 0 <= k < zlen g -> shaped (Kc k) COrd 3 3 /\ symmetric 3 (entry (Kc k)) /\ positive_form 3 (entry (Kc k)) /\ (0 < mob k)%R /\ lapack_ok 3 orth (geo k) /\
    (exists Binv fa T1 T2 out B, let nf := nfaces g k in
      shaped Binv FOrd nf nf /\ shaped fa FOrd nf nf /\ shaped T1 FOrd nf 3 /\ shaped T2 FOrd nf 3 /\ shaped out FOrd nf nf /\
      evaluate 3 orth (geo k) (Kc k) Binv fa T1 T2 = Ok B /\ ip_binv ip (idx g k) = get_inverse B (mob k) out) /\
    ip_gflux ip (idx g k) = zrepeat 0%R (nfaces g k).
(* what is left of a tensor when nothing can flow along the third axis *)
Definition plane_part (L : Z -> Z -> R) (i j : Z) : R := if (i =? 2) || (j =? 2) then 0%R else (L i j - L i 2%Z * L 2%Z j / L 2%Z 2%Z)%R.
(* the matrices of ip are at most c times those of ip' *)
Definition matrices_below (g : list hcell) (c : R) (ip ip' : hip) : Prop :=
  forall k x, 0 <= k < zlen g -> (quad (nfaces g k) (Bk g ip k) x <= c * quad (nfaces g k) (Bk g ip' k) x)%R.
(* the iterative solver does not converge for the flow problem with conditions bc: for its system, or for
   the one in which the first diagonal entry has been changed (regularise) *)
Definition fails_on (K : krylov) (ty : Z) (g : list hcell) (bc : hbc) (ip : hip) : Prop :=
  exists st s d s' M x n, discretised g bc ip (zrepeat 0%R (zlen g)) st s d /\ (s' = s \/ regularise s d = Ok s') /\
    snd (K ty (matrix_of s') M (sy_rhs s') x n) = false.
(* a reason for upscaleEffectivePerm to throw: the faces do not fit the periodic or linear conditions, or the
   iterative solver does not converge for the problem of some direction *)
Definition run_fails (K : krylov) (srt : list bface -> list bface) (g : list hcell) (geo : Z -> mcell) (ip : hip) (bct : Z) (twodim : bool) (ty : Z) : Prop :=
  let setup d b := setup_upscaling srt (map uf_g (grid_faces g geo)) bct d 1 1 twodim b in
  (bct <> 0 /\ exists d b, 0 <= d < 3 /\ setup d b = Throw) \/
  exists d b b', 0 <= d < 3 /\ setup d b = Ok b' /\ fails_on K ty g (hbc_of b') ip.
(* for linear conditions: the boundary ids are distinct and the boundary faces lie within the box *)
Definition linear_ready (g : list hcell) (geo : Z -> mcell) (low hi : Z -> R) : Prop :=
  unique_ids (map uf_g (grid_faces g geo)) /\
  forall f d, In f (bdy_faces (map uf_g (grid_faces g geo))) -> 0 <= d < 3 -> (- huge <= low d)%R /\ (low d <= vget (gf_cent f) d <= hi d)%R /\ (hi d <= huge)%R.
