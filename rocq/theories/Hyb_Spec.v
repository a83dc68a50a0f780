From Verif Require Export Hyb_Model Hnum_Spec Mim_Spec.
Open Scope Z_scope.

(* the boundary id and the boundary condition of face r of cell k (None: interior face) *)
Definition bid (g : list hcell) (k r : Z) : Z := hf_bid (face_at g k r).
Definition cond_at (g : list hcell) (bc : hbc) (k r : Z) : option fcond :=
  match nbr g k r with None => Some (hb_cond bc (bid g k r)) | Some _ => None end.
Definition periodic (g : list hcell) (bc : hbc) (k r : Z) (d : R) : Prop := half g k r /\ cond_at g bc k r = Some (CPeriodic d).
(* (k', r') is the periodic partner of (k, r) *)
Definition partners (g : list hcell) (bc : hbc) (k r k' r' : Z) : Prop :=
  exists d d', periodic g bc k r d /\ periodic g bc k' r' d' /\ bid g k' r' = hb_partner bc (bid g k r).
(* periodic faces have their own boundary ids and come in pairs of different faces with opposite
   pressure differences *)
Definition periodic_ok (g : list hcell) (bc : hbc) : Prop :=
  (forall k r d k' r' d', periodic g bc k r d -> periodic g bc k' r' d' -> bid g k r = bid g k' r' -> k = k' /\ r = r') /\
  (forall k r d, periodic g bc k r d -> exists k' r', periodic g bc k' r' (- d) /\ bid g k' r' = hb_partner bc (bid g k r) /\
     hb_partner bc (bid g k' r') = bid g k r /\ ~ (k = k' /\ r = r')).
(* the inverse inner product matrix of cell k *)
Definition Bk (g : list hcell) (ip : hip) (k : Z) : Z -> Z -> R := entry (ip_binv ip (idx g k)).
(* matrices and gravity fluxes have the size of the cell, and the entries of a matrix do not add up to
   zero *)
Definition ip_shaped (g : list hcell) (ip : hip) : Prop :=
  forall k, 0 <= k < zlen g -> shaped (ip_binv ip (idx g k)) FOrd (nfaces g k) (nfaces g k) /\ zlen (ip_gflux ip (idx g k)) = nfaces g k /\
    Sum (nfaces g k) (fun i => Sum (nfaces g k) (Bk g ip k i)) <> 0%R.
(* ... are symmetric and positive definite, for cells with at least two faces *)
Definition ip_spd (g : list hcell) (ip : hip) : Prop :=
  forall k, 0 <= k < zlen g -> 2 <= nfaces g k /\ symmetric (nfaces g k) (Bk g ip k) /\ positive_form (nfaces g k) (Bk g ip k).
Definition sources (g : list hcell) (src : list R) : Prop := zlen src = zlen g.
(* the contact pressures x satisfy the n assembled equations *)
Definition solves (s : hsys) (n : Z) (x : Z -> R) : Prop :=
  forall i, 0 <= i < n -> Sum n (fun j => sy_val s i j * x j)%R = nthR (sy_rhs s) i.
(* entry r of row k of a table of numbers *)
Definition at2 (t : list (list R)) (k r : Z) : R := nthR (nth (Z.to_nat k) t []) r.
(* number of face r of cell k *)
Definition num (st : hstruct) (k r : Z) : Z := entry_of (nm_cf (hs_num st)) k r.
(* a table with one number per half face *)
Definition half_table (g : list hcell) (t : list (list R)) : Prop :=
  zlen t = zlen g /\ forall k, 0 <= k < zlen g -> zlen (nth (Z.to_nat k) t []) = nfaces g k.
(* faces on which two half faces meet: interior faces and periodic pairs *)
Definition joined (g : list hcell) (bc : hbc) (k r k' r' : Z) : Prop :=
  half g k r /\ half g k' r' /\ (twins g k r k' r' \/ partners g bc k r k' r').
(* cells k and k' are joined by a chain of interior faces and periodic pairs *)
Inductive linked (g : list hcell) (bc : hbc) : Z -> Z -> Prop :=
  | linked_refl k : linked g bc k k
  | linked_step k r k' r' k'' : joined g bc k r k' r' -> linked g bc k' k'' -> linked g bc k k''.
(* every cell is linked to one with a Dirichlet face *)
Definition anchored (g : list hcell) (bc : hbc) : Prop :=
  forall k, 0 <= k < zlen g -> exists k' r p, linked g bc k k' /\ half g k' r /\ cond_at g bc k' r = Some (CDirichlet p).
Definition connected (g : list hcell) (bc : hbc) : Prop := forall k k', 0 <= k < zlen g -> 0 <= k' < zlen g -> linked g bc k k'.
Definition no_dirichlet (g : list hcell) (bc : hbc) : Prop := forall k r p, half g k r -> cond_at g bc k r <> Some (CDirichlet p).
(* what leaves the domain by the Neumann conditions: the prescribed outflux of face r of cell k *)
Definition outflux_at (g : list hcell) (bc : hbc) (k r : Z) : R := match cond_at g bc k r with Some (CNeumann q) => q | _ => 0%R end.
(* a flow problem the solver is meant for *)
Definition problem (g : list hcell) (bc : hbc) (ip : hip) (src : list R) : Prop :=
  conforming g /\ counts_agree g /\ periodic_ok g bc /\ ip_shaped g ip /\ sources g src.
(* ... and the structure, the linear system and the per-cell data set up for it *)
Definition discretised (g : list hcell) (bc : hbc) (ip : hip) (src : list R) (st : hstruct) (s : hsys) (d : hdyn) : Prop :=
  init_structure g bc = Ok st /\ assemble g bc st ip src = Ok (s, d).
Definition unknowns (st : hstruct) : Z := nm_total (hs_num st).
(* the discrete Darcy law: outflux = gravity flux + B (cell pressure - contact pressures) *)
Definition darcy_law (g : list hcell) (ip : hip) (st : hstruct) (x : list R) (ps : list R) (vs : list (list R)) : Prop :=
  forall k r, half g k r -> at2 vs k r = (nthR (ip_gflux ip (idx g k)) r + Sum (nfaces g k) (fun c => Bk g ip k r c * (nthR ps k - nthR x (num st k c))))%R.
(* the outfluxes of cell k add up to its source *)
Definition conserving (g : list hcell) (src : list R) (vs : list (list R)) : Prop :=
  forall k, 0 <= k < zlen g -> Sum (nfaces g k) (at2 vs k) = nthR src (idx g k).
(* continuous fluxes and the boundary conditions *)
Definition flow_conditions (g : list hcell) (bc : hbc) (st : hstruct) (x : list R) (vs : list (list R)) : Prop :=
  (forall k r k' r', half g k r -> half g k' r' -> twins g k r k' r' -> (at2 vs k r + at2 vs k' r' = 0)%R) /\
  (forall k r p, half g k r -> cond_at g bc k r = Some (CDirichlet p) -> nthR x (num st k r) = p) /\
  (forall k r q, half g k r -> cond_at g bc k r = Some (CNeumann q) -> at2 vs k r = q) /\
  (forall k r k' r' d, partners g bc k r k' r' -> cond_at g bc k r = Some (CPeriodic d) ->
     (nthR x (num st k r) - nthR x (num st k' r') = d)%R /\ (at2 vs k r + at2 vs k' r' = 0)%R).
(* geometry: cell k of the grid has the shape geo k; a face looks the same from both sides and the area
   vectors of a cell add up to zero *)
Definition geometry (dim : Z) (g : list hcell) (geo : Z -> mcell) : Prop :=
  (forall k, 0 <= k < zlen g -> wf_cell dim (geo k) /\ closed_cell dim (geo k) /\ zlen (mc_faces (geo k)) = nfaces g k /\
     forall a, 0 <= a < dim -> Sum (nfaces g k) (fun i => areavec (geo k) i a) = 0%R) /\
  (forall k r k' r', half g k r -> half g k' r' -> twins g k r k' r' -> mf_cen (face (geo k) r) = mf_cen (face (geo k') r') /\
     forall a, 0 <= a < dim -> areavec (geo k) r a = (- areavec (geo k') r' a)%R).
(* the same medium everywhere: permeability K, total mobility mob, no gravity, matrices computed by the
   mimetic inner product *)
Definition homogeneous (dim : Z) (orth : mat -> mat) (g : list hcell) (geo : Z -> mcell) (K : mat) (mob : R) (ip : hip) : Prop :=
  shaped K COrd dim dim /\ symmetric dim (entry K) /\ positive_form dim (entry K) /\ (0 < mob)%R /\
  forall k, 0 <= k < zlen g -> lapack_ok dim orth (geo k) /\
    (exists Binv fa T1 T2 out B, let nf := nfaces g k in
      shaped Binv FOrd nf nf /\ shaped fa FOrd nf nf /\ shaped T1 FOrd nf dim /\ shaped T2 FOrd nf dim /\ shaped out FOrd nf nf /\
      evaluate dim orth (geo k) K Binv fa T1 T2 = Ok B /\ ip_binv ip (idx g k) = get_inverse B mob out) /\
    ip_gflux ip (idx g k) = zrepeat 0%R (nfaces g k).
(* the linear pressure p0 + a . x at a point *)
Definition linear_pressure (dim : Z) (p0 : R) (a : Z -> R) (x : list R) : R := (p0 + dot dim a (nthR x))%R.
(* boundary conditions a linear pressure field satisfies *)
Definition linear_bc (dim : Z) (g : list hcell) (bc : hbc) (geo : Z -> mcell) (K : mat) (mob p0 : R) (a : Z -> R) : Prop :=
  (forall k r p, half g k r -> cond_at g bc k r = Some (CDirichlet p) -> p = linear_pressure dim p0 a (mf_cen (face (geo k) r))) /\
  (forall k r q, half g k r -> cond_at g bc k r = Some (CNeumann q) -> q = darcy_flux dim (geo k) mob (entry K) a r) /\
  (forall k r k' r' d, partners g bc k r k' r' -> cond_at g bc k r = Some (CPeriodic d) ->
     d = (linear_pressure dim p0 a (mf_cen (face (geo k) r)) - linear_pressure dim p0 a (mf_cen (face (geo k') r')))%R /\
     forall b, 0 <= b < dim -> areavec (geo k) r b = (- areavec (geo k') r' b)%R).
