(* Vocabulary of the properties of upscaled relative permeability curves *)
From Verif Require Export Rpc_Model Visc_Spec Tens_Spec.
Open Scope Z_scope.

(* the permeability tensors of the cells *)
Definition diag_mat (t : R * R * R) : mat := let '(a, b, c) := t in mkMat 3 3 COrd [a; 0; 0; 0; b; 0; 0; 0; c]%R.
Definition cell_perm (ts : list (R * R * R)) (k : Z) : mat := diag_mat (match zget ts k with Some t => t | None => (1, 1, 1)%R end).
Definition positive_cells (ts : list (R * R * R)) : Prop := forall t x, In t ts -> In x (entries t) -> (0 < x)%R.
(* an upscaler for a rectangular block without gravity, whose linear solver solves exactly when it reports
   convergence: for all positive permeabilities it builds the mimetic inner product *)
Definition upscaler_ok (orth : mat -> mat) (u : upscaler) (low hi : Z -> R) : Prop :=
  exact_solver (us_K u) /\ enough_faces (us_g u) (us_nf u) /\ forall ts, zlen ts = zlen (us_g u) -> positive_cells ts ->
    block (us_srt u) (us_g u) (us_geo u) (us_ip u ts) (us_bct u) false low hi /\
    Tens_Spec.rock_cells orth (us_g u) (us_geo u) (cell_perm ts) (fun _ => tracer_total) (us_ip u ts).
(* the inversion of 3 x 3 tensors *)
Definition inverts (inv : list R -> list R) : Prop := forall d, zlen d = 9 -> det3 (Visc_Spec.tensor_of d) <> 0%R ->
  zlen (inv d) = 9 /\ forall i j, 0 <= i < 3 -> 0 <= j < 3 ->
    mmul 3 (Visc_Spec.tensor_of (inv d)) (Visc_Spec.tensor_of d) i j = ident i j /\ mmul 3 (Visc_Spec.tensor_of d) (Visc_Spec.tensor_of (inv d)) i j = ident i j.
(* input data for all cells of the upscaler, with a positive lower limit of the permeability; with anisotropic
   input every active cell has rock *)
Definition run_ok (u : upscaler) (h : helper) (pv : list R) : Prop :=
  wf h /\ offsets_cover h /\ zlen pv = zlen (h_sat h) /\ zlen (h_ecl h) = zlen (us_g u) /\ (0 < h_minperm h)%R /\ (1 <= h_contrast h)%R /\
  (h_aniso h = true -> forall c, In c (h_ecl h) -> 0 < region h c).
(* the permeability of a cell in direction d *)
Definition cell_k (h : helper) (c d : Z) : R := at_ (if d =? 0 then h_kx h else if d =? 1 then h_ky h else h_kz h) c.
(* the directions that are given: all for anisotropic input *)
Definition given_dir (h : helper) (d : Z) : Prop := 0 <= d < 3 /\ (h_aniso h = false -> d = 0).
(* the relative permeability of the cell at a test pressure *)
Definition cell_kr (h : helper) (ph : Z) (p : R) (c d : Z) : R :=
  match zget (h_kr h d ph) (region h c - 1) with Some cu => cv_eval cu (local_sat h p c) | None => 0%R end.
(* permeabilities are not negative, and no other direction exceeds the largest PERMX *)
Definition perms_ok (h : helper) : Prop := forall c d, In c (Relp_Spec.rock_cells h) -> given_dir h d ->
  (0 <= cell_k h c d)%R /\ exists c', In c' (Relp_Spec.rock_cells h) /\ (cell_k h c d <= cell_k h c' 0)%R.
(* value of curve v at point i *)
Definition value (cols : list (list R)) (v i : Z) : R := match zget cols v with Some col => nthR col i | None => 0%R end.
(* the relative permeability tensor at point i *)
Definition tensor_at (cols : list (list R)) (i : Z) (f : Z -> Z -> R) : Prop :=
  forall v, 0 <= v < 9 -> value cols v i = f (element_row v) (element_col v).
(* values of a two-phase run: ph is one of the phases *)
Definition a_phase (both : bool) (ph : Z) : Prop := 0 <= ph < (if both then 2 else 1).
(* a curve that never increases, or never decreases *)
Definition falling (cu : curve) : Prop := forall x y, (x <= y)%R -> (cv_eval cu y <= cv_eval cu x)%R.
Definition rising (cu : curve) : Prop := forall x y, (x <= y)%R -> (cv_eval cu x <= cv_eval cu y)%R.
(* a run of the program with conditions bct and tec elements: ds is the upscaled single-phase tensor and cols
   are the curves of phase ph at the pressure points ps; the lower limit of the single-phase permeabilities is
   the one found with the range of the capillary pressures *)
Definition relperm_run (u : upscaler) (h : helper) (inv : list R -> list R) (pv : list R) (bct tec : Z) (both : bool) (ps : list R) (ph : Z) (ds : list R) (cols : list (list R)) : Prop :=
  exists orth low hi grav tol vols mr thresh st st', upscaler_ok orth u low hi /\ run_ok u h pv /\ inverts inv /\ us_bct u = bct /\ a_phase both ph /\
    length vols = length (h_ecl h) /\ minmax_pc h grav tol vols = Ok mr /\ upscale_single u h (mr_kmin mr) st = Ok (ds, st') /\
    relperm_curves u h inv pv (mr_kmin mr) tec both false thresh ps st ph = Ok cols.
(* relative permeabilities of at most one *)
Definition kr_ok (h : helper) (ph : Z) (p : R) : Prop := forall c d, In c (Relp_Spec.rock_cells h) -> given_dir h d -> (cell_kr h ph p c d <= 1)%R.
(* the phase flows everywhere at least as easily at q as at p *)
Definition flows_easier (h : helper) (ph : Z) (p q : R) : Prop :=
  forall c d, In c (Relp_Spec.rock_cells h) -> given_dir h d -> (cell_kr h ph p c d * cell_k h c d <= cell_kr h ph q c d * cell_k h c d)%R.
(* every cell has rock with the relative permeability lam at p, and the floors of the program do not interfere *)
Definition uniform_kr (h : helper) (ph : Z) (p lam : R) : Prop :=
  (0 < lam <= 1)%R /\ forall c d, In c (h_ecl h) -> given_dir h d ->
    0 < region h c /\ cell_kr h ph p c d = lam /\ (h_minperm h <= lam * cell_k h c d)%R /\
    forall c' d', In c' (h_ecl h) -> given_dir h d' -> (cell_k h c d <= h_contrast h * cell_k h c' d')%R.
(* the saturation curves of the rock types never increase with the pressure, and the relative permeabilities
   of the phase never decrease (or never increase) with the saturation; the permeabilities are not negative *)
Definition monotone_curves (h : helper) (ph : Z) (up : bool) : Prop := forall c, In c (Relp_Spec.rock_cells h) -> falling (curve_of h c) /\
  forall d, given_dir h d -> (0 <= cell_k h c d)%R /\ exists cu, zget (h_kr h d ph) (region h c - 1) = Some cu /\ if up then rising cu else falling cu.
