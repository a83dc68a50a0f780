(* Model of opm/upscaling/RelPermUtils.cpp (everything but the MPI exchange, which is
   in Mpi_Model.v).  Doubles are reals.  The tabulated curves are objects of
   MonotCubicInterpolator (another project): only their extreme points and an
   evaluation function are represented. *)
From Verif Require Export RBase.
Open Scope Z_scope.

(* ------- corner depths *)
(* RelPermUtils.cpp:54-59 sub2ind *)
Definition sub2ind (n0 n1 i j k : Z) : Z := i + n0 * (j + n1 * k).
(* RelPermUtils.cpp:61-79 zcorn_offset *)
Definition zcorn_offset (nx ny : Z) : list Z :=
  map (fun t => sub2ind (2 * nx) (2 * ny) (snd (snd t)) (fst (snd t)) (fst t))
      (triples (zrange 0 2) (zrange 0 2) (zrange 0 2)).
(* RelPermUtils.cpp:81-92 zcorn_start *)
Definition zcorn_start (nx ny i j k : Z) : Z := sub2ind (2 * nx) (2 * ny) (2 * i) (2 * j) (2 * k).
(* RelPermUtils.cpp:148,156-158: the indices start + corner of a cell *)
Definition cell_corners (nx ny i j k : Z) : list Z :=
  map (fun o => zcorn_start nx ny i j k + o) (zcorn_offset nx ny).

(* RelPermUtils.cpp:95-116 ArithmeticAverage: (x_, n_) *)
Definition avg_add (a : R * R) (x : R) : R * R := ((fst a + x)%R, (snd a + 1)%R).
(* RelPermUtils.cpp:95-116 value *)
Definition avg_value (a : R * R) : option R := fdiv (fst a) (snd a).
(* RelPermUtils.cpp:146-160 ModelThickness::activateCell; off_.size()/2 = 4 corners per
   layer; layer pointer = horizon_.data() + 2*k *)
Definition activate_cell (nx ny : Z) (zcorn : list R) (h : list (R * R)) (c : Z * (Z * Z))
    : res (list (R * R)) :=
  let k := fst c in let j := fst (snd c) in let i := snd (snd c) in
  foldM (fun h nc =>
           let* z := rget zcorn (snd nc) in
           let l := 2 * k + Z.quot (fst nc) 4 in
           let* a := rget h l in rset h l (avg_add a z))
        (combine (zrange 0 8) (cell_corners nx ny i j k)) h.
(* RelPermUtils.cpp:138-144 constructor, 162-168 thickness; front()/back() of an empty
   vector is UB *)
Definition model_thickness (nx ny nz : Z) (zcorn : list R) (cells : list (Z * (Z * Z))) : res (option R) :=
  let* h := foldM (activate_cell nx ny zcorn) cells (zrepeat (0, 0)%R (2 * nz)) in
  let* top := rget h 0 in
  let* bot := rget h (2 * nz - 1) in
  Ok (match avg_value bot, avg_value top with Some b, Some t => Some (b - t)%R | _, _ => None end).
(* RelPermUtils.cpp:687-728 calculateCellPressureGradients: [depth] is the centre depth
   by active-cell number; the result is indexed the same way (line 724-726) *)
Definition pressure_offsets (drho g thick : R) (depth : list R) : list R :=
  map (fun d => drho * g * (d - thick / 2))%R depth.

(* ------- Voigt access *)
(* RelPermUtils.cpp:172 voigt_idx_tab *)
Definition voigt_tab : list Z := [0; 4; 8; 5; 2; 1; 7; 6; 3].
(* RelPermUtils.cpp:175-189 getVoigtValue; K is the data() array of a 3x3 C-ordered tensor *)
Definition get_voigt {A} (K : list A) (v : Z) : res A :=
  if (v <? 0) || (8 <? v) then Throw
  else let* p := rget voigt_tab v in rget K p.
(* RelPermUtils.cpp:192-206 setVoigtValue *)
Definition set_voigt {A} (K : list A) (v : Z) (x : A) : res (list A) :=
  if (v <? 0) || (8 <? v) then Throw
  else let* p := rget voigt_tab v in rset K p x.

(* ------- input check *)
(* RelPermUtils.cpp:392-591 sanityCheckInput after the keywords have been read.
   pm = [permx; permy; permz], the last two used only for anisotropic input.
   Messages and counters are not modelled. *)
Definition raise_poro (minporo p : R) : R := if negb (Rltb p 0) && Rltb p minporo then minporo else p.
(* RelPermUtils.cpp:535-590 *)
Definition clip_permx (low high k : R) : R :=
  if negb (Rltb k 0) && Rltb k low then low else if Rltb high k then high else k.
(* RelPermUtils.cpp:392-450: the arrays of the keywords *)
Record rinput := mkRinput { ri_sat : list Z; ri_poro : list R; ri_kx : list R; ri_ky : list R; ri_kz : list R }.
(* RelPermUtils.cpp:392-591 *)
Definition sanity_check (aniso : bool) (low high minporo : R) (d : rinput) : res rinput :=
  if existsb (fun s => s <? 0) (ri_sat d) || existsb (fun s => 1000 <? s) (ri_sat d) then Throw
  else if existsb (fun p => Rltb p 0 || Rltb 1 p) (ri_poro d) then Throw
  else if existsb (fun k => Rltb k 0) (ri_kx d) then Throw
  else if aniso && (existsb (fun k => Rltb k 0) (ri_ky d) || existsb (fun k => Rltb k 0) (ri_kz d)) then Throw
  else
    let d1 := mkRinput (ri_sat d) (map (raise_poro minporo) (ri_poro d)) (map (clip_permx low high) (ri_kx d))
                       (ri_ky d) (ri_kz d) in
    foldM (fun d i =>
      let* s := rget (ri_sat d) i in
      if s =? 0 then
        let* kx := rset (ri_kx d) i low in
        let* ky := (if aniso then rset (ri_ky d) i low else Ok (ri_ky d)) in
        let* kz := (if aniso then rset (ri_kz d) i low else Ok (ri_kz d)) in
        let* po := rset (ri_poro d) i 0%R in
        Ok (mkRinput (ri_sat d) po kx ky kz)
      else Ok d) (zrange 0 (zlen (ri_sat d))) d1.

(* ------- curves *)
(* what is used of a MonotCubicInterpolator *)
(* as used in RelPermUtils.cpp:593-650, 770-819, 950-980 *)
Record curve := mkCurve { cv_minx : R; cv_maxx : R; cv_minf : R; cv_maxf : R; cv_eval : R -> R }.
(* RelPermUtils.cpp:593-613 checkCurve on the table (x vector, f vector).  getMinimumF is
   the smallest tabulated value.  Result: verdict and the curve afterwards. *)
Definition check_curve (thresh : R) (xs fs : list R) : res (bool * (list R * list R)) :=
  let* m := lmin fs in
  if Req_EM_T m 0 then Ok (true, (xs, fs))
  else if Rltb m thresh then
    let* k0 := rget fs 0 in
    let* kn := rget fs (zlen fs - 1) in
    let* fs' := (if Rltb k0 thresh then rset fs 0 0%R
                 else if Rltb kn thresh then rset fs (zlen fs - 1) 0%R else Ok fs) in
    Ok (true, (xs, fs'))
  else Ok (false, (xs, fs)).

(* ------- the cell data used by the sweeps.  All arrays but h_dP are indexed by global
   cell number; h_ecl is globalCell() (global number of each active cell). *)
(* RelPermUtils.hpp: class RelPermUpscaleHelper, the members read in RelPermUtils.cpp:730-1200 *)
Record helper := mkHelper {
  h_ecl : list Z; h_sat : list Z; h_kx : list R; h_ky : list R; h_kz : list R; h_poro : list R;
  h_aniso : bool; h_dP : list R; h_inv : list curve; h_swpc : list curve;
  h_kr : Z -> Z -> list curve;   (* Krfunctions[direction][phase] *)
  h_minperm : R; h_contrast : R }.

(* std::numeric_limits<double>::max() *)
(* RelPermUtils.cpp:746-767 *)
Definition dbl_max : R := ((2 - / 2 ^ 52) * 2 ^ 1023)%R.

(* RelPermUtils.cpp:744-769: the variables of the loop *)
Record mmstate := mkMm { mm_pv : list R; mm_vol : list R; mm_pcmin : R; mm_pcmax : R;
                         mm_kmax : R; mm_swir : R; mm_swor : R }.
(* RelPermUtils.cpp:770-819: one cell.  A rock cell with zero porosity (excluded by
   sanity_check with minPoro > 0) would give a non-finite quotient; this is not modelled. *)
Definition mm_step (h : helper) (st : mmstate) (cv : Z * R) : res mmstate :=
  let c := fst cv in
  let* s := rget (h_sat h) c in
  if 0 <? s then
    let* po := rget (h_poro h) c in
    let* vol := rset (mm_vol st) c (snd cv) in
    let* pv := rset (mm_pv st) c (snd cv * po)%R in
    let* kx := rget (h_kx h) c in
    let* cu := rget (if h_aniso h then h_swpc h else h_inv h) (s - 1) in
    let den := if h_aniso h then 1%R else sqrt (kx / po) in
    let lo := (cv_minx cu / den)%R in
    let hi := (cv_maxx cu / den)%R in
    Ok (mkMm pv vol (smin lo (mm_pcmin st)) (smax hi (mm_pcmax st)) (smax (mm_kmax st) kx)
             (mm_swir st + cv_minf cu * (snd cv * po))%R (mm_swor st + cv_maxf cu * (snd cv * po))%R)
  else Ok st.
(* RelPermUtils.cpp:730-882 calculateMinMaxCapillaryPressure; [vols] are the volumes of
   the active cells, [grav] is includeGravity.  Result: pore volumes, Pcmin, Pcmax,
   minSinglePhasePerm, pore volume, Swir, Swor.  None: pore volume is zero (Swir and Swor
   are not numbers). *)
Record mmresult := mkRes { mr_pv : list R; mr_pcmin : R; mr_pcmax : R; mr_kmin : R; mr_pore : R;
                           mr_sw : option (R * R) }.
(* RelPermUtils.cpp:746-757 *)
Definition dP_range (dP : list R) : res (R * R) :=
  match dP with
  | [] => Ok (dbl_max, (- dbl_max)%R)
  | _ => let* lo := lmin dP in let* hi := lmax dP in Ok (lo, hi)
  end.
(* RelPermUtils.cpp:730-882 *)
Definition minmax_pc (h : helper) (grav : bool) (tol : R) (vols : list R) : res mmresult :=
  if Req_EM_T (h_contrast h) 0 then Throw
  else
    let n := zlen (h_sat h) in
    let* dpr := dP_range (h_dP h) in
    let* st := foldM (mm_step h) (combine (h_ecl h) vols)
                     (mkMm (zrepeat 0%R n) (zrepeat 0%R n) dbl_max (- dbl_max)%R 0%R 0%R 0%R) in
    let kmin := smax (mm_kmax st / h_contrast h)%R (h_minperm h) in
    let pcmin := if grav then (mm_pcmin st - snd dpr)%R else mm_pcmin st in
    let pcmax := if grav then (mm_pcmax st - fst dpr)%R else mm_pcmax st in
    if Rltb pcmax pcmin then Throw
    else
      let pore := Rsum (mm_pv st) in
      match fdiv (mm_swir st) pore, fdiv (mm_swor st) pore with
      | Some swir, Some swor =>
          let swor' := if Rltb 1 swor && Rltb (swor - tol) 1 then 1%R else swor in
          let swir' := if Rltb swir 0 && Rltb 0 (swir + tol) then 0%R else swir in
          if Rltb swir' 0 || Rltb 1 swir' || Rltb swor' 0 || Rltb 1 swor' then Throw
          else Ok (mkRes (mm_pv st) pcmin pcmax kmin pore (Some (swir', swor')))
      | _, _ => Ok (mkRes (mm_pv st) pcmin pcmax kmin pore None)
      end.

(* RelPermUtils.cpp:942-945, 1078-1081: Ptestvalue - dP[cell_idx] *)
Definition cell_pressure (h : helper) (p : R) (c : Z) : res R :=
  match h_dP h with [] => Ok p | _ => let* d := rget (h_dP h) c in Ok (p - d)%R end.
(* RelPermUtils.cpp:947-957, 1083-1102: saturation of a rock cell at a test pressure *)
Definition cell_sat (h : helper) (p : R) (c : Z) (s : Z) : res R :=
  let* pc := cell_pressure h p c in
  let* kx := rget (h_kx h) c in
  let* po := rget (h_poro h) c in
  if h_aniso h
  then let* cu := rget (h_swpc h) (s - 1) in Ok (cv_eval cu pc)
  else let* cu := rget (h_inv h) (s - 1) in Ok (cv_eval cu (sqrt (kx / po) * pc)%R).
(* RelPermUtils.cpp:928-963: the water volume at one test pressure; returns the pair
   handed to addPair: saturation waterVolume / poreVolume (None: zero pore volume) *)
Definition sweep_sat (h : helper) (pv : list R) (pore : R) (p : R) : res (option R) :=
  let* w := foldM (fun w c =>
      let* s := rget (h_sat h) c in
      let* sw := (if 0 <? s then cell_sat h p c s else Ok 0%R) in
      let* v := rget pv c in
      Ok (w + sw * v)%R) (h_ecl h) 0%R in
  Ok (fdiv w pore).

(* RelPermUtils.cpp:1053-1123: first pass over the cells for phase ph.  State:
   phasePermValues, phasePermValuesDiag, maxPhasePerm, waterVolumeLF *)
Record ppstate := mkPp { pp_val : list R; pp_diag : list (list R); pp_max : R; pp_water : R }.
(* RelPermUtils.cpp:1053-1123: one cell *)
Definition pp_step (h : helper) (pv : list R) (ph : Z) (p : R) (st : ppstate) (c : Z) : res ppstate :=
  let* s := rget (h_sat h) c in
  let* kx := rget (h_kx h) c in
  if 0 <? s then
    let* sw := cell_sat h p c s in
    let* v := rget pv c in
    let* kr0 := rget (h_kr h 0 ph) (s - 1) in
    let* pd :=
      (if h_aniso h then
         let* kr1 := rget (h_kr h 1 ph) (s - 1) in
         let* kr2 := rget (h_kr h 2 ph) (s - 1) in
         let* ky := rget (h_ky h) c in
         let* kz := rget (h_kz h) c in
         Ok (h_minperm h, [(cv_eval kr0 sw * kx)%R; (cv_eval kr1 sw * ky)%R; (cv_eval kr2 sw * kz)%R])
       else Ok ((cv_eval kr0 sw * kx)%R, [h_minperm h; h_minperm h; h_minperm h])) in
    let* vals := rset (pp_val st) c (fst pd) in
    let* dg := rset (pp_diag st) c (snd pd) in
    let* dmax := lmax (snd pd) in
    Ok (mkPp vals dg (smax (smax (pp_max st) (fst pd)) dmax) (pp_water st + sw * v)%R)
  else Ok st.
(* RelPermUtils.cpp:1132-1160: the tensor handed to setPermeability for a cell.  Writing
   k[i] back into phasePermValuesDiag is not modelled: every active cell is visited once
   and the array is local to the phase. *)
Definition pp_tensor (h : helper) (floor : R) (st : ppstate) (c : Z) : res (R * R * R) :=
  if h_aniso h then
    let* k := rget (pp_diag st) c in
    let* k0 := rget k 0 in let* k1 := rget k 1 in let* k2 := rget k 2 in
    Ok (smax floor k0, smax floor k1, smax floor k2)
  else
    let* v := rget (pp_val st) c in
    let k := smax floor (smax floor v) in
    Ok (k, k, k).
(* RelPermUtils.cpp:1053-1161 for one pressure point and phase: the cell tensors in the
   order of the active cells, and the water volume *)
Definition phase_perms (h : helper) (pv : list R) (ph : Z) (p : R) : res (list (R * R * R) * R) :=
  let n := zlen (h_sat h) in
  let* st := foldM (pp_step h pv ph p) (h_ecl h) (mkPp (zrepeat 0%R n) (zrepeat [] n) 0%R 0%R) in
  let floor := smax (pp_max st / h_contrast h)%R (h_minperm h) in
  let* ts := mapM (pp_tensor h floor st) (h_ecl h) in
  Ok (ts, pp_water st).

(* RelPermUtils.cpp:355-390 upscaleSinglePhasePermeability: tensors of the active cells *)
Definition single_perms (h : helper) (kmin : R) : res (list (R * R * R)) :=
  mapM (fun c =>
    let* kx := rget (h_kx h) c in
    if h_aniso h then
      let* ky := rget (h_ky h) c in let* kz := rget (h_kz h) c in
      Ok (smax kmin kx, smax kmin ky, smax kmin kz)
    else let k := smax kx kmin in Ok (k, k, k)) (h_ecl h).

(* RelPermUtils.cpp:1035: the process computing a pressure point *)
Definition mpi_node (n idx : Z) : Z := (n - 1) - Z.rem idx n.
