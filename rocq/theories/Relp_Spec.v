(* Vocabulary of the RelPermUtils properties *)
From Verif Require Export Relp_Model.
Open Scope Z_scope.

(* Eclipse ZCORN layout: corner (ci,cj,ck) in {0,1}^3 of cell (i,j,k) *)
Definition zcorn_pos (nx ny i j k ci cj ck : Z) : Z :=
  (2 * i + ci) + 2 * nx * ((2 * j + cj) + 2 * ny * (2 * k + ck)).
Definition sumR {A} (f : A -> R) (l : list A) : R := Rsum (map f l).

(* all data a run reads is present: one value per cell and a curve for every region *)
Definition wf (h : helper) : Prop :=
  let n := zlen (h_sat h) in
  (forall c, In c (h_ecl h) -> 0 <= c < n) /\ NoDup (h_ecl h) /\
  zlen (h_kx h) = n /\ zlen (h_poro h) = n /\ (h_aniso h = true -> zlen (h_ky h) = n /\ zlen (h_kz h) = n) /\
  (forall s, In s (h_sat h) -> 0 <= s) /\
  (forall s, In s (h_sat h) -> 0 < s ->
     s <= zlen (if h_aniso h then h_swpc h else h_inv h) /\
     forall d ph, 0 <= d < 3 -> 0 <= ph < 2 -> s <= zlen (h_kr h d ph)).
(* the gravity offsets, when there are any, cover the cell numbers used as indices *)
Definition offsets_cover (h : helper) : Prop :=
  h_dP h = [] \/ forall c, In c (h_ecl h) -> zget (h_sat h) c <> Some 0 -> c < zlen (h_dP h).
(* the saturation region of a cell *)
Definition region (h : helper) (c : Z) : Z := match zget (h_sat h) c with Some s => s | None => 0 end.
Definition rock_cells (h : helper) : list Z := filter (fun c => 0 <? region h c) (h_ecl h).
(* the curve giving the saturation of a cell, and a value of a real array *)
Definition sat_curve (h : helper) (c : Z) : option curve :=
  zget (if h_aniso h then h_swpc h else h_inv h) (region h c - 1).
Definition at_ (l : list R) (c : Z) : R := match zget l c with Some x => x | None => 0%R end.
(* an interpolated value lies between the smallest and largest tabulated value *)
Definition curve_ok (cu : curve) : Prop := forall x, (cv_minf cu <= cv_eval cu x <= cv_maxf cu)%R.

(* depths of the four top corners of the cells in layer 0, and of the four bottom corners
   of the cells in layer nz-1 *)
Definition face_depths (nx ny : Z) (zcorn : list R) (layer side : Z) (cells : list (Z * (Z * Z))) : list R :=
  flat_map (fun c => let '(k, (j, i)) := c in
              if k =? layer
              then map (fun ji => at_ zcorn (zcorn_pos nx ny i j k (snd ji) (fst ji) side)) [(0,0); (0,1); (1,0); (1,1)]
              else []) cells.
Definition mean (l : list R) : option R := fdiv (Rsum l) (INR (length l)).

(* ------- sweeps, per active cell and its volume *)
Definition rock_pairs (h : helper) (vols : list R) : list (Z * R) :=
  filter (fun cv => 0 <? region h (fst cv)) (combine (h_ecl h) vols).
Definition pore_volume (h : helper) (cv : Z * R) : R := (snd cv * at_ (h_poro h) (fst cv))%R.
Definition curve_of (h : helper) (c : Z) : curve :=
  match sat_curve h c with Some cu => cu | None => mkCurve 0 0 0 0 (fun _ => 0%R) end.
(* Leverett scaling of a cell; anisotropic input has none *)
Definition scaling (h : helper) (c : Z) : R := if h_aniso h then 1%R else sqrt (at_ (h_kx h) c / at_ (h_poro h) c).
(* offset subtracted from the test pressure: entry c of the offset array *)
Definition offset_of (h : helper) (c : Z) : R := match h_dP h with [] => 0%R | _ => at_ (h_dP h) c end.
Definition local_sat (h : helper) (p : R) (c : Z) : R :=
  cv_eval (curve_of h c) (scaling h c * (p - offset_of h c))%R.
(* the pressures at the ends of a cell's own curve *)
Definition own_low (h : helper) (c : Z) : R := (cv_minx (curve_of h c) / scaling h c)%R.
Definition own_high (h : helper) (c : Z) : R := (cv_maxx (curve_of h c) / scaling h c)%R.
Definition is_min (m : R) (l : list R) : Prop := In m l /\ forall x, In x l -> (m <= x)%R.
Definition is_max (m : R) (l : list R) : Prop := In m l /\ forall x, In x l -> (x <= m)%R.
(* relative permeability times absolute permeability of a cell in direction d *)
Definition phase_perm (h : helper) (ph : Z) (p : R) (c d : Z) : R :=
  (match zget (h_kr h d ph) (region h c - 1) with Some cu => cv_eval cu (local_sat h p c) | None => 0 end *
   at_ (if d =? 0 then h_kx h else if d =? 1 then h_ky h else h_kz h) c)%R.

(* number of points computed by process r *)
Definition point_count (n points r : Z) : Z :=
  zlen (filter (fun i => mpi_node n i =? r) (zrange 0 points)).
(* the active cells are numbered in increasing order *)
Definition increasing (l : list Z) : Prop :=
  forall i j a b, i < j -> zget l i = Some a -> zget l j = Some b -> a < b.
(* the values a rock cell contributes to the largest phase permeability *)
Definition cand (h : helper) (ph : Z) (p : R) (c : Z) : list R :=
  h_minperm h :: (if h_aniso h then [phase_perm h ph p c 0; phase_perm h ph p c 1; phase_perm h ph p c 2]
                  else [phase_perm h ph p c 0]).
(* the tensor entries handed over for a cell *)
Definition tensor_of (h : helper) (ph : Z) (p floor : R) (c : Z) : R * R * R :=
  if h_aniso h
  then (Rmax floor (phase_perm h ph p c 0), Rmax floor (phase_perm h ph p c 1), Rmax floor (phase_perm h ph p c 2))
  else let k := if 0 <? region h c then Rmax floor (phase_perm h ph p c 0) else floor in (k, k, k).
Definition entries (t : R * R * R) : list R := let '(a, b, c) := t in [a; b; c].
(* input accepted by the check *)
Definition input_ok (aniso : bool) (d : rinput) : Prop :=
  (forall s, In s (ri_sat d) -> 0 <= s <= 1000) /\ (forall x, In x (ri_poro d) -> 0 <= x <= 1)%R /\
  (forall k, In k (ri_kx d) -> 0 <= k)%R /\
  (aniso = true -> (forall k, In k (ri_ky d) -> 0 <= k)%R /\ (forall k, In k (ri_kz d) -> 0 <= k)%R).

(* curves suitable for a sweep: values between 0 and 1 and ordered end points *)
Definition good_curves (h : helper) : Prop :=
  forall c, In c (rock_cells h) ->
    curve_ok (curve_of h c) /\ (0 <= cv_minf (curve_of h c))%R /\ (cv_maxf (curve_of h c) <= 1)%R /\
    (own_low h c <= own_high h c)%R.

(* witnesses: [n] active cells of region 1 with porosity 1 and given permeabilities *)
Definition half_curve : curve := mkCurve 0 1 0 1 (fun _ => / 2)%R.
Definition ex_helper (aniso : bool) (kx ky kz dP : list R) (ecl : list Z) : helper :=
  mkHelper ecl (map (fun _ => 1) kx) kx ky kz (map (fun _ => 1%R) kx) aniso dP [half_curve] [half_curve]
           (fun _ _ => [half_curve]) 0%R 10%R.
