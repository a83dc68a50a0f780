(* Vocabulary of the properties of upscale_relpermvisc *)
From Verif Require Export Relp_Spec.
From Verif Require Export Visc_Model Cap_Spec Mpi_Spec.
From Verif Require Export Matx_Spec.
Open Scope Z_scope.

(* an input cell the program accepts *)
Definition visc_valid (aniso : bool) (minporo maxperm : R) (s : Z) (po kx ky kz : R) : Prop :=
  0 <= s <= 1000 /\ (0 <= po <= 1)%R /\ (0 <= kx)%R /\ (aniso = true -> 0 <= ky /\ 0 <= kz)%R.
Definition raised (m v : R) : R := Rmax m v.

(* curves of a stone type: strictly monotone columns *)
Definition strict_column (load : column_load) (f : string) (xc yc : Z) (c : curve) : Prop :=
  exists d, load f xc yc = Ok (c, Some d).
(* both columns strictly monotone, in opposite directions *)
Definition opposite_columns (load : column_load) (f : string) (wcol ocol : Z) (w o : curve) : Prop :=
  exists d, load f 1 wcol = Ok (w, Some d) /\ load f 1 ocol = Ok (o, Some (negb d)).
(* water curves and oil curves in columns 3, 4, 5 as functions of column 2 *)
Definition aniso_columns (load : column_load) (wf of : string) (cs : list (curve * curve)) : Prop :=
  exists wx wy wz ox oy oz, cs = [(wx, ox); (wy, oy); (wz, oz)] /\
    strict_column load wf 2 3 wx /\ strict_column load wf 2 4 wy /\ strict_column load wf 2 5 wz /\
    strict_column load of 2 3 ox /\ strict_column load of 2 4 oy /\ strict_column load of 2 5 oz.

(* the stone type of a cell, the rock cells, pore volumes *)
Definition vsat (x : vin) (c : Z) : Z := match zget (vi_sat x) c with Some s => s | None => 0 end.
Definition vrocky (x : vin) (cells : list (Z * R)) : list (Z * R) := filter (fun cv => 0 <? vsat x (fst cv)) cells.
Definition vof_rock (x : vin) (r : Z) (cells : list (Z * R)) : list (Z * R) := filter (fun cv => vsat x (fst cv) =? r) cells.
Definition vpore (x : vin) (cv : Z * R) : R := (snd cv * nthR (vi_poro x) (fst cv))%R.
(* the curves of a stone type in a direction *)
Definition kr_pair (x : vin) (s d : Z) : curve * curve :=
  match zget (vi_rocks x) (s - 1) with
  | Some cs => match zget cs d with Some p => p | None => (no_curve, no_curve) end
  | None => (no_curve, no_curve)
  end.
Definition water_curve (x : vin) (c : Z) : curve := fst (kr_pair x (vsat x c) 0).
Definition directions (x : vin) : Z := if vi_aniso x then 3 else 1.
(* usable data *)
Definition vproper (x : vin) (ecl : list Z) : Prop :=
  let n := zlen (vi_sat x) in
  NoDup ecl /\ (forall c, In c ecl -> 0 <= c < n) /\
  (0 < vi_contrast x)%R /\ zlen (vi_poro x) = n /\ zlen (vi_kx x) = n /\
  (vi_aniso x = true -> zlen (vi_ky x) = n /\ zlen (vi_kz x) = n) /\
  (forall s, In s (vi_sat x) -> 0 <= s <= zlen (vi_rocks x)) /\
  (forall cs, In cs (vi_rocks x) -> zlen cs = directions x).

(* ratio of the mobilities of water and oil *)
Definition mobility_ratio (kw vw ko vo : R) : R := ((kw / vw) / (ko / vo))%R.
(* a curve in a direction, the saturation of a stone type, shape of the curves *)
Definition dir_curve (cs : list curve) (d : Z) : curve := match zget cs d with Some c => c | None => no_curve end.
Definition stone_sat (aniso : bool) (cs : list curve) (q : R) : R :=
  if aniso then ((cv_eval (dir_curve cs 0) q + cv_eval (dir_curve cs 1) q + cv_eval (dir_curve cs 2) q) / 3)%R
  else cv_eval (dir_curve cs 0) q.
Definition stone_curves (inv : list (list curve)) (r : Z) : list curve := match zget inv r with Some cs => cs | None => [] end.
Definition curves_shaped (aniso : bool) (inv : list (list curve)) : Prop := forall cs, In cs inv -> zlen cs = if aniso then 3 else 1.
(* relative permeabilities: that of water does not decrease, that of oil does not increase *)
Definition physical (wo : curve * curve) : Prop :=
  forall s s', (s <= s')%R -> (cv_eval (fst wo) s <= cv_eval (fst wo) s')%R /\ (cv_eval (snd wo) s' <= cv_eval (snd wo) s)%R.
(* saturation of a cell at a flow ratio *)
Definition cell_sat (x : vin) (inv : list (list curve)) (q : R) (c : Z) : R :=
  stone_sat (vi_aniso x) (stone_curves inv (vsat x c - 1)) q.
(* a curve takes its values between the smallest and the largest one *)
Definition bounded_by (c : curve) (lo hi : R) : Prop := forall q, (lo <= cv_eval c q <= hi)%R.
(* permeability of a cell in a direction; isotropic input has one value *)
Definition cell_perm (x : vin) (c d : Z) : R :=
  if vi_aniso x then nthR (if d =? 0 then vi_kx x else if d =? 1 then vi_ky x else vi_kz x) c else nthR (vi_kx x) c.
(* permeability of a phase in a cell: relative permeability at the saturation of the stone type times
   permeability; cells without rock have the smallest permeability *)
Definition phase_value (x : vin) (ph : Z) (sats : list R) (c d : Z) : R :=
  if 0 <? vsat x c then
    (cv_eval (phase_curve ph (kr_pair x (vsat x c) (if vi_aniso x then d else 0))) (nthR sats (vsat x c - 1)) * cell_perm x c d)%R
  else vi_minperm x.
Definition diag_entries (t : R * R * R) : list R := [fst (fst t); snd (fst t); snd t].
(* k transitions of the processes; nothing left to do; transitions that need no buffering *)
Inductive visc_run (tec : Z) (a : Z -> arrays) : nat -> vmpi -> vmpi -> Prop :=
| vrun_0 st : visc_run tec a 0 st st
| vrun_S k st st1 st2 : visc_run tec a k st st1 -> vmpi_step tec a st1 st2 -> visc_run tec a (S k) st st2.
Definition visc_done (st : vmpi) : Prop := vp_recv st = [] /\ forall r, vp_chan st r = [] /\ vp_send st r = [].
Definition visc_guaranteed (tec : Z) (a : Z -> arrays) (st st' : vmpi) : Prop :=
  vmpi_step tec a st st' /\ exists r t, vp_recv st = r :: t /\ vp_recv st' = t.
(* saturations of the stone types *)
Definition stone_sats (aniso : bool) (inv : list (list curve)) (q : R) : list R :=
  map (fun r => stone_sat aniso (stone_curves inv r) q) (zrange 0 (zlen inv)).
(* tensor elements in the order of the output: xx yy zz yz xz xy zy zx yx *)
Definition element_row (v : Z) : Z := nth (Z.to_nat v) [0; 1; 2; 1; 0; 0; 2; 2; 1] 0.
Definition element_col (v : Z) : Z := nth (Z.to_nat v) [0; 1; 2; 2; 2; 1; 1; 0; 0] 0.
(* a row-wise 3x3 tensor *)
Definition tensor_of (k : list R) (r c : Z) : R := nthR k (3 * r + c).
(* the tensor whose elements are those of a row of the results; three elements are its diagonal *)
Definition row_tensor (tec : Z) (row : list R) (f : Z -> Z -> R) : Prop :=
  (forall v, 0 <= v < tec -> f (element_row v) (element_col v) = nthR row v) /\
  (tec = 3 -> forall r c, 0 <= r < 3 -> 0 <= c < 3 -> r <> c -> f r c = 0%R).
