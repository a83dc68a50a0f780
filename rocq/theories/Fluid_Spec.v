From Verif Require Export Fluid_Model Rprop_Spec.
Open Scope Z_scope.

(* ---- capillary pressure *)
(* mean of the diagonal of a permeability tensor *)
Definition mean_diag (K : mat) : R := (Sum 3 (fun i => entry K i i) / 3)%R.
(* the Leverett scaling  f(s) sigma cos(theta) / sqrt(k / phi), or f itself for unscaled tables *)
Definition leverett (r : jrock) (f : R -> R) (k poro s : R) : R :=
  if jr_use r then (f s * jr_sct r / sqrt (k / poro))%R else f s.
Definition good_rock (K : mat) (poro : R) : Prop := shaped K COrd 3 3 /\ (0 < mean_diag K)%R /\ (0 < poro)%R.
(* the table and its inverse match on the saturations of the table *)
Definition invertible (r : jrock) : Prop := forall s, (jr_smin r <= s <= jr_smax r)%R -> jr_Jinv r (jr_J r s) = s.
(* cell c has rock r, tensor K and porosity poro *)
Definition cell_data (fl : fluid) (c : Z) (r : jrock) (K : mat) (poro : R) : Prop :=
  (exists k, zget (rp_rock (fl_prop fl)) c = Some k /\ zget (fl_rocks fl) k = Some r) /\
  permeability (fl_prop fl) c = Ok K /\ zget (rp_poro (fl_prop fl)) c = Some poro.
Definition value (x : res R) : R := match x with Ok v => v | _ => 0%R end.

(* ---- files *)
Definition comment_char (c : ascii) : Prop := c = "-"%char \/ c = "#"%char.
(* a line beginning with - or #, with its end of line *)
Definition comment_line (l : list ascii) : Prop := exists c body, l = c :: body ++ [newline] /\ comment_char c /\ ~ In newline body.
Definition documented_comment (l : list ascii) : Prop :=
  exists body, ~ In newline body /\ (l = "#"%char :: body ++ [newline] \/ l = "-"%char :: "-"%char :: body ++ [newline]).
Definition not_comment (l : list ascii) : Prop := forall c t, l = c :: t -> ~ comment_char c.
Definition nonempty {A} (l : list A) : bool := match l with [] => false | _ => true end.
Definition row_tokens (r : R * R * R * R) : list (option R) := let '(a, b, c, d) := r in [Some a; Some b; Some c; Some d].

(* ---- fractional flow *)
(* a two-phase law: relative permeabilities of water and oil as functions of the water saturation *)
Definition flow_fraction (k1 k2 mu1 mu2 : R) : R := (k1 / mu1 / (k1 / mu1 + k2 / mu2))%R.
Definition gravity_fraction (k1 k2 mu1 mu2 : R) : R := ((k1 / mu1) * (k2 / mu2) / (k1 / mu1 + k2 / mu2))%R.
(* no negative relative permeability, and somebody flows *)
Definition flows (k1 k2 : R) : Prop := (0 <= k1)%R /\ (0 <= k2)%R /\ (0 < k1 + k2)%R.
(* relative permeabilities of the rock of a cell, or the quadratic ones *)
Definition relperms (fl : fluid) (c : Z) (k1 k2 : R -> R) : Prop :=
  (fl_rocks fl = [] /\ (forall s, k1 s = s * s)%R /\ (forall s, k2 s = (1 - s) * (1 - s))%R) \/
  exists k r, zget (rp_rock (fl_prop fl)) c = Some k /\ zget (fl_rocks fl) k = Some r /\ k1 = jr_krw r /\ k2 = jr_kro r.
(* the same for the three directions of an anisotropic rock *)
Definition arelperms (fl : afluid) (rock : Z) (k1 k2 : Z -> R -> R) : Prop :=
  (rock = -1 /\ (forall d s, k1 d s = s * s)%R /\ (forall d s, k2 d s = (1 - s) * (1 - s))%R) \/
  (rock <> -1 /\ exists r, zget (af_rocks fl) rock = Some r /\ k1 = ar_kr r 0 /\ k2 = ar_kr r 1).
Definition acell_rock (fl : afluid) (c rock : Z) : Prop :=
  match af_rocks fl with [] => rock = -1 | _ => zget (af_rock_of fl) c = Some rock end.

(* ---- CFL factors *)
(* the slope of f over the i-th of the 256 equal parts of [0, 1] *)
Definition slope (f : R -> R) (i : Z) : R := (256 * Rabs (f (IZR i / 256) - f (IZR (i - 1) / 256)))%R.
(* m is the largest value of f on P *)
Definition maximum {A} (P : A -> Prop) (f : A -> R) (m : R) : Prop := (exists x, P x /\ f x = m) /\ forall x, P x -> (f x <= m)%R.
(* m is the smallest of x0 and the values of f over 0 .. n-1 that satisfy P *)
Definition least (x0 : R) (n : Z) (P : Z -> Prop) (f : Z -> R) (m : R) : Prop :=
  (m <= x0)%R /\ (forall i, 0 <= i < n -> P i -> (m <= f i)%R) /\ (m = x0 \/ exists i, 0 <= i < n /\ P i /\ m = f i).
Definition greatest (x0 : R) (n : Z) (P : Z -> Prop) (f : Z -> R) (m : R) : Prop :=
  (x0 <= m)%R /\ (forall i, 0 <= i < n -> P i -> (f i <= m)%R) /\ (m = x0 \/ exists i, 0 <= i < n /\ P i /\ m = f i).
(* the three factors of a pair of flow functions f, g and a capillary pressure derivative d *)
Definition cfl_factors (f g d : R -> R) (a b c : R) : Prop :=
  exists m1 m2 mg md, maximum (fun i => 1 <= i <= 256) (slope f) m1 /\ maximum (fun i => 1 <= i <= 256) (slope g) m2 /\
    maximum (fun i => 0 <= i <= 256) (fun i => g (IZR i / 256)%R) mg /\ maximum (fun i => 0 <= i <= 256) (fun i => Rabs (d (IZR i / 256)%R)) md /\
    m1 <> 0%R /\ m2 <> 0%R /\ a = (1 / m1)%R /\ b = (1 / m2)%R /\ c = (mg * md)%R.
(* relative permeability curves that can be used: water immobile at 0, oil at 1, somebody always flows, and somewhere both do *)
Definition usable (k1 k2 : R -> R) : Prop :=
  k1 0%R = 0%R /\ k2 1%R = 0%R /\ (forall s, (0 <= s <= 1)%R -> flows (k1 s) (k2 s)) /\ exists i, 0 <= i <= 256 /\ (0 < k1 (IZR i / 256))%R /\ (0 < k2 (IZR i / 256))%R.
Definition frac_of (k1 k2 : R -> R) (mu1 mu2 s : R) : R := flow_fraction (k1 s) (k2 s) mu1 mu2.
Definition grav_of (k1 k2 : R -> R) (mu1 mu2 s : R) : R := gravity_fraction (k1 s) (k2 s) mu1 mu2.
Definition cell_mean (fl : fluid) (c : Z) : R := match permeability (fl_prop fl) c with Ok K => mean_diag K | _ => 0%R end.
(* the cell and the rock with its number *)
Definition in_rock (fl : fluid) (r c : Z) : Prop := zget (rp_rock (fl_prop fl)) c = Some r.
Definition cells_good (fl : fluid) : Prop :=
  forall c, 0 <= c < zlen (rp_poro (fl_prop fl)) -> exists r K poro, cell_data fl c r K poro /\ good_rock K poro.
(* direction and part of [0, 1] *)
Definition sample2 (p : Z * Z) : Prop := 0 <= fst p < 3 /\ 1 <= snd p <= 256.
(* the advection and gravity factors of direction dependent flow functions *)
Definition acfl_factors (f g : Z -> R -> R) (a b : R) : Prop :=
  exists m1 m2, maximum sample2 (fun p => slope (f (fst p)) (snd p)) m1 /\ maximum sample2 (fun p => slope (g (fst p)) (snd p)) m2 /\
    m1 <> 0%R /\ m2 <> 0%R /\ a = (1 / m1)%R /\ b = (1 / m2)%R.

(* ---- velocities *)
(* the fluxes of the uniform velocity field v out of the faces of a cell *)
Definition uniform_outflux (dim : Z) (c : mcell) (v : Z -> R) (out : list R) : Prop :=
  zlen out = zlen (mc_faces c) /\ forall i, 0 <= i < zlen out -> nthR out i = dot dim (areavec c i) v.
Definition is_vec (dim : Z) (l : list R) (v : Z -> R) : Prop := zlen l = dim /\ forall k, 0 <= k < dim -> nthR l k = v k.
(* +1 for the first cell of a face, -1 for the second, 0 for any other *)
Definition orient (f : sface) (c : Z) : R := ((if sf_c0 f =? c then 1 else 0) - (if sf_c1 f =? c then 1 else 0))%R.
(* number b of row a *)
Definition field {A} (rows : list (list A)) (a b : Z) : option A := match zget rows a with Some r => zget r b | None => None end.
Definition five_columns (rows : list (list R)) : Prop := forall r, In r rows -> zlen r = 5.
Definition nth_sface (faces : list sface) (i : Z) : sface := nth (Z.to_nat i) faces (mkSFace (-1) (-1) [] 0).
(* cells are -1 (none) or a cell of the grid, vectors have dim components and volumes are not zero *)
Definition simple_grid (dim : Z) (cens : list (list R)) (vol : list R) (faces : list sface) : Prop :=
  0 < dim /\ zlen vol = zlen cens /\ (forall c x, zget cens c = Some x -> zlen x = dim) /\ (forall c, 0 <= c < zlen vol -> nthR vol c <> 0%R) /\
  forall f, In f faces -> zlen (sf_cen f) = dim /\ sf_c0 f < zlen cens /\ sf_c1 f < zlen cens.
(* flux times offset of the faces of cell c, divided by its volume, in direction k *)
Definition simple_velocity (vol : list R) (faces : list sface) (c : Z) (x : list R) (k : Z) : R :=
  (Sum (zlen faces) (fun i => orient (nth_sface faces i) c * sf_flux (nth_sface faces i) * (nthR (sf_cen (nth_sface faces i)) k - nthR x k)) / nthR vol c)%R.
(* the same from outfluxes in the order of the cell's faces *)
Definition mean_velocity (c : mcell) (out : list R) (k : Z) : R :=
  (Sum (zlen (mc_faces c)) (fun i => nthR out i * offset c i k) / mc_vol c)%R.
