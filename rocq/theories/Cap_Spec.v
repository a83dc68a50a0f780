(* Vocabulary of the properties of upscale_cap and upscale_cond *)
From Verif Require Export Cap_Model Steady_Spec.
Open Scope Z_scope.

(* arguments "-key value" for a list of keys and values *)
Definition option_args (kvs : list (string * string)) : list string :=
  flat_map (fun kv => [String "-" (fst kv); snd kv]) kvs.
(* the last value given for an option, otherwise its default *)
Definition last_value (o : optmap) (kvs : list (string * string)) (k : string) : option string :=
  match find (fun kv => String.eqb (fst kv) k) (rev kvs) with Some kv => Some (snd kv) | None => o k end.
Definition known (o : optmap) (k : string) : Prop := o k <> None.
Definition is_option (s : string) : Prop := exists k, s = String "-" k.

(* input accepted by the programs: rock types 0 .. 1000, porosities between 0 and 1, nonnegative
   permeabilities *)
Definition cell_valid (s : Z) (po k : R) : Prop := 0 <= s <= 1000 /\ (0 <= po <= 1)%R /\ (0 <= k)%R.
Definition cells_valid (sat : list Z) (poro perm : list R) : Prop :=
  forall i s po k, zget sat i = Some s -> zget poro i = Some po -> zget perm i = Some k -> cell_valid s po k.

(* neighbouring entries of a table *)
Definition adjacent {A} (t : list A) (a b : A) : Prop := exists l r, t = l ++ a :: b :: r.
(* pressures in increasing order *)
Definition ordered {A} (t : table A) : Prop := forall a b, adjacent t a b -> (fst a < fst b)%R.
(* the saturation does not increase, or does not decrease, with pressure *)
Definition monotone {A} (f : R -> res (R * A)) (lo hi : R) : Prop :=
  (forall p q s a s' b, (lo <= p <= q)%R -> (q <= hi)%R -> f p = Ok (s, a) -> f q = Ok (s', b) -> (s' <= s)%R) \/
  (forall p q s a s' b, (lo <= p <= q)%R -> (q <= hi)%R -> f p = Ok (s, a) -> f q = Ok (s', b) -> (s <= s')%R).

(* the rock type of a cell, and the rock cells among cells with volumes *)
Definition sat_of (x : cin) (c : Z) : Z := match zget (ci_sat x) c with Some s => s | None => 0 end.
Definition rocky (x : cin) (cells : list (Z * R)) : list (Z * R) := filter (fun cv => 0 <? sat_of x (fst cv)) cells.
Definition pore_of (x : cin) (cv : Z * R) : R := (snd cv * nthR (ci_poro x) (fst cv))%R.
Definition no_curve : curve := mkCurve 0 0 0 0 (fun _ => 0%R).
Definition rock_curve (x : cin) (s : Z) : curve := match zget (ci_inv x) (s - 1) with Some cu => cu | None => no_curve end.
Definition curve_at (x : cin) (c : Z) : curve := rock_curve x (sat_of x c).
(* capillary pressure of a J-function value in a cell, and back *)
Definition pc_of_j (x : cin) (c : Z) (j : R) : R := (ci_st x * j / sqrt (nthR (ci_perm x) c * ci_md x / nthR (ci_poro x) c))%R.
Definition j_of_pc (x : cin) (c : Z) (p : R) : R := (sqrt (nthR (ci_perm x) c * ci_md x / nthR (ci_poro x) c) * p / ci_st x)%R.
Definition water_sat (x : cin) (p : R) (c : Z) : R := cv_eval (curve_at x c) (j_of_pc x c p).
(* usable data: the cells exist and are listed once; rock cells have a curve, positive porosity and
   permeability; units are positive *)
Definition proper (x : cin) (cells : list (Z * R)) : Prop :=
  NoDup (map fst cells) /\ (0 < ci_md x)%R /\ (0 < ci_st x)%R /\
  (forall s, In s (ci_sat x) -> 0 <= s) /\
  (forall cv, In cv cells -> 0 <= fst cv < zlen (ci_sat x) /\ (0 <= snd cv)%R) /\
  (forall c, 0 <= c < zlen (ci_sat x) -> 0 < sat_of x c ->
     sat_of x c <= zlen (ci_inv x) /\ c < zlen (ci_poro x) /\ c < zlen (ci_perm x) /\
     (0 < nthR (ci_poro x) c)%R /\ (0 < nthR (ci_perm x) c)%R).
Definition within (cu : curve) : Prop := (forall j, cv_minf cu <= cv_eval cu j <= cv_maxf cu)%R.
(* sums over cells *)
Definition sum_cells {A} (f : A -> R) (l : list A) : R := Rsum (map f l).
Definition of_rock (x : cin) (r : Z) (l : list (Z * R)) : list (Z * R) := filter (fun cv => sat_of x (fst cv) =? r) l.
(* cells whose volume exceeds 1e-10 *)
Definition big (l : list (Z * R)) : list (Z * R) := filter (fun cv => Rltb (/ 10000000000) (snd cv)) l.

(* interpolation through data points, never leaving the range of the data *)
Definition interpolates (interp : interpolation) : Prop :=
  (forall xs ys i x y, NoDup xs -> zlen xs = zlen ys -> zget xs i = Some x -> zget ys i = Some y -> interp xs ys x = y) /\
  (forall xs ys x lo hi, xs <> [] -> zlen xs = zlen ys -> (forall y, In y ys -> lo <= y <= hi)%R -> (lo <= interp xs ys x <= hi)%R).

(* Archie's law with a cutoff *)
Definition archie_law (a rw po m sw n cut : R) : R := Rmin (a * rw * Rpower po (- m) * Rpower sw (- n)) cut.
(* the resistivity of a cell: the cutoff without rock, mud types, the cutoff without water, Archie's law *)
Definition cell_ohm (x : cin) (a : archie) (p : R) (c : Z) : R :=
  let s := sat_of x c in let sw := water_sat x p c in
  if 0 <? s then
    if (s =? ar_m1 a) || (s =? ar_m2 a) then ar_mud a
    else if Req_EM_T sw 0 then ar_cut a
    else archie_law (ar_a a) (ar_rw a) (nthR (ci_poro x) c) (nthR (ar_cem a) s) sw (nthR (ar_sexp a) s) (ar_cut a)
  else ar_cut a.
(* positive parameters, exponents for every rock type *)
Definition archie_fit (x : cin) (a : archie) : Prop :=
  (0 < ar_a a * ar_rw a)%R /\ (0 < ar_cut a)%R /\ (0 < ar_mud a)%R /\ max_satnum (ci_sat x) < zlen (ar_cem a) /\ max_satnum (ci_sat x) < zlen (ar_sexp a) /\
  forall s, 1 <= s <= max_satnum (ci_sat x) -> (0 < nthR (ar_sexp a) s)%R.
(* the result of one pressure point, computed on its own *)
Definition point_result (x : cin) (l : limits) (a : archie) (ecl : list Z) (up inv : upscaling) (tec : Z) (p : R) : res (R * list R) :=
  let* wg := cond_cells x l a ecl p in
  let* k := up (snd wg) in
  let* s := mdiv (fst wg) (li_pore l) in
  let* r := inv k in
  let* row := mapM (get_voigt r) (zrange 0 tec) in Ok (s, row).
