From Verif Require Import Visc_Proofs Visc_Proofs2 Visc_Proofs3 Visc_Proofs4 Visc_Proofs5 Visc_Proofs6 Visc_Proofs7 Visc_Proofs8 Visc_Proofs9 Mpi_Spec Relp_Spec Cap_Spec Visc_Spec.
Open Scope Z_scope.

(* C156: check of the grid input *)
Theorem C156_cells : forall aniso contrast minperm maxperm minporo cells, (0 <= minporo <= 1)%R -> (0 <= minperm <= maxperm)%R ->
  ((0 < contrast)%R /\ Forall (fun c => visc_valid aniso minporo maxperm (fst c) (fst (snd c)) (fst (snd (snd c))) (fst (snd (snd (snd c)))) (snd (snd (snd (snd c))))) cells ->
   exists r, visc_check aniso contrast minperm maxperm minporo cells = Ok r /\ zlen r = zlen cells /\
     forall i s po kx ky kz, zget cells i = Some (s, (po, (kx, (ky, kz)))) ->
       zget r i = Some (if s =? 0 then (0%R, (minperm, if aniso then (minperm, minperm) else (ky, kz)))
                        else (Rmax minporo po, (Rmin maxperm (Rmax minperm kx), (ky, kz))))) /\
  (~ ((0 < contrast)%R /\ Forall (fun c => visc_valid aniso minporo maxperm (fst c) (fst (snd c)) (fst (snd (snd c))) (fst (snd (snd (snd c)))) (snd (snd (snd (snd c))))) cells) ->
   visc_check aniso contrast minperm maxperm minporo cells = Throw).
Proof. exact Visc_Proofs.check_all_cells. Qed.

(* C157: rock files *)
Theorem C157_isotropic : forall load wcol ocol stones files rs, 0 < stones ->
  (visc_rocks load wcol ocol false stones files = Ok rs <->
   (zlen files = stones \/ zlen files = 1) /\ zlen rs = stones /\
   forall i, 0 <= i < stones -> exists f w o, zget files (if zlen files =? stones then i else 0) = Some f /\
     opposite_columns load f wcol ocol w o /\ zget rs i = Some [(w, o)]).
Proof. exact Visc_Proofs.iso_files. Qed.
Theorem C157_anisotropic : forall load wcol ocol stones files rs, 0 < stones ->
  (visc_rocks load wcol ocol true stones files = Ok rs <->
   (zlen files = 2 * stones \/ zlen files = 2) /\ zlen rs = stones /\
   forall i, 0 <= i < stones -> exists w o cs, zget files (if zlen files =? 2 * stones then 2 * i else 0) = Some w /\
     zget files (if zlen files =? 2 * stones then 2 * i + 1 else 1) = Some o /\
     aniso_columns load w o cs /\ zget rs i = Some cs).
Proof. exact Visc_Proofs.aniso_files. Qed.

(* C158: end points and pore volumes *)
Theorem C158_limits : forall x cells tol, vproper x (map fst cells) -> (exists cv, In cv (vrocky x cells) /\ (0 < vpore x cv)%R) ->
    (forall cv, In cv (vrocky x cells) -> (0 <= vpore x cv)%R /\ (0 <= cv_minx (water_curve x (fst cv)) <= cv_maxx (water_curve x (fst cv)))%R /\ (cv_maxx (water_curve x (fst cv)) <= 1)%R) ->
    exists l, visc_limits x tol cells = Ok l /\
      vm_pore l = sum_cells (vpore x) (vrocky x cells) /\ (0 < vm_pore l)%R /\ vm_vol l = sum_cells snd (vrocky x cells) /\
      zlen (vm_rock l) = zlen (vi_rocks x) /\
      (forall r, 0 <= r < zlen (vi_rocks x) -> zget (vm_rock l) r = Some (sum_cells (vpore x) (vof_rock x (r + 1) (vrocky x cells)))) /\
      Rsum (vm_rock l) = vm_pore l /\
      (vm_swir l * vm_pore l = sum_cells (fun cv => cv_minx (water_curve x (fst cv)) * vpore x cv) (vrocky x cells))%R /\
      (vm_swor l * vm_pore l = sum_cells (fun cv => cv_maxx (water_curve x (fst cv)) * vpore x cv) (vrocky x cells))%R /\
      (0 <= vm_swir l <= vm_swor l)%R /\ (vm_swor l <= 1)%R /\
      (exists m, is_max m (0%R :: map (fun cv => nthR (vi_kx x) (fst cv)) (vrocky x cells)) /\ vm_kmin l = Rmax (m / vi_contrast x) (vi_minperm x)).
Proof. exact Visc_Proofs2.vlimits_spec. Qed.
Theorem C158_no_rock : forall x cells tol, vproper x (map fst cells) -> sum_cells (vpore x) (vrocky x cells) = 0%R -> visc_limits x tol cells = UB.
Proof. exact Visc_Proofs2.vlimits_none. Qed.

(* C159: flow ratios of the stone types *)
Theorem C159_saturations : forall left right, zlen (frac_sats (left, right)) = 1000 /\ nthR (frac_sats (left, right)) 0 = left /\ nthR (frac_sats (left, right)) 999 = right /\
  (forall i, 0 <= i < 999 -> (nthR (frac_sats (left, right)) (i + 1)%Z - nthR (frac_sats (left, right)) i = (right - left) / 999)%R) /\
  ((left <= right)%R -> forall i, 0 <= i < 1000 -> (left <= nthR (frac_sats (left, right)) i <= right)%R).
Proof. exact Visc_Proofs3.sats_spec. Qed.
Theorem C159_ratio : forall vw vo wo, (0 < vw)%R -> (0 < vo)%R ->
  (forall s, exists f, frac_ratio vw vo wo s = Ok f /\ (0 < f)%R /\
     f = mobility_ratio (Rmax (cv_eval (fst wo) s) kr_limit) vw (Rmax (cv_eval (snd wo) s) kr_limit) vo) /\
  (physical wo -> forall s s' f f', (s <= s')%R -> frac_ratio vw vo wo s = Ok f -> frac_ratio vw vo wo s' = Ok f' ->
     (f <= f')%R /\ ((cv_eval (fst wo) s < cv_eval (fst wo) s')%R -> (kr_limit < cv_eval (fst wo) s')%R -> (f < f')%R)).
Proof. exact Visc_Proofs3.ratio_spec. Qed.
Theorem C159_range : forall cinv cs wo, zget cs 0 = Some wo ->
  exists left right, frac_bounds cinv cs = Ok (if Rltb (cv_eval (fst wo) left) kr_limit then cinv (fst wo) kr_limit else left,
      if Rltb (cv_eval (snd wo) right) kr_limit then cinv (snd wo) kr_limit else right) /\
    is_min left (map (fun p => cv_minx (fst p)) cs ++ map (fun p => cv_minx (snd p)) cs) /\
    is_max right (map (fun p => cv_maxx (fst p)) cs ++ map (fun p => cv_maxx (snd p)) cs).
Proof. exact Visc_Proofs3.bounds_value. Qed.
Theorem C159_isotropic_range : forall cinv w o b, frac_bounds cinv [(w, o)] = Ok b -> physical (w, o) ->
  (cv_eval w (cinv w kr_limit) = kr_limit) -> (cv_eval o (cinv o kr_limit) = kr_limit) ->
  forall s, (fst b <= s <= snd b)%R -> (kr_limit <= cv_eval w s)%R /\ (kr_limit <= cv_eval o s)%R.
Proof. exact Visc_Proofs3.bounds_iso. Qed.
Theorem C159_table : forall vw vo b wo, (0 < vw)%R -> (0 < vo)%R -> exists t, frac_table vw vo b wo = Ok t /\ zlen t = 1000 /\
  forall i, 0 <= i < 1000 -> frac_ratio vw vo wo (nthR (frac_sats b) i) = Ok (nthR t i).
Proof. exact Visc_Proofs3.table_spec. Qed.
Theorem C159_isotropic : forall build cinv vw vo w o, (0 < vw)%R -> (0 < vo)%R -> physical (w, o) ->
  cv_eval w (cinv w kr_limit) = kr_limit -> cv_eval o (cinv o kr_limit) = kr_limit ->
  exists b f, frac_bounds cinv [(w, o)] = Ok b /\ frac_curves build cinv false vw vo [(w, o)] = Ok [build f (frac_sats b)] /\ zlen f = 1000 /\
    ((fst b <= snd b)%R -> forall i, 0 <= i < 1000 ->
       nthR f i = mobility_ratio (cv_eval w (nthR (frac_sats b) i)) vw (cv_eval o (nthR (frac_sats b) i)) vo /\ (0 < nthR f i)%R /\
       forall j, i <= j < 1000 -> (nthR f i <= nthR f j)%R).
Proof. exact Visc_Proofs3.iso_table. Qed.
Theorem C159_anisotropic : forall build cinv vw vo x y z, (0 < vw)%R -> (0 < vo)%R ->
  exists b f fy, frac_bounds cinv [x; y; z] = Ok b /\
    frac_curves build cinv true vw vo [x; y; z] = Ok [build f (frac_sats b); build fy (frac_sats b); build fy (frac_sats b)] /\
    (forall i, 0 <= i < 1000 -> frac_ratio vw vo x (nthR (frac_sats b) i) = Ok (nthR f i)) /\
    (forall i, 0 <= i < 1000 -> frac_ratio vw vo y (nthR (frac_sats b) i) = Ok (nthR fy i)).
Proof. exact Visc_Proofs3.aniso_table. Qed.
Theorem C159_z_ignored : forall build cinv vw vo x y z z', (0 < vw)%R -> (0 < vo)%R ->
  cv_minx (fst z) = cv_minx (fst z') -> cv_maxx (fst z) = cv_maxx (fst z') -> cv_minx (snd z) = cv_minx (snd z') -> cv_maxx (snd z) = cv_maxx (snd z') ->
  frac_curves build cinv true vw vo [x; y; z] = frac_curves build cinv true vw vo [x; y; z'].
Proof. exact Visc_Proofs3.z_ignored. Qed.
Theorem C159_all_stones : forall inv, List.concat inv <> [] -> (forall c, In c (List.concat inv) -> cv_minx c <= dbl_max /\ 0 <= cv_maxx c)%R ->
  is_min (fst (frac_range inv)) (map cv_minx (List.concat inv)) /\ is_max (snd (frac_range inv)) (map cv_maxx (List.concat inv)).
Proof. exact Visc_Proofs3.range_spec. Qed.

(* C160: saturation at a flow ratio *)
Theorem C160_water : forall aniso inv rock q, curves_shaped aniso inv -> zlen rock = zlen inv ->
  visc_water aniso inv rock q = Ok (sum_cells (fun r => stone_sat aniso (stone_curves inv r) q * nthR rock r)%R (zrange 0 (zlen inv)),
    map (fun r => stone_sat aniso (stone_curves inv r) q) (zrange 0 (zlen inv))).
Proof. exact Visc_Proofs4.water_ok. Qed.
Theorem C160_values : forall x cells tol l inv q, vproper x (map fst cells) -> (exists cv, In cv (vrocky x cells) /\ (0 < vpore x cv)%R) ->
    (forall cv, In cv (vrocky x cells) -> (0 <= vpore x cv)%R /\ (0 <= cv_minx (water_curve x (fst cv)) <= cv_maxx (water_curve x (fst cv)))%R /\ (cv_maxx (water_curve x (fst cv)) <= 1)%R) ->
  visc_limits x tol cells = Ok l -> curves_shaped (vi_aniso x) inv -> zlen inv = zlen (vi_rocks x) ->
  exists s, visc_values (vi_aniso x) inv (vm_rock l) (vm_pore l) q = Ok (s, tt) /\
    (s * sum_cells (vpore x) (vrocky x cells) = sum_cells (fun cv => cell_sat x inv q (fst cv) * vpore x cv) (vrocky x cells))%R.
Proof. exact Visc_Proofs4.sat_values. Qed.
Theorem C160_within : forall x cells tol l inv q s, vproper x (map fst cells) -> (exists cv, In cv (vrocky x cells) /\ (0 < vpore x cv)%R) ->
    (forall cv, In cv (vrocky x cells) -> (0 <= vpore x cv)%R /\ (0 <= cv_minx (water_curve x (fst cv)) <= cv_maxx (water_curve x (fst cv)))%R /\ (cv_maxx (water_curve x (fst cv)) <= 1)%R) ->
  visc_limits x tol cells = Ok l -> curves_shaped (vi_aniso x) inv -> zlen inv = zlen (vi_rocks x) ->
  (forall cv d, In cv (vrocky x cells) -> 0 <= d < directions x ->
     bounded_by (dir_curve (stone_curves inv (vsat x (fst cv) - 1)) d) (cv_minx (water_curve x (fst cv))) (cv_maxx (water_curve x (fst cv)))) ->
  visc_values (vi_aniso x) inv (vm_rock l) (vm_pore l) q = Ok (s, tt) -> (vm_swir l <= s <= vm_swor l)%R.
Proof. exact Visc_Proofs4.sat_within. Qed.
Theorem C160_monotone : forall x cells tol l inv lo hi, vproper x (map fst cells) -> (exists cv, In cv (vrocky x cells) /\ (0 < vpore x cv)%R) ->
    (forall cv, In cv (vrocky x cells) -> (0 <= vpore x cv)%R /\ (0 <= cv_minx (water_curve x (fst cv)) <= cv_maxx (water_curve x (fst cv)))%R /\ (cv_maxx (water_curve x (fst cv)) <= 1)%R) ->
  visc_limits x tol cells = Ok l -> curves_shaped (vi_aniso x) inv -> zlen inv = zlen (vi_rocks x) ->
  (forall c q q', In c (List.concat inv) -> (q <= q')%R -> (cv_eval c q <= cv_eval c q')%R) ->
  monotone (visc_values (vi_aniso x) inv (vm_rock l) (vm_pore l)) lo hi.
Proof. exact Visc_Proofs4.sat_monotone. Qed.
Theorem C160_tabulation : forall x cells tol l inv fuel t, vproper x (map fst cells) -> (exists cv, In cv (vrocky x cells) /\ (0 < vpore x cv)%R) ->
    (forall cv, In cv (vrocky x cells) -> (0 <= vpore x cv)%R /\ (0 <= cv_minx (water_curve x (fst cv)) <= cv_maxx (water_curve x (fst cv)))%R /\ (cv_maxx (water_curve x (fst cv)) <= 1)%R) ->
  visc_limits x tol cells = Ok l -> curves_shaped (vi_aniso x) inv -> zlen inv = zlen (vi_rocks x) ->
  (forall c q q', In c (List.concat inv) -> (q <= q')%R -> (cv_eval c q <= cv_eval c q')%R) ->
  (vm_swir l < vm_swor l)%R -> (fst (frac_range inv) < snd (frac_range inv))%R ->
  tabulate fuel (visc_values (vi_aniso x) inv (vm_rock l) (vm_pore l)) (vm_swir l) (vm_swor l) (fst (frac_range inv)) (snd (frac_range inv)) 500 = Ok (Some t) ->
  ordered t /\
  (forall q s u, In (q, (s, u)) t -> (fst (frac_range inv) <= q <= snd (frac_range inv))%R /\
     (s * sum_cells (vpore x) (vrocky x cells) = sum_cells (fun cv => cell_sat x inv q (fst cv) * vpore x cv) (vrocky x cells))%R) /\
  (exists v, In (fst (frac_range inv), v) t) /\ (exists v, In (snd (frac_range inv), v) t) /\
  (forall a b, adjacent t a b -> (0 <= fst (snd b) - fst (snd a) <= (vm_swor l - vm_swir l) / 500)%R).
Proof. exact Visc_Proofs4.visc_table. Qed.

(* C161: phase permeabilities of the cells *)
Theorem C161_cells : forall x ecl ph sats, vproper x ecl -> zlen sats = zlen (vi_rocks x) ->
  exists m, is_max m (0%R :: flat_map (fun c => vi_minperm x :: map (phase_value x ph sats c) (zrange 0 (directions x))) ecl) /\
    let low := Rmax (m / vi_contrast x) (vi_minperm x) in
    visc_perms x ph sats ecl = Ok (map (fun c => let v d := Rmax low (phase_value x ph sats c d) in
       if vi_aniso x then (v 0, v 1, v 2) else (v 0, v 0, v 0)) ecl).
Proof. exact Visc_Proofs5.perms_spec. Qed.
Theorem C161_contrast : forall x ecl ph sats ts, vproper x ecl -> zlen sats = zlen (vi_rocks x) -> (1 <= vi_contrast x)%R -> (0 < vi_minperm x)%R ->
  visc_perms x ph sats ecl = Ok ts ->
  forall t t' k k', In t ts -> In t' ts -> In k (diag_entries t) -> In k' (diag_entries t') -> (vi_minperm x <= k)%R /\ (k <= vi_contrast x * k')%R.
Proof. exact Visc_Proofs5.perms_contrast. Qed.
Theorem C161_single : forall x ecl kmin, vproper x ecl ->
  visc_single x kmin ecl = Ok (map (fun c => let v d := Rmax kmin (cell_perm x c d) in (v 0, v 1, v 2)) ecl).
Proof. exact Visc_Proofs5.single_ok. Qed.
Theorem C161_monotone : forall x ecl sats sats' c d, vproper x ecl -> In c ecl -> 0 <= d < directions x ->
  (forall s d, physical (kr_pair x s d)) -> (forall s, nthR sats s <= nthR sats' s)%R -> (0 <= cell_perm x c d)%R ->
  (phase_value x 0 sats c d <= phase_value x 0 sats' c d)%R /\ (phase_value x 1 sats' c d <= phase_value x 1 sats c d)%R.
Proof. exact Visc_Proofs5.phase_monotone. Qed.

(* C162: upscaling on several processes *)
Theorem C162_collect : forall tec points n a, 0 < n -> 0 <= points -> (forall r, 0 <= r < n -> arrays_ok true tec points (a r)) ->
  (forall k st, visc_run tec a k (vmpi_init n points a) st -> Z.of_nat k <= 4 * points) /\
  (forall k st, visc_run tec a k (vmpi_init n points a) st -> ~ visc_done st -> exists st', visc_guaranteed tec a st st') /\
  (forall k st, visc_run tec a k (vmpi_init n points a) st -> visc_done st ->
     forall i, 0 <= i < points ->
       zget (ar_ws (vp_master st)) i = zget (ar_ws (a (mpi_node n i))) i /\
       zget (ar_p0 (vp_master st)) i = zget (ar_p0 (a (mpi_node n i))) i /\
       zget (ar_p1 (vp_master st)) i = zget (ar_p1 (a (mpi_node n i))) i).
Proof. exact Visc_Proofs6.visc_collect. Qed.
Theorem C162_point : forall x cells tol l inv up tec ph q, vproper x (map fst cells) -> (exists cv, In cv (vrocky x cells) /\ (0 < vpore x cv)%R) ->
    (forall cv, In cv (vrocky x cells) -> (0 <= vpore x cv)%R /\ (0 <= cv_minx (water_curve x (fst cv)) <= cv_maxx (water_curve x (fst cv)))%R /\ (cv_maxx (water_curve x (fst cv)) <= 1)%R) ->
  visc_limits x tol cells = Ok l -> curves_shaped (vi_aniso x) inv -> zlen inv = zlen (vi_rocks x) -> 0 <= tec <= 9 ->
  (forall ts, exists k, up ts = Ok k /\ zlen k = 9) ->
  exists s row ts k, visc_point x inv l (map fst cells) up tec ph q = Ok (s, row) /\
    (s * sum_cells (vpore x) (vrocky x cells) = sum_cells (fun cv => cell_sat x inv q (fst cv) * vpore x cv) (vrocky x cells))%R /\
    visc_perms x ph (stone_sats (vi_aniso x) inv q) (map fst cells) = Ok ts /\ up ts = Ok k /\ zlen row = tec /\
    (forall v, 0 <= v < tec -> nthR row v = tensor_of k (element_row v) (element_col v)).
Proof. exact Visc_Proofs7.point_spec. Qed.
Theorem C162_process : forall point tec n rank ps (sat : R -> R) (row : Z -> R -> list R), 0 <= tec -> (forall ph q, In q ps -> ph = 0 \/ ph = 1 -> point ph q = Ok (sat q, row ph q) /\ zlen (row ph q) = tec) ->
  exists a, visc_rank point tec n rank ps = Ok a /\ arrays_ok true tec (zlen ps) a /\
    forall i q, zget ps i = Some q -> mpi_node n i = rank ->
      zget (ar_ws a) i = Some (sat q) /\ zget (ar_p0 a) i = Some (row 0 q) /\ zget (ar_p1 a) i = Some (row 1 q).
Proof. exact Visc_Proofs7.rank_spec. Qed.
Theorem C162_ranks : forall x cells tol l inv up tec n rank ps, vproper x (map fst cells) -> (exists cv, In cv (vrocky x cells) /\ (0 < vpore x cv)%R) ->
    (forall cv, In cv (vrocky x cells) -> (0 <= vpore x cv)%R /\ (0 <= cv_minx (water_curve x (fst cv)) <= cv_maxx (water_curve x (fst cv)))%R /\ (cv_maxx (water_curve x (fst cv)) <= 1)%R) ->
  visc_limits x tol cells = Ok l -> curves_shaped (vi_aniso x) inv -> zlen inv = zlen (vi_rocks x) -> 0 <= tec <= 9 ->
  (forall ts, exists k, up ts = Ok k /\ zlen k = 9) ->
  exists a, visc_rank (visc_point x inv l (map fst cells) up tec) tec n rank ps = Ok a /\ arrays_ok true tec (zlen ps) a.
Proof. exact Visc_Proofs9.visc_rank_total. Qed.
Theorem C162_master : forall x cells tol l inv up tec n ps (ars : Z -> arrays) k st, vproper x (map fst cells) -> (exists cv, In cv (vrocky x cells) /\ (0 < vpore x cv)%R) ->
    (forall cv, In cv (vrocky x cells) -> (0 <= vpore x cv)%R /\ (0 <= cv_minx (water_curve x (fst cv)) <= cv_maxx (water_curve x (fst cv)))%R /\ (cv_maxx (water_curve x (fst cv)) <= 1)%R) ->
  visc_limits x tol cells = Ok l -> curves_shaped (vi_aniso x) inv -> zlen inv = zlen (vi_rocks x) -> 0 <= tec <= 9 ->
  (forall ts, exists k, up ts = Ok k /\ zlen k = 9) -> 0 < n ->
  (forall r, 0 <= r < n -> visc_rank (visc_point x inv l (map fst cells) up tec) tec n r ps = Ok (ars r)) ->
  visc_run tec ars k (vmpi_init n (zlen ps) ars) st ->
  Z.of_nat k <= 4 * zlen ps /\ (~ visc_done st -> exists st', visc_guaranteed tec ars st st') /\
  (visc_done st -> forall i q, zget ps i = Some q ->
     exists s row0 row1, visc_point x inv l (map fst cells) up tec 0 q = Ok (s, row0) /\ visc_point x inv l (map fst cells) up tec 1 q = Ok (s, row1) /\
       zget (ar_ws (vp_master st)) i = Some s /\ zget (ar_p0 (vp_master st)) i = Some row0 /\ zget (ar_p1 (vp_master st)) i = Some row1).
Proof. exact Visc_Proofs7.visc_master. Qed.

(* C163: relative permeabilities and the printed table *)
Theorem C163_product : forall tec kinv row f, tec = 3 \/ tec = 9 -> zlen row = tec -> zlen kinv = 9 -> row_tensor tec row f ->
  exists out, phase_relperm tec kinv row = Ok out /\ zlen out = tec /\
    forall v, 0 <= v < tec -> nthR out v = mmul 3 f (tensor_of kinv) (element_row v) (element_col v).
Proof. exact Visc_Proofs8.phase_relperm_ok. Qed.
Theorem C163_recovers : forall kinv row f kt out g, zlen row = 9 -> zlen kinv = 9 -> row_tensor 9 row f ->
  (forall r c, 0 <= r < 3 -> 0 <= c < 3 -> mmul 3 (tensor_of kinv) kt r c = ident r c) ->
  phase_relperm 9 kinv row = Ok out -> row_tensor 9 out g ->
  forall r c, 0 <= r < 3 -> 0 <= c < 3 -> mmul 3 g kt r c = f r c.
Proof. exact Visc_Proofs8.relperm_recovers. Qed.
Theorem C163_diagonal : forall kinv row out (k : Z -> R), zlen row = 3 -> zlen kinv = 9 -> (forall v, 0 <= v < 3 -> k v <> 0%R /\ tensor_of kinv v v = (/ k v)%R) ->
  phase_relperm 3 kinv row = Ok out -> zlen out = 3 /\ forall v, 0 <= v < 3 -> nthR out v = (nthR row v / k v)%R.
Proof. exact Visc_Proofs8.relperm_diagonal. Qed.
Theorem C163_multiple : forall kinv row f kt c out, zlen row = 9 -> zlen kinv = 9 -> row_tensor 9 row f ->
  (forall r c, 0 <= r < 3 -> 0 <= c < 3 -> mmul 3 kt (tensor_of kinv) r c = ident r c) -> (forall i j, 0 <= i < 3 -> 0 <= j < 3 -> f i j = (c * kt i j)%R) ->
  phase_relperm 9 kinv row = Ok out -> forall v, 0 <= v < 9 -> nthR out v = if v <? 3 then c else 0%R.
Proof. exact Visc_Proofs8.relperm_multiple. Qed.
Theorem C163_columns : forall tec kinv rows, tec = 3 \/ tec = 9 -> zlen kinv = 9 -> (forall r, In r rows -> zlen r = tec) ->
  exists cols, relperm_columns tec kinv rows = Ok cols /\ zlen cols = tec /\
    forall v, 0 <= v < tec -> exists col, zget cols v = Some col /\ zlen col = zlen rows /\
      forall i row, zget rows i = Some row -> exists out, phase_relperm tec kinv row = Ok out /\ nthR col i = nthR out v.
Proof. exact Visc_Proofs8.columns_ok. Qed.
Theorem C163_critical : forall thresh points col, 1 <= points -> zlen col = points ->
  exists i, (i = 0 \/ i = points - 1) /\ nthR col i = Rmin (nthR col 0) (nthR col (points - 1)) /\
    ((nthR col i < thresh)%R -> exists col', critical_end thresh points col = Ok col' /\ zlen col' = points /\ nthR col' i = 0%R /\ forall j, j <> i -> nthR col' j = nthR col j) /\
    ((thresh <= nthR col i)%R -> critical_end thresh points col = Throw).
Proof. exact Visc_Proofs8.critical_spec. Qed.
Theorem C163_helper : forall thresh points tec kinv rows, tec = 3 \/ tec = 9 -> zlen kinv = 9 -> zlen rows = points -> (forall r, In r rows -> zlen r = tec) ->
  (helper_relperm false thresh points tec kinv rows = relperm_columns tec kinv rows) /\
  (1 <= points -> forall cols, helper_relperm true thresh points tec kinv rows = Ok cols <->
     exists raw, relperm_columns tec kinv rows = Ok raw /\ Forall2 (fun c c' => critical_end thresh points c = Ok c') raw cols).
Proof. exact Visc_Proofs8.helper_spec. Qed.
Theorem C163_cut : forall sats, forall rows, zlen sats = zlen rows -> exists rest, rows = cut_rows sats rows ++ rest /\
  (rest <> [] -> cut_rows sats rows <> [] /\ nthR sats (zlen (cut_rows sats rows) - 1) = 0%R) /\
  (forall i, 0 <= i < zlen (cut_rows sats rows) - 1 -> nthR sats i <> 0%R).
Proof. exact Visc_Proofs8.cut_spec. Qed.
Theorem C163_cut_all : forall sats, forall rows, zlen sats = zlen rows -> (forall s, In s sats -> s <> 0%R) -> cut_rows sats rows = rows.
Proof. exact Visc_Proofs8.cut_all. Qed.
Theorem C163_table : forall interp sat_of_ratio ipoints tec kinv ps a ph, tec = 3 \/ tec = 9 -> zlen kinv = 9 -> arrays_ok true tec (zlen ps) a -> ps <> [] -> ipoints <= 1 ->
  exists rows, visc_report interp sat_of_ratio ipoints tec kinv ps a ph = Ok (cut_rows (ar_ws a) rows) /\ zlen rows = zlen ps /\
    forall i q s row, zget ps i = Some q -> zget (ar_ws a) i = Some s -> zget (phase_rows a ph) i = Some row ->
      exists out, phase_relperm tec kinv row = Ok out /\ zget rows i = Some (q :: s :: out).
Proof. exact Visc_Proofs8.report_spec. Qed.
Theorem C163_interpolated : forall interp sat_of_ratio ipoints tec kinv ps a ph, tec = 3 \/ tec = 9 -> zlen kinv = 9 -> arrays_ok true tec (zlen ps) a -> ps <> [] -> 2 <= ipoints ->
  (forall s, In s (ar_ws a) -> - dbl_max <= s <= dbl_max)%R ->
  exists g cols rows, sat_grid ipoints (ar_ws a) = Ok g /\ is_min (nthR g 0) (ar_ws a) /\ is_max (nthR g (ipoints - 1)) (ar_ws a) /\
    (forall i, 0 <= i < ipoints - 1 -> (nthR g (i + 1) - nthR g i = (nthR g (ipoints - 1) - nthR g 0) / IZR (ipoints - 1))%R) /\
    relperm_columns tec kinv (phase_rows a ph) = Ok cols /\
    visc_report interp sat_of_ratio ipoints tec kinv ps a ph = Ok (cut_rows g rows) /\ zlen rows = ipoints /\ zlen g = ipoints /\
    forall i s, zget g i = Some s -> zget rows i = Some (sat_of_ratio s :: s :: map (fun col => interp (ar_ws a) col s) cols).
Proof. exact Visc_Proofs8.report_interp. Qed.
Theorem C163_nothing : forall interp sat_of_ratio ipoints tec kinv ps a ph, ar_ws a = [] -> visc_report interp sat_of_ratio ipoints tec kinv ps a ph = Throw.
Proof. exact Visc_Proofs8.report_nothing. Qed.

Example C158_case : vproper exv (map fst exvc) /\ (exists cv, In cv (vrocky exv exvc) /\ (0 < vpore exv cv)%R) /\
  forall cv, In cv (vrocky exv exvc) -> (0 <= vpore exv cv)%R /\ (0 <= cv_minx (water_curve exv (fst cv)) <= cv_maxx (water_curve exv (fst cv)))%R /\ (cv_maxx (water_curve exv (fst cv)) <= 1)%R.
Proof. split; [exact exv_proper|exact exv_rock]. Qed.
Example C159_case : physical (vw_curve, vo_curve) /\ cv_eval vw_curve (vinv_curve vw_curve kr_limit) = kr_limit /\ cv_eval vo_curve (vinv_curve vo_curve kr_limit) = kr_limit.
Proof. exact ex_physical. Qed.
Example C160_case : curves_shaped (vi_aniso exv) [[vratio_curve]] /\ zlen [[vratio_curve]] = zlen (vi_rocks exv) /\
  (forall c q q', In c (List.concat [[vratio_curve]]) -> (q <= q')%R -> (cv_eval c q <= cv_eval c q')%R) /\
  (forall cv d, In cv (vrocky exv exvc) -> 0 <= d < directions exv ->
     bounded_by (dir_curve (stone_curves [[vratio_curve]] (vsat exv (fst cv) - 1)) d) (cv_minx (water_curve exv (fst cv))) (cv_maxx (water_curve exv (fst cv)))).
Proof. exact ex_curves_monotone. Qed.
Example C162_case : exists l (ars : Z -> arrays), visc_limits exv (/ 1000000) exvc = Ok l /\
  forall r, 0 <= r < 2 -> visc_rank (visc_point exv [[vratio_curve]] l (map fst exvc) (fun ts => Ok (zrepeat 1%R 9)) 3) 3 2 r [0; 1; 2]%R = Ok (ars r).
Proof. exact ex_visc_ranks. Qed.
Print Assumptions C156_cells. Print Assumptions C157_isotropic. Print Assumptions C157_anisotropic. Print Assumptions C158_limits. Print Assumptions C158_no_rock. Print Assumptions C159_saturations. Print Assumptions C159_ratio. Print Assumptions C159_range. Print Assumptions C159_isotropic_range. Print Assumptions C159_table. Print Assumptions C159_isotropic. Print Assumptions C159_anisotropic. Print Assumptions C159_z_ignored. Print Assumptions C159_all_stones. Print Assumptions C160_water. Print Assumptions C160_values. Print Assumptions C160_within. Print Assumptions C160_monotone. Print Assumptions C160_tabulation. Print Assumptions C161_cells. Print Assumptions C161_contrast. Print Assumptions C161_single. Print Assumptions C161_monotone. Print Assumptions C162_collect. Print Assumptions C162_point. Print Assumptions C162_process. Print Assumptions C162_ranks. Print Assumptions C162_master. Print Assumptions C163_product. Print Assumptions C163_recovers. Print Assumptions C163_diagonal. Print Assumptions C163_multiple. Print Assumptions C163_columns. Print Assumptions C163_critical. Print Assumptions C163_helper. Print Assumptions C163_cut. Print Assumptions C163_cut_all. Print Assumptions C163_table. Print Assumptions C163_interpolated. Print Assumptions C163_nothing.
