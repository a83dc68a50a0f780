(* Loading of the materials of the elasticity upscaler: opm/elasticity/elasticity_upscale_impl.hpp (line numbers
   without a file name). exit() and failing assertions are Throw. *)
From Verif Require Export Elast_Model.
Open Scope Z_scope.

(* 591-643: the keywords of the deck that are looked at; None: not in the deck *)
Record deck := mkDeck { dk_young : option (list R); dk_poisson : option (list R); dk_lame : option (list R); dk_shear : option (list R);
  dk_bulk : option (list R); dk_permx : option (list R); dk_poro : option (list R); dk_satnum : option (list Z); dk_rho : option (list R) }.
(* 594, 609, 625, 647 min_element: the position of the first smallest entry; dereferencing it when there is none is UB *)
Definition min_at (l : list R) : res Z :=
  match l with
  | [] => UB
  | x :: t => Ok (snd (fold_left (fun st p => if Rltb (snd p) (fst st) then (snd p, fst p) else st)
                        (combine (zrange 1 (zlen l)) t) (x, 0)))
  end.
(* 594-599, 609-615, 625-631: negative Poisson's ratios are refused; the message prints the E modulus *)
Definition no_auxetic (Emod Poiss : list R) : res (list R * list R) :=
  let* i := min_at Poiss in
  let* nu := rget Poiss i in
  if Rltb nu 0 then let* _ := rget Emod i in Throw else Ok (Emod, Poiss).
(* 603-608, 619-624: both moduli for every entry of the first array; other values than finite ones are UB *)
Definition convert (f : R -> R -> res (R * R)) (a shear : list R) : res (list R * list R) :=
  let* r := mapM (fun i => let* x := rget a i in let* g := rget shear i in f x g) (zrange 0 (zlen a)) in
  Ok (map fst r, map snd r).
(* 606-607 *)
Definition from_lame (l g : R) : res (R * R) :=
  let* E := mdiv (g * (3 * l + 2 * g)) (l + g) in let* nu := mdiv (1 / 2 * l) (l + g) in Ok (E, nu).
(* 622-623 *)
Definition from_bulk (k g : R) : res (R * R) :=
  let* E := mdiv (9 * k * g) (3 * k + g) in let* nu := mdiv (1 / 2 * (3 * k - 2 * g)) (3 * k + g) in Ok (E, nu).
(* 584-639: E moduli and Poisson's ratios; None: the file name is "uniform", n is gv.size(0). 0.38f is a single
   precision number. *)
Definition moduli (d : option deck) (n : Z) : res (list R * list R) :=
  match d with
  | None => Ok (zrepeat 100%R n, zrepeat (12750684 / 33554432)%R n)
  | Some d =>
    match dk_young d, dk_poisson d with
    | Some E, Some nu => no_auxetic E nu
    | _, _ =>
      match dk_lame d, dk_shear d with
      | Some l, Some g => let* r := convert from_lame l g in no_auxetic (fst r) (snd r)
      | _, _ =>
        match dk_bulk d, dk_shear d with
        | Some k, Some g => let* r := convert from_bulk k g in no_auxetic (fst r) (snd r)
        | _, _ => match dk_permx d, dk_poro d with Some E, Some nu => Ok (E, nu) | _, _ => Throw end
        end
      end
    end
  end.
(* 645-650: the scaled moduli and Emin (None: not set) *)
Definition scale_moduli (Escale : R) (Emod : list R) : res (list R * option R) :=
  if Rltb 0 Escale then
    let* i := min_at Emod in
    let* Emin := rget Emod i in
    let* q := mdiv Escale Emin in
    Ok (map (fun e => e * q)%R Emod, Some Emin)
  else Ok (Emod, None).

(* 575-577: std::map from pairs (E, nu), ordered by their less than, to the numbers of the materials *)
Definition pair_less (a b : R * R) : bool := Rltb (fst a) (fst b) || (negb (Rltb (fst b) (fst a)) && Rltb (snd a) (snd b)).
(* 575-577 *)
Definition mcache := list ((R * R) * Z).
(* 663 cache.find: the entry that is neither less nor greater *)
Fixpoint cache_find (c : mcache) (k : R * R) : option Z :=
  match c with
  | [] => None
  | (k', j) :: t => if negb (pair_less k k') && negb (pair_less k' k) then Some j else cache_find t k
  end.
(* 669 cache.insert of a new key *)
Fixpoint cache_insert (c : mcache) (k : R * R) (j : Z) : mcache :=
  match c with
  | [] => [(k, j)]
  | (k', j') :: t => if pair_less k k' then (k, j) :: c else (k', j') :: cache_insert t k j
  end.
(* 657-659: the materials of the cells as their numbers, the cache, the volumes by material number (std::map from
   pointers, whose order is not used), volumeFractions, upscaledRho *)
Record mload := mkMload { ml_mats : list Z; ml_cache : mcache; ml_vol : list R; ml_frac : list R; ml_rho : R }.
(* 660-681 cell number i with index k in the deck and volume v; ndebug: no assertions *)
Definition load_cell (ndebug : bool) (Emod Poiss : list R) (satnum : list Z) (rho : list R) (s : mload) (c : Z * R) : res mload :=
  let '(k, v) := c in
  let* e := rget Emod k in
  let* nu := rget Poiss k in
  if negb (ndebug || Rltb 0 v) then Throw else
  let* s := match cache_find (ml_cache s) (e, nu) with
    | Some j => let* x := rget (ml_vol s) j in let* vol := rset (ml_vol s) j (x + v)%R in
                Ok (mkMload (ml_mats s ++ [j]) (ml_cache s) vol (ml_frac s) (ml_rho s))
    | None => let j := zlen (ml_vol s) in
              Ok (mkMload (ml_mats s ++ [j]) (cache_insert (ml_cache s) (e, nu) j) (ml_vol s ++ [v]) (ml_frac s) (ml_rho s))
    end in
  let* frac := match satnum with
    | [] => Ok (ml_frac s)
    | _ => let* sn := rget satnum k in
           let fr := if zlen (ml_frac s) <? sn then ml_frac s ++ zrepeat 0%R (sn - zlen (ml_frac s)) else ml_frac s in
           let* x := rget fr (sn - 1) in rset fr (sn - 1) (x + v)%R
    end in
  let* r := match rho with [] => Ok (ml_rho s) | _ => let* x := rget rho k in Ok (ml_rho s + v * x)%R end in
  Ok (mkMload (ml_mats s) (ml_cache s) (ml_vol s) frac r).
(* elasticity_upscale.hpp 224-231, 319, what is reported: the material of every cell (number, E, nu), volumeFractions, bySat, upscaledRho (None: never
   set) and Emin (None: never set) *)
Record loaded := mkLoaded { ld_mats : list (Z * (R * R)); ld_frac : list R; ld_bysat : bool; ld_rho : option R; ld_emin : option R }.
(* 666, 672: the material with number j *)
Definition mat_of (c : mcache) (j : Z) : res (Z * (R * R)) :=
  match find (fun e => snd e =? j) c with Some e => Ok (j, fst e) | None => UB end.
(* 573-708 loadMaterialsFromGrid of an object with no materials yet; cells holds gv.globalCell() with the volumes.
   Quotients by zero are UB. *)
Definition load_grid (ndebug : bool) (Escale : R) (d : option deck) (cells : list (Z * R)) : res loaded :=
  let* m := moduli d (zlen cells) in
  let* e := scale_moduli Escale (fst m) in
  let satnum := match d with Some d => match dk_satnum d with Some l => l | None => [] end | None => [] end in
  let rho := match d with Some d => match dk_rho d with Some l => l | None => [] end | None => [] end in
  let* s := foldM (load_cell ndebug (fst e) (snd m) satnum rho) cells (mkMload [] [] [] [] (-1)%R) in
  let total := racc (fun x => x) (ml_vol s) in
  let* frac := match satnum with
    | [] => mapM (fun c => let* x := rget (ml_vol s) (snd c) in mdiv x total) (ml_cache s)
    | _ => mapM (fun x => mdiv x total) (ml_frac s)
    end in
  let* r := if Rltb 0 (ml_rho s) then mdiv (ml_rho s) total else Ok (ml_rho s) in
  let* mats := mapM (mat_of (ml_cache s)) (ml_mats s) in
  Ok (mkLoaded mats frac (match satnum with [] => false | _ => true end) (Some r) (snd e)).

(* 714-723: the materials of the rock list: a number and that many file names; files gives the contents of the rock
   files (None: cannot be opened). A number that cannot be read is 0. *)
Fixpoint read_rocks (files : string -> option (list tok)) (n : nat) (f : option (list tok)) : res (list material) :=
  match n with
  | O => Ok []
  | S n => let '(name, f) := rd_word f in
           let* m := create_file (files name) in
           let* l := read_rocks files n f in Ok (m :: l)
  end.
(* 728-731, materials.hh: getE of what static_cast takes to be an Isotropic *)
Definition iso_E (m : material) : res R := match m with MIso E _ _ => Ok E | _ => UB end.
(* 725-734 *)
Definition scale_rocks (Escale : R) (cache : list material) : res (list material * option R) :=
  if Rltb 0 Escale then
    let* Emin := foldM (fun mn m => let* E := iso_E m in Ok (smin mn E)) cache 10000000000%R in
    let* l := mapM (fun m => match m with MIso E nu rho => let* q := mdiv (E * Escale) Emin in Ok (MIso q nu rho) | _ => UB end) cache in
    Ok (l, Some Emin)
  else Ok (cache, None).
(* 745, 760 *)
Definition add_vol (vol : list R) (j : Z) (v : R) : res (list R) := let* x := rget vol j in rset vol j (x + v)%R.
(* 735-762: numbers of the materials of the cells and the volumes; n is cache.size(). None: the file name is
   "uniform"; Some None: the deck has no SATNUM. The volumes of the cells are in order. *)
Definition assign_rocks (n : Z) (satnum : option (option (list Z))) (cells : list (Z * R)) : res (list Z * list R) :=
  match satnum with
  | None =>
      if n =? 1 then Ok (map (fun _ => 0) cells, [1%R])
      else foldM (fun st ic => let '(i, (k, v)) := ic in
                    if n =? 0 then UB else
                    let* vol := add_vol (snd st) (i mod n) v in Ok (fst st ++ [i mod n], vol))
                 (combine (zrange 0 (zlen cells)) cells) ([], zrepeat 0%R n)
  | Some None => Throw
  | Some (Some satnum) =>
      foldM (fun st c => let '(k, v) := c in
               let* s := rget satnum k in
               if n <=? s - 1 then Throw else
               let* vol := add_vol (snd st) (s - 1) v in Ok (fst st ++ [s - 1], vol))
            cells ([], zrepeat 0%R n)
  end.
(* 765: std::accumulate with the initial value 0.f sums in single precision: fl rounds to it *)
Definition float_sum (fl : R -> R) (l : list R) : R := fold_left (fun a v => fl (a + v)%R) l 0%R.
(* 710-771 loadMaterialsFromRocklist; upscaledRho is not set *)
Record rocked := mkRocked { rk_mats : list material; rk_frac : list R; rk_bysat : bool; rk_rho : option R; rk_emin : option R }.
(* 710-771 loadMaterialsFromRocklist *)
Definition load_rocklist (fl : R -> R) (files : string -> option (list tok)) (Escale : R) (mats : Z) (names : option (list tok))
    (satnum : option (option (list Z))) (cells : list (Z * R)) : res rocked :=
  let* cache := read_rocks files (Z.to_nat mats) names in
  let* c := scale_rocks Escale cache in
  let* r := assign_rocks (zlen cache) satnum cells in
  let total := float_sum fl (snd r) in
  let* frac := mapM (fun v => mdiv v total) (snd r) in
  let* ms := mapM (rget (fst c)) (fst r) in
  Ok (mkRocked ms frac true None (snd c)).
