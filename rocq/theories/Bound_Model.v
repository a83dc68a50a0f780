(* Model of opm/porsol/common/BoundaryPeriodicity.{hpp,cpp}, BoundaryConditions.hpp,
   PeriodicHelpers.hpp and setupBoundaryConditions.hpp.
   Coordinates, areas, pressures and saturations are reals; a grid is the list of its
   faces in iteration order.  Assertions are those of a release build (none). *)
From Verif Require Export RBase.
Open Scope Z_scope.

(* Dune::FieldVector<double,3> (BoundaryPeriodicity.hpp:58) *)
Definition vec := (R * R * R)%type.
(* component d of a vector, as in BoundaryPeriodicity.hpp:133-142 *)
Definition vget (v : vec) (d : Z) : R :=
  if d =? 0 then fst (fst v) else if d =? 1 then snd (fst v) else snd v.
(* component d set to zero (BoundaryPeriodicity.hpp:150) *)
Definition vzero (v : vec) (d : Z) : vec :=
  if d =? 0 then (0, snd (fst v), snd v)%R
  else if d =? 1 then (fst (fst v), 0, snd v)%R
  else (fst (fst v), snd (fst v), 0)%R.
(* two_norm of b - a *)
(* BoundaryPeriodicity.cpp:35-37 *)
Definition vdist (a b : vec) : R :=
  sqrt ((vget b 0 - vget a 0) ^ 2 + (vget b 1 - vget a 1) ^ 2 + (vget b 2 - vget a 2) ^ 2).

(* a cell face as seen through the grid interface *)
(* boundaryId(), area(), centroid(): GridInterfaceEuler.hpp:105-170 *)
Record gface := mkGface { gf_bid : Z; gf_area : R; gf_cent : vec }.

(* BoundaryPeriodicity.hpp:37-72 BoundaryFaceInfo *)
Record bface := mkBface {
  b_index : Z; b_bid : Z; b_canon : Z; b_pindex : Z; b_pbid : Z; b_area : R; b_cent : vec }.

(* 1e100 *)
Definition huge : R := (10 ^ 100)%R.
(* BoundaryPeriodicity.hpp:90, BoundaryPeriodicity.cpp:27-28 *)
Definition tol6 : R := (/ 1000000)%R.

(* BoundaryPeriodicity.hpp:98-115, PeriodicHelpers.hpp:234-251: collection of the
   boundary faces, bounding box of their centroids and largest boundary id *)
Definition bdy_faces (g : list gface) : list gface := filter (fun f => negb (gf_bid f =? 0)) g.
(* BoundaryPeriodicity.hpp:99, 106-113 *)
Definition box_low (fs : list gface) (d : Z) : R :=
  fold_left (fun m f => smin m (vget (gf_cent f) d)) fs huge.
(* BoundaryPeriodicity.hpp:100, 106-113 *)
Definition box_hi (fs : list gface) (d : Z) : R :=
  fold_left (fun m f => smax m (vget (gf_cent f) d)) fs (- huge)%R.
(* BoundaryPeriodicity.hpp:101, 111 *)
Definition max_bid (fs : list gface) : Z := fold_left (fun m f => Z.max m (gf_bid f)) fs 0.

(* BoundaryPeriodicity.hpp:133-142: first side the centroid lies on; None is -1 *)
Definition near (tol x y : R) : bool := Rleb (Rabs (x - y)) tol.
(* BoundaryPeriodicity.hpp:133-142 *)
Definition side_of (tol : R) (low hi : Z -> R) (c : vec) : option Z :=
  if near tol (vget c 0) (low 0) then Some 0
  else if near tol (vget c 0) (hi 0) then Some 1
  else if near tol (vget c 1) (low 1) then Some 2
  else if near tol (vget c 1) (hi 1) then Some 3
  else if near tol (vget c 2) (low 2) then Some 4
  else if near tol (vget c 2) (hi 2) then Some 5
  else None.

(* BoundaryPeriodicity.hpp:121-152: one entry per boundary face, side areas *)
Definition make_info (tol : R) (low hi : Z -> R) (st : list bface * list R) (p : Z * gface)
    : res (list bface * list R) :=
  let c := gf_cent (snd p) in
  match side_of tol low hi c with
  | None => Throw
  | Some s =>
      let* a := rget (snd st) s in
      let* areas := rset (snd st) s (a + gf_area (snd p))%R in
      Ok (fst st ++ [mkBface (fst p) (gf_bid (snd p)) s (-1) 0 (gf_area (snd p)) (vzero c (Z.quot s 2))], areas)
  end.

(* BoundaryPeriodicity.cpp:25-50 match: the search loop, up to the break *)
Fixpoint match_search (l : list bface) (f : bface) (js : list Z) : res (option Z) :=
  match js with
  | [] => Ok None
  | j :: t =>
      let* o := rget l j in
      let target := if Z.rem (b_canon f) 2 =? 0 then b_canon f + 1 else b_canon f - 1 in
      if (b_canon o =? target) && Rleb (Rabs (b_area f - b_area o)) tol6
         && Rleb (vdist (b_cent f) (b_cent o)) tol6
      then Ok (Some j) else match_search l f t
  end.
(* BoundaryPeriodicity.cpp:25-50: the two assignments to the face *)
Definition with_partner (b o : bface) : bface :=
  mkBface (b_index b) (b_bid b) (b_canon b) (b_index o) (b_bid o) (b_area b) (b_cent b).
(* BoundaryPeriodicity.cpp:25-50 match *)
Definition match_face (l : list bface) (face lower upper : Z) : res (list bface * bool) :=
  let* f := rget l face in
  let* m := match_search l f (zrange lower upper) in
  let* l' := match m with
             | None => Ok l
             | Some j =>
                 let* o := rget l j in
                 let* l1 := rset l face (with_partner f o) in
                 let* f1 := rget l1 face in
                 let* o1 := rget l1 j in
                 rset l1 j (with_partner o1 f1)
             end in
  let* f' := rget l' face in
  Ok (l', negb (b_pindex f' =? -1)).

(* BoundaryPeriodicity.hpp:159-178: identify partners; periodic[6] are the flags *)
Definition partner_step (periodic : list bool) (n : Z) (l : list bface) (i : Z) : res (list bface) :=
  let* f := rget l i in
  if negb (b_pindex f =? -1) then Ok l
  else
    let* per := rget periodic (b_canon f) in
    if negb per then Ok l
    else
      let* r := match_face l i (Z.max 0 (i - 10)) (Z.min n (i + 10)) in
      if snd r then Ok (fst r)
      else let* r2 := match_face (fst r) i 0 n in Ok (fst r2).

(* BoundaryPeriodicity.hpp:85-179 findPeriodicPartners.  std::sort is the argument
   [srt]: any function returning a permutation of its input. *)
Definition find_periodic_partners (srt : list bface -> list bface) (g : list gface)
    (periodic : list bool) (tol : R) : res (list bface * list R) :=
  let fs := bdy_faces g in
  let n := zlen fs in
  if negb (max_bid fs =? n) then Throw
  else
    let* st := foldM (make_info tol (box_low fs) (box_hi fs)) (combine (zrange 0 n) fs)
                     ([], zrepeat 0%R 6) in
    let* l := foldM (partner_step periodic n) (zrange 0 n) (srt (fst st)) in
    Ok (l, snd st).

(* ---------------- BoundaryConditions.hpp *)
(* BoundaryConditions.hpp:58 *)
Inductive bctype := Dirichlet | Neumann | Periodic.
(* BoundaryConditions.hpp:51-105 BCBase *)
Record cond := mkCond { c_type : bctype; c_val : R }.
(* BoundaryConditions.hpp:97 *)
Definition is_periodic (c : cond) : bool := match c_type c with Periodic => true | _ => false end.
(* BoundaryConditions.hpp:91 *)
Definition is_neumann (c : cond) : bool := match c_type c with Neumann => true | _ => false end.
(* BoundaryConditions.hpp:125-128 and 179-182: default conditions *)
Definition flow_default := mkCond Neumann 0%R.
(* BoundaryConditions.hpp:179-182 *)
Definition sat_default := mkCond Dirichlet 1%R.

(* BoundaryConditions.hpp:244-320,341-455: BasicBoundaryConditions<true,true>
   (surface volume conditions are absent in that instance) *)
Record bcs := mkBcs { t_partner : list Z; t_canon : list Z; t_flow : list cond; t_sat : list cond }.
(* BoundaryConditions.hpp:244-260, 341-365: after construction *)
Definition bcs_empty := mkBcs [] [] [] [].

(* std::vector::resize(n, x) on any vector (n >= 0) *)
(* as used in BoundaryConditions.hpp:257-261, 367-373 *)
Definition vec_resize {A} (n : Z) (x : A) (l : list A) : list A :=
  firstn (Z.to_nat n) l ++ zrepeat x (n - zlen l).

(* BoundaryConditions.hpp:268-272, 380-386 clear *)
Definition bcs_clear (_ : bcs) : bcs := bcs_empty.
(* BoundaryConditions.hpp:257-261, 367-373 resize *)
Definition bcs_resize (n : Z) (b : bcs) : res bcs :=
  if n <? 0 then Throw else
  Ok (mkBcs (vec_resize n 0 (t_partner b)) (vec_resize n 0 (t_canon b))
            (vec_resize n flow_default (t_flow b)) (vec_resize n sat_default (t_sat b))).
(* flowCond(i) = c (BoundaryConditions.hpp:393) *)
Definition set_flow (i : Z) (c : cond) (b : bcs) : res bcs :=
  let* f := rset (t_flow b) i c in Ok (mkBcs (t_partner b) (t_canon b) f (t_sat b)).
(* satCond(i) = c (BoundaryConditions.hpp:410) *)
Definition set_sat (i : Z) (c : cond) (b : bcs) : res bcs :=
  let* s := rset (t_sat b) i c in Ok (mkBcs (t_partner b) (t_canon b) (t_flow b) s).
(* BoundaryConditions.hpp:295-298 setCanonicalBoundaryId *)
Definition set_canon (i c : Z) (b : bcs) : res bcs :=
  let* s := rset (t_canon b) i c in Ok (mkBcs (t_partner b) s (t_flow b) (t_sat b)).
(* BoundaryConditions.hpp:279-287 *)
Definition set_partners (i j : Z) (b : bcs) : res bcs :=
  let* p := rset (t_partner b) i j in
  let* p' := rset p j i in Ok (mkBcs p' (t_canon b) (t_flow b) (t_sat b)).

(* ---------------- PeriodicHelpers.hpp *)
(* 53-67 storeFlowCond *)
Definition store_flow (conds : list cond) (areas : list R) (b : bcs) (f : bface) : res bcs :=
  let* c := rget conds (b_canon f) in
  if is_neumann c then
    let* a := rget areas (b_canon f) in
    set_flow (b_bid f) (mkCond Neumann (c_val c * b_area f / a)%R) b
  else set_flow (b_bid f) c b.
(* 73-82 storeSatCond *)
Definition store_sat (conds : list cond) (b : bcs) (f : bface) : res bcs :=
  let* c := rget conds (b_canon f) in set_sat (b_bid f) c b.
(* 200-208: partner and canonical id of one face *)
Definition store_partner (b : bcs) (f : bface) : res bcs :=
  let* b1 := if b_bid f <? b_pbid f then set_partners (b_bid f) (b_pbid f) b else Ok b in
  set_canon (b_bid f) (b_canon f + 1) b1.
(* 182-209 createPeriodicImpl, 105-129 createPeriodic *)
Definition create_periodic (srt : list bface -> list bface) (b : bcs) (g : list gface)
    (fc sc : list cond) (tol : R) : res bcs :=
  let* r := find_periodic_partners srt g (map is_periodic fc) tol in
  let* b0 := bcs_resize (zlen (fst r) + 1) (bcs_clear b) in
  let* b1 := foldM store_partner (fst r) b0 in
  let* b2 := foldM (store_flow fc (snd r)) (fst r) b1 in
  foldM (store_sat sc) (fst r) b2.

(* 262-291: conditions of one face *)
Definition linear_face (low hi : Z -> R) (tol pdrop : R) (pddir : Z) (bdy_sat : R) (twodim : bool)
    (b : bcs) (f : gface) : res bcs :=
  match side_of tol low hi (gf_cent f) with
  | None => Throw
  | Some s =>
      let p := (pdrop * (1 - (vget (gf_cent f) pddir - low pddir) / (hi pddir - low pddir)))%R in
      let* b1 := set_canon (gf_bid f) (s + 1) b in
      let* b2 := set_sat (gf_bid f) (mkCond Dirichlet bdy_sat) b1 in
      let* b3 := set_flow (gf_bid f) (mkCond Dirichlet p) b2 in
      if twodim && (4 <=? s) then set_flow (gf_bid f) (mkCond Neumann 0%R) b3 else Ok b3
  end.
(* 219-292 createLinear *)
Definition create_linear (b : bcs) (g : list gface) (pdrop : R) (pddir : Z) (bdy_sat : R)
    (twodim : bool) (tol : R) : res bcs :=
  let fs := bdy_faces g in
  if negb (max_bid fs =? zlen fs) then Throw
  else
    let* b0 := bcs_resize (max_bid fs + 1) b in
    foldM (linear_face (box_low fs) (box_hi fs) tol pdrop pddir bdy_sat twodim) fs b0.

(* ---------------- setupBoundaryConditions.hpp:98-165 setupUpscalingConditions *)
Definition fixed_conditions (pddir : Z) (pdrop bdy_sat : R) (b : bcs) : res bcs :=
  let* b0 := bcs_resize 7 (bcs_clear b) in
  let* b1 := set_flow (2 * pddir + 1) (mkCond Dirichlet pdrop) b0 in
  let* b2 := set_flow (2 * pddir + 2) (mkCond Dirichlet 0%R) b1 in
  let* b3 := set_sat (2 * pddir + 1) (mkCond Dirichlet bdy_sat) b2 in
  foldM (fun b i => set_canon i i b) (zrange 0 7) b3.
(* setupBoundaryConditions.hpp:98-165 setupUpscalingConditions *)
Definition setup_upscaling (srt : list bface -> list bface) (g : list gface) (bct pddir : Z)
    (pdrop bdy_sat : R) (twodim : bool) (b : bcs) : res bcs :=
  if (bct <? 0) || (2 <? bct) then Throw
  else if bct =? 0 then fixed_conditions pddir pdrop bdy_sat b
  else if bct =? 1 then create_linear b g pdrop pddir bdy_sat twodim tol6
  else
    let fb := zrepeat (mkCond Periodic 0%R) 6 in
    let* f1 := rset fb (2 * pddir) (mkCond Periodic pdrop) in
    let* f2 := rset f1 (2 * pddir + 1) (mkCond Periodic (- pdrop)%R) in
    let* f3 := if twodim then let* f := rset f2 4 (mkCond Neumann 0%R) in rset f 5 (mkCond Neumann 0%R)
               else Ok f2 in
    let sb := zrepeat (mkCond Periodic 0%R) 6 in
    let* s3 := if twodim then let* s := rset sb 4 (mkCond Dirichlet 1%R) in rset s 5 (mkCond Dirichlet 1%R)
               else Ok sb in
    create_periodic srt b g f3 s3 tol6.

(* setupBoundaryConditions.hpp:168-223 setupRegionBasedConditions *)
Definition is_inside (low high pt : vec) : bool :=
  Rltb (vget low 0) (vget pt 0) && Rltb (vget low 1) (vget pt 1) && Rltb (vget low 2) (vget pt 2)
  && Rltb (vget pt 0) (vget high 0) && Rltb (vget pt 1) (vget high 1) && Rltb (vget pt 2) (vget high 2).
(* setupBoundaryConditions.hpp:184-223 *)
Definition region_conditions (g : list gface) (low high : vec) (pressure : R) (b : bcs) : res bcs :=
  let mb := fold_left (fun m f => Z.max (gf_bid f) m) g 0 in
  let dir_bids := map gf_bid (filter (fun f => negb (gf_bid f =? 0) && is_inside low high (gf_cent f)) g) in
  let* b0 := bcs_resize (mb + 1) b in
  foldM (fun b i => set_flow i (mkCond Dirichlet pressure) b) dir_bids b0.
