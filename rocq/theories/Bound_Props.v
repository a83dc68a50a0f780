(* Properties C11-C19 and C107: periodic partners, boundary-condition tables and the
   setup of upscaling conditions. *)
From Coq Require Import Permutation.
From Verif Require Import BaseFacts Bound_Model Bound_Spec Bound_Proofs Bound_Proofs2 Bound_Proofs3.
Open Scope Z_scope.

(* C11: every boundary face gets the first side of the bounding box it lies on, side
   areas are sums, the stored position is the centroid with the normal coordinate
   dropped; the only failures are a wrong id count and a face on no side. *)
Theorem C11_sides : forall srt g periodic tol,
  (forall l, Permutation (srt l) l) -> zlen periodic = 6 -> bdy_faces g <> [] ->
  (forall f d, In f (bdy_faces g) -> 0 <= d < 3 -> (- huge <= vget (gf_cent f) d <= huge)%R) ->
  exists low hi, is_box (bdy_faces g) low hi /\
  ((find_periodic_partners srt g periodic tol = Throw /\
     (max_bid (bdy_faces g) <> zlen (bdy_faces g) \/
      exists f, In f (bdy_faces g) /\ forall s, ~ on_side tol low hi (gf_cent f) s)) \/
   exists l areas, find_periodic_partners srt g periodic tol = Ok (l, areas) /\
     zlen l = zlen (bdy_faces g) /\ NoDup (map b_index l) /\
     (forall b, In b l -> exists f, zget (bdy_faces g) (b_index b) = Some f /\
        b_bid b = gf_bid f /\ b_area b = gf_area f /\ on_side tol low hi (gf_cent f) (b_canon b) /\
        (forall s, s < b_canon b -> ~ on_side tol low hi (gf_cent f) s) /\
        (forall d, 0 <= d < 3 -> vget (b_cent b) d = if d =? b_canon b / 2 then 0%R else vget (gf_cent f) d)) /\
     (forall s, 0 <= s < 6 -> zget areas s = Some (total b_area (filter (fun b => b_canon b =? s) l)))).
Proof. exact sides_prop. Qed.
Print Assumptions C11_sides.

(* C12: a reported partner is a geometric match; the pairing is symmetric when no face
   has two candidates. *)
Theorem C12_pairing : forall srt g periodic tol l areas,
  (forall l, Permutation (srt l) l) -> zlen periodic = 6 ->
  find_periodic_partners srt g periodic tol = Ok (l, areas) ->
  (forall b, In b l -> b_pindex b <> -1 ->
     exists o, In o l /\ geo_match b o /\ b_pindex b = b_index o /\ b_pbid b = b_bid o) /\
  (unique_candidates l -> forall b o, In b l -> In o l -> b_pindex b = b_index o ->
     b_pindex o = b_index b /\ b_pbid o = b_bid b).
Proof. exact pairing_prop. Qed.
Print Assumptions C12_pairing.

(* Without unique candidates symmetry fails: of two coinciding faces the first one
   loses its partner to the second. *)
Theorem C12_symmetry_refuted : exists l areas a o,
  find_periodic_partners (fun l => l) three_faces [true;true;true;true;true;true] tol6 = Ok (l, areas) /\
  In a l /\ In o l /\ b_pindex a = b_index o /\ b_pindex o <> b_index a.
Proof. exact pairing_refuted. Qed.
Print Assumptions C12_symmetry_refuted.

(* C13: the windowed search with its fallback loses no candidate. *)
Theorem C13_complete : forall srt g periodic tol l areas,
  (forall l, Permutation (srt l) l) -> zlen periodic = 6 ->
  find_periodic_partners srt g periodic tol = Ok (l, areas) ->
  forall f o, In f l -> In o l -> zget periodic (b_canon f) = Some true -> geo_match f o ->
  exists o', In o' l /\ geo_match f o' /\ b_pindex f = b_index o' /\ b_pbid f = b_bid o'.
Proof. exact complete_prop. Qed.
Print Assumptions C13_complete.

(* C14: after any history of operations each table holds what the newest relevant
   operation says, or the default. *)
Theorem C14_tables : forall ops b, foldM apply_op ops bcs_empty = Ok b ->
  let h := rev ops in
  0 <= size_of h /\
  zlen (t_flow b) = size_of h /\ zlen (t_sat b) = size_of h /\
  zlen (t_canon b) = size_of h /\ zlen (t_partner b) = size_of h /\
  (forall i, 0 <= i < size_of h ->
    zget (t_flow b) i = Some (last_flow h i) /\ zget (t_sat b) i = Some (last_sat h i) /\
    zget (t_canon b) i = Some (last_canon h i)) /\
  (forall i, size_of h <= i ->
    last_flow h i = mkCond Neumann 0%R /\ last_sat h i = mkCond Dirichlet 1%R /\ last_canon h i = 0).
Proof. exact history_tables. Qed.
Print Assumptions C14_tables.

Theorem C14_partners : forall ops b, careful bcs_empty ops -> foldM apply_op ops bcs_empty = Ok b ->
  symmetric_partners (t_partner b).
Proof. exact history_symmetric. Qed.
Print Assumptions C14_partners.

(* C15: the periodic setup. *)
Theorem C15_periodic : forall srt g pddir pdrop bdy_sat twodim b,
  (forall l, Permutation (srt l) l) -> 0 <= pddir < 3 -> unique_ids g ->
  let per := [true; true; true; true; negb twodim; negb twodim] in
  (setup_upscaling srt g 2 pddir pdrop bdy_sat twodim b = Throw /\
   find_periodic_partners srt g per tol6 = Throw) \/
  exists l areas b', find_periodic_partners srt g per tol6 = Ok (l, areas) /\
    setup_upscaling srt g 2 pddir pdrop bdy_sat twodim b = Ok b' /\
    (forall f, In f l ->
       zget (t_canon b') (b_bid f) = Some (b_canon f + 1) /\
       zget (t_flow b') (b_bid f) = Some (periodic_flow pddir pdrop twodim (b_canon f)) /\
       zget (t_sat b') (b_bid f) = Some (periodic_sat twodim (b_canon f))) /\
    (unique_candidates l ->
       (forall f, In f l -> zget (t_partner b') (b_bid f) = Some (b_pbid f)) /\
       (forall f o c c', In f l -> In o l -> zget (t_partner b') (b_bid f) = Some (b_bid o) ->
          zget (t_flow b') (b_bid f) = Some c -> zget (t_flow b') (b_bid o) = Some c' ->
          zget (t_partner b') (b_bid o) = Some (b_bid f) /\ geo_match f o /\
          c_type c = c_type c' /\ c_val c = (- c_val c')%R)).
Proof. exact periodic_setup. Qed.
Print Assumptions C15_periodic.

Theorem C15_illegal_type : forall srt g bct pddir pdrop bdy_sat twodim b, ~ (0 <= bct <= 2) ->
  setup_upscaling srt g bct pddir pdrop bdy_sat twodim b = Throw.
Proof. exact illegal_type. Qed.
Print Assumptions C15_illegal_type.

(* C16: the fixed setup, whatever the previous contents b of the object. *)
Theorem C16_fixed : forall srt g pddir pdrop bdy_sat twodim b, 0 <= pddir < 3 ->
  exists b', setup_upscaling srt g 0 pddir pdrop bdy_sat twodim b = Ok b' /\
    zlen (t_flow b') = 7 /\ zlen (t_sat b') = 7 /\
    (forall i, 1 <= i <= 6 ->
      zget (t_flow b') i = Some (if i =? 2 * pddir + 1 then mkCond Dirichlet pdrop
                                 else if i =? 2 * pddir + 2 then mkCond Dirichlet 0%R
                                 else mkCond Neumann 0%R) /\
      zget (t_sat b') i = Some (mkCond Dirichlet (if i =? 2 * pddir + 1 then bdy_sat else 1%R))) /\
    (forall i, 0 <= i < 7 -> zget (t_canon b') i = Some i /\ zget (t_partner b') i = Some 0).
Proof. exact fixed_setup. Qed.
Print Assumptions C16_fixed.

(* C17: the linear setup. *)
Theorem C17_linear : forall srt b g pdrop pddir bdy_sat twodim,
  unique_ids g -> 0 <= pddir < 3 ->
  (forall f d, In f (bdy_faces g) -> 0 <= d < 3 -> (- huge <= vget (gf_cent f) d <= huge)%R) ->
  setup_upscaling srt g 1 pddir pdrop bdy_sat twodim b = Throw \/
  exists b', setup_upscaling srt g 1 pddir pdrop bdy_sat twodim b = Ok b' /\
    (bdy_faces g <> [] -> exists low hi, is_box (bdy_faces g) low hi /\
    forall f, In f (bdy_faces g) -> exists s, on_side (/ 1000000) low hi (gf_cent f) s /\
      zget (t_canon b') (gf_bid f) = Some (s + 1) /\
      zget (t_sat b') (gf_bid f) = Some (mkCond Dirichlet bdy_sat) /\
      (twodim = true /\ 4 <= s -> zget (t_flow b') (gf_bid f) = Some (mkCond Neumann 0%R)) /\
      (twodim = false \/ s < 4 -> (low pddir < hi pddir)%R ->
         let x := vget (gf_cent f) pddir in
         exists p, zget (t_flow b') (gf_bid f) = Some (mkCond Dirichlet p) /\
           (p * (hi pddir - low pddir) = pdrop * (hi pddir - x))%R /\
           (x = low pddir -> p = pdrop) /\ (x = hi pddir -> p = 0)%R /\
           ((0 <= pdrop)%R -> (0 <= p <= pdrop)%R))).
Proof. exact linear_prop. Qed.
Print Assumptions C17_linear.

(* C18: the linear setup keeps every old partner entry, so after a periodic setup on
   the same object stale partners remain. *)
Theorem C18_keeps_partners : forall srt b b' g pdrop pddir bdy_sat twodim i p,
  unique_ids g -> setup_upscaling srt g 1 pddir pdrop bdy_sat twodim b = Ok b' ->
  zget (t_partner b) i = Some p -> i <= zlen (bdy_faces g) -> zget (t_partner b') i = Some p.
Proof. exact linear_keeps_partners. Qed.
Print Assumptions C18_keeps_partners.

Theorem C18_no_stale_partner_refuted : exists b1 b2,
  setup_upscaling (fun l => l) two_faces 2 0 1%R 1%R false bcs_empty = Ok b1 /\
  setup_upscaling (fun l => l) two_faces 1 0 1%R 1%R false b1 = Ok b2 /\
  zget (t_partner b2) 1 = Some 2 /\ zget (t_partner b2) 2 = Some 1.
Proof. exact stale_partner. Qed.
Print Assumptions C18_no_stale_partner_refuted.

(* C19: a prescribed side flux is distributed by area without loss. *)
Theorem C19_side_flux : forall srt b g fc sc tol l areas b' s q,
  (forall l, Permutation (srt l) l) -> zlen fc = 6 -> zlen sc = 6 -> unique_ids g ->
  find_periodic_partners srt g (map is_periodic fc) tol = Ok (l, areas) ->
  create_periodic srt b g fc sc tol = Ok b' ->
  zget fc s = Some (mkCond Neumann q) ->
  let side := filter (fun f => b_canon f =? s) l in
  total b_area side <> 0%R ->
  total (fun f => flow_value b' (b_bid f)) side = q /\
  (forall f, In f side ->
     zget (t_flow b') (b_bid f) = Some (mkCond Neumann (q * (b_area f / total b_area side))%R)).
Proof. exact side_flux_prop. Qed.
Print Assumptions C19_side_flux.

(* C107: region based conditions: a boundary id gets the pressure if one of its faces
   has its centroid strictly inside the box, otherwise it keeps its old condition,
   or no-flow when it is new. *)
Theorem C107_region : forall g low high pressure b,
  (forall f, In f g -> 0 <= gf_bid f) ->
  exists b', region_conditions g low high pressure b = Ok b' /\
    forall i, (exists f, In f g /\ gf_bid f = i) ->
      ((exists f, In f g /\ gf_bid f = i /\ i <> 0 /\
          (forall d, 0 <= d < 3 -> (vget low d < vget (gf_cent f) d < vget high d)%R)) ->
        zget (t_flow b') i = Some (mkCond Dirichlet pressure)) /\
      (~ (exists f, In f g /\ gf_bid f = i /\ i <> 0 /\
          (forall d, 0 <= d < 3 -> (vget low d < vget (gf_cent f) d < vget high d)%R)) ->
        zget (t_flow b') i = Some (match zget (t_flow b) i with Some c => c | None => mkCond Neumann 0%R end)).
Proof. exact region_spec. Qed.
Print Assumptions C107_region.

(* The two-face grid meets the hypotheses of C11-C15: the call succeeds, the faces lie
   on opposite sides, candidates are unique and the pair is found. *)
Example pairing_hypotheses_met : exists l areas a o,
  find_periodic_partners (fun l => l) two_faces [true;true;true;true;true;true] tol6 = Ok (l, areas) /\
  In a l /\ In o l /\ b_bid a = 1 /\ b_bid o = 2 /\ b_pbid a = 2 /\ b_pbid o = 1 /\
  unique_candidates l /\ b_canon a = 0 /\ b_canon o = 1.
Proof. exact two_partner. Qed.
Example ids_met : unique_ids two_faces.
Proof. exact two_faces_ids. Qed.
(* a non-trivial history *)
Example history_met : exists b,
  let ops := [Resize 3; SetFlow 1 (mkCond Dirichlet 1%R); SetPartners 1 2; SetCanon 2 5] in
  careful bcs_empty ops /\ foldM apply_op ops bcs_empty = Ok b /\ zget (t_partner b) 1 = Some 2.
Proof.
  eexists. split; [|split; [cbv -[IZR]; reflexivity|reflexivity]].
  cbn. repeat split; lia.
Qed.
