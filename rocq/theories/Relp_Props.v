(* Properties C26-C28, C30-C35, C108 and C109: the helpers of the relative permeability
   upscaling programs. *)
From Verif Require Import BaseFacts Relp_Model Relp_Spec Relp_Proofs Relp_Proofs2 Relp_Proofs3 Relp_Proofs4 Relp_Proofs5.
Open Scope Z_scope.

(* C26: corner addressing is the Eclipse layout and covers the array exactly once. *)
Theorem C26_zcorn : forall nx ny nz,
  0 < nx -> 0 < ny -> 0 < nz ->
  (forall i j k, 0 <= i < nx -> 0 <= j < ny -> 0 <= k < nz ->
     zlen (cell_corners nx ny i j k) = 8 /\
     forall ci cj ck, 0 <= ci < 2 -> 0 <= cj < 2 -> 0 <= ck < 2 ->
       zget (cell_corners nx ny i j k) (ci + 2 * cj + 4 * ck) = Some (zcorn_pos nx ny i j k ci cj ck) /\
       0 <= zcorn_pos nx ny i j k ci cj ck < 8 * nx * ny * nz) /\
  (forall p, 0 <= p < 8 * nx * ny * nz ->
     exists! x, let '(i, j, k, c) := x in
       (0 <= i < nx /\ 0 <= j < ny /\ 0 <= k < nz) /\ zget (cell_corners nx ny i j k) c = Some p).
Proof. exact zcorn_addressing. Qed.
Print Assumptions C26_zcorn.

(* C27: reading and writing by Voigt number. *)
Theorem C27_voigt : forall (A : Type) (K : list A) v,
  zlen K = 9 ->
  (~ (0 <= v < 9) -> get_voigt K v = Throw /\ forall x, set_voigt K v x = Throw) /\
  (0 <= v < 9 -> forall x, exists K', set_voigt K v x = Ok K' /\ zlen K' = 9 /\ get_voigt K' v = Ok x /\
     (forall w, 0 <= w < 9 -> w <> v -> get_voigt K' w = get_voigt K w) /\
     (exists p, 0 <= p < 9 /\ forall q, 0 <= q < 9 -> q <> p -> zget K' q = zget K q)) /\
  (forall q, 0 <= q < 9 -> exists w, 0 <= w < 9 /\ get_voigt K w = rget K q).
Proof. exact (@voigt_prop). Qed.
Print Assumptions C27_voigt.

(* C27: the order is xx yy zz yz xz xy zy zx yx of the row-major tensor. *)
Theorem C27_order : forall (A : Type) (a b c d e f g h i : A) v x,
  zget [a; e; i; f; c; b; h; g; d] v = Some x -> get_voigt [a; b; c; d; e; f; g; h; i] v = Ok x.
Proof. exact (@voigt_order). Qed.
Print Assumptions C27_order.

(* C28: every point has exactly one process, loads differ by at most one and the
   master never has more than another. *)
Theorem C28_distribution : forall n points,
  0 < n -> 0 <= points ->
  (forall idx, 0 <= idx < points -> 0 <= mpi_node n idx < n) /\
  (forall r r', 0 <= r < n -> 0 <= r' < n -> point_count n points r <= point_count n points r' + 1) /\
  (forall r, 0 <= r < n -> point_count n points 0 <= point_count n points r).
Proof. exact distribution_prop. Qed.
Print Assumptions C28_distribution.

(* C28: the exact load of a process. *)
Theorem C28_counts : forall n points r,
  0 < n -> 0 <= points -> 0 <= r < n -> point_count n points r = (points + r) / n.
Proof. exact count_formula. Qed.
Print Assumptions C28_counts.

(* C30: the cell tensors of a two-phase run. *)
Theorem C30_phase_tensors : forall h pv ph p,
  wf h -> offsets_cover h -> zlen pv = zlen (h_sat h) -> 0 <= ph < 2 ->
  (0 < h_contrast h)%R ->
  (h_aniso h = true -> forall c, In c (h_ecl h) -> 0 < region h c) ->
  exists M floor,
    phase_perms h pv ph p = Ok (map (tensor_of h ph p floor) (h_ecl h), sumR (fun c => local_sat h p c * at_ pv c)%R (rock_cells h)) /\
    is_max M (0%R :: flat_map (cand h ph p) (rock_cells h)) /\
    floor = Rmax (M / h_contrast h) (h_minperm h).
Proof. exact phase_perms_prop. Qed.
Print Assumptions C30_phase_tensors.

(* C30: the contrast bound and the floor of a two-phase run. *)
Theorem C30_contrast : forall h pv ph p ts w,
  wf h -> offsets_cover h -> zlen pv = zlen (h_sat h) -> 0 <= ph < 2 ->
  (1 <= h_contrast h)%R -> (0 <= h_minperm h)%R ->
  (h_aniso h = true -> forall c, In c (h_ecl h) -> 0 < region h c) ->
  phase_perms h pv ph p = Ok (ts, w) ->
  forall k k', In k (flat_map entries ts) -> In k' (flat_map entries ts) ->
    (h_minperm h <= k)%R /\ (k <= h_contrast h * k')%R.
Proof. exact contrast_prop. Qed.
Print Assumptions C30_contrast.

Example C30_hypotheses_met : forall aniso, wf (h2 aniso) /\ offsets_cover (h2 aniso) /\ (1 <= h_contrast (h2 aniso))%R /\
  forall c, In c (h_ecl (h2 aniso)) -> 0 < region (h2 aniso) c.
Proof.
  intros aniso. split; [apply h2_wf|]. split; [apply h2_cover|]. split; [cbn; lra|].
  intros c Hc. unfold h2. rewrite ex_region by (apply h2_in; exact Hc). lia.
Qed.

(* C30: the single-phase permeabilities of isotropic input. *)
Theorem C30_single_phase : forall h grav tol vols r,
  wf h -> length vols = length (h_ecl h) -> h_aniso h = false ->
  (1 <= h_contrast h)%R -> (0 <= h_minperm h)%R ->
  (forall c, In c (h_ecl h) -> 0 < region h c \/ (at_ (h_kx h) c <= h_minperm h)%R) ->
  minmax_pc h grav tol vols = Ok r ->
  exists ts, single_perms h (mr_kmin r) = Ok ts /\ length ts = length (h_ecl h) /\
    forall k k', In k (flat_map entries ts) -> In k' (flat_map entries ts) ->
      (h_minperm h <= k)%R /\ (k <= h_contrast h * k')%R.
Proof. exact single_prop. Qed.
Print Assumptions C30_single_phase.

(* C30: anisotropic single-phase permeabilities can exceed the contrast, because the
   floor is computed from PERMX alone. *)
Theorem C30_single_aniso_refuted : exists h tol vols r ts k k',
  wf h /\ length vols = length (h_ecl h) /\ (forall c, In c (h_ecl h) -> 0 < region h c) /\
  (1 <= h_contrast h)%R /\ minmax_pc h false tol vols = Ok r /\ single_perms h (mr_kmin r) = Ok ts /\
  In k (flat_map entries ts) /\ In k' (flat_map entries ts) /\ (k > h_contrast h * k')%R.
Proof. exact single_aniso_refuted. Qed.
Print Assumptions C30_single_aniso_refuted.

(* C31: a cell without rock (region 0) makes the anisotropic sweep read an empty vector. *)
Theorem C31_no_rock : forall h pv ph p,
  wf h -> offsets_cover h -> zlen pv = zlen (h_sat h) -> 0 <= ph < 2 ->
  (0 < h_contrast h)%R ->
  (phase_perms h pv ph p = UB <-> h_aniso h = true /\ exists c, In c (h_ecl h) /\ zget (h_sat h) c = Some 0) /\
  phase_perms h pv ph p <> Throw.
Proof. exact no_rock_prop. Qed.
Print Assumptions C31_no_rock.

Example C31_both_cases : exists h h', wf h /\ wf h' /\ offsets_cover h /\ offsets_cover h' /\
  h_aniso h = true /\ (exists c, In c (h_ecl h) /\ zget (h_sat h) c = Some 0) /\
  h_aniso h' = true /\ ~ (exists c, In c (h_ecl h') /\ zget (h_sat h') c = Some 0).
Proof.
  exists (mkHelper [0; 1] [0; 1] [1; 1]%R [1; 1]%R [1; 1]%R [0; 1]%R true [] [half_curve] [half_curve] (fun _ _ => [half_curve]) 0%R 10%R), (h2 true).
  split; [|split; [apply h2_wf|]].
  { unfold wf. cbn. split; [exact h2_in|]. split; [exact h2_nodup|]. repeat (split; [reflexivity|]). split; [split; reflexivity|].
    split; [intros s [<-|[<-|[]]]; lia|]. intros s [<-|[<-|[]]] H; [lia|]. split; [cbv; discriminate|]. intros. cbv; discriminate. }
  split; [left; reflexivity|]. split; [apply h2_cover|]. split; [reflexivity|]. split; [exists 0; split; [left|]; reflexivity|].
  split; [reflexivity|]. intros [c [[<-|[<-|[]]] H]]; discriminate.
Qed.

(* C32: saturations are pore-volume weighted means. *)
Theorem C32_saturation : forall h grav tol vols r,
  wf h -> offsets_cover h -> length vols = length (h_ecl h) ->
  (forall v, In v vols -> 0 <= v)%R -> (forall x, In x (h_poro h) -> 0 <= x)%R ->
  (forall c, In c (rock_cells h) -> curve_ok (curve_of h c) /\ 0 <= cv_minf (curve_of h c) /\ cv_maxf (curve_of h c) <= 1)%R ->
  let rk := rock_pairs h vols in
  let W := sumR (pore_volume h) rk in
  W <> 0%R ->
  minmax_pc h grav tol vols = Ok r ->
  exists swir swor,
    mr_pore r = W /\ mr_sw r = Some (swir, swor) /\
    (swir * W = sumR (fun cv => cv_minf (curve_of h (fst cv)) * pore_volume h cv) rk)%R /\
    (swor * W = sumR (fun cv => cv_maxf (curve_of h (fst cv)) * pore_volume h cv) rk)%R /\
    (0 <= swir <= swor)%R /\ (swor <= 1)%R /\
    forall p, exists s,
      sweep_sat h (mr_pv r) (mr_pore r) p = Ok (Some s) /\
      (s * W = sumR (fun cv => local_sat h p (fst cv) * pore_volume h cv) rk)%R /\
      (swir <= s <= swor)%R /\
      (forall lo hi, (forall c, In c (rock_cells h) -> lo <= local_sat h p c <= hi)%R -> (lo <= s <= hi)%R).
Proof. exact saturation_prop. Qed.
Print Assumptions C32_saturation.

(* C32: consistent input is never rejected. *)
Theorem C32_accepts : forall h grav tol vols,
  wf h -> length vols = length (h_ecl h) ->
  (forall v, In v vols -> 0 <= v)%R -> (forall x, In x (h_poro h) -> 0 <= x)%R ->
  good_curves h -> h_contrast h <> 0%R -> (grav = true -> h_dP h <> []) ->
  sumR (pore_volume h) (rock_pairs h vols) <> 0%R ->
  exists r, minmax_pc h grav tol vols = Ok r.
Proof. exact minmax_accepts. Qed.
Print Assumptions C32_accepts.

Example C32_hypotheses_met : forall aniso grav, wf (h2 aniso) /\ offsets_cover (h2 aniso) /\ good_curves (h2 aniso) /\
  sumR (pore_volume (h2 aniso)) (rock_pairs (h2 aniso) [1; 2]%R) = 3%R /\ exists r, minmax_pc (h2 aniso) grav 0 [1; 2]%R = Ok r.
Proof.
  intros. split; [apply h2_wf|]. split; [apply h2_cover|]. split; [apply h2_good|]. split; [apply h2_pore|apply h2_run].
Qed.

(* C33: gravity offsets are stored per active cell but read by global cell number: each
   cell gets its own offset exactly when the two numberings agree, and otherwise the
   sweep reads past the end. *)
Theorem C33_offsets : forall h pv pore p,
  wf h -> increasing (h_ecl h) -> (forall c, In c (h_ecl h) -> 0 < region h c) ->
  h_ecl h <> [] -> zlen (h_dP h) = zlen (h_ecl h) -> zlen pv = zlen (h_sat h) ->
  ((forall i c, zget (h_ecl h) i = Some c -> c = i) ->
     (exists s, sweep_sat h pv pore p = Ok s) /\
     forall i c, zget (h_ecl h) i = Some c -> cell_pressure h p c = Ok (p - at_ (h_dP h) i)%R) /\
  (~ (forall i c, zget (h_ecl h) i = Some c -> c = i) -> sweep_sat h pv pore p = UB).
Proof. exact offset_prop. Qed.
Print Assumptions C33_offsets.

Example C33_both_cases : (forall i c, zget (h_ecl (h2 false)) i = Some c -> c = i) /\
  exists h, wf h /\ increasing (h_ecl h) /\ (forall c, In c (h_ecl h) -> 0 < region h c) /\ h_ecl h <> [] /\
    zlen (h_dP h) = zlen (h_ecl h) /\ ~ (forall i c, zget (h_ecl h) i = Some c -> c = i).
Proof.
  split.
  - intros i c H. assert (0 <= i < 2) by (apply zget_Some_range in H; exact H). assert (i = 0 \/ i = 1) as [->| ->] by lia; inversion H; reflexivity.
  - exists (ex_helper false [1; 4]%R [1; 4]%R [1; 4]%R [1]%R [1]). split.
    { apply ex_wf; [reflexivity|reflexivity|repeat constructor; intros []|]. intros c [<-|[]]. cbv. split; [discriminate|reflexivity]. }
    split. { intros i j a b Hij Hi Hj. apply zget_Some_range in Hi. apply zget_Some_range in Hj.
      change (0 <= i < 1) in Hi. change (0 <= j < 1) in Hj. lia. }
    split. { intros c [<-|[]]. reflexivity. }
    split; [discriminate|]. split; [reflexivity|]. intros H. specialize (H 0 1 eq_refl). lia.
Qed.

(* C34: the capillary pressure range with gravity is shifted the wrong way: it covers
   every cell's curve exactly when the largest and smallest offsets are opposite. *)
Theorem C34_pc_range : forall h tol vols r,
  wf h -> length vols = length (h_ecl h) -> h_dP h <> [] ->
  rock_cells h <> [] ->
  (forall c, In c (rock_cells h) -> - dbl_max <= own_low h c <= dbl_max /\ - dbl_max <= own_high h c <= dbl_max)%R ->
  minmax_pc h true tol vols = Ok r ->
  exists lo hi dmin dmax,
    is_min lo (map (own_low h) (rock_cells h)) /\ is_max hi (map (own_high h) (rock_cells h)) /\
    is_min dmin (h_dP h) /\ is_max dmax (h_dP h) /\
    mr_pcmin r = (lo - dmax)%R /\ mr_pcmax r = (hi - dmin)%R /\
    ((forall d, In d (h_dP h) -> mr_pcmin r - d <= lo /\ hi <= mr_pcmax r - d)%R <-> (dmin + dmax = 0)%R) /\
    ((dmin + dmax = 0)%R -> forall c d, In c (rock_cells h) -> In d (h_dP h) ->
       (mr_pcmin r - d <= own_low h c /\ own_high h c <= mr_pcmax r - d)%R).
Proof. exact pc_range_prop. Qed.
Print Assumptions C34_pc_range.

Example C34_hypotheses_met : h_dP (h2 true) <> [] /\ rock_cells (h2 true) = [0; 1] /\
  (forall c, In c (rock_cells (h2 true)) -> own_low (h2 true) c = 0 /\ own_high (h2 true) c = 1)%R /\
  exists r, minmax_pc (h2 true) true 0 [1; 2]%R = Ok r.
Proof.
  split; [discriminate|]. split; [reflexivity|]. split; [|apply h2_run].
  intros c [<-|[<-|[]]]; unfold own_low, own_high, scaling; cbv -[IZR Rdiv]; split; lra.
Qed.

(* C35: what the curve check accepts and changes. *)
Theorem C35_check_curve : forall thresh xs fs,
  fs <> [] ->
  exists m ok fs', In m fs /\ (forall f, In f fs -> m <= f)%R /\
    check_curve thresh xs fs = Ok (ok, (xs, fs')) /\ (ok = true <-> m = 0 \/ m < thresh)%R /\
    zlen fs' = zlen fs /\
    (fs' = fs \/
     (m <> 0 /\ m < thresh /\ exists e old, (e = 0 \/ e = zlen fs - 1)%Z /\ zget fs e = Some old /\ old < thresh /\
        zget fs' e = Some 0 /\ forall i, (i <> e)%Z -> zget fs' i = zget fs i)%R) /\
    ((m <> 0 /\ m < thresh /\ (at_ fs 0 < thresh \/ at_ fs (zlen fs - 1) < thresh))%R ->
       (at_ fs 0 < thresh -> zget fs' 0 = Some 0)%R /\ (~ at_ fs 0 < thresh -> zget fs' (zlen fs - 1) = Some 0)%R).
Proof. exact check_curve_prop. Qed.
Print Assumptions C35_check_curve.

(* C35: an accepted curve with its minimum at an end has a zero end afterwards. *)
Theorem C35_zero_end : forall thresh xs fs fs',
  (0 < thresh)%R -> fs <> [] -> (forall f, In f fs -> 0 <= f)%R ->
  (exists e, (e = 0 \/ e = zlen fs - 1) /\ forall f, In f fs -> (at_ fs e <= f)%R) ->
  check_curve thresh xs fs = Ok (true, (xs, fs')) -> zget fs' 0 = Some 0%R \/ zget fs' (zlen fs - 1) = Some 0%R.
Proof. exact check_curve_zero_end. Qed.
Print Assumptions C35_zero_end.

(* C35: an interior minimum is accepted without any zero end; a falling curve gets its
   larger end zeroed. *)
Theorem C35_findings_refuted : check_curve (/ 2) [0; 1; 2]%R [1; / 4; 1]%R = Ok (true, ([0; 1; 2]%R, [1; / 4; 1]%R)) /\
  check_curve (/ 2) [0; 1; 2]%R [/ 4; / 5; / 8]%R = Ok (true, ([0; 1; 2]%R, [0; / 5; / 8]%R)).
Proof. exact check_curve_findings. Qed.
Print Assumptions C35_findings_refuted.

(* C108: the model thickness is the mean depth of the bottom of the lowest layer minus
   the mean depth of the top of the highest. *)
Theorem C108_thickness : forall nx ny nz zcorn cells,
  0 < nx -> 0 < ny -> 0 < nz -> zlen zcorn = 8 * nx * ny * nz ->
  (forall k j i, In (k, (j, i)) cells -> 0 <= i < nx /\ 0 <= j < ny /\ 0 <= k < nz) ->
  model_thickness nx ny nz zcorn cells =
    Ok (match mean (face_depths nx ny zcorn (nz - 1) 1 cells), mean (face_depths nx ny zcorn 0 0 cells) with
        | Some b, Some t => Some (b - t)%R | _, _ => None end).
Proof. exact thickness_prop. Qed.
Print Assumptions C108_thickness.

(* C108: it is finite exactly when both layers have an active cell. *)
Theorem C108_finite : forall nx ny nz zcorn cells,
  0 < nx -> 0 < ny -> 0 < nz -> zlen zcorn = 8 * nx * ny * nz ->
  (forall k j i, In (k, (j, i)) cells -> 0 <= i < nx /\ 0 <= j < ny /\ 0 <= k < nz) ->
  (exists t, model_thickness nx ny nz zcorn cells = Ok (Some t)) <->
  (exists j i, In (0, (j, i)) cells) /\ (exists j i, In (nz - 1, (j, i)) cells).
Proof. exact thickness_finite. Qed.
Print Assumptions C108_finite.

Example C108_hypotheses_met : zlen [0; 0; 0; 0; 1; 1; 1; 1]%R = 8 * 1 * 1 * 1 /\
  (forall k j i, In (k, (j, i)) [(0, (0, 0))] -> 0 <= i < 1 /\ 0 <= j < 1 /\ 0 <= k < 1).
Proof. split; [reflexivity|]. intros k j i [H|[]]. inversion H. lia. Qed.

(* C109: the input check. *)
Theorem C109_sanity : forall aniso low high minporo d,
  let n := zlen (ri_sat d) in
  zlen (ri_poro d) = n -> zlen (ri_kx d) = n -> (aniso = true -> zlen (ri_ky d) = n /\ zlen (ri_kz d) = n) ->
  (~ input_ok aniso d -> sanity_check aniso low high minporo d = Throw) /\
  (input_ok aniso d -> exists d', sanity_check aniso low high minporo d = Ok d' /\
     ri_sat d' = ri_sat d /\
     forall c s, zget (ri_sat d) c = Some s ->
       (s = 0 -> at_ (ri_poro d') c = 0%R /\ at_ (ri_kx d') c = low /\ (aniso = true -> at_ (ri_ky d') c = low /\ at_ (ri_kz d') c = low)) /\
       (s <> 0 -> at_ (ri_poro d') c = Rmax (at_ (ri_poro d) c) minporo /\
          ((low <= high)%R -> at_ (ri_kx d') c = Rmin (Rmax (at_ (ri_kx d) c) low) high) /\
          at_ (ri_ky d') c = at_ (ri_ky d) c /\ at_ (ri_kz d') c = at_ (ri_kz d) c)).
Proof. exact sanity_prop. Qed.
Print Assumptions C109_sanity.

Example C109_hypotheses_met : input_ok false (mkRinput [0; 1] [0; / 2]%R [0; 1]%R [] []).
Proof.
  split; [intros s [<-|[<-|[]]]; lia|]. split; [intros s [<-|[<-|[]]]; lra|]. split; [intros s [<-|[<-|[]]]; lra|discriminate].
Qed.
