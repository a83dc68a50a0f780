From Verif Require Import Avg_Proofs Avg_Proofs2 Avg_Proofs3 Avg_Proofs4 Avg_Proofs5 Avg_Spec.
Open Scope Z_scope.

(* C106: volumes, porosity and permeability of a grid *)
Theorem C106_volumes : forall nc leaf actnum poros ntgs, 0 <= nc -> covers nc actnum -> covers nc poros -> covers nc ntgs -> NoDup (map fst leaf) -> (forall c, In c leaf -> 0 <= fst c < nc) ->
  exists s, cell_volumes nc leaf actnum poros ntgs = Ok s /\ zlen (v_cell s) = nc /\
    (forall c, In c leaf -> nthR (v_cell s) (fst c) = weight actnum c) /\
    (forall i, ~ In i (map fst leaf) -> nthR (v_cell s) i = 0%R) /\
    v_count s = zlen (actives (v_cell s)).
Proof. exact Avg_Proofs3.cell_volumes_ok. Qed.
Theorem C106_porosity : forall nc leaf actnum p ntgs s, 0 <= nc -> covers nc actnum -> nc <= zlen p -> covers nc ntgs -> NoDup (map fst leaf) -> (forall c, In c leaf -> 0 <= fst c < nc) ->
  cell_volumes nc leaf actnum (Some p) ntgs = Ok s -> Rsum (v_cell s) <> 0%R -> ntgs = None ->
  let w := nthR (v_cell s) in let cells := actives (v_cell s) in
  let pv := total (fun i => w i * nthR p i)%R cells in
  volume_statistics s (Some p) ntgs = Ok (mkVstats (Rsum (v_cell s)) (zlen cells) (Some (pv, (pv / Rsum (v_cell s))%R)) None).
Proof. exact Avg_Proofs3.porosity_ok. Qed.
Theorem C106_net : forall nc leaf actnum p n s, 0 <= nc -> covers nc actnum -> nc <= zlen p -> nc <= zlen n -> NoDup (map fst leaf) -> (forall c, In c leaf -> 0 <= fst c < nc) ->
  cell_volumes nc leaf actnum (Some p) (Some n) = Ok s -> Rsum (v_cell s) <> 0%R ->
  let w := nthR (v_cell s) in let cells := actives (v_cell s) in
  let pv := total (fun i => w i * nthR p i)%R cells in
  let nv := total (fun i => w i * nthR n i)%R cells in
  let npv := total (fun i => w i * nthR p i * nthR n i)%R cells in
  nv <> 0%R ->
  volume_statistics s (Some p) (Some n) = Ok (mkVstats (Rsum (v_cell s)) (zlen cells) (Some (pv, (pv / Rsum (v_cell s))%R)) (Some (nv, nv / Rsum (v_cell s), npv, npv / nv)%R)).
Proof. exact Avg_Proofs3.net_ok. Qed.
Theorem C106_mean : forall vols f lo hi, clean vols -> actives vols <> [] -> (forall i, In i (actives vols) -> lo <= f i <= hi)%R ->
  Rsum vols = total (nthR vols) (actives vols) /\ (0 < Rsum vols)%R /\
  (total (fun i => nthR vols i * f i) (actives vols) / Rsum vols = arithmetic (nthR vols) f (actives vols))%R /\ (lo <= arithmetic (nthR vols) f (actives vols) <= hi)%R.
Proof. exact Avg_Proofs3.clean_mean. Qed.
Theorem C106_net_porosity : forall vols p n lo hi, (forall i, In i (actives vols) -> 0 <= nthR n i)%R -> (0 < total (fun i => nthR vols i * nthR n i) (actives vols))%R ->
  (forall i, In i (actives vols) -> lo <= nthR p i <= hi)%R ->
  (lo <= total (fun i => nthR vols i * nthR p i * nthR n i) (actives vols) / total (fun i => nthR vols i * nthR n i) (actives vols) <= hi)%R.
Proof. exact Avg_Proofs3.net_porosity_mean. Qed.
Theorem C106_permeability : forall vols perms lo hi, clean vols -> actives vols <> [] -> (0 < lo)%R ->
  (forall i, In i (actives vols) -> i < zlen perms /\ (lo <= nthR perms i <= hi)%R) ->
  let k := nthR perms in let cells := actives vols in
  exists a, perm_averages (Rsum vols) (zlen cells) vols perms = Ok a /\
    a_arith a = arithmetic (nthR vols) k cells /\ a_harm a = harmonic (nthR vols) k cells /\ a_geom a = geometric (nthR vols) k cells /\
    u_arith a = arithmetic (fun _ => 1%R) k cells /\ u_harm a = harmonic (fun _ => 1%R) k cells /\ u_geom a = geometric (fun _ => 1%R) k cells /\
    (lo <= a_harm a <= a_geom a)%R /\ (a_geom a <= a_arith a <= hi)%R /\ (lo <= u_harm a <= u_geom a)%R /\ (u_geom a <= u_arith a <= hi)%R.
Proof. exact Avg_Proofs3.perm_ok. Qed.
Theorem C106_formula : forall vols perms volume, actives vols <> [] -> volume <> 0%R ->
  (forall i, In i (actives vols) -> i < zlen perms /\ (0 < nthR perms i)%R) ->
  let w := nthR vols in let k := nthR perms in let cells := actives vols in
  perm_averages volume (zlen cells) vols perms = Ok (mkAverages
    (total (fun i => w i * k i) cells / volume) (volume / total (fun i => w i / k i) cells) (exp (total (fun i => w i * ln (k i)) cells / volume))
    (arithmetic one k cells) (harmonic one k cells) (geometric one k cells))%R.
Proof. exact Avg_Proofs3.perm_general. Qed.
Theorem C106_thin_cells : forall vols perms k, actives vols <> [] -> (0 < k)%R -> (forall i, In i (actives vols) -> i < zlen perms /\ nthR perms i = k) ->
  (total (nthR vols) (actives vols) < Rsum vols)%R ->
  exists a, perm_averages (Rsum vols) (zlen (actives vols)) vols perms = Ok a /\ (a_arith a < k < a_harm a)%R /\ u_arith a = k /\ u_harm a = k.
Proof. exact Avg_Proofs5.thin_cells. Qed.

(* C134: rock types *)
Theorem C134_report : forall nc volume satnums vols perms poros, zlen vols = nc -> nc <= zlen satnums -> (forall s, In s satnums -> 0 <= s <= 1000) -> volume <> 0%R ->
  match perms with None => True | Some p => forall i, In i (actives vols) -> i < zlen p /\ (0 < nthR p i)%R end ->
  match poros with None => True | Some p => forall i, In i (actives vols) -> i < zlen p end ->
  exists rs, rock_report nc volume satnums vols perms poros = Ok rs /\ StronglySorted Z.lt (map k_type rs) /\
    (forall t, In t (map k_type rs) <-> exists i, In i (actives vols) /\ type_at satnums i = t) /\
    (forall r, In r rs -> rock_figures nc volume satnums vols perms poros r).
Proof. exact Avg_Proofs5.rock_report_ok. Qed.
Theorem C134_sums : forall nc volume satnums vols perms poros rs, zlen vols = nc -> nc <= zlen satnums -> (forall s, In s satnums -> 0 <= s <= 1000) -> volume <> 0%R ->
  match perms with None => True | Some p => forall i, In i (actives vols) -> i < zlen p /\ (0 < nthR p i)%R end ->
  match poros with None => True | Some p => forall i, In i (actives vols) -> i < zlen p end ->
  rock_report nc volume satnums vols perms poros = Ok rs ->
  Rsum (map k_vol rs) = total (nthR vols) (actives vols) /\ Rsum (map k_active rs) = IZR (zlen (actives vols)) /\
  (clean vols -> volume = Rsum vols -> actives vols <> [] -> Rsum (map k_frac rs) = 1%R /\ forall r, In r rs -> (0 < k_frac r <= 1)%R).
Proof. exact Avg_Proofs5.rock_sums. Qed.
Theorem C134_means : forall nc volume satnums vols p q r lo hi, (0 < lo)%R -> of_type satnums (k_type r) (actives vols) <> [] ->
  rock_figures nc volume satnums vols (Some p) (Some q) r ->
  (forall i, In i (of_type satnums (k_type r) (actives vols)) -> lo <= nthR p i <= hi)%R ->
  exists pv phi var a h ua uh, k_poro r = Some (pv, phi, var) /\ k_perm r = Some (a, h, ua, uh) /\
    (0 <= var)%R /\ var = (arithmetic (nthR vols) (fun i => nthR q i * nthR q i) (of_type satnums (k_type r) (actives vols)) - phi * phi)%R /\
    pv = (phi * k_vol r)%R /\ (lo <= h <= a)%R /\ (a <= hi)%R /\ (lo <= uh <= ua)%R /\ (ua <= hi)%R.
Proof. exact Avg_Proofs5.rock_means. Qed.
Theorem C134_refused : forall nc volume satnums vols perms poros, (exists s, In s satnums /\ (s < 0 \/ 1000 < s)) -> rock_report nc volume satnums vols perms poros = Throw.
Proof. exact Avg_Proofs4.rock_report_throw. Qed.

(* C135: dips *)
Theorem C135_dips : forall nx ny nz vol dips minvol l ignored, 0 <= nx -> 0 <= ny -> 0 <= nz -> dip_cells nx ny nz vol dips minvol = (l, ignored) ->
  (forall c d v, In (c, d, v) l <-> let '(k, (j, i)) := c in 0 <= k < nz /\ 0 <= j < ny /\ 0 <= i < nx /\ d = dips c /\ v = vol c /\ (minvol < v)%R) /\
  zlen l + ignored = nx * ny * nz /\
  (l <> [] -> exists x y, dip_averages l = Ok (x, y) /\ x = (Rsum (map (fun c => fst (snd (fst c))) l) / IZR (zlen l))%R /\ y = (Rsum (map (fun c => snd (snd (fst c))) l) / IZR (zlen l))%R /\
     forall a b, (forall c, In c l -> a <= fst (snd (fst c)) <= b)%R -> (a <= x <= b)%R) /\
  (l = [] -> dip_averages l = UB).
Proof. exact Avg_Proofs5.dips_ok. Qed.

Example C106_case : exists s, cell_volumes 3 [(2, 1%R); (0, 4%R); (1, 7%R)] (Some [1; 0; 2]) None None = Ok s /\ v_cell s = sample_vols /\ clean sample_vols /\ actives sample_vols = [0; 2].
Proof. exact sample_volumes. Qed.
Example C106_case_perm : exists a, perm_averages (Rsum sample_vols) (zlen (actives sample_vols)) sample_vols [3; 0; 5]%R = Ok a /\ (3 <= a_harm a)%R /\ (a_arith a <= 5)%R.
Proof.
  destruct (C106_permeability sample_vols [3; 0; 5]%R 3 5 sample_clean ltac:(rewrite sample_active; discriminate) ltac:(lra) sample_perms) as (a & E & _ & _ & _ & _ & _ & _ & A & B & _). exists a. split; [exact E|]. lra.
Qed.
Example C106_case_thin : actives [4; cutoff / 2]%R = [0] /\ (total (nthR [4; cutoff / 2]%R) (actives [4; cutoff / 2]%R) < Rsum [4; cutoff / 2]%R)%R.
Proof. exact sample_thin. Qed.
Example C134_case : exists rs, rock_report 3 (Rsum sample_vols) [7; 1; 0] sample_vols (Some [3; 0; 5]%R) None = Ok rs /\ Rsum (map k_frac rs) = 1%R.
Proof.
  assert (Ne : actives sample_vols <> []) by (rewrite sample_active; discriminate).
  pose proof sample_volume as V.
  assert (S : forall s, In s [7; 1; 0] -> 0 <= s <= 1000) by (intros s [<-|[<-|[<-|[]]]]; lia).
  assert (K : forall i, In i (actives sample_vols) -> i < zlen [3; 0; 5]%R /\ (0 < nthR [3; 0; 5] i)%R) by (intros i Hi; destruct (sample_perms i Hi); split; [assumption|lra]).
  destruct (C134_report 3 (Rsum sample_vols) [7; 1; 0] sample_vols (Some [3; 0; 5]%R) None eq_refl ltac:(cbn; lia) S V K I) as (rs & E & _). exists rs. split; [exact E|].
  destruct (C134_sums 3 (Rsum sample_vols) [7; 1; 0] sample_vols (Some [3; 0; 5]%R) None rs eq_refl ltac:(cbn; lia) S V K I E) as (_ & _ & F). apply (F sample_clean eq_refl Ne).
Qed.
Print Assumptions C106_volumes. Print Assumptions C106_porosity. Print Assumptions C106_net. Print Assumptions C106_mean. Print Assumptions C106_net_porosity. Print Assumptions C106_permeability. Print Assumptions C106_formula. Print Assumptions C106_thin_cells. Print Assumptions C134_report. Print Assumptions C134_sums. Print Assumptions C134_means. Print Assumptions C134_refused. Print Assumptions C135_dips.
