(* Properties C36-C43, C110, C111: steady-state upscaling. *)
From Coq Require Import Lra.
From Verif Require Import BaseFacts RBaseFacts Steady_Model Steady_Spec Steady_Proofs Steady_Proofs2.
Open Scope Z_scope.

(* C36: for every transport solver tr, which may depend on all calls before *)
Theorem C36_steady : forall p pv tr sat0,
  zlen sat0 = zlen pv -> (0 < Rsum pv)%R ->
  (forall h s dt, zlen s = zlen pv -> zlen (snd (tr h s dt)) = zlen pv) ->
  (0 < sp_init p)%R -> (0 < sp_max_step p)%R ->
  exists st, steady_run p pv tr sat0 = Ok st /\
    let calls := ss_calls st in
    zlen calls = ss_it st /\ zlen calls <= Z.max 0 (sp_max_it p) /\
    (forall k c, zget calls k = Some c ->
       tr (firstn (Z.to_nat k) calls) (tc_in c) (tc_step c) = (tc_conv c, tc_out c) /\
       tc_in c = sat_after sat0 (firstn (Z.to_nat k) calls) /\
       (0 < tc_step c <= Rmax (sp_init p) (sp_max_step p))%R /\
       (k = 0 -> tc_step c = sp_init p) /\
       (forall b, zget calls (k - 1) = Some b -> next_step p pv b (tc_step c) /\ ~ steady_call p pv b)) /\
    ss_sat st = sat_after sat0 calls /\
    (ss_stat st = true <-> exists c, zget calls (zlen calls - 1) = Some c /\ steady_call p pv c) /\
    (ss_stat st = false -> zlen calls = Z.max 0 (sp_max_it p)).
Proof. exact steady_ok. Qed.
Print Assumptions C36_steady.
(* a solver that fails once and then stands still *)
Example C36_case : let p := mkSp 1 10 4 (/ 100) (/ 100) true 1 in
  let tr := fun (h : list tcall) (s : list R) (_ : R) => (match h with [] => false | _ => true end, s) in
  zlen [1; 0]%R = zlen [1; 1]%R /\ (0 < Rsum [1; 1])%R /\
  (forall h s dt, zlen s = zlen [1; 1]%R -> zlen (snd (tr h s dt)) = zlen [1; 1]%R) /\
  (0 < sp_init p)%R /\ (0 < sp_max_step p)%R.
Proof. cbv zeta. repeat split; auto; try (cbn; lra); rewrite !Rsum_cons, Rsum_nil; lra. Qed.

(* C37: lo c and hi c are the limits of the rock of cell c *)
Theorem C37_limits : forall lo hi s, zlen (init_sat_limits lo hi s) = zlen s /\
  init_sat_limits lo hi (init_sat_limits lo hi s) = init_sat_limits lo hi s /\
  forall c x, zget s c = Some x -> exists y, zget (init_sat_limits lo hi s) c = Some y /\
    (y <= hi c - / 10000)%R /\
    (2 * / 10000 <= hi c - lo c -> lo c + / 10000 <= y)%R /\
    (lo c + / 10000 <= x <= hi c - / 10000 -> y = x)%R /\
    (2 * / 10000 <= hi c - lo c -> x <= lo c + / 10000 -> y = lo c + / 10000)%R /\
    (hi c - / 10000 <= x -> y = hi c - / 10000)%R /\
    (hi c - lo c <= 2 * / 10000 -> y = hi c - / 10000)%R /\
    (lo c <= y <= hi c <-> / 10000 <= hi c - lo c)%R.
Proof. exact limits_ok. Qed.
Print Assumptions C37_limits.

(* C38 *)
Theorem C38_expand : forall sw, exists sb, water_to_both sw = Ok sb /\ zlen sb = 2 * zlen sw /\
  (forall i x, zget sw i = Some x -> zget sb (2 * i) = Some x /\ zget sb (2 * i + 1) = Some (1 - x)%R).
Proof. exact both_ok. Qed.
Print Assumptions C38_expand.
Theorem C38_inverse : forall sw, exists sb, water_to_both sw = Ok sb /\
  destripe 0%R sb 2 0 = Ok sw /\ destripe 0%R sb 2 1 = Ok (map (fun s => 1 - s)%R sw).
Proof. exact destripe_both. Qed.
Print Assumptions C38_inverse.
Theorem C38_destripe : forall (A : Type) (zero : A) (v : list A) stride offset, 0 < stride -> 0 <= offset ->
  (zlen v mod stride <= offset ->
     exists dst, destripe zero v stride offset = Ok dst /\ zlen dst = zlen v / stride /\
       forall di, 0 <= di < zlen v / stride ->
         zget dst di = if offset + di * stride <? zlen v then zget v (offset + di * stride) else Some zero) /\
  (offset < zlen v mod stride -> destripe zero v stride offset = UB).
Proof. exact @destripe_gen. Qed.
Print Assumptions C38_destripe.
Example C38_case : destripe 0 [5; 6; 7; 8; 9] 2 1 = Ok [6; 8] /\ destripe 0 [5; 6; 7; 8; 9] 2 0 = UB.
Proof. split; reflexivity. Qed.

(* C39 *)
Theorem C39_flows : forall ff sat faces, (forall f, In f faces -> 0 <= io_cell f < zlen sat) ->
  (forall f, In f faces -> inflow f = true -> periodic_face f ->
     exists o, In o faces /\ periodic_face o /\ outflow o = true /\ io_bid o = io_partner f) ->
  exists infr, (forall f, In f faces -> inflow f = true -> in_frac ff sat faces f (infr f)) /\
    in_out_flows ff sat faces =
      Ok ((sum_over (fun f => io_flux f * infr f)%R (filter inflow faces),
           sum_over (fun f => io_flux f * out_frac ff sat f)%R (filter outflow faces)),
          (sum_over (fun f => io_flux f * (1 - infr f))%R (filter inflow faces),
           sum_over (fun f => io_flux f * (1 - out_frac ff sat f))%R (filter outflow faces))).
Proof. exact in_out_ok. Qed.
Print Assumptions C39_flows.
Theorem C39_total : forall ff sat faces w_in w_out o_in o_out,
  in_out_flows ff sat faces = Ok ((w_in, w_out), (o_in, o_out)) ->
  (w_in + o_in = sum_over io_flux (filter inflow faces))%R /\
  (w_out + o_out = sum_over io_flux (filter outflow faces))%R.
Proof. exact in_out_total. Qed.
Print Assumptions C39_total.
Theorem C39_throws : forall ff sat faces f, (forall f, In f faces -> 0 <= io_cell f < zlen sat) ->
  In f faces -> inflow f = true -> periodic_face f ->
  ~ (exists o, In o faces /\ periodic_face o /\ outflow o = true /\ io_bid o = io_partner f) ->
  in_out_flows ff sat faces = Throw.
Proof. exact in_out_throw_prop. Qed.
Print Assumptions C39_throws.
Example C39_case : let faces := [mkIo 1 0 (-2) (mkCond Periodic 0) 2; mkIo 2 1 2 (mkCond Periodic 0) 1] in
  forall f, In f faces -> inflow f = true -> periodic_face f ->
     exists o, In o faces /\ periodic_face o /\ outflow o = true /\ io_bid o = io_partner f.
Proof.
  cbv zeta. intros f [<-|[<-|[]]] If Pf.
  - eexists; split; [right; left; reflexivity|]. split; [reflexivity|]. split; [|reflexivity].
    unfold outflow; cbn; destruct (Rlt_dec 2 0); auto; lra.
  - unfold inflow in If; cbn in If; destruct (Rlt_dec 2 0); [lra|discriminate].
Qed.

(* C40 *)
Theorem C40_saturations : forall n lo hi, 2 <= n -> zlen (sat_sweep n lo hi) = n /\
  zget (sat_sweep n lo hi) 0 = Some lo /\ zget (sat_sweep n lo hi) (n - 1) = Some hi /\
  (forall i x y, zget (sat_sweep n lo hi) i = Some x -> zget (sat_sweep n lo hi) (i + 1) = Some y ->
      (y - x = (hi - lo) / IZR (n - 1))%R) /\
  (forall i j x y, (lo < hi)%R -> i < j -> zget (sat_sweep n lo hi) i = Some x -> zget (sat_sweep n lo hi) j = Some y -> (x < y)%R).
Proof. exact sat_sweep_ok. Qed.
Print Assumptions C40_saturations.
Theorem C40_pressures : forall n lo hi, 2 <= n -> (0 < lo)%R -> (0 < hi)%R -> zlen (pdrop_sweep n lo hi) = n /\
  zget (pdrop_sweep n lo hi) 0 = Some lo /\ zget (pdrop_sweep n lo hi) (n - 1) = Some hi /\
  (forall i x y, zget (pdrop_sweep n lo hi) i = Some x -> zget (pdrop_sweep n lo hi) (i + 1) = Some y ->
      (0 < x)%R /\ (y = x * Rpower (hi / lo) (/ IZR (n - 1)))%R) /\
  (forall i j x y, (lo < hi)%R -> i < j -> zget (pdrop_sweep n lo hi) i = Some x -> zget (pdrop_sweep n lo hi) j = Some y -> (x < y)%R).
Proof. exact pdrop_sweep_ok. Qed.
Print Assumptions C40_pressures.
Theorem C40_single : forall lo hi, (0 < lo)%R -> sat_sweep 1 lo hi = [lo] /\ pdrop_sweep 1 lo hi = [lo].
Proof. exact sweep_single. Qed.
Print Assumptions C40_single.

(* C41: any steady-state run, capillary limit and cell limits; the start of run k of a
   saturation is the (limited) result of its last successful run before, or the profile
   the series starts from *)
Theorem C41_seeding : forall lo hi run start_from_cl cl num_cells ctl i s pd,
  zget ctl i = Some (s, pd) ->
  let all := manager_runs (init_sat_limits lo hi) run start_from_cl cl num_cells [] ctl in
  zlen all = zlen ctl /\
  exists rs init, zget all i = Some rs /\ zlen rs = zlen pd /\
    (init = repeat s (Z.to_nat num_cells) \/ (start_from_cl = true /\ cl s = Some init)) /\
    (start_from_cl = true -> cl s <> None -> cl s = Some init) /\
    forall k r, zget rs k = Some r ->
      let prev := firstn (Z.to_nat k) rs in
      zget pd k = Some (sr_pdrop r) /\
      sr_start r = init_sat_limits lo hi (last_success prev init) /\
      run (concat (firstn (Z.to_nat i) all) ++ prev) (sr_pdrop r) (sr_start r) = (sr_success r, sr_final r).
Proof. exact manager_prop. Qed.
Print Assumptions C41_seeding.
(* a run that succeeds, one that fails, one after it *)
Example C41_case : forall a b c x, let lim := fun s : list R => s in
  let run := fun (h : list ssrun) (_ : R) (_ : list R) => (match h with [_] => false | _ => true end, match h with [] => a | [_] => b | _ => c end) in
  map sr_start (sat_series lim run [] x [1; 2; 3]%R) = [x; a; a].
Proof. reflexivity. Qed.

(* C42 *)
Theorem C42_row : forall K K' s s' p p' b b', relperm_row K s p b = relperm_row K' s' p' b' <->
  s = s' /\ p = p' /\ b = b' /\ (forall i j, 0 <= i < 3 -> 0 <= j < 3 -> ~ (i = 1 /\ j = 0) -> K i j = K' i j).
Proof. exact row_iff. Qed.
Print Assumptions C42_row.
Theorem C42_columns : forall K s p b, let r := fst (relperm_row K s p b) in
  snd (relperm_row K s p b) = b /\ zlen r = 11 /\ zget r 0 = Some p /\ zget r 1 = Some s /\
  zget r 2 = Some (K 0 0) /\ zget r 3 = Some (K 1 1) /\ zget r 4 = Some (K 2 2) /\
  zget r 5 = Some (K 1 2) /\ zget r 6 = Some (K 0 2) /\ zget r 7 = Some (K 0 1) /\
  zget r 8 = Some (K 2 1) /\ zget r 9 = Some (K 2 0) /\ zget r 10 = zget r 5.
Proof. exact row_columns. Qed.
Print Assumptions C42_columns.
Theorem C42_all_components_refuted : exists K K' s p b, K 1 0 <> K' 1 0 /\ relperm_row K s p b = relperm_row K' s p b.
Proof. exact row_refuted. Qed.
Print Assumptions C42_all_components_refuted.

(* C43: rnd is the effect of printing with the stream's precision *)
Theorem C43_round_trip : forall rnd sats pdrops, zlen sats = zlen pdrops ->
  exists s, write_control rnd sats pdrops = Ok s /\ read_control s = Some (map rnd sats, map (map rnd) pdrops).
Proof. exact control_ok. Qed.
Print Assumptions C43_round_trip.
Theorem C43_lossless : forall rnd sats pdrops, zlen sats = zlen pdrops ->
  ((exists s, write_control rnd sats pdrops = Ok s /\ read_control s = Some (sats, pdrops)) <->
   (forall x, In x sats -> rnd x = x) /\ (forall row x, In row pdrops -> In x row -> rnd x = x)).
Proof. exact control_lossless. Qed.
Print Assumptions C43_lossless.
Theorem C43_missing_row : forall rnd sats pdrops, zlen pdrops < zlen sats -> write_control rnd sats pdrops = UB.
Proof. exact control_short. Qed.
Print Assumptions C43_missing_row.

(* C110 *)
Theorem C110_mobilities : forall t mu con mobs, (0 <= t)%R -> (0 < mu)%R -> (1 <= con)%R ->
  let out := phase_mobilities t mu con mobs in
  zlen out = zlen mobs /\
  (forall c l, zget mobs c = Some l -> exists l', zget out c = Some l' /\ zlen l' = zlen l /\
     forall k x, zget l k = Some x -> exists y, zget l' k = Some y /\ (x <= y)%R /\ (t / mu <= y)%R /\
        (forall x', (exists c' l2, zget mobs c' = Some l2 /\ In x' l2) -> (x' <= con * y)%R) /\
        (y = x \/ y = (t / mu)%R \/ (y = 0)%R \/ exists c' l2 x', zget mobs c' = Some l2 /\ In x' l2 /\ y = (x' / con)%R)) /\
  (forall a b x y, In a out -> In x a -> In b out -> In y b -> (x <= con * y)%R).
Proof. exact mob_ok. Qed.
Print Assumptions C110_mobilities.

(* C111: cells are pairs of cell index and pore volume *)
Theorem C111_last_saturation : forall cells sat,
  (forall c, In c cells -> 0 <= fst c < zlen sat) -> (forall c, In c cells -> (0 < snd c)%R) -> cells <> [] ->
  exists m, last_saturation cells sat = Ok (Some m) /\
    (m * Rsum (map snd cells) = Rsum (map (fun c => snd c * nthR sat (fst c)) cells))%R /\
    (forall lo hi, (forall c, In c cells -> (lo <= nthR sat (fst c) <= hi)%R) -> (lo <= m <= hi)%R).
Proof. exact last_sat_ok. Qed.
Print Assumptions C111_last_saturation.
Example C111_case : let cells := [(0, 1%R); (1, 3%R)] in
  (forall c, In c cells -> 0 <= fst c < zlen [1; 0]%R) /\ (forall c, In c cells -> (0 < snd c)%R) /\ cells <> [].
Proof.
  cbv zeta. split; [|split; [|discriminate]]; intros c [<-|[<-|[]]]; try (cbn; lra); change (zlen [1; 0]%R) with 2; cbn; lia.
Qed.
