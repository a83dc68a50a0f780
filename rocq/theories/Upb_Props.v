(* Properties C20-C25: the upscaler base class. *)
From Verif Require Import BaseFacts RBaseFacts Bound_Model Bound_Spec Bound_Proofs3 Upb_Model Upb_Spec Upb_Proofs.
Open Scope Z_scope.

(* C20: one call. Types: 0 fixed, 1 linear, 2 periodic. *)
Theorem C20_set_type : forall t u,
  ((t = 2 <-> ub_type u = 2) ->
     exists u', set_bctype t u = Ok u' /\ ub_type u' = t /\ (ub_unique u' = true <-> t = 1 \/ t = 2)) /\
  (~ (t = 2 <-> ub_type u = 2) -> set_bctype t u = Throw).
Proof. exact set_bctype_spec. Qed.
Print Assumptions C20_set_type.

(* C20: any history of attempted changes after initialisation with type t0. *)
Theorem C20_history : forall t0 ts,
  let u := fold_left attempt ts (init_deck t0) in
  (ub_type u = 2 <-> t0 = 2) /\ (ub_unique u = true <-> ub_type u = 1 \/ ub_type u = 2) /\
  ub_periodic_ext u = (t0 =? 2) /\ (ub_type u = t0 \/ In (ub_type u) ts).
Proof. exact history_prop. Qed.
Print Assumptions C20_history.

(* C21 *)
Theorem C21_porosity : forall cells, (forall c, In c cells -> 0 < u_vol c)%R -> cells <> [] ->
  exists p, upscale_porosity cells = Some p /\
    (p * sum u_vol cells = sum (fun c => u_vol c * u_poro c) cells)%R /\
    (forall lo hi, (forall c, In c cells -> lo <= u_poro c <= hi)%R -> (lo <= p <= hi)%R) /\
    (forall v, (forall c, In c cells -> u_poro c = v) -> p = v).
Proof. exact porosity_prop. Qed.
Print Assumptions C21_porosity.

(* C22 *)
Theorem C22_net : forall cells, (forall c, In c cells -> 0 < u_vol c /\ 0 <= u_ntg c)%R -> cells <> [] ->
  exists np ntg, upscale_net_porosity cells = Some np /\ upscale_ntg cells = Some ntg /\
    (ntg * np * sum u_vol cells = sum (fun c => u_vol c * u_ntg c * u_poro c) cells)%R /\
    ((forall c, In c cells -> u_ntg c = 0)%R -> np = 0%R) /\
    ((exists c, In c cells /\ u_ntg c <> 0%R) ->
       forall lo hi, (forall c, In c cells -> u_ntg c <> 0%R -> lo <= u_poro c <= hi)%R -> (lo <= np <= hi)%R) /\
    (forall lo hi, (forall c, In c cells -> lo <= u_ntg c <= hi)%R -> (lo <= ntg <= hi)%R).
Proof. exact net_prop. Qed.
Print Assumptions C22_net.

(* C23: weights are pore volumes, or net pore volumes *)
Theorem C23_critical : forall (ntg : bool) cells,
  let w := fun c => if ntg then (u_vol c * u_poro c * u_ntg c)%R else (u_vol c * u_poro c)%R in
  (forall c, In c cells -> 0 <= w c)%R -> (exists c, In c cells /\ w c <> 0%R) ->
  (exists m, upscale_swcr ntg cells = Some m /\
     (m * sum w cells = sum (fun c => w c * u_swcr c) cells)%R /\
     forall lo hi, (forall c, In c cells -> w c <> 0%R -> lo <= u_swcr c <= hi)%R -> (lo <= m <= hi)%R) /\
  (exists m, upscale_sowcr ntg cells = Some m /\
     (m * sum w cells = sum (fun c => w c * u_sowcr c) cells)%R /\
     forall lo hi, (forall c, In c cells -> w c <> 0%R -> lo <= u_sowcr c <= hi)%R -> (lo <= m <= hi)%R).
Proof. exact swcr_prop. Qed.
Print Assumptions C23_critical.

(* C24: when the flow solver returns the uniform Darcy flow K grad p of a homogeneous
   medium, K is returned; with fixed conditions only its diagonal. *)
Theorem C24_homogeneous : forall srt solve bct twodim faces b b0 b1 b2 low hi (K : Z -> Z -> R),
  (bct = 0 \/ bct = 1 \/ bct = 2) ->
  let g := map uf_g faces in
  setup_upscaling srt g bct 0 1%R 1%R twodim b = Ok b0 ->
  setup_upscaling srt g bct 1 1%R 1%R twodim b0 = Ok b1 ->
  setup_upscaling srt g bct 2 1%R 1%R twodim b1 = Ok b2 ->
  (forall x, x = b0 \/ x = b1 \/ x = b2 -> box_faces x faces low hi) ->
  (forall d, 0 <= d < 3 -> (low d < hi d)%R) ->
  (forall d x, 0 <= d < 3 -> solve d x = Ok (map (uniform_flux (fun i => K i d / (hi d - low d))%R) faces)) ->
  exists cols, effective_perm srt solve bct twodim faces b = Ok cols /\
    forall d, 0 <= d < 3 -> exists col, zget cols d = Some col /\
      forall i, 0 <= i < 3 -> zget col i = Some (Some (if (bct =? 0) && negb (i =? d) then 0 else K i d)%R).
Proof. exact effective_homogeneous. Qed.
Print Assumptions C24_homogeneous.

(* C25: the exact set of faces counted, for every canonical id table. The term for
   canonical id 0 in direction 0 comes from the truncating division. *)
Theorem C25_velocity : forall b faces flux dir, 0 <= dir < 3 ->
  (forall f, In f faces -> on_boundary f = true -> exists c, zget (t_canon b) (gf_bid (uf_g f)) = Some c) ->
  let side1 := filter (fun x => on_boundary (fst x) && (canon_of b (fst x) =? 2 * dir + 1)) (combine faces flux) in
  let side2 := filter (fun x => on_boundary (fst x) &&
                 ((canon_of b (fst x) =? 2 * dir + 2) || ((dir =? 0) && (canon_of b (fst x) =? 0)))) (combine faces flux) in
  let avg := fun side => fdiv (sum (fun x => snd x * vget (uf_n (fst x)) dir)%R side)
                              (sum (fun x => gf_area (uf_g (fst x))) side) in
  average_velocity b faces flux dir =
    Ok (match avg side1, avg side2 with Some x, Some y => Some ((x + y) / 2)%R | _, _ => None end).
Proof. exact velocity_prop. Qed.
Print Assumptions C25_velocity.

(* The unit cube with fixed conditions meets the hypotheses of C24 and C25. *)
Example cube_hypotheses_met : exists b0 b1 b2,
  setup_upscaling (fun l => l) (map uf_g cube) 0 0 1%R 1%R false bcs_empty = Ok b0 /\
  setup_upscaling (fun l => l) (map uf_g cube) 0 1 1%R 1%R false b0 = Ok b1 /\
  setup_upscaling (fun l => l) (map uf_g cube) 0 2 1%R 1%R false b1 = Ok b2 /\
  forall x, x = b0 \/ x = b1 \/ x = b2 -> box_faces x cube (fun _ => 0%R) (fun _ => 1%R).
Proof.
  destruct (fixed_setup (fun l => l) (map uf_g cube) 0 1 1 false bcs_empty ltac:(lia)) as [b0 [E0 [_ [_ [_ C0]]]]].
  destruct (fixed_setup (fun l => l) (map uf_g cube) 1 1 1 false b0 ltac:(lia)) as [b1 [E1 [_ [_ [_ C1]]]]].
  destruct (fixed_setup (fun l => l) (map uf_g cube) 2 1 1 false b1 ltac:(lia)) as [b2 [E2 [_ [_ [_ C2]]]]].
  exists b0, b1, b2. repeat (split; [assumption|]).
  intros x [->|[->| ->]]; apply cube_box; intros i Hi; [apply C0|apply C1|apply C2]; lia.
Qed.
(* two cells with positive volume and pore volume *)
Example cells_met : let cells := [mkUcell 1 (/2) 1 (/4) (/5); mkUcell 2 (/4) 0 (/8) (/5)]%R in
  (forall c, In c cells -> 0 < u_vol c /\ 0 <= u_ntg c)%R /\ cells <> [] /\
  (exists c, In c cells /\ (u_vol c * u_poro c * u_ntg c <> 0)%R).
Proof.
  cbn. split; [intros c [<-|[<-|[]]]; cbn; lra|]. split; [discriminate|].
  eexists. split; [left; reflexivity|]. cbn. lra.
Qed.
