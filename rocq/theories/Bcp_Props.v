From Verif Require Import Bcp_Proofs Bcp_Spec.
Open Scope Z_scope.

(* C219: boundary conditions of a simulation from parameters *)
Theorem C219_sides : forall srt g p b, plain p ->
  (exists l r b', requested p l r /\ setup_conditions srt g p b = Ok b' /\ zlen (t_flow b') = 7 /\ zget (t_flow b') 1 = Some l /\ zget (t_flow b') 2 = Some r /\
     (forall i, 0 <= i < 7 -> i <> 1 -> i <> 2 -> zget (t_flow b') i = Some (kept b i)) /\
     (forall i, 0 <= i < 7 -> zget (t_sat b') i = Some (match zget (t_sat b) i with Some c => c | None => mkCond Dirichlet 1%R end))) \/
  (setup_conditions srt g p b = Throw /\ ~ exists l r, requested p l r).
Proof. exact Bcp_Proofs.sides. Qed.
Theorem C219_unique : forall p l r l' r', requested p l r -> requested p l' r' -> l = l' /\ r = r'.
Proof. exact Bcp_Proofs.requested_unique. Qed.
Theorem C219_no_stale_side_refuted : forall srt, exists b1 b2, setup_conditions srt third_side block_param bcs_empty = Ok b1 /\ setup_conditions srt third_side no_param b1 = Ok b2 /\ zget (t_flow b2) 3 = Some (mkCond Dirichlet 5%R) /\
  exists b3, setup_conditions srt third_side no_param bcs_empty = Ok b3 /\ zget (t_flow b3) 3 = Some (mkCond Neumann 0%R).
Proof. exact Bcp_Proofs.stale. Qed.

(* C220: boundary conditions for upscaling and for a block from parameters *)
Theorem C220_types : forall srt g p b, value_or (bp_upscaling p) false true -> (bp_type p = None \/ exists t, bp_type p = Some t /\ ~ 0 <= t <= 2) -> setup_conditions srt g p b = Throw.
Proof. exact Bcp_Proofs.up_types. Qed.
Theorem C220_direction : forall srt g p b t d, value_or (bp_upscaling p) false true -> bp_type p = Some t -> t = 0 \/ t = 2 -> bp_dir p = Some d -> ~ 0 <= d <= 2 -> setup_conditions srt g p b = UB.
Proof. exact Bcp_Proofs.up_direction. Qed.
Theorem C220_fixed : forall srt g p b d dp s, value_or (bp_upscaling p) false true -> bp_type p = Some 0 -> value_or (bp_dir p) 0 d -> 0 <= d <= 2 -> value_or (bp_drop p) 100000%R dp -> value_or (bp_sat p) 1%R s ->
  exists b', setup_conditions srt g p b = Ok b' /\ zlen (t_flow b') = 7 /\ zlen (t_sat b') = 7 /\ zget (t_flow b') (2 * d + 1) = Some (mkCond Dirichlet dp) /\ zget (t_flow b') (2 * d + 2) = Some (mkCond Dirichlet 0%R) /\
    (forall i, 0 <= i < 7 -> i <> 2 * d + 1 -> i <> 2 * d + 2 -> zget (t_flow b') i = Some (mkCond Neumann 0%R)) /\
    zget (t_sat b') (2 * d + 1) = Some (mkCond Dirichlet s) /\ (forall i, 0 <= i < 7 -> i <> 2 * d + 1 -> zget (t_sat b') i = Some (mkCond Dirichlet 1%R)).
Proof. exact Bcp_Proofs.up_fixed. Qed.
Theorem C220_region : forall srt g p b, value_or (bp_upscaling p) false false -> value_or (bp_region p) false true -> (forall f, In f g -> 0 <= gf_bid f) ->
  (bp_block p = None /\ setup_conditions srt g p b = Throw) \/
  exists q b', bp_block p = Some q /\ setup_conditions srt g p b = Ok b' /\ forall i, (exists f, In f g /\ gf_bid f = i) ->
    ((exists f, In f g /\ gf_bid f = i /\ i <> 0 /\ inside_block p (gf_cent f)) -> zget (t_flow b') i = Some (mkCond Dirichlet q)) /\
    (~ (exists f, In f g /\ gf_bid f = i /\ i <> 0 /\ inside_block p (gf_cent f)) -> zget (t_flow b') i = Some (kept b i)).
Proof. exact Bcp_Proofs.region. Qed.

(* the default conditions, and fluxes *)
Example C219_case : plain no_param /\ requested no_param (mkCond Dirichlet 100000%R) (mkCond Dirichlet 0%R) /\
  requested (mkBparam None None None None None None None (None, None, None) (None, None, None) None (Some "neumann"%string) (Some 3%R) None None None) (mkCond Neumann 3%R) (mkCond Neumann (- 3)%R).
Proof. exact examples_met. Qed.
(* fixed conditions in y direction with the default pressure drop *)
Example C220_case : let p := mkBparam (Some true) (Some 0) (Some 1) None None None None (None, None, None) (None, None, None) None None None None None None in
  value_or (bp_upscaling p) false true /\ bp_type p = Some 0 /\ value_or (bp_dir p) 0 1 /\ value_or (bp_drop p) 100000%R 100000%R /\ value_or (bp_sat p) 1%R 1%R.
Proof. cbn. repeat split; first [apply Value_given; reflexivity|apply Value_default; reflexivity]. Qed.
Print Assumptions C219_sides. Print Assumptions C219_unique. Print Assumptions C219_no_stale_side_refuted. Print Assumptions C220_types. Print Assumptions C220_direction. Print Assumptions C220_fixed. Print Assumptions C220_region.
