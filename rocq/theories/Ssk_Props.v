From Verif Require Import Ssk_Proofs Ssk_Proofs2 Ssk_Proofs3 Ssk_Proofs4 Ssk_Proofs5 Ssk_Proofs6 Tens_Proofs9 Ssk_Spec.
Open Scope Z_scope.

(* C202: the relative permeability tensors lie between the smallest and the largest relative permeability of the cells *)
Theorem C202_fixed : forall orth u Kc low hi fl sat ph K kr, steady_kr orth u Kc low hi fl 0 sat ph K kr ->
  (forall i j, 0 <= i < 3 -> 0 <= j < 3 -> i <> j -> kr i j = 0%R) /\
  forall i, 0 <= i < 3 -> (fl_thr fl <= kr i i)%R /\
    (forall a, (forall c, cells_of u c -> (a <= kr_in fl ph sat c)%R) -> (a <= kr i i)%R) /\
    (forall b, (fl_thr fl <= b)%R -> (forall c, cells_of u c -> (kr_in fl ph sat c <= b)%R) -> (kr i i <= b)%R).
Proof. exact Ssk_Proofs2.fixed_bounds_kr. Qed.
Theorem C202_periodic : forall orth u Kc low hi fl sat ph K kr, steady_kr orth u Kc low hi fl 2 sat ph K kr ->
  symmetric 3 (mmul 3 kr K) /\ positive_form 3 (mmul 3 kr K) /\
  forall x, (fl_thr fl * quad 3 K x <= quad 3 (mmul 3 kr K) x)%R /\
    (forall a, (forall c, cells_of u c -> (a <= kr_in fl ph sat c)%R) -> (a * quad 3 K x <= quad 3 (mmul 3 kr K) x)%R) /\
    (forall b, (fl_thr fl <= b)%R -> (forall c, cells_of u c -> (kr_in fl ph sat c <= b)%R) -> (quad 3 (mmul 3 kr K) x <= b * quad 3 K x)%R).
Proof. exact Ssk_Proofs3.periodic_bounds_kr. Qed.
Theorem C202_implicit : forall orth u Kc low hi fl p pv tr sat0 after bct ph st mK st' ks sat ok, steady_ok orth u Kc low hi -> fluids_ok fl -> su_bct u = bct -> 0 <= ph < 2 -> zlen sat = zlen (su_g u) -> single_tensor u st = Ok (mK, st') ->
  implicit_steady u fl p pv tr sat0 mK after = Ok (ks, sat, ok) -> (exists s, steady_run p pv tr sat0 = Ok s /\ ss_sat s = sat /\ ss_stat s = ok) /\ steady_kr orth u Kc low hi fl bct sat ph (entry mK) (entry (if ph =? 0 then fst ks else snd ks)).
Proof. exact Ssk_Proofs4.implicit_kr. Qed.
Theorem C202_explicit : forall orth u Kc low hi fl p tr sat0 after bct ph st mK st' ks sat, steady_ok orth u Kc low hi -> fluids_ok fl -> su_bct u = bct -> 0 <= ph < 2 -> zlen sat = zlen (su_g u) -> single_tensor u st = Ok (mK, st') ->
  explicit_steady u fl p tr sat0 mK after = Ok (ks, sat) -> (exists l, explicit_run p tr sat0 = Ok (l, sat)) /\ steady_kr orth u Kc low hi fl bct sat ph (entry mK) (entry (if ph =? 0 then fst ks else snd ks)).
Proof. exact Ssk_Proofs4.explicit_kr. Qed.

(* C203: larger relative permeabilities in the cells give larger tensors *)
Theorem C203_fixed : forall orth u Kc low hi fl sat sat' ph K kr kr' i, steady_kr orth u Kc low hi fl 0 sat ph K kr -> steady_kr orth u Kc low hi fl 0 sat' ph K kr' ->
  (forall c, cells_of u c -> (kr_in fl ph sat c <= kr_in fl ph sat' c)%R) -> 0 <= i < 3 -> (kr i i <= kr' i i)%R.
Proof. exact Ssk_Proofs3.fixed_order_kr. Qed.
Theorem C203_periodic : forall orth u Kc low hi fl sat sat' ph K kr kr' x, steady_kr orth u Kc low hi fl 2 sat ph K kr -> steady_kr orth u Kc low hi fl 2 sat' ph K kr' ->
  (forall c, cells_of u c -> (kr_in fl ph sat c <= kr_in fl ph sat' c)%R) -> (quad 3 (mmul 3 kr K) x <= quad 3 (mmul 3 kr' K) x)%R.
Proof. exact Ssk_Proofs3.periodic_order_kr. Qed.

(* C204: a relative permeability that is the same in all cells is returned *)
Theorem C204_uniform : forall orth u Kc low hi fl bct sat ph K kr lam, bct = 0 \/ bct = 2 -> steady_kr orth u Kc low hi fl bct sat ph K kr -> (fl_thr fl <= lam)%R -> (forall c, cells_of u c -> kr_in fl ph sat c = lam) -> multiple lam kr.
Proof. exact Ssk_Proofs3.uniform_kr_tensor. Qed.
Theorem C204_exist : forall orth u Kc low hi fl bct sat ph st st1, bct = 0 \/ bct = 2 -> steady_ok orth u Kc low hi -> fluids_ok fl -> su_bct u = bct -> zlen sat = zlen (su_g u) -> 0 <= ph < 2 ->
  (forall tot st, zlen tot = zlen (su_g u) -> Forall (fun x => 0 < x)%R tot -> exists r, upscale_total u tot st = Ok r) ->
  exists mK st' mw mo st2, single_tensor u st = Ok (mK, st') /\ steady_relperms u fl sat mK st1 = Ok ((mw, mo), st2) /\ steady_kr orth u Kc low hi fl bct sat ph (entry mK) (entry (if ph =? 0 then mw else mo)).
Proof. exact Ssk_Proofs3.steady_total. Qed.
Theorem C204_plane : forall srt g geo ip low hi cols d eff mu, upscaled_by srt g geo ip 2 true low hi cols -> tensor_data cols = Ok d -> relperm_tensor eff (mkMat 3 3 COrd d) mu = UB.
Proof. exact Ssk_Proofs6.plane_singular. Qed.
Theorem C204_plane_refuted : exists g geo ip low hi cols d, upscaled_by same_list g geo ip 2 true low hi cols /\ permeability g geo ip (fun _ => ident) /\ tensor_data cols = Ok d /\ forall eff mu, relperm_tensor eff (mkMat 3 3 COrd d) mu = UB.
Proof. exact Ssk_Proofs6.plane_refuted. Qed.

(* C205: the loop of the explicit upscaler and the runs of its manager *)
Theorem C205_loop : forall p tr sat0 l s, explicit_run p tr sat0 = Ok (l, s) ->
  zlen l <= Z.max 0 (xp_steps p) /\ steps_from tr [] sat0 l /\ s = before_step sat0 l (zlen l) /\
  (forall i, 0 <= i < zlen l - 1 -> exists d, is_max_change d (zlen (after_step l i)) (after_step l i) (before_step sat0 l i) /\ (xp_change p <= d)%R) /\
  (zlen l < xp_steps p -> 0 < zlen l /\ exists d, is_max_change d (zlen (after_step l (zlen l - 1))) (after_step l (zlen l - 1)) (before_step sat0 l (zlen l - 1)) /\ (d < xp_change p)%R).
Proof. exact Ssk_Proofs4.explicit_loop. Qed.
Theorem C205_all_steps : forall p tr sat0 l s, (xp_change p <= 0)%R -> explicit_run p tr sat0 = Ok (l, s) -> zlen l = Z.max 0 (xp_steps p).
Proof. exact Ssk_Proofs4.explicit_all. Qed.
Theorem C205_manager : forall run nc ctl rs, x_manager run nc [] ctl = Ok rs -> exists gs, rs = List.concat gs /\ length gs = length ctl /\
  forall k s pd, nth_error ctl k = Some (s, pd) -> exists g, nth_error gs k = Some g /\ runs_of run (List.concat (firstn k gs)) s (zrepeat s nc) pd g.
Proof. exact Ssk_Proofs4.manager_runs. Qed.

(* one anisotropic cubic cell, straight-line curves: calculations exist and meet the hypotheses above *)
Example C202_case : forall st st1, exists mK st' mw mo st2, single_tensor (cube_steady 0) st = Ok (mK, st') /\ steady_relperms (cube_steady 0) line_fluids [1 / 4]%R mK st1 = Ok ((mw, mo), st2) /\
  steady_kr orth2 (cube_steady 0) (fun _ => drock 1) low_half hi_half line_fluids 0 [1 / 4]%R 0 (entry mK) (entry mw).
Proof. exact (cube_case 0 (1 / 4) 0 (or_introl eq_refl) (conj (Z.le_refl 0) eq_refl)). Qed.
Example C203_case : forall st st1, exists mK st' mw mo st2, single_tensor (cube_steady 2) st = Ok (mK, st') /\ steady_relperms (cube_steady 2) line_fluids [1 / 4]%R mK st1 = Ok ((mw, mo), st2) /\
  steady_kr orth2 (cube_steady 2) (fun _ => drock 1) low_half hi_half line_fluids 2 [1 / 4]%R 0 (entry mK) (entry mw).
Proof. exact (cube_case 2 (1 / 4) 0 (or_intror eq_refl) (conj (Z.le_refl 0) eq_refl)). Qed.
Example C204_case : (fl_thr line_fluids <= 1 / 4)%R /\ (forall c, cells_of (cube_steady 2) c -> kr_in line_fluids 0 [1 / 4]%R c = (1 / 4)%R) /\
  forall tot st, zlen tot = 1 -> Forall (fun x => 0 < x)%R tot -> exists r, upscale_total (cube_steady 2) tot st = Ok r.
Proof.
  split; [cbn; lra|]. split; [|intros tot st; apply cube_steady_total; right; reflexivity]. intros c Hc. unfold cells_of in Hc. change (zlen (su_g (cube_steady 2))) with 1 in Hc. assert (c = 0) by lia. subst c. reflexivity.
Qed.
(* five steps allowed: the second changes nothing and ends the run *)
Example C205_case : explicit_run (mkXp 5 (1 / 10)) half_way [1]%R = Ok ([[1 / 2]; [1 / 2]]%R, [1 / 2]%R).
Proof. exact half_run. Qed.
Example C205_manager_case : x_manager (fun _ s p init => Ok (map (fun x => x + p)%R init)) 1 [] [(0, [1; 2]); (1, [3])]%R =
  Ok [mkXrun 0 1 [0] [0 + 1]; mkXrun 0 2 [0 + 1] [0 + 1 + 2]; mkXrun 1 3 [1] [1 + 3]]%R.
Proof. reflexivity. Qed.
Print Assumptions C202_fixed. Print Assumptions C202_periodic. Print Assumptions C202_implicit. Print Assumptions C202_explicit. Print Assumptions C203_fixed. Print Assumptions C203_periodic. Print Assumptions C204_uniform. Print Assumptions C204_exist. Print Assumptions C204_plane. Print Assumptions C204_plane_refuted. Print Assumptions C205_loop. Print Assumptions C205_all_steps. Print Assumptions C205_manager.
