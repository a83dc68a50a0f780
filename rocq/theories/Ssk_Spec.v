(* Vocabulary of the properties of steady state upscaling *)
From Verif Require Export Ssk_Model Tens_Spec Steady_Spec Matx_Spec.
Open Scope Z_scope.

(* an upscaler for a rectangular block without gravity whose cells have the permeabilities Kc, with a linear
   solver that solves exactly when it reports convergence: for all positive mobilities it builds the mimetic
   inner product *)
Definition steady_ok (orth : mat -> mat) (u : ssups) (Kc : Z -> mat) (low hi : Z -> R) : Prop :=
  exact_solver (su_K u) /\ enough_faces (su_g u) (su_nf u) /\ conforming (su_g u) /\
  forall tot, zlen tot = zlen (su_g u) -> Forall (fun x => 0 < x)%R tot ->
    block (su_srt u) (su_g u) (su_geo u) (su_ip u tot) (su_bct u) false low hi /\
    rock_cells orth (su_g u) (su_geo u) Kc (fun k => nthR tot (idx (su_g u) k)) (su_ip u tot).
(* positive viscosities, a positive threshold and a contrast of at least one *)
Definition fluids_ok (fl : fluids) : Prop := (0 < fl_mu fl 0)%R /\ (0 < fl_mu fl 1)%R /\ (0 < fl_thr fl)%R /\ (1 <= fl_contrast fl)%R.
(* a calculation with conditions bct for such a block: K is the upscaled single-phase permeability and kr the relative
   permeability of phase ph computed for the saturations sat *)
Definition steady_kr (orth : mat -> mat) (u : ssups) (Kc : Z -> mat) (low hi : Z -> R) (fl : fluids) (bct : Z) (sat : list R) (ph : Z) (K kr : Z -> Z -> R) : Prop :=
  exists st st' st1 st2 mK mw mo, steady_ok orth u Kc low hi /\ fluids_ok fl /\ su_bct u = bct /\ zlen sat = zlen (su_g u) /\ 0 <= ph < 2 /\
    single_tensor u st = Ok (mK, st') /\ steady_relperms u fl sat mK st1 = Ok ((mw, mo), st2) /\
    K = entry mK /\ kr = entry (if ph =? 0 then mw else mo).
(* the relative permeability of phase ph in cell c *)
Definition kr_in (fl : fluids) (ph : Z) (sat : list R) (c : Z) : R := fl_kr fl ph c (nthR sat c).
Definition cells_of (u : ssups) (c : Z) : Prop := 0 <= c < zlen (su_g u).
(* the diagonal tensor with the same entry everywhere *)
Definition multiple (lam : R) (kr : Z -> Z -> R) : Prop := forall i j, 0 <= i < 3 -> 0 <= j < 3 -> kr i j = (lam * ident i j)%R.
(* the saturations after steps 1, 2, ... : each is what the solver makes of the one before *)
Fixpoint steps_from (tr : xsolver) (done : list (list R)) (sat : list R) (l : list (list R)) : Prop :=
  match l with
  | [] => True
  | s :: t => tr done sat = Ok s /\ steps_from tr (done ++ [s]) s t
  end.
(* the saturations before step i (counted from 0) *)
Definition before_step (sat0 : list R) (l : list (list R)) (i : Z) : list R := if i =? 0 then sat0 else nth (Z.to_nat (i - 1)) l [].
Definition after_step (l : list (list R)) (i : Z) : list R := nth (Z.to_nat i) l [].
(* the runs of the manager with saturation s, in order: the first starts from the uniform saturation, each of
   the others from the result of the one before *)
Fixpoint runs_of (run : list xrun -> R -> R -> list R -> res (list R)) (before : list xrun) (s : R) (init : list R) (pdrops : list R) (rs : list xrun) : Prop :=
  match pdrops, rs with
  | [], [] => True
  | p :: t, r :: u => xr_sat r = s /\ xr_pdrop r = p /\ xr_start r = init /\ run before s p init = Ok (xr_final r) /\ runs_of run (before ++ [r]) s (xr_final r) t u
  | _, _ => False
  end.
