From Verif Require Import Elm_Proofs Elm_Proofs2 Elast_Proofs10 Elm_Spec.
Open Scope Z_scope.

(* C209: stiffer materials give a stiffer block, and the stiffness has the unit of the materials *)
Theorem C209_order : forall nodes cells cells' M F s k Cm Cm' Escale Emin Escale' Emin' sig tau, upscaled nodes cells M F s Cm Escale Emin sig -> upscaled nodes cells' M F s Cm' Escale' Emin' tau ->
  softer k Cm Cm' cells cells' -> nonneg cells -> (forall c, In c cells -> psd 6 (Cm c)) -> forall x, (quad 6 sig x * factor Escale Emin <= k * (quad 6 tau x * factor Escale' Emin'))%R.
Proof. exact Elm_Proofs.stiffness_order. Qed.
Theorem C209_scaled : forall nodes cells cells' M F s k Cm Cm' Escale Emin Escale' Emin' sig tau, upscaled nodes cells M F s Cm Escale Emin sig -> upscaled nodes cells' M F s Cm' Escale' Emin' tau -> (0 < k)%R ->
  Forall2 (fun c c' => same_shape c c' /\ same 6 (Cm' c') (fun i j => k * Cm c i j)%R) cells cells' -> nonneg cells -> (forall c, In c cells -> psd 6 (Cm c)) ->
  forall i j, 0 <= i < 6 -> 0 <= j < 6 -> (tau i j * factor Escale' Emin' = k * (sig i j * factor Escale Emin))%R.
Proof. exact Elm_Proofs.stiffness_scaled. Qed.

(* C210: blocks whose displacements have no mean strain *)
Theorem C210_lower : forall nodes cells M F s Cm Km Escale Emin sig, upscaled nodes cells M F s Cm Escale Emin sig -> nonneg cells -> mean_free s cells -> (forall c, In c cells -> psd 6 (Cm c) /\ inverses 6 (Cm c) (Km c)) ->
  forall x y, (2 * dot 6 x y - quad 6 (mean Km cells) y <= quad 6 sig x * factor Escale Emin)%R.
Proof. exact Elm_Proofs.stiffness_lower. Qed.
Theorem C210_harmonic : forall nodes cells M F s Cm Km H0 Escale Emin sig, upscaled nodes cells M F s Cm Escale Emin sig -> nonneg cells -> mean_free s cells -> (forall c, In c cells -> psd 6 (Cm c) /\ inverses 6 (Cm c) (Km c)) ->
  inverses 6 (mean Km cells) H0 -> forall x, (quad 6 H0 x <= quad 6 sig x * factor Escale Emin)%R.
Proof. exact Elm_Proofs.stiffness_harmonic. Qed.
Theorem C210_positive : forall nodes cells M F s Cm Km Escale Emin sig, upscaled nodes cells M F s Cm Escale Emin sig -> nonneg cells -> mean_free s cells -> (forall c, In c cells -> psd 6 (Cm c) /\ inverses 6 (Cm c) (Km c)) ->
  (0 < factor Escale Emin)%R -> pos_def 6 sig.
Proof. exact Elm_Proofs.stiffness_positive. Qed.
Theorem C210_uniform : forall nodes cells M F s Cm C Escale Emin sig, upscaled nodes cells M F s Cm Escale Emin sig -> nonneg cells -> mean_free s cells -> symmetric 6 C -> psd 6 C -> (forall c, In c cells -> same 6 (Cm c) C) ->
  forall i j, 0 <= i < 6 -> 0 <= j < 6 -> (sig i j * factor Escale Emin)%R = C i j.
Proof. exact Elm_Proofs.stiffness_uniform. Qed.

(* two layers with different moduli between a bottom and a top that do not move, the middle moving as a whole *)
Example C209_case : exists s sig, let cells := lay_cells (MIso 1 0 1) (MIso 3 0 1) in upscaled 12 cells lay_M lay_F s ex_C 0 1 sig /\ nonneg cells /\ mean_free s cells /\
  forall c, In c cells -> psd 6 (ex_C c) /\ inverses 6 (ex_C c) (lay_K c).
Proof. exact (lay_case 1 3 Rlt_0_1 (IZR_lt 0 3 eq_refl)). Qed.
Print Assumptions C209_order. Print Assumptions C209_scaled. Print Assumptions C210_lower. Print Assumptions C210_harmonic. Print Assumptions C210_positive. Print Assumptions C210_uniform.
