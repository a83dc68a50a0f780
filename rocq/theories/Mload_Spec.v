(* What the theorems about material loading talk about. *)
From Coq Require Export Reals Lra.
From Verif Require Export RBase Lin_Spec Mload_Model.
Open Scope Z_scope.

(* cells: index in the deck and volume. The volume of all cells, and of those with a property *)
Definition all_volume (cells : list (Z * R)) : R := Rsum (map snd cells).
Definition volume_if (P : Z -> bool) (cells : list (Z * R)) : R := Rsum (map (fun c => if P (fst c) then snd c else 0%R) cells).
(* the moduli of deck index k *)
Definition key_at (Emod Poiss : list R) (k : Z) : R * R := (nthR Emod k, nthR Poiss k).
Definition same (a b : R * R) : bool := if Req_EM_T (fst a) (fst b) then if Req_EM_T (snd a) (snd b) then true else false else false.
(* lexicographic order *)
Definition lex (a b : R * R) : Prop := (fst a < fst b \/ (fst a = fst b /\ snd a < snd b))%R.
Fixpoint ascending (l : list (R * R)) : Prop := match l with [] => True | a :: t => (forall b, In b t -> lex a b) /\ ascending t end.
(* the keyword arrays that are used *)
Definition satnums (d : option deck) : list Z := match d with Some d => match dk_satnum d with Some l => l | None => [] end | None => [] end.
Definition densities (d : option deck) : list R := match d with Some d => match dk_rho d with Some l => l | None => [] end | None => [] end.
Definition sat_at (satnum : list Z) (k : Z) : Z := match zget satnum k with Some s => s | None => 0 end.
(* the arrays have entries for a cell, and its region number is positive *)
Definition covered (Emod Poiss : list R) (satnum : list Z) (rho : list R) (c : Z * R) : Prop :=
  0 <= fst c < zlen Emod /\ fst c < zlen Poiss /\ (satnum = [] \/ (fst c < zlen satnum /\ 1 <= sat_at satnum (fst c))) /\ (rho = [] \/ fst c < zlen rho).
(* nonnegative numbers with sum one *)
Definition fractions (l : list R) : Prop := (forall x, In x l -> 0 <= x)%R /\ Rsum l = 1%R.
(* isotropic relations between E, nu and the Lame, shear and bulk moduli *)
Definition lame_of (E nu l g : R) : Prop := (E = 2 * g * (1 + nu) /\ l * (1 - 2 * nu) = 2 * g * nu)%R.
Definition bulk_of (E nu k g : R) : Prop := (E = 2 * g * (1 + nu) /\ E = 3 * k * (1 - 2 * nu))%R.
(* rounding with relative error u *)
Definition rounds (u : R) (fl : R -> R) : Prop := forall x, (Rabs (fl x - x) <= u * Rabs x)%R.
(* the volume of the cells (with these volumes) that carry number j *)
Definition tally (num : list Z) (vols : list R) (j : Z) : R := Rsum (map (fun p => if fst p =? j then snd p else 0%R) (combine num vols)).
(* an isotropic material with its modulus multiplied by a factor *)
Definition stiffer (f : R) (m : material) : material := match m with MIso E nu rho => MIso (E * f) nu rho | _ => m end.
(* all entries of a rock list are isotropic, with a positive modulus *)
Definition isotropic (m : material) : Prop := exists E nu rho, m = MIso E nu rho /\ (0 < E)%R.
Definition young (m : material) : R := match m with MIso E _ _ => E | _ => 0%R end.
