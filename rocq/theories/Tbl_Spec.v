(* What the columns of the result tables are supposed to contain, by name. *)
From Verif Require Export Tbl_Model Cap_Spec Visc_Spec.
Open Scope string_scope.
Open Scope list_scope.
Open Scope Z_scope.

Definition axis_letter (a : Z) : string := nth (Z.to_nat a) ["x"; "y"; "z"] "".
(* a number stands under the name of the independent variable, of the saturation, or of the element
   (a, b) of a tensor f; names of elements are a symbol and two letters *)
Inductive announced (first symbol : string) (p s : R) (f : Z -> Z -> R) : string -> R -> Prop :=
| An_first : announced first symbol p s f first p
| An_sat : announced first symbol p s f "Sw" s
| An_element a b : 0 <= a < 3 -> 0 <= b < 3 -> announced first symbol p s f (symbol ++ axis_letter a ++ axis_letter b) (f a b).
Definition phase_symbol (ph : Z) : string := if ph =? 0 then "Krw" else "Kro".
(* the results of a pressure point: water saturation and the tensor whose elements are printed *)
Definition point_tensor (x : cin) (l : limits) (a : archie) (ecl : list Z) (up inv : upscaling) (p s : R) (r : list R) : Prop :=
  exists w g k, cond_cells x l a ecl p = Ok (w, g) /\ mdiv w (li_pore l) = Ok s /\ up g = Ok k /\ inv k = Ok r.
(* a case: unit single phase tensor and two flow ratios *)
Definition ex_ident : list R := [1; 0; 0; 0; 1; 0; 0; 0; 1]%R.
Definition ex_two : arrays := mkArr [(1 / 4)%R; (1 / 2)%R] [[1; 1; 1]%R; [2; 2; 2]%R] [[1; 1; 1]%R; [2; 2; 2]%R].
(* the part of an upscaled tensor that is kept: its diagonal, or all of it *)
Definition kept (tec : Z) (k : list R) (r c : Z) : R := if (tec =? 9) || (r =? c) then tensor_of k r c else 0%R.
