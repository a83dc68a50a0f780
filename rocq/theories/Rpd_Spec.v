(* Vocabulary of the properties of upscale_relperm *)
From Verif Require Export Rpd_Model Cap_Spec Visc_Spec.
Open Scope string_scope.
Open Scope list_scope.
Open Scope Z_scope.

(* the file of a rock type: its own, or the only one *)
Definition file_for (files : list string) (stones i : Z) : option string := if zlen files =? stones then zget files i else zget files 0.
(* the columns (abscissa, ordinate) of the curve of a direction and phase *)
Definition column_of (aniso both : bool) (kcol d p : Z) : option (Z * Z) :=
  if aniso then
    if (0 <=? d) && (d <? 3) then if p =? 0 then Some (2, 3 + d) else if (p =? 1) && both then Some (2, 6 + d) else None else None
  else
    if d =? 0 then if p =? 0 then Some (1, if both then 2 else kcol) else if (p =? 1) && both then Some (1, 3) else None else None.
(* those of the curve to be inverted *)
Definition inverted_column (aniso : bool) (jcol : Z) : Z * Z := if aniso then (2, 1) else (1, jcol).

(* tables of tec columns with n values *)
Definition columns_fit (tec n : Z) (cols : list (list R)) : Prop := zlen cols = tec /\ forall c, In c cols -> zlen c = n.
(* number of phases *)
Definition phase_count (both : bool) : Z := if both then 2 else 1.
(* entry of the columns of a phase *)
Definition value_at (kr : list (list (list R))) (ph v i : Z) : R :=
  match zget kr ph with Some cols => match zget cols v with Some col => nthR col i | None => 0%R end | None => 0%R end.
(* name of an element of the tensor of a phase *)
Definition axis (r : Z) : string := if r =? 0 then "x" else if r =? 1 then "y" else "z".
Definition phase_letter (ow both : bool) (ph : Z) : string := if both then if ph =? 0 then if ow then "w" else "g" else "o" else "".
Definition element_name (ow both : bool) (ph v : Z) : string := ("Kr" ++ phase_letter ow both ph ++ axis (element_row v) ++ axis (element_col v))%string.
(* a string without a dot *)
Fixpoint no_dot (s : string) : Prop := match s with EmptyString => True | String c t => c <> "."%char /\ no_dot t end.
(* rows of the ECLIPSE file of a component from those of the result table: saturation, the diagonal
   elements of the two phases and the pressure in another unit *)
Definition eclipse_table (krow : R) (tec c : Z) (rows : list (list R)) : list (list R) :=
  (if Rlt_dec 0 krow then [[0; 0; krow; 0]%R] else []) ++ map (fun row => [nthR row 1; nthR row (2 + c); nthR row (2 + tec + c); (nthR row 0 / 100000)%R]) rows.
