(* Vocabulary for GRDECL text. *)
From Coq Require Export DecimalString.
From Verif Require Export Grd_Model Chop_Spec.
Open Scope Z_scope.
Open Scope string_scope.

(* the parts of a text between separators *)
Fixpoint split (sep : ascii -> bool) (s : string) : list string :=
  match s with
  | "" => [""]
  | String c t => if sep c then "" :: split sep t else match split sep t with [] => [String c ""] | h :: r => String c h :: r end
  end.
Definition newline (c : ascii) : bool := Ascii.eqb c "010"%char.
Definition blank (c : ascii) : bool := Ascii.eqb c "010"%char || Ascii.eqb c " "%char.
Definition lines (s : string) : list string := split newline s.
Definition words (s : string) : list string := filter (fun w => negb (String.eqb w "")) (split blank s).
(* reading keywords: a name, its data, a slash *)
Fixpoint keywords (cur : option (string * list string)) (ws : list string) : list (string * list string) :=
  match ws, cur with
  | [], None => []
  | [], Some c => [c]
  | w :: t, None => keywords (Some (w, [])) t
  | w :: t, Some (k, d) => if String.eqb w "/" then (k, d) :: keywords None t else keywords (Some (k, d ++ [w])) t
  end%list.
(* a number as text: not empty, no blanks, no slash alone *)
Fixpoint no_blank (s : string) : Prop := match s with "" => True | String c t => blank c = false /\ no_blank t end.
Definition plain (s : string) : Prop := s <> "" /\ s <> "/" /\ no_blank s.
(* the data of a keyword in text form *)
Definition tokens (fmt : R -> string) (fmti : Z -> string) (k : kdata) : list string :=
  match k with
  | KGrid nx ny nz nr ct => [fmti nx; fmti ny; fmti nz; fmti nr; ct]
  | KReals _ l => map fmt l
  | KInts l => map fmti l
  end.
(* f' is the part of f that belongs to the block *)
Definition block_of {A} (d : cdeck) (imin jmin kmin nx ny nz : Z) (f f' : list A) : Prop :=
  zlen f' = nx * ny * nz /\
  forall i j k, 0 <= i < nx -> 0 <= j < ny -> 0 <= k < nz ->
    exists v, zget f' (cell_no nx ny i j k) = Some v /\ zget f (cell_no (g_nx (dk_grid d)) (g_ny (dk_grid d)) (i + imin) (j + jmin) (k + kmin)) = Some v.
(* the keywords with one value per cell *)
Definition real_fields : list (string * dimension * (cdeck -> option (list R))) :=
  [("PORO", DOne, dk_poro); ("NTG", DOne, dk_ntg); ("SWCR", DOne, dk_swcr); ("SOWCR", DOne, dk_sowcr);
   ("PERMX", DPermeability, dk_permx); ("PERMY", DPermeability, dk_permy); ("PERMZ", DPermeability, dk_permz)].
Definition int_fields : list (string * (cdeck -> option (list Z))) := [("ACTNUM", dk_actnum); ("SATNUM", dk_satnum)].
Definition sized (d : cdeck) : Prop :=
  let n := g_nx (dk_grid d) * g_ny (dk_grid d) * g_nz (dk_grid d) in
  (forall kw dim get f, In (kw, dim, get) real_fields -> get d = Some f -> zlen f = n) /\ (forall kw get f, In (kw, get) int_fields -> get d = Some f -> zlen f = n).
(* number of characters *)
Definition width (s : string) : Z := Z.of_nat (String.length s).
(* whole numbers in decimal digits *)
Definition digits (z : Z) : string := DecimalString.NilZero.string_of_int (Z.to_int z).
