(* opm/upscaling/CornerpointChopper.hpp: the output of a chopper, writeGrdecl and subDeck. *)
From Coq Require Export String Ascii.
From Verif Require Export Chop_Model.
Open Scope Z_scope.

(* what the chopper reads: the grid and the per-cell keywords that the file has (raw values, not converted) *)
(* CornerpointChopper.hpp:42-63, 428-442 *)
Record cdeck := mkDeck { dk_grid : grid; dk_actnum : option (list Z); dk_poro : option (list R); dk_ntg : option (list R); dk_swcr : option (list R);
  dk_sowcr : option (list R); dk_permx : option (list R); dk_permy : option (list R); dk_permz : option (list R); dk_satnum : option (list Z) }.
(* the members new_... of a chopper *)
(* CornerpointChopper.hpp:326-347 *)
Record members := mkMem { m_nx : Z; m_ny : Z; m_nz : Z; m_coord : list R; m_zcorn : list R; m_actnum : list Z; m_poro : list R; m_ntg : list R; m_swcr : list R;
  m_sowcr : list R; m_permx : list R; m_permy : list R; m_permz : list R; m_satnum : list Z }.
(* chop with the filters; a fresh chopper *)
(* CornerpointChopper.hpp:137-252 *)
Definition chop_deck (d : cdeck) (imin imax jmin jmax : Z) (zmin zmax : R) (reset : bool) : res members :=
  let* c := chop (dk_grid d) imin imax jmin jmax zmin zmax reset in
  let* actnum := filter_keyword (dk_actnum d) (c_map c) in
  let* poro := filter_keyword (dk_poro d) (c_map c) in
  let* ntg := filter_keyword (dk_ntg d) (c_map c) in
  let* swcr := filter_keyword (dk_swcr d) (c_map c) in
  let* sowcr := filter_keyword (dk_sowcr d) (c_map c) in
  let* permx := filter_keyword (dk_permx d) (c_map c) in
  let* permy := filter_keyword (dk_permy d) (c_map c) in
  let* permz := filter_keyword (dk_permz d) (c_map c) in
  let* satnum := filter_keyword (dk_satnum d) (c_map c) in
  Ok (mkMem (c_nx c) (c_ny c) (c_nz c) (c_coord c) (c_zcorn c) actnum poro ntg swcr sowcr permx permy permz satnum).

(* ------- text output *)
(* CornerpointChopper.hpp:393-414 *)
Definition LF : ascii := "010"%char.
(* the loop of outputField from index i on; the values are already formatted *)
(* CornerpointChopper.hpp:405-408 *)
Fixpoint output_values (nl i : Z) (vals : list string) : string :=
  match vals with
  | [] => ""
  | v :: t => v ++ String (if (i + 1) mod nl =? 0 then LF else " "%char) (output_values nl (i + 1) t)
  end.
(* CornerpointChopper.hpp:393-414 outputField *)
Definition output_field (nl : Z) (keyword : string) (vals : list string) : string :=
  match vals with
  | [] => ""
  | _ => keyword ++ String LF (output_values nl 0 vals ++ (if negb (zlen vals mod nl =? 0) then String LF "" else "") ++ "/" ++ String LF (String LF ""))
  end.
(* fmt: a double with 15 digits in scientific format; fmti: an int.  The file could be opened. *)
(* CornerpointChopper.hpp:300-323 writeGrdecl *)
Definition write_grdecl (fmt : R -> string) (fmti : Z -> string) (m : members) : string :=
  "SPECGRID" ++ String LF (fmti (m_nx m) ++ " " ++ fmti (m_ny m) ++ " " ++ fmti (m_nz m) ++ " 1 F" ++ String LF ("/" ++ String LF (String LF
  (output_field 3 "COORD" (map fmt (m_coord m)) ++
   output_field 4 "ZCORN" (map fmt (m_zcorn m)) ++
   output_field 20 "ACTNUM" (map fmti (m_actnum m)) ++
   output_field 4 "PORO" (map fmt (m_poro m)) ++
   (if negb (zlen (m_ntg m) =? 0) then output_field 4 "NTG" (map fmt (m_ntg m)) else "") ++
   (if negb (zlen (m_swcr m) =? 0) then output_field 4 "SWCR" (map fmt (m_swcr m)) else "") ++
   (if negb (zlen (m_sowcr m) =? 0) then output_field 4 "SOWCR" (map fmt (m_sowcr m)) else "") ++
   output_field 4 "PERMX" (map fmt (m_permx m)) ++
   output_field 4 "PERMY" (map fmt (m_permy m)) ++
   output_field 4 "PERMZ" (map fmt (m_permz m)) ++
   output_field 20 "SATNUM" (map fmti (m_satnum m)))))).

(* ------- deck output *)
(* dimensions of the unit system of opm-common *)
(* CornerpointChopper.hpp:281-291 *)
Inductive dimension := DLength | DOne | DPermeability.
(* the data of a keyword: SPECGRID, raw doubles with their dimension (default and active alike), ints *)
(* CornerpointChopper.hpp:255-293, 350-390 *)
Inductive kdata :=
| KGrid (nx ny nz numres : Z) (coord_type : string)
| KReals (dim : dimension) (raw : list R)
| KInts (l : list Z).
(* CornerpointChopper.hpp:255-293 *)
Definition deck := list (string * kdata).
(* CornerpointChopper.hpp:350-372 addDoubleKeyword_ *)
Definition add_double (d : deck) (kw : string) (dim : dimension) (data : list R) : deck :=
  match data with [] => d | _ => d ++ [(kw, KReals dim data)] end.
(* CornerpointChopper.hpp:374-391 addIntKeyword_ *)
Definition add_int (d : deck) (kw : string) (data : list Z) : deck :=
  match data with [] => d | _ => d ++ [(kw, KInts data)] end.
(* CornerpointChopper.hpp:255-294 subDeck *)
Definition sub_deck (m : members) : deck :=
  let d := [("SPECGRID"%string, KGrid (m_nx m) (m_ny m) (m_nz m) 1 "F")] in
  let d := add_double d "COORD" DLength (m_coord m) in
  let d := add_double d "ZCORN" DLength (m_zcorn m) in
  let d := add_int d "ACTNUM" (m_actnum m) in
  let d := add_double d "PORO" DOne (m_poro m) in
  let d := add_double d "NTG" DOne (m_ntg m) in
  let d := add_double d "SWCR" DOne (m_swcr m) in
  let d := add_double d "SOWCR" DOne (m_sowcr m) in
  let d := add_double d "PERMX" DPermeability (m_permx m) in
  let d := add_double d "PERMY" DPermeability (m_permy m) in
  let d := add_double d "PERMZ" DPermeability (m_permz m) in
  add_int d "SATNUM" (m_satnum m).
(* the SI factors of the unit systems of opm-common: METRIC, FIELD, LAB; permeabilities are in mD in all of them *)
(* CornerpointChopper.hpp:45, 357-361 *)
Inductive units := Metric | Field | Lab.
(* CornerpointChopper.hpp:45, 357-361 *)
Definition factor (u : units) (d : dimension) : R :=
  match d, u with
  | DOne, _ => 1
  | DPermeability, _ => 9.869232667160130e-16
  | DLength, Metric => 1
  | DLength, Field => 0.3048
  | DLength, Lab => 0.01
  end%R.
(* what a reader of the sub-deck gets: the metric factor is attached to the raw values *)
(* CornerpointChopper.hpp:357-361 *)
Definition si_data (k : kdata) : list R := match k with KReals d l => map (fun x => factor Metric d * x)%R l | _ => [] end.
