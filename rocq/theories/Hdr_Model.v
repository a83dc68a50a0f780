(* The column names above the table of results of examples/cpchop.cpp (line numbers without a file name), as the words
   between the blanks.  fmti: an int as text; azs: the text of azimuthdisplacement.  The rest of the header (date, host,
   options) is not modelled. *)
From Verif Require Export Drv_Model.
From Coq Require Export String.
Open Scope string_scope.
Open Scope list_scope.
Open Scope Z_scope.

(* 596-607 and 608-616: isPeriodic and isFixed; with upscale exactly one of them is set (249-262) *)
Definition header_upscale (o : opts) : list string :=
  if o_periodic o then
    if o_ntg o then ["porosity"; "netporosity"; "ntg"; "permx"; "permy"; "permz"; "permyz"; "permxz"; "permxy"; "netpermh"]
    else ["porosity"; "permx"; "permy"; "permz"; "permyz"; "permxz"; "permxy"]
  else
    if o_ntg o then ["porosity"; "netporosity"; "ntg"; "permx"; "permy"; "permz"; "netpermh"]
    else ["porosity"; "permx"; "permy"; "permz"].
(* 624-637 *)
Definition header_end (o : opts) : list string :=
  (if o_upscale o then [] else if o_ntg o then ["porosity"; "netporosity"; "ntg"] else ["porosity"]) ++
  ["Swir"; "Swor"] ++
  (if o_cappres o then ["Pc(Swir)"; "Pc2"; "Pc3"; "Pc4"; "Pc(Swor)"] else []).
(* 594-646; the first word is "id" *)
Definition header (fmti : Z -> string) (azs : string) (o : opts) (maxsat : Z) : list string :=
  (if o_upscale o then header_upscale o ++ (if o_swcr o then ["swcr"] else []) ++ (if o_sowcr o then ["sowcr"] else []) else []) ++
  (if o_end o then header_end o else []) ++
  (if o_dips o then ["dip"; ("azim(displacement:" ++ azs ++ ")")%string] else []) ++
  (if o_satvol o then map (fun i => ("satnum_" ++ fmti (i + 1))%string) (zrange 0 maxsat) else []).
