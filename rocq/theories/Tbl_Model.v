(* The lines of column names above the result tables of upscale_cond and upscale_relpermvisc.
   The names are taken without the number sign and the spaces between them. *)
From Verif Require Export Cap_Model Visc_Model.
Open Scope string_scope.
Open Scope list_scope.
Open Scope Z_scope.

(* upscale_cond.cpp:1061-1069; [bc] is the option bc, whose first letter sets isFixed, isLinear and
   isPeriodic (270-284); no line is written if none is set *)
Definition cond_header (bc : string) : list string :=
  match bc with
  | String "f" _ => ["Pc (Pa)"; "Sw"; "Rxx"; "Ryy"; "Rzz"]
  | String "l" _ => ["Pc (Pa)"; "Sw"; "Rxx"; "Ryy"; "Rzz"; "Ryz"; "Rxz"; "Rxy"; "Rzy"; "Rzx"; "Ryx"]
  | String "p" _ => ["Pc (Pa)"; "Sw"; "Rxx"; "Ryy"; "Rzz"; "Ryz"; "Rxz"; "Rxy"; "Rzy"; "Rzx"; "Ryx"]
  | _ => []
  end.
(* upscale_relpermvisc.cpp:1594-1605; phase 0 is water (outwatertmp), phase 1 oil (outoiltmp) *)
Definition visc_header (bc : string) (ph : Z) : list string :=
  match bc with
  | String "f" _ =>
      if ph =? 0 then ["v_w/v_o"; "Sw"; "Krwxx"; "Krwyy"; "Krwzz"]
      else ["v_w/v_o"; "Sw"; "Kroxx"; "Kroyy"; "Krozz"]
  | String "l" _ =>
      if ph =? 0 then ["v_w/v_o"; "Sw"; "Krwxx"; "Krwyy"; "Krwzz"; "Krwyz"; "Krwxz"; "Krwxy"; "Krwzy"; "Krwzx"; "Krwyx"]
      else ["v_w/v_o"; "Sw"; "Kroxx"; "Kroyy"; "Krozz"; "Kroyz"; "Kroxz"; "Kroxy"; "Krozy"; "Krozx"; "Kroyx"]
  | String "p" _ =>
      if ph =? 0 then ["v_w/v_o"; "Sw"; "Krwxx"; "Krwyy"; "Krwzz"; "Krwyz"; "Krwxz"; "Krwxy"; "Krwzy"; "Krwzx"; "Krwyx"]
      else ["v_w/v_o"; "Sw"; "Kroxx"; "Kroyy"; "Krozz"; "Kroyz"; "Kroxz"; "Kroxy"; "Krozy"; "Krozx"; "Kroyx"]
  | _ => []
  end.
