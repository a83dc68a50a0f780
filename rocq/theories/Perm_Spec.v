(* Vocabulary of the properties of upscale_perm *)
From Verif Require Export Perm_Model Cap_Spec.
Open Scope Z_scope.

(* a letter occurs in a string *)
Definition letter_in (c : ascii) (s : string) : Prop := exists i, String.get i s = Some c.
(* the options with a known name *)
Definition known_b (o : optmap) (kv : string * string) : bool := match o (fst kv) with Some _ => true | None => false end.
Definition known_ones (o : optmap) (kvs : list (string * string)) : list (string * string) := filter (known_b o) kvs.
(* upscaler objects as a run for one type alone would have them: grid not clipped with fixed conditions, clipped
   with linear ones, clipped and extended with periodic ones *)
Definition alone (t : Z) : ubase := init_deck t.
(* a tensor in milli darcy *)
Definition in_md (md : R) (k : list R) : list R := map (fun x => x / md)%R k.
(* complete grid description *)
Definition has_grid (d : pdeck) : Prop := pd_specgrid d = true /\ pd_coord d = true /\ pd_zcorn d = true.
