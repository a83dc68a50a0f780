(* Vocabulary of the properties of the simulator framework *)
From Verif Require Export Sim_Model Steady_Spec.
From Coq Require Export Sorted.
Open Scope Z_scope.

(* a point strictly inside a box *)
Definition inside (low high pt : list R) : Prop := forall d, 0 <= d < 3 -> (nthR low d < nthR pt d < nthR high d)%R.
(* a block with three coordinates in each corner *)
Definition block_ok (b : block) : Prop := zlen (bl_low b) = 3 /\ zlen (bl_high b) = 3.
(* cells in the order of iteration with the indices 0, 1, ... *)
Definition cells_ok (cells : list scell) : Prop := forall i c, zget cells i = Some c -> sc_index c = i /\ zlen (sc_centre c) = 3.
(* sum of the entries of a sparse vector for an index *)
Definition entry_sum (inj : list (R * Z)) (i : Z) : R := Rsum (map (fun e => if snd e =? i then fst e else 0%R) inj).
(* the cell has its centre in the block, if there is one *)
Definition in_block (o : option block) (c : scell) : Prop := match o with Some b => inside (bl_low b) (bl_high b) (sc_centre c) | None => False end.
(* density of an optional block *)
Definition density_of (o : option block) : R := match o with Some b => match bl_density b with Some d => d | None => 0%R end | None => 0%R end.
(* usable: complete block, or none *)
Definition usable (o : option block) : Prop := match o with Some b => block_ok b /\ bl_density b <> None | None => True end.
(* the indices of a sparse vector as its interface demands them *)
Definition in_order (inj : list (R * Z)) : Prop := StronglySorted Z.lt (map snd inj).
(* saturation before step i: the initial one or the result of the step before *)
Definition before (init : list R) (out : list (list R * R)) (i : Z) : list R :=
  if i =? 0 then init else match zget out (i - 1) with Some o => fst o | None => [] end.
(* the numbers of a file compared: those before a comment *)
Definition close (abs_tol rel_tol a b : R) : Prop := (Rabs (a - b) <= abs_tol)%R \/ (Rabs (a - b) <= rel_tol * Rmax (Rabs a) (Rabs b))%R \/ (a = 0%R /\ b = 0%R).
Definition comment_word (w : string) : Prop := exists t, w = String "#"%char t.
