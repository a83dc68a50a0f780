From Verif Require Import Hnum_Spec Hnum_Proofs2.
Open Scope Z_scope.

(* C70: enumerateGridDof on a conforming grid numbers the faces one to one with 0 .. total-1, interior
   faces first, and records the visiting position of every cell and the largest number of faces *)
Theorem C70_numbering : forall g, conforming g -> counts_agree g -> exists nm, enumerate_grid g = Ok nm /\
  (forall k, 0 <= k < zlen g -> zget (nm_cell nm) (idx g k) = Some k) /\
  (forall k, 0 <= k < zlen g -> exists row, zget (nm_cf nm) k = Some row /\ zlen row = nfaces g k) /\ zlen (nm_cf nm) = zlen g /\ most_faces g (nm_max nm) /\
  numbers g (entry_of (nm_cf nm)) (nm_internal nm) (nm_total nm).
Proof. exact numbering_ok. Qed.
(* the face counts are looked up correctly when cells are visited in index order *)
Theorem C70_in_order : forall g, in_order g -> counts_agree g.
Proof. exact in_order_counts. Qed.
(* a conforming grid visited in another order makes enumerateGridDof write outside its arrays *)
Theorem C70_order_refuted : exists g, conforming g /\ enumerate_grid g = UB.
Proof. exact swapped_refuted. Qed.
(* the face indices of the grid interface are such a numbering for every visiting order *)
Theorem C70_interface : forall g, conforming g -> exists tbl total mx, build_face_indices g = Ok (tbl, total, mx) /\
  zlen tbl = zlen g /\ (forall k, 0 <= k < zlen g -> exists row, zget tbl (idx g k) = Some row /\ zlen row = nfaces g k) /\ most_faces g mx /\
  exists internal, numbers g (fun k r => entry_of tbl (idx g k) r) internal total.
Proof. exact interface_ok. Qed.
(* both give the same numbers *)
Theorem C70_same : forall g nm tbl total mx, conforming g -> counts_agree g -> enumerate_grid g = Ok nm -> build_face_indices g = Ok (tbl, total, mx) ->
  total = nm_total nm /\ forall k r, half g k r -> entry_of tbl (idx g k) r = entry_of (nm_cf nm) k r.
Proof. exact same_numbers. Qed.
(* topologyIsSane accepts exactly the grids in which no cell has two faces towards the same neighbour *)
Theorem C70_sane : forall g, topology_is_sane g = true <->
  forall k r r' c, half g k r -> half g k r' -> nbr g k r = Some c -> nbr g k r' = Some c -> r = r'.
Proof. exact sane_ok. Qed.
Example C70_case : conforming row3 /\ in_order row3 /\ enumerate_grid row3 = Ok (mkNum [0; 1; 2] [[2; 0]; [0; 1]; [1; 3]] 2 4 2).
Proof. exact row3_ok. Qed.
Print Assumptions C70_numbering. Print Assumptions C70_in_order. Print Assumptions C70_order_refuted. Print Assumptions C70_interface. Print Assumptions C70_same. Print Assumptions C70_sane.
