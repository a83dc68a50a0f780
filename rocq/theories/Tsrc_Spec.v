From Verif Require Export Tsrc_Model.
Open Scope Z_scope.

(* an explicit source as passed to append *)
Record source := mkSource { x_cell : Z; x_press : R; x_flux : R; x_sat : list R; x_surf : list R }.
Definition wf_source (np : Z) (x : source) : Prop := zlen (x_sat x) = np /\ zlen (x_surf x) = np.
(* what the five tables hold for a list of sources *)
Definition table (k : nat) (x : source) : list tval :=
  match k with
  | O => [TI (x_cell x)] | 1%nat => [TD (x_press x)] | 2%nat => [TD (x_flux x)]
  | 3%nat => map TD (x_sat x) | _ => map TD (x_surf x)
  end.
Definition tables (L : list source) : list (list tval) := map (fun k => flat_map (table k) L) [0; 1; 2; 3; 4]%nat.

(* the block b is allocated, has room for n elements and starts with vs *)
Definition holds (h : heap) (n : Z) (b : Z) (vs : list tval) : Prop :=
  exists rest, h_blk h b = Some (map Some vs ++ rest) /\ zlen (map Some vs ++ rest) = n.
Definition fresh_heap (h : heap) : Prop := forall b, h_next h <= b -> h_blk h b = None.
(* the structure s in heap h represents the list of sources L *)
Definition represents (h : heap) (s : tsrc) (L : list source) : Prop :=
  fresh_heap h /\ 0 < ts_np s /\ ts_n s = zlen L /\ zlen L <= ts_cpty s /\ Forall (wf_source (ts_np s)) L /\
  ((ts_cpty s = 0 /\ ts_ptr s = [None; None; None; None; None]) \/
   (0 < ts_cpty s /\ exists ids, ts_ptr s = map Some ids /\ NoDup ids /\
      Forall2 (fun b wv => holds h (ts_cpty s * fst wv) b (snd wv)) ids (combine (widths (ts_np s)) (tables L)))).
(* blocks that s does not own *)
Definition foreign (s : tsrc) (b : Z) : Prop := ~ In (Some b) (ts_ptr s).
