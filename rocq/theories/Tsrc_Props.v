From Verif Require Import BaseFacts Tsrc_Model Tsrc_Spec Tsrc_Proofs.
Open Scope Z_scope.

(* C63 *)
Theorem C63_create : forall malloc_ok oks nsrc np h, fresh_heap h -> zlen oks = 5 ->
  exists h' r, create malloc_ok oks nsrc np h = Ok (h', r) /\
    (forall b, b < h_next h -> h_blk h' b = h_blk h b) /\
    (forall s, r = Some s -> represents h' s [] /\ ts_np s = np /\ ts_cpty s = Z.max 0 nsrc) /\
    (r = None -> forall b, h_blk h' b = h_blk h b) /\
    (r = None <-> np <= 0 \/ malloc_ok = false \/ (0 < nsrc /\ In false oks)).
Proof. exact create_ok. Qed.
Print Assumptions C63_create.
Theorem C63_append : forall h s L oks x, represents h s L -> wf_source (ts_np s) x -> zlen oks = 5 ->
  (ts_n s < ts_cpty s \/ ~ In false oks) ->
  exists h' s', append oks (x_cell x) (ts_np s) (x_press x) (x_flux x) (x_sat x) (x_surf x) h s = Ok (h', s', 1) /\
    represents h' s' (L ++ [x]) /\ ts_np s' = ts_np s /\
    ts_cpty s' = (if ts_n s =? ts_cpty s then Z.max 1 (2 * ts_cpty s) else ts_cpty s) /\
    (forall b, b < h_next h -> foreign s b -> h_blk h' b = h_blk h b).
Proof. exact append_gen. Qed.
Print Assumptions C63_append.
Theorem C63_history : forall np xs h s L, represents h s L -> ts_np s = np -> Forall (wf_source np) xs ->
  exists h' s', foldM (fun st x => let* r := append [true; true; true; true; true] (x_cell x) np (x_press x) (x_flux x) (x_sat x) (x_surf x) (fst st) (snd st) in
                     Ok (fst (fst r), snd (fst r))) xs (h, s) = Ok (h', s') /\ represents h' s' (L ++ xs).
Proof. exact history_ok. Qed.
Print Assumptions C63_history.
(* the k-th table holds the values of source j *)
Theorem C63_read : forall h s L j x k i w v, represents h s L -> zget L j = Some x -> zget (widths (ts_np s)) (Z.of_nat k) = Some w -> zget (table k x) i = Some v ->
  exists b c, zget (ts_ptr s) (Z.of_nat k) = Some (Some b) /\ h_blk h b = Some c /\ zget c (j * w + i) = Some (Some v).
Proof. exact read_back. Qed.
Print Assumptions C63_read.
Theorem C63_wrong_phases : forall oks c np p v sat z h s, np <> ts_np s -> append oks c np p v sat z h s = Ok (h, s, -1).
Proof. exact append_wrong. Qed.
Print Assumptions C63_wrong_phases.
Theorem C63_clear : forall h s L, represents h s L -> represents h (clear s) [].
Proof. exact clear_ok. Qed.
Print Assumptions C63_clear.
Theorem C63_destroy : forall h s L, represents h s L ->
  exists h', destroy h s = Ok h' /\ (forall b, In (Some b) (ts_ptr s) -> h_blk h' b = None) /\ (forall b, foreign s b -> h_blk h' b = h_blk h b).
Proof. exact destroy_ok. Qed.
Print Assumptions C63_destroy.
(* a failing allocation in append: harmless if nothing was allocated or all five calls fail; otherwise the
   structure keeps pointers to released tables and destroying it is undefined behaviour *)
Theorem C63_out_of_memory : forall h s L oks x, represents h s L -> zlen oks = 5 -> ts_n s = ts_cpty s -> In false oks ->
  exists h', append oks (x_cell x) (ts_np s) (x_press x) (x_flux x) (x_sat x) (x_surf x) h s = Ok (h', s, 0) /\
    (forall b, foreign s b -> h_blk h' b = h_blk h b) /\
    (ts_cpty s = 0 \/ ~ In true oks -> represents h' s L) /\
    (0 < ts_cpty s -> In true oks -> destroy h' s = UB).
Proof. exact append_fails. Qed.
Print Assumptions C63_out_of_memory.
(* reachable: one table with room for one source, then an append whose last allocation fails *)
Example C63_case : forall a b : R, let h0 := mkHeap 0 (fun _ => None) in let all := [true; true; true; true; true] in
  fresh_heap h0 /\
  exists h1 s1, create true all 1 2 h0 = Ok (h1, Some s1) /\
  exists h2 s2, append all 7 2 a b [a; b] [b; b] h1 s1 = Ok (h2, s2, 1) /\
  exists h3, append [true; true; true; true; false] 8 2 a b [a; b] [b; b] h2 s2 = Ok (h3, s2, 0) /\ destroy h3 s2 = UB.
Proof.
  intros a b. cbv zeta. split; [intros x _; reflexivity|]. eexists _, _. split; [vm_compute; reflexivity|]. eexists _, _. split; [vm_compute; reflexivity|]. eexists. split; vm_compute; reflexivity.
Qed.
