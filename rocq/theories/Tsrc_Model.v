(* Model of opm/core/transport/implicit/transport_source.c: the growing tables of explicit
   transport sources, on an explicit heap. *)
From Verif Require Export RBase.
Open Scope Z_scope.

(* values in the tables: int or double *)
(* transport_source.h:49-53 *)
Inductive tval := TI (z : Z) | TD (x : R).
(* the heap: allocated blocks with their (possibly uninitialised) contents; ids from h_next on
   are unused *)
(* the C heap used by transport_source.c:51-61, 123-128 *)
Record heap := mkHeap { h_next : Z; h_blk : Z -> option (list (option tval)) }.
(* change of one block, transport_source.c:51-61, 123-128 *)
Definition hput (h : heap) (b : Z) (c : option (list (option tval))) : heap :=
  mkHeap (h_next h) (fun x => if x =? b then c else h_blk h x).
(* realloc(p, n elements) (C standard 7.22.3.5), ok: whether the allocation succeeds; releasing a
   dead block is undefined behaviour.  Element counts are unbounded: the overflow of
   alloc * nphase * sizeof is not modelled *)
Definition hrealloc (h : heap) (p : option Z) (n : Z) (ok : bool) : res (heap * option Z) :=
  let fresh (h : heap) (c : list (option tval)) :=
    (mkHeap (h_next h + 1) (fun x => if x =? h_next h then Some c else h_blk h x), Some (h_next h)) in
  match p with
  | None => Ok (if ok then fresh h (zrepeat None n) else (h, None))
  | Some b => match h_blk h b with
              | None => UB
              | Some c => Ok (if ok then fresh (hput h b None) (firstn (Z.to_nat n) c ++ zrepeat None (n - zlen c)) else (h, None))
              end
  end.
(* free(p) *)
(* transport_source.c:61, 123-128 *)
Definition hfree (h : heap) (p : option Z) : res heap :=
  match p with
  | None => Ok h
  | Some b => match h_blk h b with None => UB | Some _ => Ok (hput h b None) end
  end.
(* p[i] = v *)
(* transport_source.c:157-159 *)
Definition hstore (h : heap) (p : option Z) (i : Z) (v : tval) : res heap :=
  match p with
  | None => UB
  | Some b => match h_blk h b with
              | None => UB
              | Some c => let* c' := rset c i (Some v) in Ok (hput h b (Some c'))
              end
  end.

(* transport_source.h struct TransportSource: nsrc, cpty, nphase and the five table pointers in
   the order cell, pressure, flux, saturation, surfvolume *)
(* transport_source.h:43-54 *)
Record tsrc := mkTsrc { ts_n : Z; ts_cpty : Z; ts_np : Z; ts_ptr : list (option Z) }.
(* number of elements per source in the five tables (transport_source.c:51-55) *)
Definition widths (np : Z) : list Z := [1; 1; 1; np; np].
(* the five calls in lines 51-55, in order *)
Fixpoint realloc_all (h : heap) (alloc : Z) (l : list (option Z * (Z * bool))) : res (heap * list (option Z)) :=
  match l with
  | [] => Ok (h, [])
  | (p, (w, ok)) :: t =>
      let* r := hrealloc h p (alloc * w) ok in
      let* r' := realloc_all (fst r) alloc t in
      Ok (fst r', snd r :: snd r')
  end.
(* transport_source.c:61, 123-125 *)
Definition free_all (h : heap) (l : list (option Z)) : res heap := foldM hfree l h.
(* transport_source.c:57-59 *)
Definition is_null (p : option Z) : bool := match p with None => true | Some _ => false end.
(* transport_source.c:43-71 expand_source_tables; oks: outcome of the five allocations *)
Definition expand (oks : list bool) (alloc : Z) (h : heap) (s : tsrc) : res (heap * tsrc * Z) :=
  let* r := realloc_all h alloc (combine (ts_ptr s) (combine (widths (ts_np s)) oks)) in
  if existsb is_null (snd r) then
    let* h' := free_all (fst r) (rev (snd r)) in
    Ok (h', s, 0)
  else Ok (fst r, mkTsrc (ts_n s) alloc (ts_np s) (snd r), alloc).
(* transport_source.c:118-130 destroy_transport_source; the block of the structure itself is not
   modelled *)
Definition destroy (h : heap) (s : tsrc) : res heap := free_all h (rev (ts_ptr s)).
(* transport_source.c:80-114 create_transport_source; None: NULL.  malloc_ok: outcome of the
   malloc of the structure *)
Definition create (malloc_ok : bool) (oks : list bool) (nsrc np : Z) (h : heap) : res (heap * option tsrc) :=
  if np <=? 0 then Ok (h, None)
  else if malloc_ok then
    let s := mkTsrc 0 0 np (zrepeat None 5) in
    let* r := (if 0 <? nsrc then expand oks nsrc h s else Ok (h, s, 1)) in
    if snd r <=? 0 then let* h' := destroy (fst (fst r)) (snd (fst r)) in Ok (h', None)
    else Ok (fst (fst r), Some (snd (fst r)))
  else Ok (h, None).
(* p[off+i] = v[i] *)
(* transport_source.c:157-166 *)
Fixpoint store_block (h : heap) (p : option Z) (off : Z) (v : list tval) : res heap :=
  match v with
  | [] => Ok h
  | x :: t => let* h' := hstore h p off x in store_block h' p (off + 1) t
  end.
(* the stores of lines 156-166: width, pointer and values of every table *)
Fixpoint store_all (h : heap) (n : Z) (l : list (option Z * (Z * list tval))) : res heap :=
  match l with
  | [] => Ok h
  | (p, (w, v)) :: t => let* h' := store_block h p (n * w) v in store_all h' n t
  end.
(* the values of one source in the five tables; sat and z: the nphase values copied by memcpy *)
(* transport_source.c:157-166 *)
Definition rows (c : Z) (p v : R) (sat z : list R) : list (list tval) :=
  [[TI c]; [TD p]; [TD v]; map TD sat; map TD z].
(* transport_source.c:134-173 append_transport_source; sat and z shorter than nphase would be
   read past their end *)
Definition append (oks : list bool) (c np : Z) (p v : R) (sat z : list R) (h : heap) (s : tsrc) : res (heap * tsrc * Z) :=
  if negb (np =? ts_np s) then Ok (h, s, -1)
  else
    let* r := (if ts_n s =? ts_cpty s then expand oks (if 0 <? ts_cpty s then 2 * ts_cpty s else 1) h s else Ok (h, s, 1)) in
    if 0 <? snd r then
      if (zlen sat <? np) || (zlen z <? np) then UB
      else
        let s' := snd (fst r) in
        let* h' := store_all (fst (fst r)) (ts_n s')
                     (combine (ts_ptr s') (combine (widths np) (rows c p v (firstn (Z.to_nat np) sat) (firstn (Z.to_nat np) z)))) in
        Ok (h', mkTsrc (ts_n s' + 1) (ts_cpty s') (ts_np s') (ts_ptr s'), 1)
    else Ok (fst (fst r), snd (fst r), 0).
(* transport_source.c:174-180 clear_transport_source *)
Definition clear (s : tsrc) : tsrc := mkTsrc 0 (ts_cpty s) (ts_np s) (ts_ptr s).
