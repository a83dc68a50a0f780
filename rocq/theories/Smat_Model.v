(* Sparse matrices: the ISTL BCRSMatrix<FieldMatrix<double,1,1>> as far as opm/elasticity uses it, and
   opm/elasticity/matrixops.cpp. *)
From Verif Require Export RBase.
Open Scope Z_scope.

(* matrixops.hpp:31 Matrix: N() rows, M() columns and for every row the stored columns in increasing
   order with their values *)
Record smat := mkSmat { sm_n : Z; sm_m : Z; sm_rows : list (list (Z * R)) }.
(* matrixops.hpp:34 std::set<int>, insert: increasing list *)
Fixpoint set_insert (x : Z) (l : list Z) : list Z :=
  match l with
  | [] => [x]
  | h :: t => if x <? h then x :: h :: t else if h <? x then h :: set_insert x t else h :: t
  end.
(* adj[i].insert(j) on an AdjacencyPattern (matrixops.hpp:34) *)
Definition adj_insert (adj : list (list Z)) (ij : Z * Z) : res (list (list Z)) :=
  let* row := rget adj (fst ij) in rset adj (fst ij) (set_insert (snd ij) row).
(* A[i][j] of BCRSMatrix, reading: an entry that is not stored cannot be accessed *)
(* matrixops.cpp:193 *)
Fixpoint row_find (row : list (Z * R)) (j : Z) : option R :=
  match row with [] => None | (k, v) :: t => if k =? j then Some v else row_find t j end.
(* matrixops.cpp:193 *)
Definition sm_at (m : smat) (i j : Z) : res R :=
  let* row := rget (sm_rows m) i in match row_find row j with Some v => Ok v | None => UB end.
(* A[i][j] = f(A[i][j]) of BCRSMatrix *)
(* matrixops.cpp:67, 113, 120, 168-177, 193, 270 *)
Fixpoint row_upd (row : list (Z * R)) (j : Z) (f : R -> R) : option (list (Z * R)) :=
  match row with
  | [] => None
  | (k, v) :: t => if k =? j then Some ((k, f v) :: t)
                   else match row_upd t j f with Some t' => Some ((k, v) :: t') | None => None end
  end.
(* matrixops.cpp:67, 113, 120, 168-177, 193, 270 *)
Definition sm_upd (m : smat) (i j : Z) (f : R -> R) : res smat :=
  let* row := rget (sm_rows m) i in
  match row_upd row j f with
  | Some row => let* rows := rset (sm_rows m) i row in Ok (mkSmat (sm_n m) (sm_m m) rows)
  | None => UB
  end.
(* the loop over all stored entries: for (it = A.begin() ..) for (it2 = it->begin() ..) *)
(* matrixops.cpp:63-65, 94-102, 109-118, 141-150, 164-173 *)
Fixpoint entries_from (i : Z) (rows : list (list (Z * R))) : list (Z * Z * R) :=
  match rows with [] => [] | r :: t => map (fun e => (i, fst e, snd e)) r ++ entries_from (i + 1) t end.
(* matrixops.cpp:63-65, 94-102, 109-118, 141-150, 164-173 *)
Definition entries (m : smat) : list (Z * Z * R) := entries_from 0 (sm_rows m).

(* 25-47 fromAdjacency. All callers pass rows == adj.size(); anything else leaves rows without a size
   (UB). An index that is not a column is UB (checked by ISTL in debug builds only). *)
Definition from_adjacency (adj : list (list Z)) (rows cols : Z) : res smat :=
  if (zlen adj =? rows) && forallb (forallb (fun j => (0 <=? j) && (j <? cols))) adj
  then Ok (mkSmat rows cols (map (map (fun j => (j, 0%R))) adj)) else UB.
(* the insertion loops over stored entries: pos gives the places inserted for entry (i, j) *)
(* matrixops.cpp:75-79, 94-106, 141-160 *)
Definition insert_all (pos : Z -> Z -> list (Z * Z)) (m : smat) (adj : list (list Z)) : res (list (list Z)) :=
  foldM (fun adj e => let '(i, j, _) := e in foldM adj_insert (pos i j) adj) (entries m) adj.
(* the assignment loops over stored entries: upd v is applied at the places of entry (i, j, v) *)
(* matrixops.cpp:109-122, 164-180 *)
Definition assign_all (pos : Z -> Z -> list (Z * Z)) (upd : R -> R -> R) (m r : smat) : res smat :=
  foldM (fun r e => let '(i, j, v) := e in foldM (fun r p => sm_upd r (fst p) (snd p) (upd v)) (pos i j) r) (entries m) r.
(* 49-71 fromDense; T has N() rows of M() numbers *)
Definition from_dense (n m : Z) (T : Z -> Z -> R) : res smat :=
  let* a := foldM (fun a i =>
      foldM (fun a j => if Rltb (/ 10 ^ 14) (Rabs (T i j)) then adj_insert a (i, j) else Ok a) (zrange 0 m) a)
    (zrange 0 n) (zrepeat [] n) in
  let* r := from_adjacency a n m in
  foldM (fun r e => let '(i, j, _) := e in sm_upd r i j (fun _ => T i j)) (entries r) r.
(* 73-85 print: the lines (row, column, value) *)
Definition print_lines (m : smat) : list (Z * Z * R) :=
  filter (fun e => negb (Rltb (Rabs (snd e)) (/ 10 ^ 14))) (entries m).
(* 87-124 Axpy; the assertion on the sizes is a precondition: UB *)
Definition axpy (A B : smat) (alpha : R) : res smat :=
  if (sm_m A =? sm_m B) && (sm_n A =? sm_n B) then
    let here := fun i j => [(i, j)] in
    let* adj := insert_all here A (zrepeat [] (sm_n A)) in
    let* adj := insert_all here B adj in
    let* r := from_adjacency adj (sm_n A) (sm_m A) in
    let* r := assign_all here (fun v _ => v) A r in
    assign_all here (fun v x => (x + alpha * v)%R) B r
  else UB.
(* 126-182 augment *)
Definition augment (A B : smat) (r0 c0 : Z) (symmetric : bool) : res smat :=
  let nrow := sm_n A in let ncol := sm_m A in
  let nrow := if nrow <? r0 + sm_n B then r0 + sm_n B else nrow in
  let ncol := if symmetric && (ncol <? r0 + sm_n B) then r0 + sm_n B else ncol in
  let ncol := if ncol <? c0 + sm_m B then c0 + sm_m B else ncol in
  let nrow := if symmetric && (nrow <? c0 + sm_m B) then c0 + sm_m B else nrow in
  let here := fun i j => [(i, j)] in
  let there := fun i j => (i + r0, j + c0) :: (if symmetric then [(j + c0, i + r0)] else []) in
  let* adj := insert_all here A (zrepeat [] nrow) in
  let* adj := insert_all there B adj in
  let* adj := if symmetric then foldM (fun adj i => adj_insert adj (i, i)) (zrange 0 nrow) adj else Ok adj in
  let* r := from_adjacency adj nrow ncol in
  let* r := assign_all here (fun v _ => v) A r in
  assign_all there (fun v _ => v) B r.
(* 198-208 diagonal; the pattern of 186-191 is the same *)
Definition diagonal (n : Z) : res smat :=
  let* adj := foldM (fun adj i => adj_insert adj (i, i)) (zrange 0 n) (zrepeat [] n) in
  from_adjacency adj n n.
(* 184-196 extractDiagonal *)
Definition extract_diagonal (A : smat) : res smat :=
  let* r := diagonal (sm_m A) in
  foldM (fun r i => let* v := sm_at A i i in sm_upd r i i (fun _ => v)) (zrange 0 (sm_m A)) r.
(* 240-275 extractBlock: the entries skipped are outside rows r0 .. r0+N-1 and columns c0 .. c0+M-1 *)
Definition extract_block (A : smat) (r0 n c0 m : Z) : res smat :=
  let pos := fun i j => if (i <? r0) || (n + r0 <=? i) then [] else if (j <? c0) || (m + c0 <=? j) then [] else [(i - r0, j - c0)] in
  let* adj := insert_all pos A (zrepeat [] n) in
  let* r := from_adjacency adj n m in
  assign_all pos (fun v _ => v) A r.
(* 223-233 of saveAsc: one line, prevcol the column before the next entry *)
Fixpoint asc_line (cols prev : Z) (row : list (Z * R)) : list R :=
  match row with
  | [] => zrepeat 0%R (cols - prev - 1)
  | (j, v) :: t => zrepeat 0%R (j - prev - 1) ++ v :: asc_line cols j t
  end.
(* 210-238 saveAsc: the sizes and the lines of numbers; the row iterator visits every row, so no line
   is added by 218-222 *)
Definition save_asc (A : smat) : (Z * Z) * list (list R) :=
  ((sm_n A, sm_m A), map (asc_line (sm_m A) (-1)) (sm_rows A)).
