(* Finite element assembly with multi-point constraints:
   opm/elasticity/mpc.hh, mpc.cpp, asmhandler.hpp, asmhandler_impl.hpp. *)
From Verif Require Export Smat_Model.
Open Scope Z_scope.

(* ---- mpc.hh *)
(* 65-84 MPC::DOF: node, local dof (1, 2, 3) and coefficient *)
Record mdof := mkMdof { md_node : Z; md_dof : Z; md_coeff : R }.
(* 98-148 MPC: slave dof (its coefficient is the constant c0) and master dofs *)
Record mpc := mkMpc { mp_slave : mdof; mp_master : list mdof }.
(* 103 the constructor *)
Definition mpc_new (n d : Z) (c : R) : mpc := mkMpc (mkMdof n d c) [].
(* the tolerance 1.0e-8 of 111 and of asmhandler_impl.hpp:266 *)
Definition mpc_tol : R := (/ 10 ^ 8)%R.
(* 111-114 addMaster with the default tolerance *)
Definition add_master (p : mpc) (n d : Z) (c : R) : mpc :=
  if Rltb c (- mpc_tol) || Rltb mpc_tol c then mkMpc (mp_slave p) (mp_master p ++ [mkMdof n d c]) else p.
(* 117-121 updateMaster *)
Definition update_master (p : mpc) (pos : Z) (c : R) : mpc :=
  if (0 <=? pos) && (pos <? zlen (mp_master p)) then
    mkMpc (mp_slave p) (firstn (Z.to_nat pos) (mp_master p) ++
      map (fun m => mkMdof (md_node m) (md_dof m) c) (firstn 1 (skipn (Z.to_nat pos) (mp_master p))) ++ skipn (Datatypes.S (Z.to_nat pos)) (mp_master p))
  else p.
(* 124-128 removeMaster *)
Definition remove_master (p : mpc) (pos : Z) : mpc :=
  if (0 <=? pos) && (pos <? zlen (mp_master p)) then
    mkMpc (mp_slave p) (firstn (Z.to_nat pos) (mp_master p) ++ skipn (Datatypes.S (Z.to_nat pos)) (mp_master p))
  else p.
(* 131 addOffset *)
Definition add_offset (p : mpc) (c : R) : mpc :=
  mkMpc (mkMdof (md_node (mp_slave p)) (md_dof (mp_slave p)) (md_coeff (mp_slave p) + c)) (mp_master p).
(* mpc.cpp:26-37 operator<; only: MPC::Less::compareSlaveDofOnly *)
Definition dof_less (only : bool) (a b : mdof) : bool :=
  if md_node a <? md_node b then true else if md_node b <? md_node a then false
  else if md_dof a <? md_dof b then true else if md_dof b <? md_dof a then false
  else if only then false else Rltb (md_coeff a) (md_coeff b).
(* mpc.cpp:52-58: the masters in turn, then their numbers *)
Fixpoint masters_less (only : bool) (l r : list mdof) : bool :=
  match l, r with
  | a :: l, b :: r => if dof_less only a b then true else if dof_less only b a then false else masters_less only l r
  | [], _ :: _ => true
  | _, [] => false
  end.
(* mpc.cpp:40-59 MPC::Less; None: a null pointer *)
Definition mpc_less (only : bool) (l r : option mpc) : bool :=
  match l, r with
  | _, None => false
  | None, Some _ => true
  | Some l, Some r =>
      if dof_less only (mp_slave l) (mp_slave r) then true else if dof_less only (mp_slave r) (mp_slave l) then false
      else if only then false else masters_less only (mp_master l) (mp_master r)
  end.

(* ---- std::map<int, MPC*> (mpc.hh:155): increasing keys *)
Definition mpcmap := list (Z * mpc).
(* find *)
(* mpcs.find (asmhandler_impl.hpp:207-208) *)
Fixpoint mm_find (M : mpcmap) (k : Z) : option mpc :=
  match M with [] => None | (k', p) :: t => if k' =? k then Some p else mm_find t k end.
(* insert: does nothing when the key is present *)
(* mpcs.insert (asmhandler_impl.hpp:197) *)
Fixpoint mm_insert (M : mpcmap) (k : Z) (p : mpc) : mpcmap :=
  match M with
  | [] => [(k, p)]
  | (k', p') :: t => if k <? k' then (k, p) :: M else if k' <? k then (k', p') :: mm_insert t k p else M
  end.
(* a change of the object *mpcs[k] *)
(* a change of the object mpcs[k] by resolveMPCChain (asmhandler_impl.hpp:250-300) *)
Fixpoint mm_replace (M : mpcmap) (k : Z) (p : mpc) : mpcmap :=
  match M with [] => [] | (k', p') :: t => if k' =? k then (k', p) :: t else (k', p') :: mm_replace t k p end.
(* number of a dof: node*dim+dof-1 (asmhandler_impl.hpp:69, 192) *)
Definition dof_key (dim : Z) (m : mdof) : Z := md_node m * dim + md_dof m - 1.

(* ---- std::map<int, pair<Direction, NodeValue>> fixedNodes (asmhandler.hpp:216-225) *)
Definition fixmap := list (Z * (Z * list R)).
(* fixedNodes.find (asmhandler_impl.hpp:96, 126, 152, 193, 217, 322) *)
Fixpoint fx_find (F : fixmap) (n : Z) : option (Z * list R) :=
  match F with [] => None | (n', e) :: t => if n' =? n then Some e else fx_find t n end.
(* fixedNodes[node] = entry *)
(* fixedNodes[node] = entry (asmhandler_impl.hpp:220) *)
Fixpoint fx_set (F : fixmap) (n : Z) (e : Z * list R) : fixmap :=
  match F with
  | [] => [(n, e)]
  | (n', e') :: t => if n <? n' then (n, e) :: F else if n' =? n then (n, e) :: t else (n', e') :: fx_set t n e
  end.
(* 195-196: direction i (0, 1, 2) of a node is fixed; flag is 2^i *)
Definition fx_flag (F : fixmap) (n i : Z) : bool := match fx_find F n with Some (d, _) => Z.testbit d i | None => false end.

(* asmhandler_impl.hpp *)
(* 187-202 addMPC *)
Definition add_mpc (dim : Z) (F : fixmap) (M : mpcmap) (p : mpc) : mpcmap :=
  if fx_flag F (md_node (mp_slave p)) (md_dof (mp_slave p) - 1) then M else mm_insert M (dof_key dim (mp_slave p)) p.
(* 204-211 getMPC; dof is 0, 1, 2 here *)
Definition get_mpc (dim : Z) (M : mpcmap) (node dof : Z) : option mpc := mm_find M (node * dim + dof).
(* 213-232 updateFixedNode *)
Definition update_fixed (dim : Z) (F : fixmap) (node : Z) (entry : Z * list R) : res fixmap :=
  match fx_find F node with
  | None => Ok (fx_set F node entry)
  | Some (d, v) =>
      if d =? fst entry then Ok (fx_set F node entry) else
      let* v := foldM (fun v i => if Z.testbit (fst entry) i then let* x := rget (snd entry) i in rset v i x else Ok v) (zrange 0 dim) v in
      Ok (fx_set F node (Z.lor d (fst entry), v))
  end.
(* 254-311 the loop over the masters of the MPC with key k; rec is resolveMPCChain. coeff has the single
   entry coeff[master.dof-1], so that the loop 265-303 does something for d = master.dof only and 290-299
   do nothing. todo is nMaster - i. None: the recursion has not ended. *)
Fixpoint master_loop (rec : mpcmap -> Z -> option (res mpcmap)) (dim k : Z) (todo : nat) (i : Z) (M : mpcmap) : option (res mpcmap) :=
  match todo with
  | O => Some (Ok M)
  | Datatypes.S todo =>
    match mm_find M k with
    | None => Some UB
    | Some p =>
      match zget (mp_master p) i with
      | None => Some UB
      | Some m =>
        if negb ((1 <=? md_dof m) && (md_dof m <=? dim)) then Some UB else
        if Rltb mpc_tol (Rabs (md_coeff m)) then
          match get_mpc dim M (md_node m) (md_dof m - 1) with
          | None => master_loop rec dim k todo (i + 1) M
          | Some _ =>
            match rec M (md_node m * dim + (md_dof m - 1)) with
            | Some (Ok M) =>
              match mm_find M k, get_mpc dim M (md_node m) (md_dof m - 1) with
              | Some p, Some p2 =>
                let p := add_offset p (md_coeff (mp_slave p2) * md_coeff m) in
                let p := fold_left (fun p m2 => add_master p (md_node m2) (md_dof m2) (md_coeff m2 * md_coeff m)) (mp_master p2) p in
                master_loop rec dim k todo i (mm_replace M k (remove_master p i))
              | _, _ => Some UB
              end
            | r => r
            end
          end
        else master_loop rec dim k todo i (mm_replace M k (remove_master p i))
      end
    end
  end.
(* 249-312 resolveMPCChain of the MPC with key k, at most fuel calls deep *)
Fixpoint resolve (fuel : nat) (dim : Z) (M : mpcmap) (k : Z) : option (res mpcmap) :=
  match fuel with
  | O => None
  | Datatypes.S fuel =>
    match mm_find M k with
    | None => Some UB
    | Some p => master_loop (resolve fuel dim) dim k (length (mp_master p)) 0 M
    end
  end.
(* asmhandler.hpp:170-175 resolveMPCChains: every MPC of the map in turn *)
Definition resolve_all (fuel : nat) (dim : Z) (M : mpcmap) : option (res mpcmap) :=
  fold_left (fun r k => match r with Some (Ok M) => resolve fuel dim M k | r => r end) (map fst M) (Some (Ok M)).
(* 314-348 preprocess: meqn and maxeqn; maxeqn starts from its previous value (0 after construction) *)
Definition preprocess (dim nodes : Z) (M : mpcmap) (F : fixmap) (maxeqn : Z) : res (list Z * Z) :=
  foldM (fun st n =>
      foldM (fun st i => let '(meqn, next) := st in
          if fx_flag F n i then let* meqn := rset meqn (n * dim + i) (-1) in Ok (meqn, next) else
          match get_mpc dim M n i with
          | None => let* meqn := rset meqn (n * dim + i) next in Ok (meqn, next + 1)
          | Some _ => let* meqn := rset meqn (n * dim + i) (-1) in Ok (meqn, next)
          end) (zrange 0 dim) st)
    (zrange 0 nodes) (zrepeat 0 (nodes * dim), maxeqn).
(* 66-75, 100-107, 360-369, 393-401: the equations (-1: none) of dof l of a node with their factors: those
   of the masters for a slave dof, its own with factor 1 for any other *)
Definition dof_eqs (dim : Z) (M : mpcmap) (meqn : list Z) (node l : Z) : res (list (Z * R)) :=
  match get_mpc dim M node l with
  | Some p => mapM (fun m => let* idx := rget meqn (dof_key dim m) in Ok (idx, md_coeff m)) (mp_master p)
  | None => let* idx := rget meqn (node * dim + l) in Ok [(idx, 1%R)]
  end.
(* 350-372 nodeAdjacency; verts are the nodes of the cell *)
Definition node_adjacency (dim : Z) (M : mpcmap) (meqn : list Z) (verts : list Z) (row : Z) (adj : list (list Z)) : res (list (list Z)) :=
  if row =? -1 then Ok adj else
  foldM (fun adj n => foldM (fun adj l =>
      let* es := dof_eqs dim M meqn n l in
      foldM (fun adj e => if fst e =? -1 then Ok adj else adj_insert adj (row, fst e)) es adj) (zrange 0 dim) adj) verts adj.
(* 374-407 determineAdjacencyPattern; cells are the node lists of the grid cells in visiting order *)
Definition adjacency (dim : Z) (M : mpcmap) (meqn : list Z) (cells : list (list Z)) (neq : Z) : res (list (list Z)) :=
  foldM (fun adj verts => foldM (fun adj n => foldM (fun adj k =>
      let* es := dof_eqs dim M meqn n k in
      foldM (fun adj e => node_adjacency dim M meqn verts (fst e) adj) es adj) (zrange 0 dim) adj) verts adj)
    cells (zrepeat [] neq).
(* the members of the class (asmhandler.hpp:200-242) *)
Record asm := mkAsm { as_mpcs : mpcmap; as_fixed : fixmap; as_meqn : list Z; as_neq : Z; as_A : smat; as_b : list R }.
(* 21-33 initForAssembly on a new handler (maxeqn = 0); None: resolving does not end *)
Definition init_assembly (fuel : nat) (dim nodes : Z) (cells : list (list Z)) (M : mpcmap) (F : fixmap) : option (res asm) :=
  match resolve_all fuel dim M with
  | None => None
  | Some r => Some (
      let* M := r in
      let* me := preprocess dim nodes M F 0 in
      let* adj := adjacency dim M (fst me) cells (snd me) in
      let* A := from_adjacency adj (zlen adj) (zlen adj) in
      Ok (mkAsm M F (fst me) (snd me) A (zrepeat 0%R (zlen adj))))
  end.
(* 50-81 addDOF: the matrix part for a row and its load; K and S may be absent *)
Definition add_dof (dim : Z) (s : asm) (row erow : Z) (K : option (Z -> Z -> R)) (Sv : option (Z -> R)) (verts : list Z) (scale : R) : res asm :=
  if row =? -1 then Ok s else
  let* A := match K with
    | None => Ok (as_A s)
    | Some K =>
        foldM (fun A j => let* n := rget verts j in
            foldM (fun A l =>
                let* es := dof_eqs dim (as_mpcs s) (as_meqn s) n l in
                foldM (fun A e => if fst e =? -1 then Ok A else sm_upd A row (fst e) (fun x => (x + scale * snd e * K erow (j * dim + l)%Z)%R)) es A)
              (zrange 0 dim) A)
          (zrange 0 (zlen verts)) (as_A s)
    end in
  let* b := match Sv with
    | None => Ok (as_b s)
    | Some Sv => let* x := rget (as_b s) row in rset (as_b s) row (x + scale * Sv erow)%R
    end in
  Ok (mkAsm (as_mpcs s) (as_fixed s) (as_meqn s) (as_neq s) A b).
(* 83-110 addElement into the handler's own vector; XYZ is 7 *)
Definition add_element (dim : Z) (s : asm) (K : option (Z -> Z -> R)) (Sv : option (Z -> R)) (verts : list Z) : res asm :=
  foldM (fun s i => let* n := rget verts i in
      if match fx_find (as_fixed s) n with Some (d, _) => d =? 7 | None => false end then Ok s else
      foldM (fun s k =>
          let* es := dof_eqs dim (as_mpcs s) (as_meqn s) n k in
          foldM (fun s e => add_dof dim s (fst e) (i * dim + k) K Sv verts (snd e)) es s) (zrange 0 dim) s)
    (zrange 0 (zlen verts)) s.
(* 132-136, 175-179: masters with an equation *)
Definition master_sum (dim : Z) (meqn : list Z) (p : mpc) (u : list R) (x : R) : res R :=
  foldM (fun x m => let* idx := rget meqn (dof_key dim m) in
      if idx =? -1 then Ok x else let* v := rget u idx in Ok (x + v * md_coeff m)%R) (mp_master p) x.
(* 112-142 extractValues *)
Definition extract_values (dim : Z) (s : asm) (u : list R) (verts : list Z) : res (list R) :=
  let* l := mapM (fun n => mapM (fun i =>
      match fx_find (as_fixed s) n with
      | Some (d, v) => if Z.testbit d i then rget v i else
          match get_mpc dim (as_mpcs s) n i with
          | Some p => master_sum dim (as_meqn s) p u 0
          | None => let* q := rget (as_meqn s) (n * dim + i) in rget u q
          end
      | None =>
          match get_mpc dim (as_mpcs s) n i with
          | Some p => master_sum dim (as_meqn s) p u 0
          | None => let* q := rget (as_meqn s) (n * dim + i) in rget u q
          end
      end) (zrange 0 dim)) verts in
  Ok (concat l).
(* 144-184 expandSolution *)
Definition expand_solution (dim nodes : Z) (s : asm) (u : list R) : res (list R) :=
  let* r := foldM (fun r n => foldM (fun r j =>
      let l := n * dim + j in
      match fx_find (as_fixed s) n with
      | Some (d, v) => if Z.testbit d j then let* x := rget v j in rset r l x else
          let* q := rget (as_meqn s) l in if q =? -1 then Ok r else let* x := rget u q in rset r l x
      | None => let* q := rget (as_meqn s) l in if q =? -1 then Ok r else let* x := rget u q in rset r l x
      end) (zrange 0 dim) r) (zrange 0 nodes) (zrepeat 0%R (nodes * dim)) in
  foldM (fun r n => foldM (fun r j =>
      match get_mpc dim (as_mpcs s) n j with
      | Some p => let l := n * dim + j in let* x := rget r l in let* y := master_sum dim (as_meqn s) p u x in rset r l y
      | None => Ok r
      end) (zrange 0 dim) r) (zrange 0 nodes) r.
