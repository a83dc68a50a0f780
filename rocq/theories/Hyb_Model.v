(* IncompFlowSolverHybrid.hpp: the hybrid (contact pressure) flow solver. *)
From Verif Require Export Hnum_Model Matx_Model.
Open Scope Z_scope.

(* BoundaryConditions.hpp FlowBC: Dirichlet pressure, periodic pressure difference, Neumann outflux *)
(* BoundaryConditions.hpp:121-172 *)
Inductive fcond := CDirichlet (p : R) | CPeriodic (d : R) | CNeumann (q : R).
(* BCInterface: flowCond(face) as a function of the boundary id, and getPeriodicPartner *)
(* BoundaryConditions.hpp:244-320, 341-455 *)
Record hbc := mkHBc { hb_cond : Z -> fcond; hb_partner : Z -> Z }.
(* f->boundary() && bc.flowCond(f).isPeriodic(): 1072, 1085, 1174, 1273 *)
Definition per_face (bc : hbc) (f : hface) : bool :=
  match hf_nb f with
  | None => match hb_cond bc (hf_bid f) with CPeriodic _ => true | _ => false end
  | Some _ => false
  end.

(* for (CI c = cellbegin(); ...) for (FI f = c->facebegin(); ...): the loop nest of 757-758, 778-779,
   1070-1071, 1083-1084, 1172-1173 and 1271-1272 *)
Definition each_face {S} (step : S -> hcell -> Z -> hface -> res S) (g : list hcell) (s : S) : res S :=
  foldM (fun s c => foldM (fun s kf => step s c (fst kf) (snd kf)) (combine (zrange 0 (zlen (hc_faces c))) (hc_faces c)) s) g s.
(* table[k][r] of an Opm::SparseTable: cf[c][i], cflux[c][i] *)
(* as in IncompFlowSolverHybrid.hpp:1086-1095, 1700-1725 *)
Definition rget2 {A} (t : list (list A)) (k r : Z) : res A := let* row := rget t k in rget row r.

(* bdry_id_map_ (type and member 903; filled 1069-1078, read 1089-1093 and 1180-1184): std::map<int, DofID>; insert keeps an existing entry; dereferencing find()==end() is UB *)
Definition bmap := list (Z * (Z * Z)).
(* 1075 *)
Definition bm_insert (m : bmap) (bid : Z) (d : Z * Z) : bmap :=
  if existsb (fun e => fst e =? bid) m then m else m ++ [(bid, d)].
(* 1089, 1180, 1279, 1762 *)
Definition bm_find (m : bmap) (bid : Z) : res (Z * Z) :=
  match find (fun e => fst e =? bid) m with Some e => Ok (snd e) | None => UB end.

(* 1060-1099 enumerateBCDof: bdry_id_map_ and ppartner_dof_ (empty without periodic faces) *)
Definition bc_map (g : list hcell) (bc : hbc) (nm : numbering) : res bmap :=
  each_face (fun m c k f =>
    if per_face bc f then let* c0 := rget (nm_cell nm) (hc_idx c) in Ok (bm_insert m (hf_bid f) (c0, k)) else Ok m) g [].
(* the pair (dof1, (c2, dof2)) of a periodic face: its own number, the partner's cell and number
   (1086-1091, 1176-1183, 1275-1282) *)
Definition per_pair (bc : hbc) (nm : numbering) (m : bmap) (c : hcell) (k : Z) (f : hface) : res (Z * (Z * Z)) :=
  let* c1 := rget (nm_cell nm) (hc_idx c) in
  let* dof1 := rget2 (nm_cf nm) c1 k in
  let* j := bm_find m (hb_partner bc (hf_bid f)) in
  let* dof2 := rget2 (nm_cf nm) (fst j) (snd j) in
  Ok (dof1, (fst j, dof2)).
(* 1079-1098 *)
Definition bc_partners (g : list hcell) (bc : hbc) (nm : numbering) (m : bmap) : res (list Z) :=
  match m with
  | [] => Ok []
  | _ => each_face (fun pp c k f =>
      if per_face bc f then
        let* p := per_pair bc nm m c k f in let '(dof1, (_, dof2)) := p in
        let* pp := rset pp dof1 dof2 in rset pp dof2 dof1
      else Ok pp) g (zrepeat (-1) (nm_total nm))
  end.

(* S_.incrementrowsize(i, n) (1140, 1189, 1195, 1197) *)
Definition incr (l : list Z) (i n : Z) : res (list Z) := let* v := rget l i in rset l i (v + n).
(* 1132-1143 allocateGridConnections, after setrowsize(f, 1) for every f (1117-1119) *)
Definition alloc_grid (nm : numbering) : res (list Z) :=
  foldM (fun sz row => foldM (fun sz f => incr sz f (zlen row - 1)) row sz) (nm_cf nm) (zrepeat 1 (nm_total nm)).
(* the condition of 1194 and 1291: another periodic pair represents this degree of freedom *)
Definition replaced (dof1 ii pp : Z) : bool := negb (pp =? -1) && negb (pp =? dof1) && (pp <? ii).
(* 1147-1204 allocateBCConnections *)
Definition alloc_bc (g : list hcell) (bc : hbc) (nm : numbering) (m : bmap) (ppd : list Z) (sz : list Z) : res (list Z) :=
  match m with
  | [] => Ok sz
  | _ => each_face (fun sz c k f =>
      if per_face bc f then
        let* p := per_pair bc nm m c k f in let '(dof1, (c2, dof2)) := p in
        if dof1 <? dof2 then
          let* row := rget (nm_cf nm) c2 in
          let* sz := incr sz dof1 (zlen row) in
          foldM (fun sz ii =>
            let* pp := rget ppd ii in
            let* sz := if replaced dof1 ii pp then incr sz pp 1 else Ok sz in
            incr sz ii 1) row sz
        else Ok sz
      else Ok sz) g sz
  end.
(* BCRSMatrix::addindex in random build mode: an index already present is ignored; a full row makes
   Dune throw BCRSMatrixError *)
(* called at 1238, 1294-1297 *)
Definition addindex (sz : list Z) (pat : list (list Z)) (i j : Z) : res (list (list Z)) :=
  let* row := rget pat i in
  if existsb (Z.eqb j) row then Ok pat else
  let* cap := rget sz i in
  if zlen row <? cap then rset pat i (row ++ [j]) else Throw.
(* 1227-1241 setGridConnections *)
Definition set_grid (sz : list Z) (nm : numbering) (pat : list (list Z)) : res (list (list Z)) :=
  foldM (fun pat row => foldM (fun pat i => foldM (fun pat j => addindex sz pat i j) row pat) row pat) (nm_cf nm) pat.
(* 1246-1304 setBCConnections *)
Definition set_bc (g : list hcell) (bc : hbc) (nm : numbering) (m : bmap) (ppd sz : list Z) (pat : list (list Z)) : res (list (list Z)) :=
  match m with
  | [] => Ok pat
  | _ => each_face (fun pat c k f =>
      if per_face bc f then
        let* p := per_pair bc nm m c k f in let '(dof1, (c2, dof2)) := p in
        if dof1 <? dof2 then
          let* row := rget (nm_cf nm) c2 in
          foldM (fun pat ii0 =>
            let* pp := rget ppd ii0 in
            let ii := if replaced dof1 ii0 pp then pp else ii0 in
            let* pat := addindex sz pat dof1 ii in
            let* pat := addindex sz pat ii dof1 in
            let* pat := addindex sz pat dof2 ii in
            addindex sz pat ii dof2) row pat
        else Ok pat
      else Ok pat) g pat
  end.
(* what initSystemStructure (533-544) leaves behind: the numbering, the periodic partners and the
   non-zero structure of S_ *)
Record hstruct := mkHS { hs_num : numbering; hs_map : bmap; hs_pp : list Z; hs_pat : list (list Z) }.
(* 533-544 initSystemStructure *)
Definition init_structure (g : list hcell) (bc : hbc) : res hstruct :=
  let* nm := enumerate_grid g in
  let* m := bc_map g bc nm in
  let* pp := bc_partners g bc nm m in
  let* sz := alloc_grid nm in
  let* sz := alloc_bc g bc nm m pp sz in
  let* pat := set_grid sz nm (zrepeat [] (nm_total nm)) in
  let* pat := set_bc g bc nm m pp sz pat in
  Ok (mkHS nm m pp pat).

(* ---- the global system S_, rhs_; S_[i][j] outside the structure is UB ---- *)
(* the members S_ and rhs_, 923-924 *)
Record hsys := mkSys { sy_pat : list (list Z); sy_val : Z -> Z -> R; sy_rhs : list R }.
(* whether S_[i][j] is part of the structure of 1230-1300 *)
Definition sy_has (s : hsys) (i j : Z) : bool :=
  match zget (sy_pat s) i with Some row => existsb (Z.eqb j) row | None => false end.
(* assignment to S_[i][j], 1383-1895 *)
Definition sy_put (s : hsys) (i j : Z) (v : R) : res hsys :=
  if sy_has s i j then
    Ok (mkSys (sy_pat s) (fun a b => if (a =? i) && (b =? j) then v else sy_val s a b) (sy_rhs s))
  else UB.
(* S_[i][j] += a *)
(* addCellContrib 1812-1895 *)
Definition sy_add (s : hsys) (i j : Z) (a : R) : res hsys := sy_put s i j (sy_val s i j + a).
(* assignment to rhs_[i], 1383-1895 *)
Definition rhs_put (s : hsys) (i : Z) (v : R) : res hsys :=
  let* r := rset (sy_rhs s) i v in Ok (mkSys (sy_pat s) (sy_val s) r).
(* rhs_[i] += a *)
(* addCellContrib 1812-1895 *)
Definition rhs_add (s : hsys) (i : Z) (a : R) : res hsys :=
  let* v := rget (sy_rhs s) i in rhs_put s i (v + a).

(* enum FaceType (377) *)
Inductive ftype := FInternal | FDirichlet | FNeumann | FPeriodic.
(* 1732-1775 setExternalContrib: rhs, facetype, condval, ppartner and do_regularization_ *)
Record hext := mkExt { ex_rhs : list R; ex_ft : list ftype; ex_cond : list R; ex_pp : list Z; ex_reg : bool }.
(* 1732-1775 setExternalContrib *)
Definition set_external (bc : hbc) (nm : numbering) (m : bmap) (c : hcell) (nf : Z) (reg : bool) : res hext :=
  foldM (fun e kf => let '(k, f) := kf in
    match hf_nb f with
    | Some _ => Ok e
    | None =>
        match hb_cond bc (hf_bid f) with
        | CDirichlet p =>
            let* ft := rset (ex_ft e) k FDirichlet in let* cv := rset (ex_cond e) k p in
            Ok (mkExt (ex_rhs e) ft cv (ex_pp e) false)
        | CPeriodic d =>
            let* j := bm_find m (hb_partner bc (hf_bid f)) in
            let* ft := rset (ex_ft e) k FPeriodic in let* cv := rset (ex_cond e) k d in
            let* p := rget2 (nm_cf nm) (fst j) (snd j) in
            let* pp := rset (ex_pp e) k p in
            Ok (mkExt (ex_rhs e) ft cv pp (ex_reg e))
        | CNeumann q =>
            let* ft := rset (ex_ft e) k FNeumann in let* rhs := rset (ex_rhs e) k q in
            Ok (mkExt rhs ft (ex_cond e) (ex_pp e) (ex_reg e))
        end
    end) (combine (zrange 0 (zlen (hc_faces c))) (hc_faces c))
    (mkExt (zrepeat 0%R nf) (zrepeat FInternal (nm_max nm)) (zrepeat 0%R (nm_max nm)) (zrepeat (-1) (nm_max nm)) reg).

(* 1781-1805 buildCellContrib: the local matrix and right-hand side, and F_[c], L_[c], g_[c].  A zero
   L_[c] makes the quotients not finite (modelled as UB). *)
Definition build_contrib (S : mat) (F gflux rhs : list R) (g : R) : res (mat * list R * list R * R * R) :=
  let nf := m_rows S in
  let* Ft := mat_mul_add_TN 1 S (mkMat nf 1 FOrd (zrepeat 1%R nf)) 0 (mkMat nf 1 FOrd F) in
  let L := Rsum (m_data Ft) in
  let g := (g - Rsum gflux)%R in
  let* gl := mdiv g L in
  let* il := mdiv (-1) L in
  let rhs := map (fun p => (fst p - snd p)%R) (combine gflux rhs) in
  let rhs := map (fun p => (1 * fst p + gl * snd p)%R) (combine rhs (m_data Ft)) in
  let* S := sym_update il Ft 1 S in
  Ok (S, rhs, m_data Ft, L, g).

(* 1869-1884: one column of the row loop *)
Definition add_col (S : mat) (e : hext) (r ii : Z) (s : hsys) (cj : Z * Z) : res hsys :=
  let '(c, jj) := cj in
  let* t := rget (ex_ft e) c in
  match t with
  | FDirichlet =>
      let* v := mget S r c in let* d := rget (ex_cond e) c in rhs_add s ii (- (v * d))
  | FPeriodic =>
      let* p := rget (ex_pp e) c in
      if p <? jj then
        let* v := mget S r c in let* d := rget (ex_cond e) c in
        let* s := rhs_add s ii (- (v * d)) in sy_add s ii p v
      else let* v := mget S r c in sy_add s ii jj v
  | _ => let* v := mget S r c in sy_add s ii jj v
  end.
(* 1812-1893 addCellContrib: one row *)
Definition add_row (S : mat) (e : hext) (rhs : list R) (l2g : list Z) (s : hsys) (ri : Z * Z) : res hsys :=
  let '(r, i) := ri in
  let* t := rget (ex_ft e) r in
  match t with
  | FDirichlet =>
      let* a := mget S r r in let* d := rget (ex_cond e) r in
      let* s := sy_put s i i a in rhs_put s i (a * d)
  | _ =>
      let* si := match t with
        | FPeriodic =>
            let* p := rget (ex_pp e) r in let* a := mget S r r in let* d := rget (ex_cond e) r in
            let b := (a * d)%R in
            let* s := sy_add s i i a in let* s := sy_add s i p (- a) in let* s := rhs_add s i b in
            let* s := sy_add s p i (- a) in let* s := sy_add s p p a in let* s := rhs_add s p (- b) in
            Ok (s, Z.min i p)
        | _ => Ok (s, i)
        end in
      let '(s, ii) := si in
      let* s := foldM (add_col S e r ii) (combine (zrange 0 (zlen l2g)) l2g) s in
      let* h := rget rhs r in
      rhs_add s ii h
  end.
(* addCellContrib: all rows of the cell, 1812-1895 *)
Definition add_cell (S : mat) (e : hext) (rhs : list R) (l2g : list Z) (s : hsys) : res hsys :=
  foldM (add_row S e rhs l2g) (combine (zrange 0 (zlen l2g)) l2g) s.

(* F_, L_, g_ and do_regularization_ *)
(* 915-916, 1334-1335 *)
Record hdyn := mkDyn { dy_F : list (list R); dy_L : list R; dy_g : list R; dy_reg : bool }.
(* the inner product object: getInverseMatrix and gravityFlux of the cell with the given index, after
   computeDynamicParams for the same fluid and saturations *)
(* 1343-1365, 1718, 1723 *)
Record hip := mkIp { ip_binv : Z -> mat; ip_gflux : Z -> list R }.
(* 1343-1365: one cell of assembleDynamic *)
Definition assemble_cell (bc : hbc) (st : hstruct) (ip : hip) (src : list R) (sd : hsys * hdyn) (c : hcell) : res (hsys * hdyn) :=
  let '(s, d) := sd in
  let ci := hc_idx c in
  let* c0 := rget (nm_cell (hs_num st)) ci in
  let* row := rget (nm_cf (hs_num st)) c0 in
  let nf := zlen row in
  let* q := rget src ci in
  let* e := set_external bc (hs_num st) (hs_map st) c nf (dy_reg d) in
  let* F := rget (dy_F d) c0 in
  let* b := build_contrib (ip_binv ip ci) F (ip_gflux ip ci) (ex_rhs e) q in
  let '(Sc, rhs, F, L, g) := b in
  let* Fs := rset (dy_F d) c0 F in
  let* Ls := rset (dy_L d) c0 L in
  let* gs := rset (dy_g d) c0 g in
  let* s := add_cell Sc e rhs row s in
  Ok (s, mkDyn Fs Ls gs (ex_reg e)).
(* 1310-1367 assembleDynamic *)
Definition assemble (g : list hcell) (bc : hbc) (st : hstruct) (ip : hip) (src : list R) : res (hsys * hdyn) :=
  let nc := zlen g in
  foldM (assemble_cell bc st ip src) g
    (mkSys (hs_pat st) (fun _ _ => 0%R) (zrepeat 0%R (nm_total (hs_num st))),
     mkDyn (map (fun row => map (fun _ => 0%R) row) (nm_cf (hs_num st))) (zrepeat 0%R nc) (zrepeat 0%R nc) true).
(* 1382-1385 (and 1480-1483, 1548-1551, 1612-1615): regularisation of problems without Dirichlet faces *)
Definition regularise (s : hsys) (d : hdyn) : res hsys :=
  if dy_reg d then sy_put s 0 0 (sy_val s 0 0 * 2) else Ok s.

(* 1672-1726 computePressureAndFluxes: cell pressures and outfluxes, from the contact pressures soln *)
Definition recover_cell (st : hstruct) (ip : hip) (d : hdyn) (soln : list R) (pv : list R * list (list R)) (c : hcell) : res (list R * list (list R)) :=
  let '(ps, vs) := pv in
  let ci := hc_idx c in
  let* c0 := rget (nm_cell (hs_num st)) ci in
  let* row := rget (nm_cf (hs_num st)) c0 in
  let* pi := mapM (rget soln) row in
  let* F := rget (dy_F d) c0 in
  let* L := rget (dy_L d) c0 in
  let* g := rget (dy_g d) c0 in
  let* p := mdiv (g + Rsum (map (fun p => (fst p * snd p)%R) (combine F pi))) L in
  let* ps := rset ps c0 p in
  let* v := rget vs c0 in
  let* v := vec_mul_add false 1 (ip_binv ip ci) (map (fun x => (p - x)%R) pi) 0 v in
  let v := map (fun p => (fst p + snd p)%R) (combine (ip_gflux ip ci) v) in
  let* vs := rset vs c0 v in
  Ok (ps, vs).
(* 1672-1728: the loop over the cells *)
Definition recover (g : list hcell) (st : hstruct) (ip : hip) (d : hdyn) (soln : list R) : res (list R * list (list R)) :=
  foldM (recover_cell st ip d soln) g
    (zrepeat 0%R (zlen g), map (fun row => map (fun _ => 0%R) row) (nm_cf (hs_num st))).

(* 658-696 solve: assembly, the linear solver chosen by linsolver_type (an oracle that is given the
   system and returns the contact pressures) and recovery. solveLinearSystem (1371-1386) always
   regularises; the AMG variants (1478-1484, 1546-1552, 1610-1616) only when same_matrix is false. The
   preconditioner and the tolerances are part of the oracle. *)
Definition hybrid_solve (g : list hcell) (bc : hbc) (st : hstruct) (ip : hip) (src : list R)
    (linsolver_type : Z) (same_matrix : bool) (lin : hsys -> list R) : res (list R * list (list R)) :=
  let* sd := assemble g bc st ip src in
  let '(s, d) := sd in
  let* s := if linsolver_type =? 0 then regularise s d
            else if (1 <=? linsolver_type) && (linsolver_type <=? 3) then (if same_matrix then Ok s else regularise s d)
            else Throw in
  recover g st ip d (lin s).

(* 700-736 class FaceFluxes; a failing assertion of 708, 714 or 791 is the outcome UB *)
Record fflux := mkFF { ff_flux : list R; ff_vis : list Z; ff_max : R }.
(* the sign of 709 and 715 *)
Definition ff_sign (n : Z) : R := if n =? 0 then 1%R else (-1)%R.
(* 707-712 put *)
Definition ff_put (s : fflux) (flux : R) (f : Z) : res fflux :=
  let* n := rget (ff_vis s) f in
  if negb ((n =? 0) || (n =? 1)) then UB else
  let* x := rget (ff_flux s) f in
  let* fl := rset (ff_flux s) f (x + ff_sign n * flux)%R in
  let* vis := rset (ff_vis s) f (n + 1) in
  Ok (mkFF fl vis (ff_max s)).
(* 713-721 get *)
Definition ff_get (s : fflux) (flux : R) (f : Z) : res (fflux * R) :=
  let* n := rget (ff_vis s) f in
  if negb ((n =? 0) || (n =? 1)) then UB else
  let* x := rget (ff_flux s) f in
  let new := (0.5 * ff_sign n * x)%R in
  let* vis := rset (ff_vis s) f (n + 1) in
  Ok (mkFF (ff_flux s) vis (smax (ff_max s) (Rabs (flux - new))), new).
(* ppartner_dof_[f_ix] with the guard of 763-767 and 784-788: None when the face is left alone *)
Definition pp_partner (ppd : list Z) (f : Z) : res (option Z) :=
  match ppd with [] => Ok None | _ => let* p := rget ppd f in Ok (if p =? -1 then None else Some p) end.
(* 756-775: first pass *)
Definition post_put (st : hstruct) (cflux : list (list R)) (s : fflux) (c : hcell) (k : Z) (f : hface) : res fflux :=
  let* c0 := rget (nm_cell (hs_num st)) (hc_idx c) in
  let* fx := rget2 (nm_cf (hs_num st)) c0 k in
  let* v := rget2 cflux c0 k in
  match hf_nb f with
  | None =>
      let* p := pp_partner (hs_pp st) fx in
      match p with
      | None => Ok s
      | Some p => let* s := ff_put s v fx in ff_put s v p
      end
  | Some _ => ff_put s v fx
  end.
(* cflux[c][i] = v (779-800) *)
Definition rset2 {A} (t : list (list A)) (k r : Z) (v : A) : res (list (list A)) :=
  let* row := rget t k in let* row := rset row r v in rset t k row.
(* 777-800: second pass *)
Definition post_get (st : hstruct) (sc : fflux * list (list R)) (c : hcell) (k : Z) (f : hface) : res (fflux * list (list R)) :=
  let '(s, cflux) := sc in
  let* c0 := rget (nm_cell (hs_num st)) (hc_idx c) in
  let* fx := rget2 (nm_cf (hs_num st)) c0 k in
  let* v := rget2 cflux c0 k in
  match hf_nb f with
  | None =>
      let* p := pp_partner (hs_pp st) fx in
      match p with
      | None => Ok (s, cflux)
      | Some p =>
          let* r := ff_get s v fx in let '(s, v) := r in
          let* r := ff_get s v p in
          if Req_EM_T (snd r) v then
          let* cflux := rset2 cflux c0 k v in
          Ok (fst r, cflux) else UB
      end
  | Some _ =>
      let* r := ff_get s v fx in let '(s, v) := r in
      let* cflux := rset2 cflux c0 k v in
      Ok (s, cflux)
  end.
(* 747-802 postProcessFluxes: the new outfluxes and the largest modification; nf is
   pgrid_->numberOfFaces() *)
Definition post_process (g : list hcell) (st : hstruct) (nf : Z) (cflux : list (list R)) : res (list (list R) * R) :=
  let* s := each_face (post_put st cflux) g (mkFF (zrepeat 0%R nf) (zrepeat 0 nf) 0) in
  let s := mkFF (ff_flux s) (zrepeat 0 nf) (ff_max s) in
  let* r := each_face (post_get st) g (s, cflux) in
  Ok (snd r, ff_max (fst r)).
