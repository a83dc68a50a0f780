(* Elastic materials, element matrices, stress averages, wave speeds:
   opm/elasticity/material.hh, material.cpp, materials.hh, materials.cpp, elasticity_impl.hpp, elasticity.cpp,
   parts of elasticity_upscale_impl.hpp and examples/upscale_elasticity.cpp. *)
From Coq Require Export String.
From Verif Require Export Shape_Model Asm_Model.
Open Scope string_scope.
Open Scope list_scope.
Open Scope Z_scope.

(* Dune::FieldMatrix and FieldVector of fixed size; all indices in the code are within their sizes *)
(* as in elasticity_impl.hpp:22-113 *)
Definition fmat := Z -> Z -> R.
(* the matrix after C = 0, as in materials.cpp:47-75 *)
Definition fzero : fmat := fun _ _ => 0%R.
(* C[i][j] = x *)
(* assignments as in materials.cpp:47-75, 139-146, 196-213 *)
Definition fput (C : fmat) (i j : Z) (x : R) : fmat := fun a b => if (a =? i) && (b =? j) then x else C a b.
(* mv, leftmultiplyany, FMatrixHelp::mult, multMatrix, multTransposed: sums over an index of size n *)
(* elasticity_impl.hpp:32, 101, 113, elasticity_upscale_impl.hpp:510, elasticity.cpp:53-54 *)
Definition dsum (n : Z) (f : Z -> R) : R := fold_left (fun s k => s + f k)%R (zrange 0 n) 0%R.

(* material.hh:31-102, materials.hh: the three classes. MIso: E, nu, density; MDiag: E[6]; MSym: Cupper[21] *)
Inductive material := MIso (E nu rho : R) | MDiag (E : list R) | MSym (Cu : list R).
(* material.hh:76-80 getMassDensity; the orthotropic constructors leave the default 0 (materials.cpp:100, 156) *)
Definition density (m : material) : R := match m with MIso _ _ rho => rho | _ => 0%R end.
(* materials.cpp:47-75 Isotropic::getConstitutiveMatrix, 6 by 6 *)
Definition iso6 (E nu : R) (invers : bool) : res (bool * fmat) :=
  let C := fzero in
  if Rltb nu 0 || Rleb (1 / 2) nu then Ok (false, C) else
  let* fact := mdiv E ((1 + nu) * (1 - nu - nu)) in
  let* c00 := if invers then mdiv 1 E else Ok ((1 - nu) * fact)%R in
  let C := fput C 0 0 c00 in
  let* c10 := if invers then mdiv (- nu) E else Ok (nu * fact)%R in
  let C := fput C 1 0 c10 in
  let C := fput C 2 0 (C 1 0) in
  let C := fput C 0 1 (C 1 0) in
  let C := fput C 1 1 (C 0 0) in
  let C := fput C 2 1 (C 1 0) in
  let C := fput C 0 2 (C 1 0) in
  let C := fput C 1 2 (C 1 0) in
  let C := fput C 2 2 (C 0 0) in
  let* c33 := if invers then mdiv (2 + nu + nu) E else Ok ((1 / 2 - nu) * fact)%R in
  let C := fput C 3 3 c33 in
  let C := fput C 4 4 (C 3 3) in
  let C := fput C 5 5 (C 3 3) in
  Ok (true, C).
(* materials.cpp:77-96 the 3 by 3 form; C is the matrix passed in *)
Definition iso3 (E nu : R) (C : fmat) (invers : bool) : res (bool * fmat) :=
  if Rltb nu 0 || Rleb (1 / 2) nu then Ok (false, C) else
  let* fact := mdiv E ((1 + nu) * (1 - nu - nu)) in
  let* c00 := if invers then mdiv (1 - nu * nu) E else Ok ((1 - nu) * fact)%R in
  let C := fput C 0 0 c00 in
  let* c10 := if invers then mdiv (- nu - nu * nu) E else Ok (nu * fact)%R in
  let C := fput C 1 0 c10 in
  let C := fput C 0 1 (C 1 0) in
  let C := fput C 1 1 (C 0 0) in
  let* c22 := if invers then mdiv (2 + nu + nu) E else Ok ((1 / 2 - nu) * fact)%R in
  Ok (true, fput C 2 2 c22).
(* materials.cpp:99-108 OrthotropicD::OrthotropicD with the defaults -1 of materials.hh:99-100 *)
Definition orthoD (Ex Ey Ez Gxy Gxz Gyz : R) : material :=
  let e4 := if Rltb 0 Gxz then Gxz else Gxy in
  MDiag [Ex; Ey; Ez; Gxy; e4; if Rltb 0 Gyz then Gyz else e4].
(* materials.cpp:139-146 *)
Definition diag6 (E : list R) (C : fmat) (invers : bool) : res (bool * fmat) :=
  let* C := foldM (fun C i => let* e := rget E i in let* x := if invers then mdiv 1 e else Ok e in Ok (fput C i i x)) (zrange 0 6) C in
  Ok (true, C).
(* std::swap of two array entries *)
(* materials.cpp:161-165 *)
Definition swap_at {A} (l : list A) (i j : Z) : res (list A) :=
  let* x := rget l i in let* y := rget l j in let* l := rset l i y in rset l j x.
(* materials.cpp:155-166 OrthotropicSym::OrthotropicSym: 21 values are copied *)
Definition sym_new (Cu : list R) : res material :=
  if zlen Cu <? 21 then UB else
  let c := firstn 21 Cu in
  let* c := swap_at c 3 5 in let* c := swap_at c 8 10 in let* c := swap_at c 12 14 in let* c := swap_at c 15 20 in let* c := swap_at c 16 19 in
  Ok (MSym c).
(* materials.cpp:196-213; assert(0) for the inverse *)
Definition sym6 (Cu : list R) (C : fmat) (invers : bool) : res (bool * fmat) :=
  let* st := foldM (fun st i => let '(C, k) := st in
      let* x := rget Cu k in
      foldM (fun st j => let '(C, k) := st in let* x := rget Cu k in Ok (fput (fput C j i x) i j x, k + 1)) (zrange (i + 1) 6) (fput C i i x, k + 1))
    (zrange 0 6) (C, 0) in
  if invers then Throw else Ok (true, fst st).
(* the virtual getConstitutiveMatrix, 6 by 6 *)
(* material.hh:67; materials.cpp:47-75, 139-146, 196-213 *)
Definition constitutive6 (m : material) (C : fmat) (invers : bool) : res (bool * fmat) :=
  match m with MIso E nu _ => iso6 E nu invers | MDiag E => diag6 E C invers | MSym Cu => sym6 Cu C invers end.
(* 3 by 3: materials.cpp:77-96, 148-152, 215-219 *)
Definition constitutive3 (m : material) (C : fmat) (invers : bool) : res (bool * fmat) :=
  match m with MIso E nu _ => iso3 E nu C invers | _ => Ok (false, C) end.

(* material.cpp:23-63 create from parameters; None: a null pointer *)
Definition create_params (p : list R) : res (option material) :=
  match p with
  | [E] => Ok (Some (MIso E 0 0))
  | [E; nu] => Ok (Some (MIso E nu 0))
  | [E; nu; rho] => Ok (Some (MIso E nu rho))
  | [Ex; Ey; Ez; Gxy] => Ok (Some (orthoD Ex Ey Ez Gxy (-1) (-1)))
  | [Ex; Ey; Ez; Gxy; Gxz] => Ok (Some (orthoD Ex Ey Ez Gxy Gxz (-1)))
  | [Ex; Ey; Ez; Gxy; Gxz; Gyz] => Ok (Some (orthoD Ex Ey Ez Gxy Gxz Gyz))
  | [a; b; c; d; e; f; g; h; i] =>
      let* m := sym_new [a; b; c; 0; 0; 0; d; e; 0; 0; 0; f; 0; 0; 0; g; 0; 0; h; 0; i]%R in Ok (Some m)
  | _ => if zlen p =? 21 then let* m := sym_new p in Ok (Some m) else Ok None
  end.
(* a rock file as the list of its white space separated words; a word that reads as a number is a number *)
(* material.cpp:65-147 *)
Inductive tok := RWord (s : string) | RNum (x : R).
(* f >> x for a double, after any number of reads: the value (0 after a failure) and what is left; a failed
   stream stays failed *)
(* material.cpp:78, 87, 97, 107, 112, 120 *)
Definition rd_num (f : option (list tok)) : R * option (list tok) :=
  match f with Some (RNum x :: t) => (x, Some t) | _ => (0%R, None) end.
(* f >> str: the word, empty after a failure; words that are numbers are different from all keywords *)
(* material.cpp:74, 79, 99, 113 *)
Definition rd_word (f : option (list tok)) : string * option (list tok) :=
  match f with Some (RWord s :: t) => (s, Some t) | Some (RNum _ :: t) => ("0", Some t) | _ => ("", None) end.
(* material.cpp:78, 95-98, 112 *)
Fixpoint rd_nums (n : nat) (f : option (list tok)) : list R * option (list tok) :=
  match n with O => ([], f) | S n => let '(x, f) := rd_num f in let '(l, f) := rd_nums n f in (x :: l, f) end.
(* material.cpp:65-147 create from a file; None: the file cannot be opened. exit(1) is Throw. Other values than
   finite ones (a division by zero) are UB. *)
Definition create_file (file : option (list tok)) : res material :=
  match file with
  | None => Ok (MIso 100 (38 / 100) 3)
  | Some l =>
    let '(str, f) := rd_word (Some l) in
    if String.eqb str "ti" then
      let '(v, f) := rd_nums 5 f in
      let '(str2, f) := rd_word f in
      if negb (String.eqb str2 "density") then Throw else
      let '(rho, f) := rd_num f in
      match v with
      | [a; b; c; d; e] => sym_new [a; a - 2 * e; b; 0; 0; 0; a; b; 0; 0; 0; c; 0; 0; 0; d; 0; 0; d; 0; e]%R
      | _ => UB
      end
    else if String.eqb str "anisotropic" then
      let '(v, f) := rd_nums 21 f in
      let '(str2, f) := rd_word f in
      if negb (String.eqb str2 "density") then Throw else
      let '(rho, f) := rd_num f in
      sym_new v
    else
      let '(p1, f) := rd_num f in
      let '(p2, f) := rd_num f in
      let '(str2, f) := rd_word f in
      if negb (String.eqb str2 "density") then Throw else
      let '(rho, f) := rd_num f in
      let '(str, p1, p2) := if String.eqb str "vpvs" then ("km", rho * p1 * p1 - 4 / 3 * rho * p2 * p2, rho * p2 * p2)%R else (str, p1, p2) in
      let* en :=
        if String.eqb str "km" then let* nu := mdiv (3 * p1 - 2 * p2) (6 * p1 + 2 * p2) in Ok (2 * p2 * (1 + nu), nu)%R
        else if String.eqb str "lm" then
          let* nu := mdiv p1 (2 * (p2 + p1)) in let* q := mdiv ((1 + nu) * (1 - 2 * nu) * p1) nu in Ok (q, nu)
        else if String.eqb str "en" then Ok (p1, p2)
        else Throw in
      if Rltb (snd en) 0 || Rltb (1 / 2) (snd en) then Throw else Ok (MIso (fst en) (snd en) rho)
  end.

(* ---- elasticity_impl.hpp *)
(* the number of strain components: 3 in the plane, 6 in space (elasticity_upscale_impl.hpp:443) *)
Definition comps (dim : Z) : Z := 3 + (dim - 2) * 3.
(* the number of nodes of an element (elasticity_upscale_impl.hpp:444) *)
Definition bfunc (dim : Z) : Z := 4 + (dim - 2) * 4.
(* 28-32 the gradients of the shape functions times Jinv *)
Definition dNdX (dim : Z) (point : Z -> R) (Jinv : fmat) : res (list (Z -> R)) :=
  mapM (fun i => let* g := mapM (fun l => p1_grad dim i point l) (zrange 0 dim) in
                 Ok (fun k => dsum dim (fun l => Jinv k l * vec_at g l)%R)) (zrange 0 (bfunc dim)).
(* 35-67 temp; INDEX(i,j) is i + comps*j *)
Definition bm_temp (dim : Z) (d : list (Z -> R)) : res fmat :=
  foldM (fun temp i => let* g := rget d i in
      if dim =? 3 then
        let temp := fput temp (0 + 6 * 0) i (g 0) in
        let temp := fput temp (1 + 6 * 1) i (g 1) in
        let temp := fput temp (2 + 6 * 2) i (g 2) in
        let temp := fput temp (3 + 6 * 0) i (g 1) in
        let temp := fput temp (3 + 6 * 1) i (g 0) in
        let temp := fput temp (4 + 6 * 0) i (g 2) in
        let temp := fput temp (4 + 6 * 2) i (g 0) in
        let temp := fput temp (5 + 6 * 1) i (g 2) in
        Ok (fput temp (5 + 6 * 2) i (g 1))
      else
        let temp := fput temp (0 + 3 * 0) i (g 0) in
        let temp := fput temp (1 + 3 * 1) i (g 1) in
        let temp := fput temp (2 + 3 * 0) i (g 1) in
        Ok (fput temp (2 + 3 * 1) i (g 0))) (zrange 0 (zlen d)) fzero.
(* 22-72 getBmatrix; k counts the entries with i running fastest: k = comps*j + i; rows as in 33 *)
Definition bmatrix (dim : Z) (point : Z -> R) (Jinv : fmat) : res fmat :=
  let rows := 6 + (dim - 2) * 12 in
  let* d := dNdX dim point Jinv in
  let* temp := bm_temp dim d in
  Ok (fun i j => temp ((comps dim * j + i) mod rows) ((comps dim * j + i) / rows)).
(* 91-103 getStiffnessMatrix; comp and funcdim are the sizes of B *)
Definition stiffness (comp : Z) (B C : fmat) (detJW : R) : fmat :=
  let B2 : fmat := fun j i => B i j in
  let CB : fmat := fun i j => dsum comp (fun k => C i k * B k j)%R in
  fun i j => (dsum comp (fun k => B2 i k * CB k j) * detJW)%R.
(* 107-114 getStressVector *)
Definition stress (comp funcdim : Z) (v eps0 : Z -> R) (B C : fmat) : Z -> R :=
  fun i => dsum comp (fun k => C i k * (dsum funcdim (fun j => B k j * v j) + eps0 k))%R.

(* ---- elasticity_upscale_impl.hpp, in space *)
(* a cell: its nodes, its material, its quadrature rule (positions and weights), jacobianInverseTransposed and
   integrationElement of its geometry *)
(* elasticity_upscale_impl.hpp:466-500 *)
Record cellg := mkCellg { cg_verts : list Z; cg_mat : material; cg_rule : list ((Z -> R) * R); cg_jit : (Z -> R) -> fmat; cg_det : (Z -> R) -> R }.
(* 446-451, 533-535: the unit strain of a load case *)
Definition unit_strain (loadcase : Z) : Z -> R := fun i => if i =? loadcase then 1%R else 0%R.
(* 479-514 element matrix and load vector; C is the constitutive matrix *)
Definition element_matrices (c : cellg) (C : fmat) (eps0 : Z -> R) : res (fmat * (Z -> R)) :=
  foldM (fun st r => let '(K, ES) := st in
      let* lB := bmatrix 3 (fst r) (cg_jit c (fst r)) in
      let detJ := cg_det c (fst r) in
      let Aq := stiffness 6 lB C (detJ * snd r) in
      Ok ((fun i j => K i j + Aq i j)%R,
          (fun i => ES i + dsum 6 (fun k => lB k i * dsum 6 (fun l => C k l * eps0 l)) * (- detJ * snd r))%R))
    (cg_rule c) (fzero, fun _ => 0%R).
(* 450, 453: b[loadcase] = 0 and A.getOperator() = 0. The vector b[loadcase] is the vector of the handler here *)
Definition reset (matrix : bool) (loadcase : Z) (s : asm) : asm :=
  let A := as_A s in
  mkAsm (as_mpcs s) (as_fixed s) (as_meqn s) (as_neq s)
    (if matrix then mkSmat (sm_n A) (sm_m A) (map (map (fun e : Z * R => (fst e, 0%R))) (sm_rows A)) else A)
    (if -1 <? loadcase then map (fun _ => 0%R) (as_b s) else as_b s).
(* 474-515 one cell; C is kept from cell to cell. The printed warning of 491-497 is left out *)
Definition assemble_cell (matrix : bool) (loadcase : Z) (st : fmat * asm) (c : cellg) : res (fmat * asm) :=
  let '(C, s) := st in
  let* bc := constitutive6 (cg_mat c) C false in
  let C := snd bc in
  let* ke := element_matrices c C (unit_strain loadcase) in
  let* s := add_element 3 s (if matrix then Some (fst ke) else None) (if -1 <? loadcase then Some (snd ke) else None) (cg_verts c) in
  Ok (C, s).
(* 441-519 assemble in space; color[i][j] lists the cells of a column. C0 is the matrix of line 460 before it is
   set. The columns of a colour are worked on one after the other. *)
Definition assemble (color : list (list (list cellg))) (loadcase : Z) (matrix : bool) (C0 : fmat) (s : asm) : res asm :=
  foldM (fun s columns => foldM (fun s column =>
      let* st := foldM (assemble_cell matrix loadcase) column (C0, s) in Ok (snd st)) columns s) color (reset matrix loadcase s).
(* 540-566 one cell of averageStress: stress, volume and the matrix C kept from cell to cell *)
Definition stress_cell (s : asm) (u : list R) (eps0 : Z -> R) (st : (Z -> R) * R * fmat) (c : cellg) : res ((Z -> R) * R * fmat) :=
  let '(sigma, volume, C) := st in
  let* bc := constitutive6 (cg_mat c) C false in
  let C := snd bc in
  let* v := extract_values 3 s u (cg_verts c) in
  foldM (fun st r => let '(sigma, volume, C) := st in
      let detJ := cg_det c (fst r) in
      let volume := (volume + detJ * snd r)%R in
      let* lB := bmatrix 3 (fst r) (cg_jit c (fst r)) in
      let sv := stress 6 24 (vec_at v) eps0 lB C in
      Ok ((fun i => sigma i + sv i * (detJ * snd r))%R, volume, C)) (cg_rule c) (sigma, volume, C).
(* 521-571 averageStress; None: a load case outside 0..5, sigma is left alone. C0 is the matrix of line 532 before
   it is set. *)
Definition average_stress (s : asm) (u : list R) (cells : list cellg) (loadcase : Z) (Escale Emin : R) (C0 : fmat) : res (option (Z -> R)) :=
  if (loadcase <? 0) || (5 <? loadcase) then Ok None else
  let* st := foldM (stress_cell s u (unit_strain loadcase)) cells ((fun _ => 0%R), 0%R, C0) in
  let '(sigma, volume, _) := st in
  if Req_EM_T volume 0 then UB else
  if Rltb 0 Escale then
    let* f := mdiv Escale Emin in Ok (Some (fun i => sigma i / volume / f)%R)
  else Ok (Some (fun i => sigma i / volume)%R).

(* ---- elasticity.cpp *)
(* 29-45 the direction and the matrix D; the entries not assigned are zero; x.two_norm() is a square root *)
Definition direction (phi theta : R) (i : Z) : R :=
  if i =? 0 then (1 * cos theta * cos phi)%R else if i =? 1 then (1 * sin theta * cos phi)%R else (1 * sin phi)%R.
(* elasticity.cpp 36-45 *)
Definition dmatrix (x : Z -> R) : res fmat :=
  let D := fput fzero 0 0 (x 0) in
  let D := fput D 0 4 (x 2) in
  let D := fput D 0 5 (x 1) in
  let D := fput D 1 1 (x 1) in
  let D := fput D 1 3 (x 2) in
  let D := fput D 1 5 (x 0) in
  let D := fput D 2 2 (x 2) in
  let D := fput D 2 3 (x 1) in
  let D := fput D 2 4 (x 0) in
  let n := sqrt (dsum 3 (fun i => x i * x i)%R) in
  if Req_EM_T n 0 then UB else Ok (fun i j => D i j / n)%R.
(* 46-54 E = D C D^T *)
Definition christoffel (C : fmat) (phi theta : R) : res fmat :=
  let* D := dmatrix (direction phi theta) in
  let T : fmat := fun i j => dsum 6 (fun k => D i k * C k j)%R in
  Ok (fun i j => dsum 6 (fun k => T i k * D j k))%R.
(* std::sort with std::greater *)
(* elasticity.cpp 57: insertion into a sorted list *)
Fixpoint insert_greater (x : R) (l : list R) : list R := match l with [] => [x] | y :: t => if Rltb y x then x :: l else y :: insert_greater x t end.
(* elasticity.cpp 57 *)
Definition sort_greater (l : list R) : list R := fold_right insert_greater [] l.
(* 23-62 waveSpeeds; eig is FMatrixHelp::eigenValues. A negative quotient under the root gives no number. *)
Definition wave_speeds (eig : fmat -> list R) (C : fmat) (phi theta rho : R) : res (list R) :=
  let* E := christoffel C phi theta in
  mapM (fun e => let* q := mdiv e rho in if Rltb q 0 then UB else Ok (sqrt q)) (sort_greater (eig E)).
(* examples/upscale_elasticity.cpp:405-413 CLAMP; C[i][j] = CLAMP(v[j]) with v of load case i *)
Definition clamp (x : R) : R := if Rltb (Rabs x) (1 / 10000) then 0%R else x.
(* examples/upscale_elasticity.cpp:405-413 *)
Definition clamped (C : fmat) : fmat := fun i j => clamp (C i j).
(* examples/upscale_elasticity.cpp:433-437 exchange of the 4th and 6th rows, then columns *)
Definition voigt_swap (C : fmat) : fmat :=
  let p := fun i => if i =? 3 then 5 else if i =? 5 then 3 else i in fun i j => C (p i) (p j).
(* examples/upscale_elasticity.cpp:427-437 what the driver reports: the speeds (absent if the density was not
   computed) and the matrix *)
Definition report (eig : fmat -> list R) (C : fmat) (dip azimuth upscaledRho : R) : res (option (list R) * fmat) :=
  let* speeds := if Rltb (-1) upscaledRho then let* s := wave_speeds eig C dip azimuth 1 in Ok (Some s) else Ok None in
  Ok (speeds, voigt_swap C).
