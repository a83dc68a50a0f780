(* Vocabulary for elastic materials, element matrices, upscaled stiffness and wave speeds. *)
From Coq Require Export Permutation.
From Verif Require Export Elast_Model Lin_Spec Shape_Spec Smat_Spec Asm_Spec.
Open Scope Z_scope.

(* ---- matrices of size n *)
Definition same (n : Z) (A B : fmat) : Prop := forall i j, 0 <= i < n -> 0 <= j < n -> A i j = B i j.
Definition symmetric (n : Z) (A : fmat) : Prop := forall i j, 0 <= i < n -> 0 <= j < n -> A i j = A j i.
(* x^T A x *)
Definition quad (n : Z) (A : fmat) (x : Z -> R) : R := dot n x (mvec n A x).
Definition psd (n : Z) (A : fmat) : Prop := forall x, (0 <= quad n A x)%R.
Definition pos_def (n : Z) (A : fmat) : Prop := forall x, (exists i, 0 <= i < n /\ x i <> 0%R) -> (0 < quad n A x)%R.
Definition inverses (n : Z) (A B : fmat) : Prop := same n (mmul n A B) ident /\ same n (mmul n B A) ident.
(* stress = lambda trace(strain) + 2 mu strain, the shear components of the strain being doubled: d normal
   components come first *)
Definition lame (d : Z) (lambda mu : R) : fmat := fun i j =>
  ((if (i <? d) && (j <? d) then lambda else 0) + (if i =? j then (if i <? d then 2 * mu else mu) else 0))%R.
(* the Poisson ratios accepted *)
Definition okn (nu : R) : Prop := (0 <= nu < 1 / 2)%R.
(* position of entry (i, j) of a symmetric 6 by 6 matrix whose upper triangle is listed row by row *)
Definition tri (i j : Z) : Z := let a := Z.min i j in let b := Z.max i j in 6 * a - a * (a - 1) / 2 + (b - a).
(* exchange of the fourth and the sixth component *)
Definition exch (i : Z) : Z := if i =? 3 then 5 else if i =? 5 then 3 else i.
(* transverse isotropy about the third axis, input order of the components: yz, xz, xy *)
Definition ti_matrix (a b c d e : R) : fmat := fun i j =>
  (if i =? j then (if i <? 2 then a else if i =? 2 then c else if i <? 5 then d else e)
   else if (i <? 2) && (j <? 2) then a - 2 * e else if (i <? 3) && (j <? 3) then b else 0)%R.
(* what getConstitutiveMatrix gives, whatever the matrix held before *)
Definition matrix_of (m : material) (C : fmat) : Prop := forall C0, exists C', constitutive6 m C0 false = Ok (true, C') /\ same 6 C' C.
(* words of a rock file: the numbers l, then density rho *)
Definition rock_file (kind : string) (l : list R) (rho : R) : list tok := (RWord kind :: map RNum l ++ [RWord "density"; RNum rho])%list.

(* ---- strain *)
(* the strain components of a displacement gradient G k l = d u_k / d x_l: xx, yy, zz, xy, xz, yz; in the plane xx, yy, xy *)
Definition strain (dim : Z) (G : fmat) (i : Z) : R :=
  (if dim =? 3 then
     if i <? 3 then G i i else if i =? 3 then G 0%Z 1%Z + G 1%Z 0%Z else if i =? 4 then G 0%Z 2%Z + G 2%Z 0%Z else G 1%Z 2%Z + G 2%Z 1%Z
   else if i <? 2 then G i i else G 0%Z 1%Z + G 1%Z 0%Z)%R.
(* gradient of the displacement of a cell with nodal values u, the gradient of shape function a being gN a *)
Definition disp_gradient (dim : Z) (gN : Z -> Z -> R) (u : Z -> R) : fmat := fun k l => Sum (2 ^ dim) (fun a => u (dim * a + k)%Z * gN a l)%R.
(* gradient of shape function a in the coordinates of the cell, J being the inverse transposed Jacobian *)
Definition phys_gradient (dim : Z) (J : fmat) (gr : Z -> Z -> R) : Z -> Z -> R := fun a => mvec dim J (gr a).
(* J is the inverse transposed of the Jacobian of the map with corners X at the point where the gradients are gr *)
Definition jacobian_of (dim : Z) (X : Z -> Z -> R) (gr : Z -> Z -> R) (J : fmat) : Prop :=
  forall k l, 0 <= k < dim -> 0 <= l < dim -> Sum dim (fun m => J l m * Sum (2 ^ dim) (fun a => X a k * gr a m))%R = ident k l.
(* nodal values of the affine displacement c + G x *)
Definition affine_disp (dim : Z) (X : Z -> Z -> R) (c : Z -> R) (G : fmat) : Z -> R :=
  fun d => (c (d mod dim)%Z + Sum dim (fun l => G (d mod dim)%Z l * X (d / dim)%Z l))%R.

(* ---- the upscaled stiffness *)
(* all quadrature points with their cell and their weight det J w *)
Definition points (cells : list cellg) : list (cellg * (Z -> R) * R) :=
  flat_map (fun c => map (fun r => (c, fst r, (cg_det c (fst r) * snd r)%R)) (cg_rule c)) cells.
(* sum over the quadrature points *)
Definition integral (cells : list cellg) (f : cellg -> (Z -> R) -> R) : R := Rsum (map (fun p => f (fst (fst p)) (snd (fst p)) * snd p)%R (points cells)).
Definition volume (cells : list cellg) : R := integral cells (fun _ _ => 1%R).
(* u solves A u = b *)
Definition solves (n : Z) (A : smat) (u b : list R) : Prop := zlen u = n /\ forall e, 0 <= e < n -> Sum n (fun f => coef A e f * nthR u f)%R = nthR b e.

(* ---- wave speeds *)
Definition det3 (A : fmat) : R :=
  (A 0%Z 0%Z * (A 1%Z 1%Z * A 2%Z 2%Z - A 1%Z 2%Z * A 2%Z 1%Z) - A 0%Z 1%Z * (A 1%Z 0%Z * A 2%Z 2%Z - A 1%Z 2%Z * A 2%Z 0%Z) + A 0%Z 2%Z * (A 1%Z 0%Z * A 2%Z 1%Z - A 1%Z 1%Z * A 2%Z 0%Z))%R.
(* the eigenvalue routine: for a symmetric matrix, the roots of its characteristic polynomial with multiplicities *)
Definition eigen_ok (eig : fmat -> list R) : Prop := forall A, symmetric 3 A -> exists a b c, eig A = [a; b; c] /\
  forall t, det3 (fun i j => A i j - t * ident i j)%R = ((a - t) * (b - t) * (c - t))%R.

(* ---- assembly *)
(* the strain matrix of a cell at a point (C95 says what it is) *)
Definition bmat (c : cellg) (x : Z -> R) : fmat := match bmatrix 3 x (cg_jit c x) with Ok B => B | _ => fzero end.
(* integrals of B^T C B and of - B^T C eps over a cell *)
Definition cell_stiffness (C : fmat) (c : cellg) : fmat := fun a b =>
  Rsum (map (fun r => cg_det c (fst r) * snd r * Sum 6 (fun k => Sum 6 (fun l => bmat c (fst r) k a * C k l * bmat c (fst r) l b)))%R (cg_rule c)).
Definition cell_load (C : fmat) (c : cellg) (eps : Z -> R) : Z -> R := fun a =>
  Rsum (map (fun r => - (cg_det c (fst r) * snd r) * Sum 6 (fun k => Sum 6 (fun l => bmat c (fst r) k a * C k l * eps l)))%R (cg_rule c)).
Definition stiff_elem (Cm : cellg -> fmat) (c : cellg) : elem := mkElem (cg_verts c) (Some (cell_stiffness (Cm c) c)) None.
Definition load_elem (Cm : cellg -> fmat) (loadcase : Z) (c : cellg) : elem := mkElem (cg_verts c) None (Some (cell_load (Cm c) c (unit_strain loadcase))).
(* the states reached from s by calls of assemble *)
Inductive reached (color : list (list (list cellg))) (s : asm) : asm -> Prop :=
| reached_start : reached color s s
| reached_next t loadcase matrix C0 t' : reached color s t -> assemble color loadcase matrix C0 t = Ok t' -> reached color s t'.
(* the unscaling factor of averageStress *)
Definition factor (Escale Emin : R) : R := if Rltb 0 Escale then (Escale / Emin)%R else 1%R.
(* the volume average of the matrices *)
Definition mean (Cm : cellg -> fmat) (cells : list cellg) : fmat := fun i j => (integral cells (fun c _ => Cm c i j) / volume cells)%R.
(* nonnegative weights det J w *)
Definition nonneg (cells : list cellg) : Prop := forall c x w, In c cells -> In (x, w) (cg_rule c) -> (0 <= cg_det c x * w)%R.
(* the six load cases: the matrix is assembled in s1, load vector i is solved for with solution u i, and the average stress is sig i *)
Definition load_cases (color : list (list (list cellg))) (cells : list cellg) (Escale Emin : R) (C1 C2 : fmat) (s1 : asm) (u : Z -> list R) (sig : fmat) : Prop :=
  forall i, 0 <= i < 6 -> exists si, assemble color i false C1 s1 = Ok si /\ solves (as_neq s1) (as_A s1) (u i) (as_b si) /\
    exists sg, average_stress s1 (u i) cells i Escale Emin C2 = Ok (Some sg) /\ forall j, 0 <= j < 6 -> sg j = sig i j.
(* the Voigt order of the components: xx, yy, zz, yz, xz, xy *)
Definition voigt (i j : Z) : Z := if i =? j then i else 6 - (i + j).
(* the Christoffel matrix of the direction n, C being in Voigt order: sum of c_ijkl n_j n_l *)
Definition christoffel_of (C : fmat) (n : Z -> R) : fmat := fun i k => Sum 3 (fun j => Sum 3 (fun l => C (voigt i j) (voigt k l) * n j * n l))%R.
(* a plane wave of speed v: det(Christoffel matrix - rho v^2) = 0; the three speeds, largest first *)
Definition speeds_of (C : fmat) (n : Z -> R) (rho : R) (v : list R) : Prop := exists a b c, v = [a; b; c] /\ (0 <= c <= b /\ b <= a)%R /\
  forall t, det3 (fun i k => christoffel_of C n i k - t * ident i k)%R = ((rho * (a * a) - t) * (rho * (b * b) - t) * (rho * (c * c) - t))%R.
(* an elastic problem as the driver sets it up: grid, constraints, zero prescribed displacements, the cells in some order by colour,
   hexahedra, and symmetric matrices Cm that the materials give *)
Definition elastic_problem (nodes : Z) (cells : list cellg) (M : mpcmap) (F : fixmap) (s : asm) (color : list (list (list cellg))) (Cm : cellg -> fmat) : Prop :=
  grid_ok 3 nodes (map cg_verts cells) M F /\ wf_mpcs 3 M /\ (forall d, is_fixed 3 F d -> fixed_val 3 F d = 0%R) /\
  (exists fuel, init_assembly fuel 3 nodes (map cg_verts cells) M F = Some (Ok s)) /\ Permutation (concat (concat color)) cells /\
  forall c, In c cells -> zlen (cg_verts c) = 8 /\ matrix_of (cg_mat c) (Cm c) /\ symmetric 6 (Cm c).
(* a rock with shear moduli 1, 1 and 4 *)
Definition odd_rock : fmat := fun i j => if i =? j then (if i <? 3 then 9 else if i =? 3 then 1 else if i =? 4 then 1 else 4)%R else 0%R.
