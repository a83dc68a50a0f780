(* Shape functions: opm/elasticity/shapefunctions.hpp. *)
From Verif Require Export Matx_Model.
Open Scope Z_scope.

(* 51-59 LinearShapeFunction::evaluateFunction; coeff0 and coeff1 are the vectors of 80-85 *)
Definition lin_eval (dim : Z) (coeff0 coeff1 : Z -> R) (local : Z -> R) : R :=
  fold_left (fun result i => result * (coeff0 i + coeff1 i * local i))%R (zrange 0 dim) 1%R.
(* 61-78 LinearShapeFunction::evaluateGradient, component i *)
Definition lin_grad (dim : Z) (coeff0 coeff1 : Z -> R) (local : Z -> R) (i : Z) : R :=
  fold_left (fun result j => if i =? j then (result * coeff1 j)%R else (result * (coeff0 j + coeff1 j * local j))%R) (zrange 0 dim) 1%R.

(* 210-239 the coefficient tables *)
Definition coeffs11 : list R := [0; 1]%R.
(* 210-239 *)
Definition coeffs12 : list R := [1; -1]%R.
(* 210-239 *)
Definition coeffs21 : list R := [1; 1; 0; 1; 1; 0; 0; 0]%R.
(* 210-239 *)
Definition coeffs22 : list R := [-1; -1; 1; -1; -1; 1; 1; 1]%R.
(* 210-239 *)
Definition coeffs31 : list R := [1; 1; 1; 0; 1; 1; 1; 0; 1; 0; 0; 1; 1; 1; 0; 0; 1; 0; 1; 0; 0; 0; 0; 0]%R.
(* 210-239 *)
Definition coeffs32 : list R := [-1; -1; -1; 1; -1; -1; -1; 1; -1; 1; 1; -1; -1; -1; 1; 1; -1; 1; -1; 1; 1; 1; 1; 1]%R.
(* 184 the number of functions *)
Definition p1_size (dim : Z) : Z := if dim =? 2 then 4 else 8.
(* 241-254 the table used; pointers stay uninitialised for other dimensions *)
Definition p1_tables (dim : Z) : res (list R * list R) :=
  if dim =? 1 then Ok (coeffs11, coeffs12) else if dim =? 2 then Ok (coeffs21, coeffs22) else if dim =? 3 then Ok (coeffs31, coeffs32) else UB.
(* 208-265 the constructor: the coefficient vectors of the functions in turn *)
Definition p1_set (dim : Z) : res (list (list R * list R)) :=
  let* t := p1_tables dim in
  mapM (fun i => let* c1 := mapM (fun j => rget (fst t) (i * dim + j)) (zrange 0 dim) in
                 let* c2 := mapM (fun j => rget (snd t) (i * dim + j)) (zrange 0 dim) in Ok (c1, c2)) (zrange 0 (p1_size dim)).
(* entry j of a coefficient vector *)
(* 51-78 *)
Definition vec_at (l : list R) (j : Z) : R := match zget l j with Some x => x | None => 0%R end.
(* 201-204 and 51-78: value and gradient of function i of the set *)
Definition p1_eval (dim i : Z) (local : Z -> R) : res R :=
  let* f := p1_set dim in let* c := rget f i in Ok (lin_eval dim (vec_at (fst c)) (vec_at (snd c)) local).
(* 201-204, 61-78 *)
Definition p1_grad (dim i : Z) (local : Z -> R) (k : Z) : res R :=
  let* f := p1_set dim in let* c := rget f i in Ok (lin_grad dim (vec_at (fst c)) (vec_at (snd c)) local k).

(* 103-114 LagrangeCardinalFunction::evaluateFunction *)
Definition card_eval (nodes : list R) (node : Z) (local : R) : res R :=
  foldM (fun result i => if i =? node then Ok result else
      let* xi := rget nodes i in let* xn := rget nodes node in let* q := mdiv (local - xi) (xn - xi) in Ok (result * q)%R)
    (zrange 0 (zlen nodes)) 1%R.
(* 116-131 LagrangeCardinalFunction::evaluateGradient *)
Definition card_grad (nodes : list R) (node : Z) (local : R) : res R :=
  foldM (fun result i =>
      let* f := foldM (fun f j => if negb (i =? j) && negb (j =? node) then
            let* xj := rget nodes j in let* xn := rget nodes node in let* q := mdiv (local - xj) (xn - xj) in Ok (f * q)%R
          else Ok f) (zrange 0 (zlen nodes)) 1%R in
      let* xn := rget nodes node in let* xi := rget nodes i in let* q := mdiv f (xn - xi) in Ok (result + q)%R)
    (zrange 0 (zlen nodes)) 0%R.
(* 156-165 TensorProductFunction::evaluateFunction; a function is its node list and its node *)
Definition tp_eval (funcs : list (list R * Z)) (local : Z -> R) : res R :=
  foldM (fun result i => let* f := rget funcs i in let* v := card_eval (fst f) (snd f) (local i) in Ok (result * v)%R) (zrange 0 (zlen funcs)) 1%R.
(* 167-173 TensorProductFunction::evaluateGradient: falls off the end without returning a value *)
Definition tp_grad (funcs : list (list R * Z)) (local : Z -> R) : res (list R) :=
  let* r := mapM (fun i => let* f := rget funcs i in card_grad (fst f) (snd f) (local i)) (zrange 0 (zlen funcs)) in UB.
(* 280-313 PNShapeFunctionSet: the tensor products in order; grid n is gaussLobattoLegendreGrid(n). The
   one-dimensional functions cfuncs (284-289) are replaced by their grids and nodes. *)
Definition pn_set (grid : Z -> list R) (dims : list Z) : res (list (list (list R * Z))) :=
  match dims with
  | [n1; n2] => Ok (flat_map (fun j => map (fun i => [(grid n1, i); (grid n2, j)]) (zrange 0 n1)) (zrange 0 n2))
  | [n1; n2; n3] => Ok (flat_map (fun k => flat_map (fun j => map (fun i => [(grid n1, i); (grid n2, j); (grid n3, k)]) (zrange 0 n1)) (zrange 0 n2)) (zrange 0 n3))
  | _ => UB
  end.

(* 330-342 legendre: Ln[i+1] from Ln[i] and Ln[i-1]; Ln has n+1 entries, so that n = 0 writes beyond it *)
Definition leg_table (n : Z) (x : R) : res (list R) :=
  let* Ln := rset (zrepeat 0%R (n + 1)) 0 1%R in
  let* Ln := rset Ln 1 x in
  foldM (fun Ln i => let* a := rget Ln i in let* b := rget Ln (i - 1) in
      rset Ln (i + 1) ((2 * IZR i + 1) / (IZR i + 1) * x * a - IZR i / (IZR i + 1) * b)%R) (zrange 1 n) Ln.
(* 330-342 legendre *)
Definition legendre (x : R) (n : Z) : res R := let* Ln := leg_table n x in rget Ln n.
(* 344-358 legendreDerivative; pow(x, n-1) for n >= 1 *)
Definition legendre_derivative (x : R) (n : Z) : res R :=
  let* Ln := rset (zrepeat 0%R (n + 1)) 0 1%R in
  let* Ln := rset Ln 1 x in
  if (if Req_EM_T x 1 then true else if Req_EM_T x (-1) then true else false) then Ok (x ^ Z.to_nat (n - 1) * IZR n * (IZR n + 1) / 2)%R else
  let* Ln := foldM (fun Ln i => let* a := rget Ln i in let* b := rget Ln (i - 1) in
      rset Ln (i + 1) ((2 * IZR i + 1) / (IZR i + 1) * x * a - IZR i / (IZR i + 1) * b)%R) (zrange 1 n) Ln in
  let* a := rget Ln (n - 1) in let* b := rget Ln n in
  let* q := mdiv (IZR n) (1 - x * x) in let* r := mdiv (IZR n * x) (1 - x * x) in Ok (q * a - r * b)%R.
(* 399-405 the iteration for one interior point, at most fuel steps; None: it has not ended *)
Fixpoint lobatto_newton (fuel : nat) (n : Z) (old x : R) : option (res R) :=
  if Rltb (/ 10 ^ 15) (Rabs (old - x)) then
    match fuel with
    | O => None
    | S fuel =>
        match (let* L := legendre x (n - 1) in let* Ld := legendre_derivative x (n - 1) in
               let* q := mdiv ((1 - x * x) * Ld) ((IZR n - 1) * IZR n * L) in Ok (x + q)%R) with
        | Ok y => lobatto_newton fuel n x y
        | r => Some r
        end
    end
  else Some (Ok x).
(* 382-410 gaussLobattoLegendreGrid; gl is gaussLegendreGrid(n-1), whose eigenvalues are computed by LAPACK *)
Definition lobatto_grid (fuel : nat) (n : Z) (gl : list R) : option (res (list R)) :=
  if n <=? 1 then Some Throw else
  let result := [0%R] ++ (if n =? 3 then [(1 / 2)%R] else zrepeat 0%R (n - 2)) ++ [1%R] in
  if n <? 4 then Some (Ok result) else
  fold_left (fun st i => match st with
      | Some (Ok result) =>
          match rget gl (i - 1), rget gl i with
          | Ok a, Ok b =>
              match lobatto_newton fuel n 0 ((a + b) / 2)%R with
              | Some (Ok x) => Some (rset result i ((x + 1) / 2)%R)
              | Some Throw => Some Throw
              | Some UB => Some UB
              | None => None
              end
          | _, _ => Some UB
          end
      | st => st
      end) (zrange 1 (n - 1)) (Some (Ok result)).
