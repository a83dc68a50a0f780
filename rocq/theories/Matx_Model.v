(* Model of opm/porsol/common/Matrix.hpp and opm/porsol/common/MatrixInverse.hpp: dense matrices
   in a linear array.  The three storage policies differ in who owns the array and are not told
   apart; the array of a matrix is the part it refers to. *)
From Verif Require Export RBase.
Open Scope Z_scope.

(* Matrix.hpp:263-364 the ordering policies *)
Inductive ordering := COrd | FOrd.
(* Matrix.hpp:389-566 FullMatrix *)
Record mat := mkMat { m_rows : Z; m_cols : Z; m_ord : ordering; m_data : list R }.
(* Matrix.hpp:290 and 345: idx.  Products of int beyond INT_MAX are not modelled *)
Definition midx (m : mat) (r c : Z) : Z :=
  match m_ord m with COrd => r * m_cols m + c | FOrd => r + c * m_rows m end.
(* Matrix.hpp:275, 330: leadingDimension *)
Definition ldim (m : mat) : Z := match m_ord m with COrd => m_cols m | FOrd => m_rows m end.
(* Matrix.hpp:544-563 operator() for reading and for writing.  The index assertions of idx are
   compiled out in release builds; only accesses outside the array are undefined here *)
Definition mget (m : mat) (r c : Z) : res R := rget (m_data m) (midx m r c).
(* Matrix.hpp:544-563 operator() for writing *)
Definition mset (m : mat) (r c : Z) (v : R) : res mat :=
  let* d := rset (m_data m) (midx m r c) v in Ok (mkMat (m_rows m) (m_cols m) (m_ord m) d).
(* Matrix.hpp:425-429 constructor with a null pointer (OwnData, 100-107): all zero *)
Definition mnew (o : ordering) (rows cols : Z) : mat := mkMat rows cols o (zrepeat 0%R (rows * cols)).
(* Matrix.hpp:439-444 copy constructor *)
Definition mcopy (m : mat) : mat := mkMat (m_rows m) (m_cols m) (m_ord m) (m_data m).
(* Matrix.hpp:457-468 operator= between matrices of equal size (asserted) *)
Definition massign (dst src : mat) : res mat :=
  foldM (fun m rc => let* v := mget src (fst rc) (snd rc) in mset m (fst rc) (snd rc) v)
    (pairs (zrange 0 (m_rows dst)) (zrange 0 (m_cols dst))) dst.
(* Matrix.hpp:481-496 operator== *)
Definition mequal (a b : mat) : res bool :=
  if negb ((m_rows a =? m_rows b) && (m_cols a =? m_cols b)) then Ok false
  else foldM (fun (eq : bool) rc =>
         if eq then let* x := mget a (fst rc) (snd rc) in
                    let* y := mget b (fst rc) (snd rc) in
                    Ok (if Req_EM_T x y then true else false)
         else Ok false) (pairs (zrange 0 (m_rows a)) (zrange 0 (m_cols a))) true.
(* Matrix.hpp:505-511 operator+= (same ordering); a second array that is too short would be read
   past its end *)
Definition madd (a b : mat) : res mat :=
  if zlen (m_data b) <? zlen (m_data a) then UB
  else Ok (mkMat (m_rows a) (m_cols a) (m_ord a) (map (fun p => (fst p + snd p)%R) (combine (m_data a) (m_data b)))).
(* Matrix.hpp:518-522 operator*= *)
Definition mscale (a : mat) (s : R) : mat := mkMat (m_rows a) (m_cols a) (m_ord a) (map (fun x => (x * s)%R) (m_data a)).
(* Matrix.hpp:601-606 zero *)
Definition mzero (a : mat) : res mat :=
  let* d := foldM (fun d k => rset d k 0%R) (zrange 0 (m_rows a * m_cols a)) (m_data a) in
  Ok (mkMat (m_rows a) (m_cols a) (m_ord a) d).
(* Matrix.hpp:616-623 eye *)
Definition meye (a : mat) : res mat :=
  let* z := mzero a in foldM (fun m i => mset m i i 1%R) (zrange 0 (Z.min (m_rows a) (m_cols a))) z.
(* Matrix.hpp:636-646 trace *)
Definition mtrace (a : mat) : res R :=
  foldM (fun s i => let* x := mget a i i in Ok (s + x)%R) (zrange 0 (Z.min (m_rows a) (m_cols a))) 0%R.
(* Matrix.hpp:666-682 prod of matrix and vector; n is the length of the vector *)
Definition mprodv (a : mat) (n : Z) (x : list R) : res (list R) :=
  foldM (fun y cr =>
      let c := fst cr in let r := snd cr in
      let* y0 := rget y r in let* v := mget a r c in let* xc := rget x c in
      rset y r (y0 + v * xc)%R) (pairs (zrange 0 n) (zrange 0 n)) (zrepeat 0%R n).
(* Matrix.hpp:691-709 prod of two matrices into a third *)
Definition mprod (a b dst : mat) : res mat :=
  foldM (fun m cr =>
      let c := fst cr in let r := snd cr in
      let* m0 := mset m r c 0%R in
      foldM (fun m i => let* z := mget m r c in let* x := mget a r i in let* y := mget b i c in
                        mset m r c (z + x * y)%R) (zrange 0 (m_cols a)) m0)
    (pairs (zrange 0 (m_cols b)) (zrange 0 (m_rows a))) dst.

(* ---- BLAS, by the values its documentation promises; column-major arrays with leading
   dimension ld *)
(* blas_lapack.hpp:46-96: how the routines address a matrix *)
Definition fget (d : list R) (ld i j : Z) : res R := rget d (i + j * ld).
(* blas_lapack.hpp:46-70: op(A) of DGEMM and DGEMV *)
Definition opget (tr : bool) (d : list R) (ld i j : Z) : res R := if tr then fget d ld j i else fget d ld i j.
(* the inner sums of the routines of blas_lapack.hpp:46-96 *)
Definition sumM (lo hi : Z) (f : Z -> res R) : res R :=
  foldM (fun s l => let* x := f l in Ok (s + x)%R) (zrange lo hi) 0%R.
(* results v i j stored at the positions (j, i) of ws *)
(* the results of the routines of blas_lapack.hpp:46-96 *)
Definition fstore (ws : list (Z * Z)) (ld : Z) (v : Z -> Z -> res R) (d : list R) : res (list R) :=
  foldM (fun d ji => let* x := v (snd ji) (fst ji) in rset d (snd ji + fst ji * ld) x) ws d.
(* DGEMM: C <- a1 op(A) op(B) + a2 C *)
(* blas_lapack.hpp:65 *)
Definition gemm (ta tb : bool) (m n k : Z) (a1 : R) (A : list R) (lda : Z) (B : list R) (ldb : Z) (a2 : R) (C : list R) (ldc : Z) : res (list R) :=
  fstore (pairs (zrange 0 n) (zrange 0 m)) ldc (fun i j =>
    let* s := sumM 0 k (fun l => let* x := opget ta A lda i l in let* y := opget tb B ldb l j in Ok (x * y)%R) in
    let* c := fget C ldc i j in Ok (a1 * s + a2 * c)%R) C.
(* DSYRK "Upper", "No transpose": the upper triangle of C <- a1 A A^T + a2 C *)
(* blas_lapack.hpp:78 *)
Definition syrk (n k : Z) (a1 : R) (A : list R) (lda : Z) (a2 : R) (C : list R) (ldc : Z) : res (list R) :=
  fstore (filter (fun ji => snd ji <=? fst ji) (pairs (zrange 0 n) (zrange 0 n))) ldc (fun i j =>
    let* s := sumM 0 k (fun l => let* x := fget A lda i l in let* y := fget A lda j l in Ok (x * y)%R) in
    let* c := fget C ldc i j in Ok (a1 * s + a2 * c)%R) C.
(* DTRMM "Left"/"Right", "Upper", "No transpose", "Non-unit" with factor one: B <- U B or B U, U
   the upper triangle of A *)
(* blas_lapack.hpp:90 *)
Definition trmm_left (m n : Z) (A : list R) (lda : Z) (B : list R) (ldb : Z) : res (list R) :=
  fstore (pairs (zrange 0 n) (zrange 0 m)) ldb (fun i j =>
    sumM i m (fun l => let* x := fget A lda i l in let* y := fget B ldb l j in Ok (x * y)%R)) B.
(* blas_lapack.hpp:90 *)
Definition trmm_right (m n : Z) (A : list R) (lda : Z) (B : list R) (ldb : Z) : res (list R) :=
  fstore (pairs (zrange 0 n) (zrange 0 m)) ldb (fun i j =>
    sumM 0 (j + 1) (fun l => let* x := fget B ldb i l in let* y := fget A lda l j in Ok (x * y)%R)) B.
(* DGEMV: y <- a1 op(A) x + a2 y, A m by n *)
(* blas_lapack.hpp:52 *)
Definition gemv (tr : bool) (m n : Z) (a1 : R) (A : list R) (lda : Z) (x : list R) (a2 : R) (y : list R) : res (list R) :=
  let rows := if tr then n else m in let cols := if tr then m else n in
  fstore (pairs [0] (zrange 0 rows)) rows (fun i _ =>
    let* s := sumM 0 cols (fun l => let* v := opget tr A lda i l in let* xl := rget x l in Ok (v * xl)%R) in
    let* yi := rget y i in Ok (a1 * s + a2 * yi)%R) y.

(* Matrix.hpp:841-845, 879-883: copy the upper to the lower triangle *)
Definition mirror (m : mat) : res mat :=
  let rows := m_rows m in
  foldM (fun m j => foldM (fun m i => let* v := mget m j i in mset m i j v) (zrange (j + 1) rows) m)
    (zrange 0 (m_cols m)) m.
(* the matrix with its array replaced *)
(* the outputs of Matrix.hpp:828-890, 1132-1270 *)
Definition with_data (m : mat) (d : res (list R)) : res mat :=
  let* d := d in Ok (mkMat (m_rows m) (m_cols m) (m_ord m) d).
(* Matrix.hpp:828-846 symmetricUpdate(a1, A, a2, C) *)
Definition sym_update (a1 : R) (A : mat) (a2 : R) (C : mat) : res mat :=
  let* C := with_data C (syrk (m_rows C) (m_cols A) a1 (m_data A) (ldim A) a2 (m_data C) (ldim C)) in mirror C.
(* Matrix.hpp:856-884 symmetricUpdate(A, B) *)
Definition sym_update2 (A B : mat) : res mat :=
  let* B := with_data B (trmm_left (m_rows B) (m_cols B) (m_data A) (ldim A) (m_data B) (ldim B)) in
  let* B := with_data B (trmm_right (m_rows B) (m_cols B) (m_data A) (ldim A) (m_data B) (ldim B)) in
  mirror B.
(* Matrix.hpp:911-925, 955-966: vecMulAdd_N; 997-1011, 1042-1053: vecMulAdd_T *)
Definition vec_mul_add (tr : bool) (a1 : R) (A : mat) (x : list R) (a2 : R) (y : list R) : res (list R) :=
  gemv tr (m_rows A) (m_cols A) a1 (m_data A) (ldim A) x a2 y.
(* Matrix.hpp:1084-1097 vecMulAdd_N of a C-ordered matrix *)
Definition vec_mul_add_c (a1 : R) (A : mat) (x : list R) (a2 : R) (y : list R) : res (list R) :=
  vec_mul_add true a1 (mkMat (m_cols A) (m_rows A) FOrd (m_data A)) x a2 y.
(* Matrix.hpp:1132-1154 matMulAdd_NN, 1190-1212 matMulAdd_NT, 1248-1270 matMulAdd_TN *)
Definition mat_mul_add_NN (a1 : R) (A B : mat) (a2 : R) (C : mat) : res mat :=
  with_data C (gemm false false (m_rows A) (m_cols B) (m_cols A) a1 (m_data A) (ldim A) (m_data B) (ldim B) a2 (m_data C) (ldim C)).
(* Matrix.hpp:1190-1212 *)
Definition mat_mul_add_NT (a1 : R) (A B : mat) (a2 : R) (C : mat) : res mat :=
  with_data C (gemm false true (m_rows A) (m_rows B) (m_cols A) a1 (m_data A) (ldim A) (m_data B) (ldim B) a2 (m_data C) (ldim C)).
(* Matrix.hpp:1248-1270 *)
Definition mat_mul_add_TN (a1 : R) (A B : mat) (a2 : R) (C : mat) : res mat :=
  with_data C (gemm true false (m_cols A) (m_cols B) (m_rows A) a1 (m_data A) (ldim A) (m_data B) (ldim B) a2 (m_data C) (ldim C)).
(* Matrix.hpp:1306-1322 matMulAdd_NN with a C-ordered second factor *)
Definition mat_mul_add_NNc (a1 : R) (A B : mat) (a2 : R) (C : mat) : res mat :=
  mat_mul_add_NT a1 A (mkMat (m_cols B) (m_rows B) FOrd (m_data B)) a2 C.

(* ---- MatrixInverse.hpp.  A division by zero gives UB here (in the code: inf or NaN) *)
(* MatrixInverse.hpp:49-90 *)
Definition mdiv (x y : R) : res R := match fdiv x y with Some q => Ok q | None => UB end.
(* MatrixInverse.hpp:49-66 inverse2x2; mi /= det divides every entry *)
Definition inverse2x2 (m : mat) : res mat :=
  let* a := mget m 0 0 in let* b := mget m 0 1 in let* c := mget m 1 0 in let* d := mget m 1 1 in
  let det := (a * d - b * c)%R in
  let mi := mnew (m_ord m) 2 2 in
  let* mi := mset mi 0 0 d in
  let* mi := mset mi 1 0 (- c)%R in
  let* mi := mset mi 0 1 (- b)%R in
  let* mi := mset mi 1 1 a in
  let* ds := mapM (fun x => mdiv x det) (m_data mi) in
  Ok (mkMat 2 2 (m_ord m) ds).
(* MatrixInverse.hpp:68-83 matprod *)
Definition matprod (a b : mat) : res mat :=
  foldM (fun m rc =>
      let r := fst rc in let c := snd rc in
      let* m0 := mset m r c 0%R in
      foldM (fun m k => let* z := mget m r c in let* x := mget a r k in let* y := mget b k c in
                        mset m r c (z + x * y)%R) (zrange 0 (m_cols a)) m0)
    (pairs (zrange 0 (m_rows a)) (zrange 0 (m_cols b))) (mnew (m_ord a) (m_rows a) (m_cols b)).
(* MatrixInverse.hpp:85-123 inverse3x3 *)
Definition inverse3x3 (m : mat) : res mat :=
  let* a := mget m 0 0 in let* b := mget m 0 1 in let* c := mget m 0 2 in
  let* d := mget m 1 0 in let* e := mget m 1 1 in let* f := mget m 1 2 in
  let* g := mget m 2 0 in let* h := mget m 2 1 in let* i := mget m 2 2 in
  let* q1 := mdiv (f * h) i in let t1 := (e - q1)%R in
  let* q2 := mdiv (c * h) i in let t2 := (q2 - b)%R in
  let* q3 := mdiv (f * g) i in let t3 := (q3 - d)%R in
  let* q4 := mdiv (c * g) i in let t4 := (a - q4)%R in
  let x := (t4 * t1 - t2 * t3)%R in
  let mi := mnew (m_ord m) 3 3 in
  let* v := mdiv t1 x in let* mi := mset mi 0 0 v in
  let* v := mdiv t2 x in let* mi := mset mi 0 1 v in
  let* v := mdiv (- (c * t1 + f * t2)) (i * x) in let* mi := mset mi 0 2 v in
  let* v := mdiv t3 x in let* mi := mset mi 1 0 v in
  let* v := mdiv t4 x in let* mi := mset mi 1 1 v in
  let* v := mdiv (- (c * t3 + f * t4)) (i * x) in let* mi := mset mi 1 2 v in
  let* v := mdiv (- (g * t1 + h * t3)) (i * x) in let* mi := mset mi 2 0 v in
  let* v := mdiv (- (g * t2 + h * t4)) (i * x) in let* mi := mset mi 2 1 v in
  let* v1 := mdiv 1 i in let* v2 := mdiv 1 (i * i * x) in
  mset mi 2 2 (v1 + v2 * (c * (g * t1 + h * t3) + f * (g * t2 + h * t4)))%R.

(* ---- opm/core/utility/Average.hpp *)
(* Average.hpp:50-60 *)
Definition arithmetic_average (t1 t2 : R) : R := ((t1 + t2) * / 2)%R.
(* Average.hpp:68-77 *)
Definition geometric_average (t1 t2 : R) : R := if Rleb (t1 * t2) 0 then 0%R else sqrt (t1 * t2).
(* Average.hpp:83-92 *)
Definition harmonic_average (t1 t2 : R) : R := if Rleb (t1 * t2) 0 then 0%R else (2 * t1 * t2 / (t1 + t2))%R.
