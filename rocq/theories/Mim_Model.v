(* Model of the mimetic inner product evaluators: opm/porsol/mimetic/MimeticIPEvaluator.hpp and
   opm/porsol/mimetic/MimeticIPAnisoRelpermEvaluator.hpp.  The LAPACK factorisation behind
   orthogonalizeColumns (Matrix.hpp:729-758) is a function orth on matrices; its failure code, only
   looked at by an assertion, is not modelled.  The assertions on buffer sizes are taken as met: a
   work array is given by the matrix that views it, with any contents. *)
From Verif Require Export Matx_Model.
Open Scope Z_scope.

(* GridInterfaceEuler.hpp: area(), centroid() and normal() of a face; centroid(), volume() and the
   faces of a cell.  Vectors are lists of dim numbers *)
(* GridInterfaceEuler.hpp:116-140 *)
Record mface := mkMFace { mf_area : R; mf_cen : list R; mf_normal : list R }.
(* GridInterfaceEuler.hpp:337-350 *)
Record mcell := mkMCell { mc_cen : list R; mc_vol : R; mc_faces : list mface }.
(* Dune::FieldVector: operator-=, operator*= with a number, and the scalar product, used at
   MimeticIPEvaluator.hpp:236-239 *)
Definition fv_sub (a b : list R) : list R := map (fun p => (fst p - snd p)%R) (combine a b).
(* MimeticIPEvaluator.hpp:236-239 *)
Definition fv_scale (a : list R) (s : R) : list R := map (fun x => (x * s)%R) a.
(* MimeticIPEvaluator.hpp:236-239, 490-495 *)
Definition fv_dot (a b : list R) : R := Rsum (map (fun p => (fst p * snd p)%R) (combine a b)).
(* the faces of a cell with their position in the iteration *)
(* MimeticIPEvaluator.hpp:233, 412, 490 *)
Definition faces_of (c : mcell) : list (Z * mface) := combine (zrange 0 (zlen (mc_faces c))) (mc_faces c).

(* MimeticIPEvaluator.hpp:242-245 (and 424-427): row i of T1 and T2 *)
Definition set_row (dim i : Z) (v : list R) (T : mat) : res mat :=
  foldM (fun T j => let* x := rget v j in mset T i j x) (zrange 0 dim) T.
(* MimeticIPEvaluator.hpp:232-246 (416-428): one face in the set-up loop.  The two assignments of
   the inner loop go to different matrices and are done one matrix after the other here *)
Definition setup_face (dim : Z) (cc : list R) (s : mat * mat * mat * mat) (fi : Z * mface) : res (mat * mat * mat * mat) :=
  let '(Binv, fa, T1, T2) := s in let '(i, f) := fi in
  let* Binv := mset Binv i i 1%R in
  let* fa := mset fa i i (mf_area f) in
  let* a := mget fa i i in
  let fc := fv_scale (fv_sub (mf_cen f) cc) a in
  let fn := fv_scale (mf_normal f) a in
  let* T1 := set_row dim i fn T1 in
  let* T2 := set_row dim i fc T2 in
  Ok (Binv, fa, T1, T2).
(* MimeticIPEvaluator.hpp:223, 230-247 (409, 412-429) *)
Definition setup (dim : Z) (c : mcell) (Binv fa T1 T2 : mat) : res (mat * mat * mat * mat) :=
  let* Binv := mzero Binv in let* T1 := mzero T1 in let* T2 := mzero T2 in let* fa := mzero fa in
  foldM (setup_face dim (mc_cen c)) (faces_of c) (Binv, fa, T1, T2).
(* MimeticIPEvaluator.hpp:249-258 (431-440): Binv <- diag(A) (I - Q Q') diag(A) *)
Definition regular (orth : mat -> mat) (Binv fa T2 : mat) : res (mat * mat) :=
  let T2 := orth T2 in
  let* Binv := sym_update (-1) T2 1 Binv in
  let* Binv := sym_update2 fa Binv in
  Ok (Binv, T2).
(* MimeticIPEvaluator.hpp:385-448 evaluate; buildStaticContrib (202-271) does the same to Binv_[ci].
   The permeability is C ordered (ReservoirPropertyCommon.hpp) *)
Definition evaluate (dim : Z) (orth : mat -> mat) (c : mcell) (K Binv fa T1 T2 : mat) : res mat :=
  let* r := setup dim c Binv fa T1 T2 in let '(Binv, fa, T1, T2) := r in
  let* r := regular orth Binv fa T2 in let '(Binv, T2) := r in
  let* T2 := mat_mul_add_NNc 1 T1 K 0 T2 in
  let* tr := mtrace K in
  let t := (6 * tr / IZR dim)%R in
  let* s1 := mdiv 1 (mc_vol c) in
  let* s2 := mdiv t (mc_vol c) in
  mat_mul_add_NT s1 T2 T1 s2 Binv.
(* MimeticIPEvaluator.hpp:225-226, 239-240: gflux_[ci] of buildStaticContrib *)
Definition static_gflux (dim : Z) (c : mcell) (K : mat) (grav gflux : list R) : res (list R) :=
  let* Kg := mprodv K dim grav in
  foldM (fun g (fi : Z * mface) => let '(i, f) := fi in
           rset g i (fv_dot (fv_scale (mf_normal f) (mf_area f)) Kg)) (faces_of c) gflux.
(* MimeticIPEvaluator.hpp:297-312 computeDynamicParams: totmob_ and mob_dens_ *)
Definition dynamic_params (mob rho : list R) : R * R :=
  (fold_left Rplus mob 0%R, fold_left Rplus (map (fun p => (fst p * snd p)%R) (combine rho mob)) 0%R).
(* MimeticIPEvaluator.hpp:347-352 getInverseMatrix: the entries of the stored array, in order *)
Definition get_inverse (B : mat) (totmob : R) (out : mat) : mat :=
  mkMat (m_rows out) (m_cols out) (m_ord out) (map (fun x => (x * totmob)%R) (m_data B)).
(* MimeticIPEvaluator.hpp:478-495 gravityTerm *)
Definition gravity_term (c : mcell) (grav : list R) (omega : R) (gterm : list R) : res (list R) :=
  foldM (fun g (fi : Z * mface) => let '(i, f) := fi in
           rset g i (omega * fv_dot (fv_sub (mf_cen f) (mc_cen c)) grav)%R) (faces_of c) gterm.
(* MimeticIPEvaluator.hpp:497-503 gravityTerm with the stored mobilities *)
Definition gravity_term_dyn (c : mcell) (grav : list R) (totmob mob_dens : R) (gterm : list R) : res (list R) :=
  let* omega := mdiv mob_dens totmob in gravity_term c grav omega gterm.
(* MimeticIPEvaluator.hpp:540-548 gravityFlux *)
Definition gravity_flux (gflux : list R) (mob_dens : R) : list R := map (fun x => (x * mob_dens)%R) gflux.

(* ---- MimeticIPAnisoRelpermEvaluator.hpp ---- *)
(* 214-277 buildStaticContrib: second_term_[ci], n_[ci] and Kg_[ci] *)
Definition aniso_static (dim : Z) (orth : mat -> mat) (c : mcell) (K : mat) (grav : list R) (second fa n T2 : mat) (Kg : list R) : res (mat * mat * list R) :=
  let* r := setup dim c second fa n T2 in let '(second, fa, n, T2) := r in
  let* r := regular orth second fa T2 in let '(second, T2) := r in
  let* Kg := vec_mul_add_c 1 K grav 0 Kg in
  Ok (second, n, Kg).
(* 303-340 computeDynamicParams: dyn_Kg_ and lambdaK_; one density and one mobility tensor per
   phase *)
Definition aniso_dynamic (dim : Z) (K : mat) (Kg : list R) (phases : list (R * mat)) (lambdaK : mat) : res (list R * mat) :=
  let* r := foldM (fun (s : list R * mat) (rp : R * mat) =>
      let '(dyn, lam) := s in let '(rho, pmob) := rp in
      let* dyn := vec_mul_add false rho pmob Kg 1 dyn in
      let* lam := madd lam pmob in
      Ok (dyn, lam)) phases (zrepeat 0%R dim, mnew FOrd dim dim) in let '(dyn, lam) := r in
  let* lambdaK := mprod lam K lambdaK in
  Ok (dyn, lambdaK).
(* 369-396 getInverseMatrix *)
Definition aniso_inverse (dim : Z) (c : mcell) (second n lambdaK T2 Binv : mat) : res mat :=
  let* Binv := massign Binv second in
  let* T2 := mat_mul_add_NN 1 n lambdaK 0 T2 in
  let* tr := mtrace lambdaK in
  let t := (6 * tr / IZR dim)%R in
  let* s1 := mdiv 1 (mc_vol c) in
  let* s2 := mdiv t (mc_vol c) in
  mat_mul_add_NT s1 T2 n s2 Binv.
(* 414-426 gravityFlux *)
Definition aniso_gravity_flux (n : mat) (dyn gflux : list R) : res (list R) :=
  vec_mul_add false 1 n dyn 0 gflux.
