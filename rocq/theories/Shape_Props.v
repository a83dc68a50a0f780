From Verif Require Import Shape_Proofs Shape_Proofs2 Shape_Proofs3 Shape_Spec.
Open Scope Z_scope.

(* C93: linear shape functions *)
Theorem C93_nodal : forall dim i j, dim = 2 \/ dim = 3 -> 0 <= i < 2 ^ dim -> 0 <= j < 2 ^ dim -> p1_eval dim i (corner j) = Ok (if i =? j then 1%R else 0%R).
Proof. exact Shape_Proofs.p1_nodal. Qed.
Theorem C93_reproduces : forall dim f x, dim = 2 \/ dim = 3 -> multilinear dim f ->
  exists N, (forall i, 0 <= i < 2 ^ dim -> p1_eval dim i x = Ok (N i)) /\ Sum (2 ^ dim) (fun i => N i * f (corner i))%R = f x.
Proof. exact Shape_Proofs.p1_reproduces. Qed.
Theorem C93_increment : forall dim i x k h, dim = 2 \/ dim = 3 -> 0 <= i < 2 ^ dim -> 0 <= k < dim -> exists v w g, p1_eval dim i x = Ok v /\ p1_grad dim i x k = Ok g /\ p1_eval dim i (put x k (x k + h)) = Ok w /\ w = (v + h * g)%R.
Proof. exact Shape_Proofs3.p1_increment. Qed.
Theorem C93_one_dimension : p1_set 1 = UB.
Proof. exact Shape_Proofs.p1_one. Qed.

(* C94: gradients of cardinal functions *)
Theorem C94_gradient : forall nodes node x, 0 <= node < zlen nodes -> card_grad nodes node x = UB.
Proof. exact Shape_Proofs2.card_grad_UB. Qed.
Theorem C94_product_gradient : forall funcs x, tp_grad funcs x = UB.
Proof. exact Shape_Proofs2.tp_grad_UB. Qed.

(* C120: higher order shape functions *)
Theorem C120_nodal : forall nodes i j, NoDup nodes -> 0 <= i < zlen nodes -> 0 <= j < zlen nodes -> card_eval nodes i (nthR nodes j) = Ok (if i =? j then 1%R else 0%R).
Proof. exact Shape_Proofs2.card_nodal_eval. Qed.
Theorem C120_reproduces : forall nodes x, NoDup nodes -> exists L, (forall i, 0 <= i < zlen nodes -> card_eval nodes i x = Ok (L i)) /\
  forall c, zlen c <= zlen nodes -> Sum (zlen nodes) (fun i => L i * peval c (nthR nodes i))%R = peval c x.
Proof. exact Shape_Proofs2.card_reproduces. Qed.
Theorem C120_plane : forall grid n1 n2, 0 <= n1 -> 0 <= n2 -> exists fs, pn_set grid [n1; n2] = Ok fs /\ zlen fs = n1 * n2 /\
  forall i j, 0 <= i < n1 -> 0 <= j < n2 -> exists f, zget fs (j * n1 + i) = Some f /\ forall x a b, card_eval (grid n1) i (x 0) = Ok a -> card_eval (grid n2) j (x 1) = Ok b -> tp_eval f x = Ok (a * b)%R.
Proof. exact Shape_Proofs3.pn_two. Qed.
Theorem C120_space : forall grid n1 n2 n3, 0 <= n1 -> 0 <= n2 -> 0 <= n3 -> exists fs, pn_set grid [n1; n2; n3] = Ok fs /\ zlen fs = n1 * n2 * n3 /\
  forall i j k, 0 <= i < n1 -> 0 <= j < n2 -> 0 <= k < n3 -> exists f, zget fs ((k * n2 + j) * n1 + i) = Some f /\
    forall x a b c, card_eval (grid n1) i (x 0) = Ok a -> card_eval (grid n2) j (x 1) = Ok b -> card_eval (grid n3) k (x 2) = Ok c -> tp_eval f x = Ok (a * b * c)%R.
Proof. exact Shape_Proofs3.pn_three. Qed.
Theorem C120_legendre : forall n, 1 <= n -> exists P D : R -> R, (forall x, legendre x n = Ok (P x)) /\ (forall x, legendre_derivative x n = Ok (D x)) /\ (forall x, derivable_pt_lim P x (D x)) /\
  (forall x, derivable_pt_lim (fun t => (1 - t * t) * D t)%R x (- (IZR n * (IZR n + 1)) * P x)%R) /\ P 1%R = 1%R.
Proof. exact Shape_Proofs3.legendre_ok. Qed.
Theorem C120_legendre_zero : forall x, legendre x 0 = UB.
Proof. exact Shape_Proofs3.legendre_zero. Qed.
Theorem C120_grid_small : forall fuel gl, lobatto_grid fuel 2 gl = Some (Ok [0; 1]%R) /\ lobatto_grid fuel 3 gl = Some (Ok [0; 1 / 2; 1]%R).
Proof. exact Shape_Proofs3.lobatto_small. Qed.
Theorem C120_grid_large : forall fuel n gl r, 4 <= n -> lobatto_grid fuel n gl = Some (Ok r) -> zlen r = n /\ nthR r 0 = 0%R /\ nthR r (n - 1) = 1%R /\
  forall i, 0 < i < n - 1 -> exists y, nthR r i = ((y + 1) / 2)%R /\ (settled n y \/ (y = (nthR gl (i - 1) + nthR gl i) / 2 /\ Rabs y <= / 10 ^ 15)%R).
Proof. exact Shape_Proofs3.lobatto_large. Qed.

Example C93_case : multilinear 3 ex_field.
Proof. exact ex_field_ok. Qed.
Example C120_case : NoDup [0; 1 / 2; 1]%R.
Proof. exact ex_nodes. Qed.
Print Assumptions C93_nodal. Print Assumptions C93_reproduces. Print Assumptions C93_increment. Print Assumptions C93_one_dimension. Print Assumptions C94_gradient. Print Assumptions C94_product_gradient. Print Assumptions C120_nodal. Print Assumptions C120_reproduces. Print Assumptions C120_plane. Print Assumptions C120_space. Print Assumptions C120_legendre. Print Assumptions C120_legendre_zero. Print Assumptions C120_grid_small. Print Assumptions C120_grid_large.
