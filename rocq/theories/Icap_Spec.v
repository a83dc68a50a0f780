From Verif Require Export Icap_Model Matx_Spec Euler_Spec.
Open Scope Z_scope.

(* half the harmonic mean: the mobility of two phases one behind the other *)
Definition in_series (m1 m2 : R) : R := (m1 * m2 / (m1 + m2))%R.
Definition symmetric3 (f : Z -> Z -> R) : Prop := forall i j, 0 <= i < 3 -> 0 <= j < 3 -> f i j = f j i.
Definition inverse_of (f g : Z -> Z -> R) : Prop :=
  forall i j, 0 <= i < 3 -> 0 <= j < 3 -> mmul 3 f g i j = ident i j /\ mmul 3 g f i j = ident i j.
(* what LAPACK promises for a regular matrix; nothing is promised for a singular one *)
Definition inverts (inv : mat -> res mat) : Prop :=
  forall m o f, holds m o 3 3 f -> det3 f <> 0%R -> exists m' g, inv m = Ok m' /\ holds m' o 3 3 g /\ inverse_of f g.

(* the saturation of cell i between the old one and that of the shifted capillary pressure *)
Definition relaxed (w : R) (sat cp : list R) (inv : Z -> R -> R) (dp : R) (i : Z) : R :=
  ((1 - w) * nthR sat i + w * inv i (nthR cp i + dp))%R.

(* a face has another cell behind it: a neighbour, or the cell of its periodic partner *)
Definition leads_elsewhere (p : eprob) (bm : list (option (Z * eface))) (cf : Z * eface) : Prop :=
  (ef_bdry (snd cf) = false -> ef_nb (snd cf) <> fst cf) /\
  (ef_bdry (snd cf) = true -> exists k b c1 g,
     zget (ep_cond p) (ef_bid (snd cf)) = Some k /\ c_type k = Periodic /\
     zget (ep_partner p) (ef_bid (snd cf)) = Some b /\ zget bm b = Some (Some (c1, g)) /\ c1 <> fst cf).

(* a norm on the vectors of one length *)
Definition is_norm (n : list R -> R) : Prop :=
  (forall v, (0 <= n v)%R) /\
  (forall v, n v = 0%R <-> forall x, In x v -> x = 0%R) /\
  (forall a v, n (map (Rmult a) v) = (Rabs a * n v)%R) /\
  (forall v w, length v = length w -> (n (map (fun p => fst p + snd p) (combine v w)) <= n v + n w)%R).
