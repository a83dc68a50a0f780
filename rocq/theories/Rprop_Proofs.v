From Verif Require Import BaseFacts RBaseFacts Lin_Facts Steady_Proofs Euler_Proofs2 Impl_Proofs Impl_Proofs5 Matx_Proofs Mim_Proofs Hnum_Proofs Rprop_Spec.
Open Scope Z_scope.

Definition olist {A} (o : option A) : list A := match o with Some a => [a] | None => [] end.
Definition all_kw : list pkw := [KX; KXY; KXZ; KYX; KY; KYZ; KZX; KZY; KZ].
Definition given_fields (d : deck) : list (list R) := flat_map (fun k => olist (dk_perm d k)) all_kw.
Definition supplied (d : deck) (zero : list R) (i j : Z) : list R := match first_given d (suppliers i j) with Some l => l | None => zero end.
Definition points (kmap : list Z) (t : list (list R)) (k : Z) (l : list R) : Prop := match zget kmap k with Some m => zget t m = Some l | None => False end.
Lemma fill_raw d zero : classify d = InvalidPerm \/ exists kmap, fill_tensor d zero = Ok (classify d, (zero :: given_fields d, kmap)) /\
  points kmap (zero :: given_fields d) 0 (supplied d zero 0 0) /\ points kmap (zero :: given_fields d) 1 (supplied d zero 0 1) /\ points kmap (zero :: given_fields d) 2 (supplied d zero 0 2) /\
  points kmap (zero :: given_fields d) 3 (supplied d zero 1 0) /\ points kmap (zero :: given_fields d) 4 (supplied d zero 1 1) /\ points kmap (zero :: given_fields d) 5 (supplied d zero 1 2) /\
  points kmap (zero :: given_fields d) 6 (supplied d zero 2 0) /\ points kmap (zero :: given_fields d) 7 (supplied d zero 2 1) /\ points kmap (zero :: given_fields d) 8 (supplied d zero 2 2).
Proof.
  unfold fill_tensor, given_fields, supplied, all_kw, classify, suppliers. destruct d as [sz pm po nt sw so sa ro]. cbn [dk_perm dk_size].
  cbn [flat_map app first_given Z.eqb Pos.eqb Z.add Pos.add Pos.succ Pos.add_carry dk_perm].
  generalize (pm KX) (pm KXY) (pm KXZ) (pm KYX) (pm KY) (pm KYZ) (pm KZX) (pm KZY) (pm KZ). clear.
  intros o1 o2 o3 o4 o5 o6 o7 o8 o9.
  destruct o1, o2, o3, o4, o5, o6, o7, o8, o9; try (left; reflexivity); right;
    (eexists; split; [vm_compute; reflexivity|]; vm_compute; repeat split).
Qed.
