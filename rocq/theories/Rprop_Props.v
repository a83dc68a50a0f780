From Verif Require Import Rprop_Proofs3 Rprop_Spec.
Open Scope Z_scope.

(* C73: the tensor of every cell *)
Theorem C73_tensor : forall d gc threshold r, cells_in d gc -> init_deck d gc threshold = Ok r -> any_given d -> forall c g, zget gc c = Some g ->
  exists K, permeability r c = Ok K /\ shaped K COrd 3 3 /\ (forall i j, 0 <= i < 3 -> 0 <= j < 3 -> entry K i j = cell_perm d threshold g i j) /\
    symmetric 3 (entry K) /\ (forall i, 0 <= i < 3 -> (threshold <= entry K i i)%R).
Proof. exact tensor_ok. Qed.
Theorem C73_positive : forall d gc threshold r, cells_in d gc -> init_deck d gc threshold = Ok r -> any_given d -> (forall k, given d k -> ~ crossing k) -> (0 < threshold)%R -> forall c g, zget gc c = Some g ->
  exists K, permeability r c = Ok K /\ positive_form 3 (entry K).
Proof. exact tensor_pd. Qed.
Theorem C73_absent : forall d gc threshold r, cells_in d gc -> init_deck d gc threshold = Ok r -> ~ any_given d -> forall c, 0 <= c < zlen gc -> permeability r c = UB.
Proof. exact tensor_absent. Qed.
Theorem C73_uniform : forall n poro perm kind, 0 <= n -> exists r, init_uniform n poro perm kind = Ok r /\ rp_poro r = zrepeat poro n /\ rp_rock r = zrepeat 0 n /\
  forall c, 0 <= c < n -> exists K, permeability r c = Ok K /\ shaped K COrd 3 3 /\ forall i j, 0 <= i < 3 -> 0 <= j < 3 -> entry K i j = (perm * ident i j)%R.
Proof. exact uniform_ok. Qed.

(* C74: which decks are accepted, and the kind of permeability *)
Theorem C74_accepts : forall d gc threshold, cells_in d gc ->
  ((exists r, init_deck d gc threshold = Ok r) <-> complete d /\ all_sized d) /\ (~ (complete d /\ all_sized d) -> init_deck d gc threshold = Throw).
Proof. exact accepts. Qed.
Theorem C74_kind : forall d gc threshold r, cells_in d gc -> init_deck d gc threshold = Ok r ->
  ((exists k, given d k /\ crossing k) -> rp_kind r = TensorPerm) /\ ((forall k, ~ given d k) -> rp_kind r = NonePerm) /\
  ((exists i, given d (diag i) /\ forall k, given d k -> k = diag i) -> rp_kind r = ScalarPerm) /\
  ((forall k, given d k -> ~ crossing k) -> (exists k k', k <> k' /\ given d k /\ given d k') -> rp_kind r = DiagonalPerm).
Proof. exact kind_ok. Qed.

(* C75: the other properties *)
Theorem C75_fields : forall d gc threshold r, cells_in d gc -> init_deck d gc threshold = Ok r ->
  field_ok (dk_poro d) 1 gc (rp_poro r) /\ field_ok (dk_ntg d) 1 gc (rp_ntg r) /\ field_ok (dk_swcr d) 0 gc (rp_swcr r) /\ field_ok (dk_sowcr d) 0 gc (rp_sowcr r) /\
  match regions d with Some l => taken_from gc (map (fun x => x - 1) l) (rp_rock r) | None => rp_rock r = zrepeat 0 (zlen gc) end.
Proof. exact fields_ok. Qed.

(* C116: the legacy permeability file determines every tensor; after uniform initialisation it cannot be written *)
Theorem C116_legacy : forall d gc threshold r, cells_in d gc -> init_deck d gc threshold = Ok r ->
  exists lines, write_legacy r = Ok (rp_poro r, lines) /\ (any_given d -> forall c g, zget gc c = Some g -> legacy_lines (rp_kind r) lines c (cell_perm d threshold g)).
Proof. exact legacy_ok. Qed.
(* permeability_kind_ is Invalid after construction and the uniform init leaves it so *)
Theorem C116_uniform : forall n poro perm r, init_uniform n poro perm InvalidPerm = Ok r -> write_legacy r = Throw.
Proof. exact legacy_uniform. Qed.

Example C73_case : cells_in ex_deck [2; 0] /\ complete ex_deck /\ all_sized ex_deck /\ any_given ex_deck.
Proof. exact ex_deck_ok. Qed.
Example C74_case : ~ complete (mkDeck 3 (fun k => match k with KXY => Some [1; 2; 3]%R | KX => Some [1; 1; 1]%R | _ => None end) None None None None None None).
Proof. exact ex_deck_incomplete. Qed.
Print Assumptions C73_tensor. Print Assumptions C73_positive. Print Assumptions C73_absent. Print Assumptions C73_uniform. Print Assumptions C74_accepts. Print Assumptions C74_kind. Print Assumptions C75_fields. Print Assumptions C116_legacy. Print Assumptions C116_uniform.
