From Verif Require Import Hdr_Proofs Hdr_Spec.
Open Scope string_scope.
Open Scope list_scope.
Open Scope Z_scope.

(* C221: the names above the columns of the subsample table *)
Theorem C221_row : forall fmti azs t r o maxsat row, print_row o t maxsat r = Ok row -> Forall2 (belongs fmti azs t r) (header fmti azs o maxsat) row.
Proof. exact row_matches. Qed.
Theorem C221_wanted : forall fmti azs o maxsat n w, In (n, w) (wanted o) -> (In n (header fmti azs o maxsat) <-> w = true).
Proof. exact Hdr_Proofs.names_wanted. Qed.
Theorem C221_rocks : forall fmti azs o maxsat k, (forall i j, fmti i = fmti j -> i = j) -> (In ("satnum_" ++ fmti k)%string (header fmti azs o maxsat) <-> o_satvol o = true /\ 1 <= k <= maxsat).
Proof. exact Hdr_Proofs.rocks_wanted. Qed.
Theorem C221_differ : forall fmti azs o maxsat, (forall i j, fmti i = fmti j -> i = j) -> NoDup (header fmti azs o maxsat).
Proof. exact Hdr_Proofs.names_differ. Qed.

(* upscaling with fixed conditions, dips and two rock types *)
Example C221_case : print_row one_opts one_result 2 0 = Ok [(1/4)%R; 3%R; 5%R; 1%R; 0%R; 90%R; (1/3)%R; (2/3)%R] /\ forall fmti azs, header fmti azs one_opts 2 = ["porosity"; "permx"; "permy"; "permz"; "dip"; ("azim(displacement:" ++ azs ++ ")")%string; ("satnum_" ++ fmti 1)%string; ("satnum_" ++ fmti 2)%string].
Proof. exact one_row. Qed.
Print Assumptions C221_row. Print Assumptions C221_wanted. Print Assumptions C221_rocks. Print Assumptions C221_differ.
