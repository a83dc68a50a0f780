From Verif Require Import Perm_Proofs Cap_Spec Perm_Spec.
Open Scope Z_scope.

(* C167: command line of upscale_perm *)
Theorem C167_options : forall o kvs file, (forall kv, In kv kvs -> known o (fst kv)) ->
  exists o', perm_command o (option_args kvs ++ [file]) = Ok (o', file) /\ forall k, o' k = last_value o kvs k.
Proof. exact Perm_Proofs.command_ok. Qed.
Theorem C167_unknown : forall o kvs file, (exists kv, In kv kvs /\ ~ known o (fst kv)) ->
  exists o' k, perm_command o (option_args kvs ++ [file]) = Ok (o', String "-" k) /\
    zget (option_args kvs) (2 * zlen (known_ones o kvs)) = Some (String "-" k) /\ forall q, o' q = last_value o (known_ones o kvs) q.
Proof. exact Perm_Proofs.command_unknown. Qed.
Theorem C167_dangling : forall o kvs, kvs <> [] -> (forall kv, In kv kvs -> known o (fst kv)) -> perm_command o (option_args kvs) = UB.
Proof. exact Perm_Proofs.command_dangling. Qed.
Theorem C167_none : forall o, perm_command o [] = Throw.
Proof. exact Perm_Proofs.command_none. Qed.
Theorem C167_nodash : forall o kvs a v rest, ~ is_option a -> perm_command o (option_args kvs ++ a :: v :: rest) = Throw.
Proof. exact Perm_Proofs.command_nodash. Qed.
Theorem C167_complete : forall args, exists kvs rest, args = option_args kvs ++ rest /\ (rest = [] \/ (exists file, rest = [file]) \/ exists a v l, ~ is_option a /\ rest = a :: v :: l).
Proof. exact Perm_Proofs.command_complete. Qed.

(* C168: choice of boundary conditions *)
Theorem C168_flags : forall bc f, perm_flags bc = Ok f <->
  (1 <= Z.of_nat (String.length bc) <= 3 /\ (pf_fixed f = true <-> letter_in "f"%char bc) /\ (pf_linear f = true <-> letter_in "l"%char bc) /\ (pf_periodic f = true <-> letter_in "p"%char bc) /\
   (pf_fixed f || pf_linear f || pf_periodic f = true)).
Proof. exact Perm_Proofs.flags_ok. Qed.
Theorem C168_total : forall bc, perm_flags bc = Throw \/ exists f, perm_flags bc = Ok f.
Proof. exact Perm_Proofs.flags_total. Qed.

(* C169: results of upscale_perm *)
Theorem C169_results : forall up por md d f, has_grid d -> (forall u, exists k, up u = Ok k) -> (forall u, exists p, por u = Ok p) ->
  exists r, perm_results up por md d f = Ok r /\
    (pf_fixed f = true -> exists k, up (alone 0) = Ok k /\ pr_fixed r = Some (in_md md k)) /\
    (pf_periodic f = true -> exists k, up (alone 2) = Ok k /\ pr_periodic r = Some (in_md md k)) /\
    (pf_linear f = true -> pf_fixed f = false -> exists k, up (alone 1) = Ok k /\ pr_linear r = Some (in_md md k)) /\
    (pf_linear f = true -> pf_fixed f = true -> exists k, up (mkUbase 1 true false false) = Ok k /\ pr_linear r = Some (in_md md k)) /\
    (pf_fixed f = false -> pr_fixed r = None) /\ (pf_linear f = false -> pr_linear r = None) /\ (pf_periodic f = false -> pr_periodic r = None) /\
    (pd_poro d = false -> pr_poro r = 0%R) /\
    (pd_poro d = true -> por (alone (if pf_periodic f then 2 else if pf_fixed f then 0 else 1)) = Ok (pr_poro r)).
Proof. exact Perm_Proofs.results_ok. Qed.
Theorem C169_no_grid : forall up por md d f, ~ has_grid d -> perm_results up por md d f = Throw.
Proof. exact Perm_Proofs.no_grid. Qed.
Theorem C169_failure : forall up por md d f r, perm_results up por md d f = Ok r ->
  (pf_fixed f = true -> exists k, up (alone 0) = Ok k) /\ (pf_periodic f = true -> exists k, up (alone 2) = Ok k) /\ (pf_linear f = true -> exists k, up (if pf_fixed f then mkUbase 1 true false false else alone 1) = Ok k).
Proof. exact Perm_Proofs.results_fail. Qed.
Theorem C169_linear_alone_refuted : exists up por md d r r', has_grid d /\ (forall u, exists k, up u = Ok k) /\
  perm_results up por md d (mkPflags false true false) = Ok r /\ perm_results up por md d (mkPflags true true false) = Ok r' /\ pr_linear r <> pr_linear r'.
Proof. exact Perm_Proofs.linear_alone_refuted. Qed.
Theorem C169_program : forall readable parse num md up por kvs file d f, (forall kv, In kv kvs -> known perm_defaults (fst kv)) -> readable file = true -> parse file = Ok d ->
  perm_flags (match last_value perm_defaults kvs "bc"%string with Some v => v | None => EmptyString end) = Ok f ->
  forall r, perm_results (up (num (match last_value perm_defaults kvs "minPerm"%string with Some v => v | None => EmptyString end) * md)%R file)
                         (por (num (match last_value perm_defaults kvs "minPerm"%string with Some v => v | None => EmptyString end) * md)%R file) md d f = Ok r ->
  perm_main readable parse num md up por (option_args kvs ++ [file]) =
    Ok (r, match last_value perm_defaults kvs "output"%string with Some v => if String.eqb v "" then None else Some v | None => None end).
Proof. exact Perm_Proofs.main_ok. Qed.

Example C167_case : perm_command perm_defaults ["-bc"; "p"; "-minPerm"; "1"; "grid.grdecl"]%string <> UB /\
  (forall kv, In kv [("bc", "p"); ("minPerm", "1")]%string -> known perm_defaults (fst kv)) /\ ~ known perm_defaults "surfaceTension"%string /\
  (exists o, perm_command perm_defaults ["-bc"; "p"; "-surfaceTension"; "11"; "grid.grdecl"]%string = Ok (o, "-surfaceTension"%string)).
Proof.
  split; [discriminate|]. split; [intros kv [<-|[<-|[]]]; discriminate|]. split; [intros H; apply H; reflexivity|eexists; reflexivity].
Qed.
Example C168_case : perm_flags "xpl"%string = Ok (mkPflags false true true) /\ perm_flags "fixed"%string = Throw /\ perm_flags "xyz"%string = Throw.
Proof. repeat split. Qed.
Example C169_case : has_grid (mkPdeck true true true true) /\ exists r, perm_results (fun u => Ok [IZR (ub_type u)]) (fun u => Ok (IZR (ub_type u))) 1 (mkPdeck true true true true) (mkPflags true false true) = Ok r.
Proof. split; [repeat split|eexists; reflexivity]. Qed.
Print Assumptions C167_options. Print Assumptions C167_unknown. Print Assumptions C167_dangling. Print Assumptions C167_none. Print Assumptions C167_nodash. Print Assumptions C167_complete. Print Assumptions C168_flags. Print Assumptions C168_total. Print Assumptions C169_results. Print Assumptions C169_no_grid. Print Assumptions C169_failure. Print Assumptions C169_linear_alone_refuted. Print Assumptions C169_program.
