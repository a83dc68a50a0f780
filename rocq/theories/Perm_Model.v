(* Model of examples/upscale_perm.cpp.  Strings are character lists; exit(1) is Throw.  The upscaler object
   is the part of it that depends on the boundary conditions (Upb_Model, UpscalerBase_impl.hpp); what it
   computes (upscaleSinglePhase, upscalePorosity) is given as functions of that part and of minPerm.
   Timing and printing are not modelled, apart from which results are printed and where. *)
From Verif Require Export Cap_Model Upb_Model.
Open Scope Z_scope.
Open Scope list_scope.

(* upscale_perm.cpp:102-114: the options and their defaults *)
Definition perm_defaults : optmap := fun k =>
  match find (fun kv => String.eqb (fst kv) k)
    [("output", ""); ("bc", "f"); ("minPerm", "1e-9"); ("linsolver_tolerance", "1e-8"); ("linsolver_verbosity", "0");
     ("linsolver_max_iterations", "0"); ("linsolver_prolongate_factor", "1.0"); ("linsolver_type", "3"); ("linsolver_smooth_steps", "1")]%string
  with Some kv => Some (snd kv) | None => None end.
(* upscale_perm.cpp:117-132: the loop over the arguments while two are left; n is eclipseindex.  substr(1)
   of an empty argument throws *)
Fixpoint perm_options (o : optmap) (n : Z) (rest : list string) : res (optmap * Z) :=
  match rest with
  | a :: v :: t =>
      match dash a with
      | None => Throw
      | Some k => match o k with Some _ => perm_options (opt_set o k v) (n + 2) t | None => perm_options o n t end
      end
  | _ => Ok (o, n)
  end.
(* upscale_perm.cpp:97-101, 134: vararg[eclipseindex]; vararg[varnum] is a null pointer (UB) *)
Definition perm_command (o : optmap) (args : list string) : res (optmap * string) :=
  match args with
  | [] => Throw
  | _ => let* p := perm_options o 1 args in
         let* f := rget args (snd p - 1) in Ok (fst p, f)
  end.
(* std::string::find of one character: the first position, or npos (None) *)
(* upscale_perm.cpp:155-161 *)
Fixpoint find_char (c : ascii) (s : string) : option Z :=
  match s with
  | EmptyString => None
  | String a t => if Ascii.eqb a c then Some 0 else option_map (Z.add 1) (find_char c t)
  end.
(* upscale_perm.cpp:156, 159, 162: find(...) < 3 *)
Definition found3 (c : ascii) (s : string) : bool := match find_char c s with Some i => i <? 3 | None => false end.
(* upscale_perm.cpp:148-179: isFixed, isLinear, isPeriodic *)
Record pflags := mkPflags { pf_fixed : bool; pf_linear : bool; pf_periodic : bool }.
(* upscale_perm.cpp:148-179 *)
Definition perm_flags (bc : string) : res pflags :=
  let n := Z.of_nat (String.length bc) in
  if (1 <=? n) && (n <=? 3) then
    let per := found3 "p"%char bc in
    let fix_ := found3 "f"%char bc in
    let lin := found3 "l"%char bc in
    if negb fix_ && negb lin && negb per then Throw else Ok (mkPflags fix_ lin per)
  else Throw.
(* upscale_perm.cpp:209-213, 268: keywords of the deck *)
Record pdeck := mkPdeck { pd_specgrid : bool; pd_coord : bool; pd_zcorn : bool; pd_poro : bool }.
(* upscale_perm.cpp:190, 267, 353-384: the values printed: porosity and the tensors in milli darcy *)
Record presults := mkPresults { pr_poro : R; pr_fixed : option (list R); pr_linear : option (list R); pr_periodic : option (list R) }.
(* upscale_perm.cpp:283-284, 295-296, 308-309: setBoundaryConditionType and upscaleSinglePhase; returns the
   object and the tensor in milli darcy *)
Definition perm_tensor (up : ubase -> res (list R)) (md : R) (t : Z) (u : ubase) : res (ubase * list R) :=
  let* u := set_bctype t u in
  let* k := up u in
  Ok (u, map (fun x => x * (1 / md))%R k).
(* upscale_perm.cpp:209-316: tesselation, porosity, tensors.  [up] and [por] are what an object computes *)
Definition perm_results (up : ubase -> res (list R)) (por : ubase -> res R) (md : R) (d : pdeck) (f : pflags) : res presults :=
  if negb (pd_specgrid d && pd_coord d && pd_zcorn d) then Throw else
  let non := init_deck (if pf_fixed f then 0 else 1) in
  let per := init_deck 2 in
  let* po := (if pd_poro d then (if pf_periodic f then por per else por non) else Ok 0%R) in
  let* kf := (if pf_fixed f then let* r := perm_tensor up md 0 non in Ok (fst r, Some (snd r)) else Ok (non, None)) in
  let* kl := (if pf_linear f then let* r := perm_tensor up md 1 (fst kf) in Ok (fst r, Some (snd r)) else Ok (fst kf, None)) in
  let* kp := (if pf_periodic f then let* r := perm_tensor up md 2 per in Ok (Some (snd r)) else Ok None) in
  Ok (mkPresults po (snd kf) (snd kl) kp).
(* upscale_perm.cpp:94-398 upscale(): the results and the file they are also written to.  [readable] tells
   whether a file can be opened, [parse] is the parser, [num] is atof; minPerm is converted to SI units *)
Definition perm_main (readable : string -> bool) (parse : string -> res pdeck) (num : string -> R) (md : R)
    (up : R -> string -> ubase -> res (list R)) (por : R -> string -> ubase -> res R) (args : list string) : res (presults * option string) :=
  let* cl := perm_command perm_defaults args in
  let o := fst cl in
  let value k := match o k with Some v => v | None => EmptyString end in
  if negb (readable (snd cl)) then Throw else
  let* f := perm_flags (value "bc"%string) in
  let* d := parse (snd cl) in
  let minperm := (num (value "minPerm"%string) * md)%R in
  let* r := perm_results (up minperm (snd cl)) (por minperm (snd cl)) md d f in
  Ok (r, if String.eqb (value "output"%string) "" then None else Some (value "output"%string)).
