(* Model of examples/upscale_relperm.cpp (line numbers without a file name): command line, reading of
   the curves, result table and ECLIPSE files.  exit(1) and exceptions are Throw.  The computation in
   between is that of Relp_Model, Mpi_Model and Visc_Model.  Numbers are given as what atof and atoi
   return; widths and digits of the printed numbers are not modelled. *)
From Verif Require Export Visc_Model.
Open Scope string_scope.
Open Scope list_scope.
Open Scope Z_scope.

(* ------- options *)
(* RelPermUtils.cpp:217-233: saturationstring; true for "Sw" *)
Definition fluid_system (s : string) : res bool :=
  if String.eqb s "ow" || String.eqb s "wo" then Ok true
  else if String.eqb s "go" || String.eqb s "og" then Ok false
  else Throw.
(* RelPermUtils.cpp:635-648 setupBoundaryConditions: type (0 fixed, 1 linear, 2 periodic) and
   tensorElementCount from the first character; that of an empty string is '\0' *)
Definition bc_letter (s : string) : res (Z * Z) :=
  match s with
  | EmptyString => Throw
  | String c _ => if Ascii.eqb c "f" then Ok (0, 3) else if Ascii.eqb c "l" then Ok (1, 9) else if Ascii.eqb c "p" then Ok (2, 9) else Throw
  end.
(* 458-501: options, grid file, rock files, fluids and boundary conditions.  parseCommandLine (169-196) is
   parse_args of Cap_Model; a grid file that is missing (null pointer) is not used before 496-497.  The
   options have defaults (264-299), so that a lookup does not fail (Throw otherwise). *)
Definition rp_command (defaults : optmap) (args : list string) : res ((optmap * (string * list string)) * (bool * (Z * Z))) :=
  match args with
  | [] => Throw
  | _ =>
      let* p := parse_args defaults 1 0 args in
      match fst p "fluids", fst p "bc" with
      | Some fl, Some bc =>
          let* ow := fluid_system fl in
          if 1 + zlen args <=? snd p + 1 then Throw
          else
            let* b := bc_letter bc in
            let* f := rget args (snd p - 1) in Ok ((fst p, (f, skipn (Z.to_nat (snd p)) args)), (ow, b))
      | _, _ => Throw
      end
  end.

(* ------- curves *)
(* 301-348: a rock file with isotropic input: inverse of the J-function and curves by direction and
   phase; [read] makes a curve of two columns of a file, [inv] inverts it (None: not strictly monotone) *)
Definition rp_iso {C} (read : string -> Z -> Z -> res C) (inv : C -> option C) (both : bool) (jcol kcol : Z) (f : string) : res (C * list ((Z * Z) * C)) :=
  let* j := read f 1 jcol in
  match inv j with
  | None => Throw
  | Some v =>
      if both then let* a := read f 1 2 in let* b := read f 1 3 in Ok (v, [((0, 0), a); ((0, 1), b)])
      else let* a := read f 1 kcol in Ok (v, [((0, 0), a)])
  end.
(* 350-400: with anisotropic input *)
Definition rp_aniso {C} (read : string -> Z -> Z -> res C) (inv : C -> option C) (both : bool) (f : string) : res (C * list ((Z * Z) * C)) :=
  let* j := read f 2 1 in
  match inv j with
  | None => Throw
  | Some v =>
      let* a := read f 2 3 in let* b := read f 2 4 in let* c := read f 2 5 in
      if both then let* d := read f 2 6 in let* e := read f 2 7 in let* g := read f 2 8 in
        Ok (v, [((0, 0), a); ((1, 0), b); ((2, 0), c); ((0, 1), d); ((1, 1), e); ((2, 1), g)])
      else Ok (v, [((0, 0), a); ((1, 0), b); ((2, 0), c)])
  end.
(* 331-334, 379-387: krfunc[direction][phase].emplace_back *)
Definition push_curves {C} (kr : Z -> Z -> list C) (l : list ((Z * Z) * C)) : Z -> Z -> list C :=
  fold_left (fun kr e d p => if (d =? fst (fst e)) && (p =? snd (fst e)) then kr d p ++ [snd e] else kr d p) l kr.
(* 402-441, 585-608: all rock files (rock_curves of Cap_Model has the same choice of the file): the
   inverted curves (InvJfunctions or SwPcfunctions) and Krfunctions by direction and phase *)
Definition saturation_functions {C} (read : string -> Z -> Z -> res C) (inv : C -> option C) (aniso both : bool) (jcol kcol stones : Z) (files : list string)
    : res (list C * (Z -> Z -> list C)) :=
  let* rs := rock_curves (if aniso then rp_aniso read inv both else rp_iso read inv both jcol kcol) stones files in
  Ok (map fst rs, fold_left (fun kr r => push_curves kr (snd r)) rs (fun _ _ => [])).

(* ------- result table *)
(* 955-975: SatvaluesInterp; n > 1 *)
Definition even_grid (n : Z) (sats : list R) : res (list R) :=
  let* lo := lmin sats in
  let* hi := lmax sats in
  Ok (map (fun i => (lo + IZR i / IZR (n - 1) * (hi - lo))%R) (zrange 0 n)).
(* 703-706, 939-1025: pressures, saturations and relative permeabilities by phase and element; [kr] are
   the columns of the phases upscaled *)
Definition rp_columns (interp : interpolation) (ipoints : Z) (tension : R) (ps sats : list R) (kr : list (list (list R))) : res (list R * (list R * list (list (list R)))) :=
  let ps := map (fun p => (p * (tension / 1000))%R) ps in
  if 1 <? ipoints then
    let* g := even_grid ipoints sats in
    Ok (map (interp sats ps) g, (g, map (map (fun col => map (interp sats col) g)) kr))
  else Ok (ps, (sats, kr)).
(* 1027-1055: the rows *)
Definition rp_rows (tec : Z) (t : list R * (list R * list (list (list R)))) : res (list (list R)) :=
  mapM (fun i => let* p := rget (fst t) i in let* s := rget (fst (snd t)) i in
      let* v := mapM (fun cols => mapM (fun v => let* col := rget cols v in rget col i) (zrange 0 tec)) (snd (snd t)) in
      Ok (p :: s :: List.concat v))
    (zrange 0 (zlen (fst (snd t)))).
(* 879-937: the columns named in the last line of the header, without the blanks; xx is the number 0,
   yy 1, ..., as the names are written one by one *)
Definition element_names : list string := ["xx"; "yy"; "zz"; "yz"; "xz"; "xy"; "zy"; "zx"; "yx"].
(* 879-937 *)
Definition rp_header (ow both : bool) (bct : Z) : list string :=
  let els := if bct =? 0 then firstn 3 element_names else element_names in
  let sat := if ow then "Sw" else "Sg" in
  "Pc" :: sat ::
  (if both then map (fun e => "Kr" ++ (if ow then "w" else "g") ++ e)%string els ++ map (fun e => "Kr" ++ "o" ++ e)%string els
   else map (fun e => "Kr" ++ e)%string els).

(* ------- ECLIPSE files *)
(* 218-254: the rows of the file of a component; [krow] is the value of the option krow?swirr *)
Definition eclipse_rows (krow : R) (component : Z) (t : list R * (list R * list (list (list R)))) : res (list (list R)) :=
  let* a := rget (snd (snd t)) 0 in
  let* b := rget (snd (snd t)) 1 in
  let* rows := mapM (fun i => let* s := rget (fst (snd t)) i in
      let* ca := rget a component in let* x := rget ca i in
      let* cb := rget b component in let* y := rget cb i in
      let* p := rget (fst t) i in Ok [s; x; y; (p / 100000)%R]) (zrange 0 (zlen (fst (snd t)))) in
  Ok ((if Rltb 0 krow then [[0; 0; krow; 0]%R] else []) ++ rows).
(* 205: substr(0, find_last_of('.')); the whole name without a dot.  Some: the part before the last dot *)
Fixpoint before_dot (s : string) : option string :=
  match s with
  | EmptyString => None
  | String c t => match before_dot t with
                  | Some b => Some (String c b)
                  | None => if Ascii.eqb c "." then Some EmptyString else None
                  end
  end.
(* 203-207 getEclipseOutputFile *)
Definition eclipse_name (out : string) (comp sat : ascii) : string :=
  (match before_dot out with Some b => b | None => out end) ++ "-" ++ String comp (".S" ++ String sat "OF").
(* 225-226, 256: upper case letter of the component *)
Definition component_letter (c : Z) : ascii := if c =? 0 then "X"%char else if c =? 1 then "Y"%char else "Z"%char.
(* 1057-1084: the files written: result table to [out] and an ECLIPSE file for each component *)
Inductive written := Table (name : string) (rows : list (list R)) | Eclipse (name : string) (rows : list (list R)).
(* 1057-1084 *)
Definition rp_files (out : string) (ow both : bool) (krow : Z -> R) (rows : list (list R)) (t : list R * (list R * list (list (list R)))) : res (list written) :=
  if String.eqb out "" then Ok []
  else if both then
    let* e := mapM (fun c => let* r := eclipse_rows (krow c) c t in
        Ok (Eclipse (eclipse_name out (component_letter c) (if ow then "W"%char else "G"%char)) r)) (zrange 0 3) in
    Ok (Table out rows :: e)
  else Ok [Table out rows].
(* 699-1084: everything after the upscaling; [rows] are PhasePerm of the phases upscaled *)
Definition rp_output (interp : interpolation) (check : bool) (thresh : R) (points tec ipoints : Z) (tension : R) (ow both : bool) (krow : Z -> R) (out : string)
    (kinv ps sats : list R) (phases : list (list (list R))) : res (list (list R) * list written) :=
  let* kr := mapM (helper_relperm check thresh points tec kinv) phases in
  let* t := rp_columns interp ipoints tension ps sats kr in
  let* rows := rp_rows tec t in
  let* files := rp_files out ow both krow rows t in Ok (rows, files).
