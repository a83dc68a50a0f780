From Verif Require Import Rpd_Proofs Rpd_Proofs2 Rpd_Spec.
Open Scope Z_scope.

(* C173: command line of upscale_relperm *)
Theorem C173_fluids : forall s b, fluid_system s = Ok b <-> (b = true /\ In s ["ow"; "wo"]%string) \/ (b = false /\ In s ["go"; "og"]%string).
Proof. exact Rpd_Proofs.fluids_ok. Qed.
Theorem C173_conditions : forall s t n, bc_letter s = Ok (t, n) <-> exists c r, s = String c r /\ ((c = "f"%char /\ t = 0 /\ n = 3) \/ (c = "l"%char /\ t = 1 /\ n = 9) \/ (c = "p"%char /\ t = 2 /\ n = 9)).
Proof. exact Rpd_Proofs.letter_ok. Qed.
Theorem C173_accepted : forall o kvs file files fl bc, (forall kv, In kv kvs -> known o (fst kv)) -> ~ is_option file -> files <> [] ->
  last_value o kvs "fluids"%string = Some fl -> last_value o kvs "bc"%string = Some bc ->
  (forall ow b, fluid_system fl = Ok ow -> bc_letter bc = Ok b ->
     exists o', rp_command o (option_args kvs ++ file :: files) = Ok ((o', (file, files)), (ow, b)) /\ forall k, o' k = last_value o kvs k) /\
  ((forall ow, fluid_system fl <> Ok ow) \/ (forall b, bc_letter bc <> Ok b) -> rp_command o (option_args kvs ++ file :: files) = Throw).
Proof. exact Rpd_Proofs.command_ok. Qed.
Theorem C173_unknown_option : forall o kvs k rest, (forall kv, In kv kvs -> known o (fst kv)) -> ~ known o k -> rp_command o (option_args kvs ++ String "-" k :: rest) = Throw.
Proof. exact Rpd_Proofs.command_unknown. Qed.
Theorem C173_dangling_option : forall o kvs k, (forall kv, In kv kvs -> known o (fst kv)) -> known o k -> rp_command o (option_args kvs ++ [String "-" k]) = UB.
Proof. exact Rpd_Proofs.command_dangling. Qed.
Theorem C173_missing_files : forall o kvs rest, (forall kv, In kv kvs -> known o (fst kv)) -> rest = [] \/ (exists file, ~ is_option file /\ rest = [file]) -> rp_command o (option_args kvs ++ rest) = Throw.
Proof. exact Rpd_Proofs.command_missing. Qed.

(* C174: curves of upscale_relperm *)
Theorem C174_curves : forall {C} (read : string -> Z -> Z -> res C) inv (aniso both : bool) jcol kcol stones files invs kr, 0 <= stones ->
  saturation_functions read inv aniso both jcol kcol stones files = Ok (invs, kr) ->
  (zlen files = stones \/ zlen files = 1) /\ zlen invs = stones /\
  (forall i, 0 <= i < stones -> exists f j v, file_for files stones i = Some f /\ read f (fst (inverted_column aniso jcol)) (snd (inverted_column aniso jcol)) = Ok j /\ inv j = Some v /\ zget invs i = Some v) /\
  (forall d p, column_of aniso both kcol d p = None -> kr d p = []) /\
  (forall d p xy, column_of aniso both kcol d p = Some xy -> zlen (kr d p) = stones /\
     forall i, 0 <= i < stones -> exists f c, file_for files stones i = Some f /\ read f (fst xy) (snd xy) = Ok c /\ zget (kr d p) i = Some c).
Proof. exact @Rpd_Proofs.curves_ok. Qed.
Theorem C174_files : forall {C} (read : string -> Z -> Z -> res C) inv (aniso both : bool) jcol kcol stones files, 0 <= stones ->
  (zlen files <> stones -> zlen files <> 1 -> saturation_functions read inv aniso both jcol kcol stones files = Throw) /\
  (zlen files = stones \/ zlen files = 1 ->
   (forall f, In f files -> (exists j v, read f (fst (inverted_column aniso jcol)) (snd (inverted_column aniso jcol)) = Ok j /\ inv j = Some v) /\
      forall d p xy, column_of aniso both kcol d p = Some xy -> exists c, read f (fst xy) (snd xy) = Ok c) ->
   exists r, saturation_functions read inv aniso both jcol kcol stones files = Ok r).
Proof. exact @Rpd_Proofs.curves_total. Qed.
Theorem C174_not_inverted : forall {C} (read : string -> Z -> Z -> res C) inv (aniso both : bool) jcol kcol stones files, 1 <= stones -> zlen files = stones \/ zlen files = 1 ->
  (forall f x y, In f files -> exists c, read f x y = Ok c) ->
  (exists f j, In f files /\ read f (fst (inverted_column aniso jcol)) (snd (inverted_column aniso jcol)) = Ok j /\ inv j = None) ->
  saturation_functions read inv aniso both jcol kcol stones files = Throw.
Proof. exact @Rpd_Proofs.curves_refused. Qed.

(* C175: result table of upscale_relperm *)
Theorem C175_plain : forall interp ipoints tension tec ps sats kr, ipoints <= 1 -> 0 <= tec -> zlen ps = zlen sats -> (forall cols, In cols kr -> columns_fit tec (zlen sats) cols) ->
  exists t rows, rp_columns interp ipoints tension ps sats kr = Ok t /\ rp_rows tec t = Ok rows /\ zlen rows = zlen sats /\
  forall i row, zget rows i = Some row -> zlen row = 2 + zlen kr * tec /\ (nthR row 0 = nthR ps i * tension / 1000)%R /\ nthR row 1 = nthR sats i /\
    forall ph v, 0 <= ph < zlen kr -> 0 <= v < tec -> nthR row (2 + ph * tec + v) = value_at kr ph v i.
Proof. exact Rpd_Proofs2.table_plain. Qed.
Theorem C175_interpolated : forall interp ipoints tension tec ps sats kr, interpolates interp -> 2 <= ipoints -> 0 <= tec -> sats <> [] -> zlen ps = zlen sats -> (forall cols, In cols kr -> columns_fit tec (zlen sats) cols) ->
  exists t rows lo hi, rp_columns interp ipoints tension ps sats kr = Ok t /\ rp_rows tec t = Ok rows /\ zlen rows = ipoints /\ is_min lo sats /\ is_max hi sats /\
  forall i row, zget rows i = Some row -> zlen row = 2 + zlen kr * tec /\ (nthR row 1 = lo + IZR i / IZR (ipoints - 1) * (hi - lo))%R /\
    (forall ph v a b, 0 <= ph < zlen kr -> 0 <= v < tec -> (forall j, 0 <= j < zlen sats -> (a <= value_at kr ph v j <= b)%R) -> (a <= nthR row (2 + ph * tec + v) <= b)%R) /\
    (NoDup sats -> forall j, 0 <= j < zlen sats -> nthR sats j = nthR row 1 -> (nthR row 0 = nthR ps j * tension / 1000)%R /\
       forall ph v, 0 <= ph < zlen kr -> 0 <= v < tec -> nthR row (2 + ph * tec + v) = value_at kr ph v j).
Proof. exact Rpd_Proofs2.table_interpolated. Qed.
Theorem C175_header : forall ow (both : bool) t tec, (t = 0 /\ tec = 3) \/ (t <> 0 /\ tec = 9) -> zlen (rp_header ow both t) = 2 + phase_count both * tec /\
  zget (rp_header ow both t) 0 = Some "Pc"%string /\ zget (rp_header ow both t) 1 = Some (if ow then "Sw" else "Sg")%string /\
  forall ph v, 0 <= ph < phase_count both -> 0 <= v < tec -> zget (rp_header ow both t) (2 + ph * tec + v) = Some (element_name ow both ph v).
Proof. exact Rpd_Proofs2.header_ok. Qed.

(* C176: files written by upscale_relperm *)
Theorem C176_program : forall interp check thresh points tec ipoints tension ow both krow out kinv ps sats phases kr, tec = 3 \/ tec = 9 -> 1 <= points -> zlen kinv = 9 -> zlen ps = points -> zlen sats = points ->
  zlen phases = phase_count both -> (forall rows, In rows phases -> zlen rows = points /\ forall r, In r rows -> zlen r = tec) ->
  mapM (helper_relperm check thresh points tec kinv) phases = Ok kr ->
  exists t rows files, rp_output interp check thresh points tec ipoints tension ow both krow out kinv ps sats phases = Ok (rows, files) /\
  rp_columns interp ipoints tension ps sats kr = Ok t /\ rp_rows tec t = Ok rows /\ zlen kr = phase_count both /\ (forall cols, In cols kr -> columns_fit tec points cols) /\
  files = (if String.eqb out "" then [] else
             Table out rows :: (if both then map (fun c => Eclipse (eclipse_name out (component_letter c) (if ow then "W" else "G")%char) (eclipse_table (krow c) tec c rows)) [0; 1; 2] else [])).
Proof. exact Rpd_Proofs2.program_ok. Qed.
Theorem C176_unchecked : forall thresh points tec kinv phases, tec = 3 \/ tec = 9 -> zlen kinv = 9 -> (forall rows, In rows phases -> zlen rows = points /\ forall r, In r rows -> zlen r = tec) ->
  exists kr, mapM (helper_relperm false thresh points tec kinv) phases = Ok kr.
Proof. exact Rpd_Proofs2.helpers_total. Qed.
Theorem C176_extra_row : forall interp check thresh points tec ipoints tension ow (krow : Z -> R) out kinv ps sats phases kr, tec = 3 \/ tec = 9 -> 1 <= points -> zlen kinv = 9 -> zlen ps = points -> zlen sats = points ->
  zlen phases = 2 -> (forall rows, In rows phases -> zlen rows = points /\ forall r, In r rows -> zlen r = tec) ->
  mapM (helper_relperm check thresh points tec kinv) phases = Ok kr -> out <> ""%string -> (0 < krow 0%Z)%R ->
  exists rows name rest files, rp_output interp check thresh points tec ipoints tension ow true krow out kinv ps sats phases = Ok (rows, Table out rows :: Eclipse name ([0; 0; krow 0%Z; 0]%R :: rest) :: files) /\ zlen rest = zlen rows.
Proof. exact Rpd_Proofs2.extra_row. Qed.
Theorem C176_names : forall comp sat, (forall b e, no_dot e -> eclipse_name (b ++ String "." e) comp sat = (b ++ "-" ++ String comp (".S" ++ String sat "OF"))%string) /\
  (forall b, no_dot b -> eclipse_name b comp sat = (b ++ "-" ++ String comp (".S" ++ String sat "OF"))%string).
Proof. exact Rpd_Proofs2.name_ok. Qed.
Theorem C176_distinct : forall out comp comp' sat, (eclipse_name out comp sat = eclipse_name out comp' sat -> comp = comp') /\ eclipse_name out comp sat <> out.
Proof. exact Rpd_Proofs2.names_distinct. Qed.
Theorem C176_directory_refuted : ~ (forall dir file comp sat, no_dot file -> exists tail, eclipse_name (dir ++ String "/" file) comp sat = (dir ++ String "/" tail)%string).
Proof. exact Rpd_Proofs2.directory_refuted. Qed.

Example C173_case : let o := fun k => if String.eqb k "fluids" then Some "ow"%string else if String.eqb k "bc" then Some "f"%string else if String.eqb k "points" then Some "30"%string else None in
  exists o', rp_command o ["-bc"; "periodic"; "-points"; "5"; "-bc"; "linear"; "grid"; "a"; "b"]%string = Ok ((o', ("grid", ["a"; "b"])%string), (true, (1, 9))) /\
    o' "points"%string = Some "5"%string /\ o' "fluids"%string = Some "ow"%string.
Proof. cbv zeta. eexists. split; [reflexivity|]. split; reflexivity. Qed.
Example C174_case : let read := fun f x y => Ok (f, (x, y)) : res (string * (Z * Z)) in let inv := fun c : string * (Z * Z) => Some c in
  exists kr, saturation_functions read inv true true 4 2 2 ["a"; "b"]%string = Ok ([("a", (2, 1)); ("b", (2, 1))]%string, kr) /\
    kr 1 1 = [("a", (2, 7)); ("b", (2, 7))]%string /\ kr 0 0 = [("a", (2, 3)); ("b", (2, 3))]%string /\ kr 3 0 = [].
Proof. cbv zeta. eexists. split; [reflexivity|]. split; [reflexivity|]. split; reflexivity. Qed.
Example C174_not_inverted_case : let read := fun f x y => Ok (f, (x, y)) : res (string * (Z * Z)) in let inv := fun c : string * (Z * Z) => if String.eqb (fst c) "b" then None else Some c in
  saturation_functions read inv false true 4 2 2 ["a"; "b"]%string = Throw.
Proof. reflexivity. Qed.
Example C175_case : columns_fit 3 2 [[0; 1]; [0; 1 / 2]; [0; 1 / 3]]%R /\ is_min 0%R [0; 1]%R /\ NoDup [0; 1]%R.
Proof.
  split; [split; [reflexivity|]|split; [split; [now left|]|]].
  - intros c [<-|[<-|[<-|[]]]]; reflexivity.
  - intros x [<-|[<-|[]]]; lra.
  - constructor; [intros [E|[]]; lra|]. constructor; [easy|constructor].
Qed.
Example C176_case : exists kr, mapM (helper_relperm false 1 2 3 [1; 0; 0; 0; 1; 0; 0; 0; 1]%R) [[[0; 0; 0]; [1; 1; 1]]; [[1; 1; 1]; [0; 0; 0]]]%R = Ok kr.
Proof.
  apply C176_unchecked; [now left|reflexivity|]. intros rows [<-|[<-|[]]]; (split; [reflexivity|]; intros r [<-|[<-|[]]]; reflexivity).
Qed.
Example C176_name : eclipse_name "../results/out.txt" "X" "W" = "../results/out-X.SWOF"%string /\ eclipse_name "../results/out" "X" "W" = ".-X.SWOF"%string.
Proof. split; reflexivity. Qed.
Print Assumptions C173_fluids. Print Assumptions C173_conditions. Print Assumptions C173_accepted. Print Assumptions C173_unknown_option. Print Assumptions C173_dangling_option. Print Assumptions C173_missing_files. Print Assumptions C174_curves. Print Assumptions C174_files. Print Assumptions C174_not_inverted. Print Assumptions C175_plain. Print Assumptions C175_interpolated. Print Assumptions C175_header. Print Assumptions C176_program. Print Assumptions C176_unchecked. Print Assumptions C176_extra_row. Print Assumptions C176_names. Print Assumptions C176_distinct. Print Assumptions C176_directory_refuted.
