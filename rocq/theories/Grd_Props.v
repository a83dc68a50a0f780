From Verif Require Import Chop_Proofs Grd_Proofs Grd_Proofs2 Grd_Spec.
Open Scope Z_scope.
Open Scope string_scope.

(* C214: the text file and the sub-deck say the same *)
Theorem C214_same : forall fmt fmti, (forall x, plain (fmt x)) -> (forall z, plain (fmti z)) -> fmti 1%Z = "1" -> forall m, keywords None (words (write_grdecl fmt fmti m)) = map (fun e => (fst e, tokens fmt fmti (snd e))) (sub_deck m).
Proof. exact Grd_Proofs.read_text. Qed.
Theorem C214_lines : forall fmt fmti w wi m, (forall x, plain (fmt x) /\ width (fmt x) <= w) -> (forall z, plain (fmti z) /\ width (fmti z) <= wi) -> Forall (fun l => width l <= Z.max (4 * (w + 1) - 1) (20 * (wi + 1) - 1)) (lines (write_grdecl fmt fmti m)).
Proof. exact Grd_Proofs2.line_width. Qed.

(* C215: the sub-deck of a block *)
Theorem C215_contents : forall d imin imax jmin jmax zmin zmax reset out, wf_arrays (g_nx (dk_grid d)) (g_ny (dk_grid d)) (g_nz (dk_grid d)) (g_coord (dk_grid d)) (g_zcorn (dk_grid d)) -> box_within (g_nx (dk_grid d)) (g_ny (dk_grid d)) imin imax jmin jmax -> sized d ->
  chop (dk_grid d) imin imax jmin jmax zmin zmax reset = Ok out ->
  exists m, chop_deck d imin imax jmin jmax zmin zmax reset = Ok m /\ NoDup (map fst (sub_deck m)) /\
    let nx := imax - imin in let ny := jmax - jmin in let nz := c_nz out in
    In ("SPECGRID", KGrid nx ny nz 1 "F") (sub_deck m) /\
    (forall l, In ("COORD", l) (sub_deck m) <-> c_coord out <> [] /\ l = KReals DLength (c_coord out)) /\ (forall l, In ("ZCORN", l) (sub_deck m) <-> c_zcorn out <> [] /\ l = KReals DLength (c_zcorn out)) /\
    (forall kw dim get, In (kw, dim, get) real_fields -> match get d with None => ~ In kw (map fst (sub_deck m)) | Some f => 0 < nx * ny * nz -> exists f', In (kw, KReals dim f') (sub_deck m) /\ block_of d imin jmin (c_kmin out) nx ny nz f f' end) /\
    (forall kw get, In (kw, get) int_fields -> match get d with None => ~ In kw (map fst (sub_deck m)) | Some f => 0 < nx * ny * nz -> exists f', In (kw, KInts f') (sub_deck m) /\ block_of d imin jmin (c_kmin out) nx ny nz f f' end).
Proof. exact Grd_Proofs2.contents. Qed.
Theorem C215_names : forall m, NoDup (map fst (sub_deck m)).
Proof. exact Grd_Proofs2.names_once. Qed.

(* C216: units *)
Theorem C216_units : forall u m kw dim raw x, In (kw, KReals dim raw) (sub_deck m) -> In x raw -> x <> 0%R -> (si_data (KReals dim raw) = map (fun y => factor u dim * y)%R raw <-> u = Metric \/ (kw <> "COORD" /\ kw <> "ZCORN")).
Proof. exact Grd_Proofs2.units_iff. Qed.
Theorem C216_field_refuted : exists d m, wf_arrays (g_nx (dk_grid d)) (g_ny (dk_grid d)) (g_nz (dk_grid d)) (g_coord (dk_grid d)) (g_zcorn (dk_grid d)) /\ sized d /\ chop_deck d 0 1 0 1 1%R 2%R true = Ok m /\
  exists raw, In ("COORD", KReals DLength raw) (sub_deck m) /\ si_data (KReals DLength raw) <> map (fun y => factor Field DLength * y)%R raw.
Proof. exact Grd_Proofs2.field_units. Qed.

(* decimal digits are such a format; a deck with some of the keywords *)
Example C214_case : (forall z, plain (digits z)) /\ digits 1%Z = "1" /\ digits (-120)%Z = "-120".
Proof. exact (conj digits_plain (conj eq_refl eq_refl)). Qed.
Example C215_case : sized one_deck /\ exists out, chop (dk_grid one_deck) 0 1 0 1 1%R 2%R true = Ok out /\ c_nz out = 1%Z.
Proof. split; [exact one_deck_ok|]. destruct slanted_meets as (_ & _ & _ & _ & H). exact H. Qed.
Print Assumptions C214_same. Print Assumptions C214_lines. Print Assumptions C215_contents. Print Assumptions C215_names. Print Assumptions C216_units. Print Assumptions C216_field_refuted.
