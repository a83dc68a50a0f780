(* Lines of the text, and contents of the sub-deck. *)
From Coq Require Import Lra.
From Verif Require Import BaseFacts Chop_Proofs Grd_Spec Grd_Proofs.
Open Scope Z_scope.
Open Scope string_scope.

Lemma width_app a b : width (a ++ b) = width a + width b.
Proof. unfold width. rewrite len_app. lia. Qed.
Lemma width_cons c a : width (String c a) = width a + 1.
Proof. unfold width. cbn [String.length]. lia. Qed.
Lemma width_nonneg a : 0 <= width a.
Proof. unfold width. lia. Qed.
Lemma lines_cut a b : none_of newline a -> lines (a ++ String LF b) = a :: lines b.
Proof. intros H. unfold lines. rewrite split_sep by reflexivity. rewrite (split_none newline a H). reflexivity. Qed.
Definition short (n : Z) (s : string) : Prop := Forall (fun l => width l <= n) (lines s).
Lemma short_cut n a b : none_of newline a -> width a <= n -> short n b -> short n (a ++ String LF b).
Proof. intros H1 H2 H3. unfold short. rewrite lines_cut by exact H1. constructor; assumption. Qed.
Lemma short_values n nl w rest : 0 < nl -> 0 <= w -> nl * (w + 1) - 1 <= n -> 1 <= n -> short n rest -> forall vals i p, 0 <= i -> (forall v, In v vals -> plain v /\ width v <= w) -> none_of newline p -> width p <= (i mod nl) * (w + 1) ->
  short n (p ++ output_values nl i vals ++ (if negb ((i + zlen vals) mod nl =? 0)%Z then String LF "" else "") ++ "/" ++ String LF (String LF rest)).
Proof.
  intros Hnl Hw Hn H1 HR. induction vals as [|v t IH]; intros i p Hi HV NP LP.
  - cbn [output_values append]. change (zlen []) with 0. rewrite Z.add_0_r. pose proof (Z.mod_pos_bound i nl Hnl) as MB.
    assert (short n (String "/" (String LF (String LF rest)))) as ST.
    { change (String "/" (String LF (String LF rest))) with ("/" ++ String LF ("" ++ String LF rest)). apply short_cut; [cbn; auto|cbn; lia|]. apply short_cut; [exact I|cbn; lia|exact HR]. }
    destruct (Z.eqb_spec (i mod nl) 0) as [E|E]; cbn [negb append].
    + rewrite E in LP. assert (p = "") as ->. { destruct p; [reflexivity|]. rewrite width_cons in LP. pose proof (width_nonneg p). lia. } exact ST.
    + apply short_cut; [exact NP|nia|exact ST].
  - cbn [output_values]. destruct (HV v (or_introl eq_refl)) as ((P1 & P2 & P3) & WV). assert (zlen (v :: t) = zlen t + 1) as -> by (unfold zlen; cbn [List.length]; lia). replace (i + (zlen t + 1)) with (i + 1 + zlen t) by lia.
    pose proof (Z.mod_pos_bound i nl Hnl) as MB. pose proof (no_blank_line v P3) as NV. rewrite app_assoc_s. cbn [append]. rewrite <- (app_assoc_s p v). destruct (Z.eqb_spec ((i + 1) mod nl) 0) as [E|E].
    + apply short_cut; [apply none_app; assumption|rewrite width_app; nia|]. apply (IH (i + 1) ""); [lia|intros u Hu; apply HV; right; exact Hu|exact I|rewrite E; cbn; lia].
    + assert ((i + 1) mod nl = i mod nl + 1) as EM.
      { rewrite Z.add_mod in E |- * by lia. destruct (Z.eq_dec nl 1) as [->|N1]; [exfalso; apply E; apply Z.mod_1_r|]. rewrite (Z.mod_small 1 nl) in E |- * by lia. destruct (Z.eq_dec (i mod nl + 1) nl) as [Q|Q]; [exfalso; apply E; rewrite Q; apply Z.mod_same; lia|]. apply Z.mod_small. lia. }
      match goal with |- short n (?a ++ String ?c ?b) => change (short n (a ++ (String c "" ++ b))) end. rewrite <- (app_assoc_s (p ++ v)). apply (IH (i + 1)); [lia|intros u Hu; apply HV; right; exact Hu| |].
      * apply none_app; [apply none_app; assumption|cbn; auto].
      * rewrite !width_app, EM. change (width (String " " "")) with 1. nia.
Qed.
Lemma short_field n nl w kw vals rest : 0 < nl -> 0 <= w -> nl * (w + 1) - 1 <= n -> 1 <= n -> none_of newline kw -> width kw <= n -> (forall v, In v vals -> plain v /\ width v <= w) -> short n rest -> short n (output_field nl kw vals ++ rest).
Proof.
  intros Hnl Hw Hn H1 NK WK HV HR. unfold output_field. destruct vals as [|v t]; [exact HR|]. set (l := v :: t) in *. clearbody l. rewrite app_assoc_s. cbn [append]. apply short_cut; [exact NK|exact WK|]. rewrite app_assoc_s. pose proof (short_values n nl w rest Hnl Hw Hn H1 HR l 0 "" ltac:(lia) HV I ltac:(cbn; lia)) as G. cbn [append] in G. rewrite Z.add_0_l in G. destruct (negb _); exact G.
Qed.
Lemma line_width fmt fmti w wi m : (forall x, plain (fmt x) /\ width (fmt x) <= w) -> (forall z, plain (fmti z) /\ width (fmti z) <= wi) -> Forall (fun l => width l <= Z.max (4 * (w + 1) - 1) (20 * (wi + 1) - 1)) (lines (write_grdecl fmt fmti m)).
Proof.
  intros Hf Hi. set (n := Z.max _ _).
  assert (forall s, s <> "" -> 1 <= width s) as W1 by (intros [|c s] H; [congruence|rewrite width_cons; pose proof (width_nonneg s); lia]).
  assert (1 <= w) as Hw by (destruct (Hf 0%R) as ((P & _) & L); specialize (W1 _ P); lia). assert (1 <= wi) as Hwi by (destruct (Hi 0) as ((P & _) & L); specialize (W1 _ P); lia).
  assert (forall A kw nl (f : A -> string) (l : list A) u rest, 0 < nl -> 1 <= u -> nl * (u + 1) - 1 <= n -> none_of newline kw -> width kw <= 6 -> (forall x, plain (f x) /\ width (f x) <= u) -> short n rest -> short n (output_field nl kw (map f l) ++ rest)) as SF.
  { intros A kw nl f l u rest A1 A2 A3 A4 A5 A6 A7. apply (short_field n nl u); try assumption; try lia. intros v Hv. apply in_map_iff in Hv. destruct Hv as (x & <- & _). apply A6. }
  unfold write_grdecl. rewrite !opt_field. set (body := output_field 3 "COORD" _ ++ _). assert (short n body) as SB.
  { unfold body. rewrite <- (app_nil_s (output_field 20 "SATNUM" _)). do 2 (apply (SF _ _ _ _ _ w); [lia|lia|lia|cbn; tauto|cbn; lia|exact Hf|]). apply (SF _ _ _ _ _ wi); [lia|lia|lia|cbn; tauto|cbn; lia|exact Hi|]. do 7 (apply (SF _ _ _ _ _ w); [lia|lia|lia|cbn; tauto|cbn; lia|exact Hf|]). apply (SF _ _ _ _ _ wi); [lia|lia|lia|cbn; tauto|cbn; lia|exact Hi|].
    unfold short. cbn. repeat constructor. cbn. lia. }
  clearbody body. assert (forall z, none_of newline (fmti z)) as NI by (intros z; apply no_blank_line; apply (Hi z)).
  apply short_cut; [cbn; tauto|cbn; lia|]. match goal with |- short n ?s => replace s with ((fmti (m_nx m) ++ " " ++ fmti (m_ny m) ++ " " ++ fmti (m_nz m) ++ " 1 F") ++ String LF ("/" ++ String LF ("" ++ String LF body))) by (rewrite !app_assoc_s; reflexivity) end.
  apply short_cut; [|rewrite !width_app; change (width " ") with 1; change (width " 1 F") with 4; pose proof (proj2 (Hi (m_nx m))); pose proof (proj2 (Hi (m_ny m))); pose proof (proj2 (Hi (m_nz m))); lia|].
  - repeat (apply none_app; [first [apply NI|cbn; tauto]|]). cbn. tauto.
  - apply short_cut; [cbn; tauto|cbn; lia|]. apply short_cut; [exact I|cbn; lia|exact SB].
Qed.

(* ---- contents *)
Lemma in_add_double e d kw dim l : In e (add_double d kw dim l) <-> In e d \/ (l <> [] /\ e = (kw, KReals dim l)).
Proof. unfold add_double. destruct l; [split; [tauto|intros [H|(H & _)]; [exact H|congruence]]|]. rewrite in_app_iff. cbn [In]. split; [intros [H|[<-|[]]]; [tauto|right; split; [discriminate|reflexivity]]|intros [H|(_ & ->)]; tauto]. Qed.
Lemma in_add_int e d kw l : In e (add_int d kw l) <-> In e d \/ (l <> [] /\ e = (kw, KInts l)).
Proof. unfold add_int. destruct l; [split; [tauto|intros [H|(H & _)]; [exact H|congruence]]|]. rewrite in_app_iff. cbn [In]. split; [intros [H|[<-|[]]]; [tauto|right; split; [discriminate|reflexivity]]|intros [H|(_ & ->)]; tauto]. Qed.
Ltac member := first [assumption | reflexivity | left; member | right; member].
Lemma in_sub e m : In e (sub_deck m) <-> e = ("SPECGRID", KGrid (m_nx m) (m_ny m) (m_nz m) 1 "F") \/ (m_coord m <> [] /\ e = ("COORD", KReals DLength (m_coord m))) \/ (m_zcorn m <> [] /\ e = ("ZCORN", KReals DLength (m_zcorn m))) \/
  (m_actnum m <> [] /\ e = ("ACTNUM", KInts (m_actnum m))) \/ (m_poro m <> [] /\ e = ("PORO", KReals DOne (m_poro m))) \/ (m_ntg m <> [] /\ e = ("NTG", KReals DOne (m_ntg m))) \/ (m_swcr m <> [] /\ e = ("SWCR", KReals DOne (m_swcr m))) \/ (m_sowcr m <> [] /\ e = ("SOWCR", KReals DOne (m_sowcr m))) \/
  (m_permx m <> [] /\ e = ("PERMX", KReals DPermeability (m_permx m))) \/ (m_permy m <> [] /\ e = ("PERMY", KReals DPermeability (m_permy m))) \/ (m_permz m <> [] /\ e = ("PERMZ", KReals DPermeability (m_permz m))) \/ (m_satnum m <> [] /\ e = ("SATNUM", KInts (m_satnum m))).
Proof.
  unfold sub_deck. rewrite in_add_int, !in_add_double, in_add_int, !in_add_double. cbn [In]. split.
  - intros H. repeat match goal with H : _ \/ _ |- _ => destruct H as [H|H] end; subst; try contradiction; member.
  - intros H. repeat match goal with H : _ \/ _ |- _ => destruct H as [H|H] end; subst; try contradiction; member.
Qed.
Lemma units_one u m kw dim raw x : In (kw, KReals dim raw) (sub_deck m) -> In x raw -> x <> 0%R -> ((factor Metric dim * x = factor u dim * x)%R <-> u = Metric \/ (kw <> "COORD" /\ kw <> "ZCORN")).
Proof.
  intros H _ NX. assert (kw = "COORD" \/ kw = "ZCORN" <-> dim = DLength) as ED.
  { apply in_sub in H. repeat match goal with H : _ \/ _ |- _ => destruct H as [H|H] end; try discriminate; try (destruct H as (_ & H); try discriminate); injection H as -> -> _; split; intros Q; try tauto; try discriminate; destruct Q; discriminate. }
  split.
  - intros E. apply Rmult_eq_reg_r in E; [|exact NX]. destruct dim; [|right|right]; [|split; intros ->; assert (DOne = DLength) by (apply ED; tauto); discriminate|split; intros ->; assert (DPermeability = DLength) by (apply ED; tauto); discriminate]. destruct u; cbn in E; [tauto|lra|lra].
  - intros [->|(K1 & K2)]; [reflexivity|]. destruct dim; [exfalso; destruct (proj2 ED eq_refl); tauto|reflexivity|reflexivity].
Qed.
Lemma units_iff u m kw dim raw x : In (kw, KReals dim raw) (sub_deck m) -> In x raw -> x <> 0%R -> (si_data (KReals dim raw) = map (fun y => factor u dim * y)%R raw <-> u = Metric \/ (kw <> "COORD" /\ kw <> "ZCORN")).
Proof.
  intros H HX NX. cbn [si_data]. rewrite <- (units_one u m kw dim raw x H HX NX). split.
  - intros E. exact (ext_in_map E x HX).
  - intros E. apply Rmult_eq_reg_r in E; [|exact NX]. rewrite E. reflexivity.
Qed.
Definition some_of {A} (l : list A) : bool := match l with [] => false | _ => true end.
Definition pick (bs : list bool) (names : list string) : list string := flat_map (fun p => if fst p : bool then [snd p] else []) (combine bs names).
Lemma pick_once : forall names bs, NoDup names -> NoDup (pick bs names) /\ (forall x, In x (pick bs names) -> In x names).
Proof.
  unfold pick. induction names as [|x t IH]; intros [|y bs] ND; cbn [combine flat_map]; try (split; [constructor|intros ? []]). apply NoDup_cons_iff in ND. destruct ND as (N1 & N2). destruct (IH bs N2) as (I1 & I2). cbn [fst snd]. destruct y; cbn [List.app]; [|split; [exact I1|intros z Hz; right; apply I2; exact Hz]].
  split; [constructor; [intros K; apply N1; apply I2; exact K|exact I1]|]. intros z [<-|Hz]; [left; reflexivity|right; apply I2; exact Hz].
Qed.
Lemma names_once m : NoDup (map fst (sub_deck m)).
Proof.
  assert (map fst (sub_deck m) = pick [true; some_of (m_coord m); some_of (m_zcorn m); some_of (m_actnum m); some_of (m_poro m); some_of (m_ntg m); some_of (m_swcr m); some_of (m_sowcr m); some_of (m_permx m); some_of (m_permy m); some_of (m_permz m); some_of (m_satnum m)] ["SPECGRID"; "COORD"; "ZCORN"; "ACTNUM"; "PORO"; "NTG"; "SWCR"; "SOWCR"; "PERMX"; "PERMY"; "PERMZ"; "SATNUM"]) as ->.
  { assert (forall d kw dim l, map fst (add_double d kw dim l) = (map fst d ++ (if some_of l then [kw] else []))%list) as A1 by (intros d kw dim [|a t]; unfold add_double; [rewrite app_nil_r; reflexivity|rewrite map_app; reflexivity]).
    assert (forall d kw l, map fst (add_int d kw l) = (map fst d ++ (if some_of l then [kw] else []))%list) as A2 by (intros d kw [|a t]; unfold add_int; [rewrite app_nil_r; reflexivity|rewrite map_app; reflexivity]).
    unfold sub_deck. rewrite A2, !A1, A2, !A1. unfold pick. cbn [map fst combine flat_map snd]. rewrite app_nil_r, <- !app_assoc. reflexivity. }
  apply pick_once. repeat (constructor; [cbn; intuition discriminate|]). constructor.
Qed.
Lemma nil_zlen {A} (l : list A) : l <> [] <-> 0 < zlen l.
Proof. destruct l; unfold zlen; cbn [List.length]; split; intros H; try congruence; try lia; discriminate. Qed.
(* the sub-deck of a block *)
Lemma contents d imin imax jmin jmax zmin zmax reset out : wf_arrays (g_nx (dk_grid d)) (g_ny (dk_grid d)) (g_nz (dk_grid d)) (g_coord (dk_grid d)) (g_zcorn (dk_grid d)) -> box_within (g_nx (dk_grid d)) (g_ny (dk_grid d)) imin imax jmin jmax -> sized d ->
  chop (dk_grid d) imin imax jmin jmax zmin zmax reset = Ok out ->
  exists m, chop_deck d imin imax jmin jmax zmin zmax reset = Ok m /\ NoDup (map fst (sub_deck m)) /\
    let nx := imax - imin in let ny := jmax - jmin in let nz := c_nz out in
    In ("SPECGRID", KGrid nx ny nz 1 "F") (sub_deck m) /\
    (forall l, In ("COORD", l) (sub_deck m) <-> c_coord out <> [] /\ l = KReals DLength (c_coord out)) /\ (forall l, In ("ZCORN", l) (sub_deck m) <-> c_zcorn out <> [] /\ l = KReals DLength (c_zcorn out)) /\
    (forall kw dim get, In (kw, dim, get) real_fields -> match get d with None => ~ In kw (map fst (sub_deck m)) | Some f => 0 < nx * ny * nz -> exists f', In (kw, KReals dim f') (sub_deck m) /\ block_of d imin jmin (c_kmin out) nx ny nz f f' end) /\
    (forall kw get, In (kw, get) int_fields -> match get d with None => ~ In kw (map fst (sub_deck m)) | Some f => 0 < nx * ny * nz -> exists f', In (kw, KInts f') (sub_deck m) /\ block_of d imin jmin (c_kmin out) nx ny nz f f' end).
Proof.
  intros HW HB (HS1 & HS2) HC.
  assert (forall A (get : option (list A)), (forall f, get = Some f -> zlen f = g_nx (dk_grid d) * g_ny (dk_grid d) * g_nz (dk_grid d)) ->
    exists f', filter_keyword get (c_map out) = Ok f' /\ match get with None => f' = [] | Some f => block_of d imin jmin (c_kmin out) (imax - imin) (jmax - jmin) (c_nz out) f f' end) as FK.
  { intros A [f|] HL; [|exists []; split; reflexivity]. destruct (cell_source (dk_grid d) imin imax jmin jmax zmin zmax reset out A f HW HB HC (HL f eq_refl)) as (E1 & E2 & _ & _ & _ & f' & E & L & G). exists f'. split; [exact E|]. rewrite <- E1, <- E2. split; [exact L|exact G]. }
  assert (c_nx out = imax - imin /\ c_ny out = jmax - jmin) as (ENX & ENY).
  { unfold chop in HC. repeat match type of HC with bind ?e _ = _ => destruct e as [?| |]; cbn [bind] in HC; try discriminate | (if ?b then _ else _) = _ => destruct b; try discriminate end. injection HC as <-. split; reflexivity. }
  destruct (FK Z (dk_actnum d) ltac:(intros f Hf; eapply (HS2 _ dk_actnum); [|exact Hf]; cbn; tauto)) as (actnum & Eactnum & Bactnum).
  destruct (FK R (dk_poro d) ltac:(intros f Hf; eapply (HS1 _ _ dk_poro); [|exact Hf]; cbn; tauto)) as (poro & Eporo & Bporo).
  destruct (FK R (dk_ntg d) ltac:(intros f Hf; eapply (HS1 _ _ dk_ntg); [|exact Hf]; cbn; tauto)) as (ntg & Entg & Bntg).
  destruct (FK R (dk_swcr d) ltac:(intros f Hf; eapply (HS1 _ _ dk_swcr); [|exact Hf]; cbn; tauto)) as (swcr & Eswcr & Bswcr).
  destruct (FK R (dk_sowcr d) ltac:(intros f Hf; eapply (HS1 _ _ dk_sowcr); [|exact Hf]; cbn; tauto)) as (sowcr & Esowcr & Bsowcr).
  destruct (FK R (dk_permx d) ltac:(intros f Hf; eapply (HS1 _ _ dk_permx); [|exact Hf]; cbn; tauto)) as (permx & Epermx & Bpermx).
  destruct (FK R (dk_permy d) ltac:(intros f Hf; eapply (HS1 _ _ dk_permy); [|exact Hf]; cbn; tauto)) as (permy & Epermy & Bpermy).
  destruct (FK R (dk_permz d) ltac:(intros f Hf; eapply (HS1 _ _ dk_permz); [|exact Hf]; cbn; tauto)) as (permz & Epermz & Bpermz).
  destruct (FK Z (dk_satnum d) ltac:(intros f Hf; eapply (HS2 _ dk_satnum); [|exact Hf]; cbn; tauto)) as (satnum & Esatnum & Bsatnum).
  exists (mkMem (c_nx out) (c_ny out) (c_nz out) (c_coord out) (c_zcorn out) actnum poro ntg swcr sowcr permx permy permz satnum). split.
  { unfold chop_deck. rewrite HC. cbn [bind]. rewrite Eactnum. cbn [bind]. rewrite Eporo. cbn [bind]. rewrite Entg. cbn [bind]. rewrite Eswcr. cbn [bind]. rewrite Esowcr. cbn [bind]. rewrite Epermx. cbn [bind]. rewrite Epermy. cbn [bind]. rewrite Epermz. cbn [bind]. rewrite Esatnum. cbn [bind]. reflexivity. }
  split; [apply names_once|]. cbv zeta. set (m := mkMem _ _ _ _ _ _ _ _ _ _ _ _ _ _).
  assert (forall kw, ~ (exists e, In (kw, e) (sub_deck m)) -> ~ In kw (map fst (sub_deck m))) as NIN by (intros kw H K; apply H; apply in_map_iff in K; destruct K as ((k & e) & <- & K); exists e; exact K).
  split; [apply in_sub; left; cbn; rewrite ENX, ENY; reflexivity|].
  split; [intros l; rewrite in_sub; cbn [m_coord m]; split; [intros H; repeat match goal with H : _ \/ _ |- _ => destruct H as [H|H] end; try (destruct H as (? & H)); try discriminate; injection H as ->; tauto|intros (H & ->); tauto]|].
  split; [intros l; rewrite in_sub; cbn [m_zcorn m]; split; [intros H; repeat match goal with H : _ \/ _ |- _ => destruct H as [H|H] end; try (destruct H as (? & H)); try discriminate; injection H as ->; tauto|intros (H & ->); tauto]|].
  assert (forall A kw (K : list A -> kdata) (g : option (list A)) f', match g with None => f' = [] | Some f => block_of d imin jmin (c_kmin out) (imax - imin) (jmax - jmin) (c_nz out) f f' end -> (forall e, In (kw, e) (sub_deck m) <-> f' <> [] /\ e = K f') ->
    match g with None => ~ In kw (map fst (sub_deck m)) | Some f => 0 < (imax - imin) * (jmax - jmin) * c_nz out -> exists f', In (kw, K f') (sub_deck m) /\ block_of d imin jmin (c_kmin out) (imax - imin) (jmax - jmin) (c_nz out) f f' end) as RF.
  { intros A kw K [f|] f' HG HE.
    - intros HP. exists f'. split; [|exact HG]. apply HE. split; [|reflexivity]. apply nil_zlen. destruct HG as (-> & _). exact HP.
    - subst f'. apply NIN. intros (e & He). apply HE in He. tauto. }
  split.
  - intros kw dim get HI. cbn [real_fields In] in HI.
    destruct HI as [HI|HI]; [injection HI as <- <- <-; apply (RF R _ (KReals _) _ poro Bporo); (intros e; rewrite in_sub; unfold m; cbn [m_actnum m_poro m_ntg m_swcr m_sowcr m_permx m_permy m_permz m_satnum]; split; [intros H; repeat match goal with H : _ \/ _ |- _ => destruct H as [H|H] end; try (destruct H as (? & H)); try discriminate; injection H as ->; tauto|intros (H & ->); tauto])|].
    destruct HI as [HI|HI]; [injection HI as <- <- <-; apply (RF R _ (KReals _) _ ntg Bntg); (intros e; rewrite in_sub; unfold m; cbn [m_actnum m_poro m_ntg m_swcr m_sowcr m_permx m_permy m_permz m_satnum]; split; [intros H; repeat match goal with H : _ \/ _ |- _ => destruct H as [H|H] end; try (destruct H as (? & H)); try discriminate; injection H as ->; tauto|intros (H & ->); tauto])|].
    destruct HI as [HI|HI]; [injection HI as <- <- <-; apply (RF R _ (KReals _) _ swcr Bswcr); (intros e; rewrite in_sub; unfold m; cbn [m_actnum m_poro m_ntg m_swcr m_sowcr m_permx m_permy m_permz m_satnum]; split; [intros H; repeat match goal with H : _ \/ _ |- _ => destruct H as [H|H] end; try (destruct H as (? & H)); try discriminate; injection H as ->; tauto|intros (H & ->); tauto])|].
    destruct HI as [HI|HI]; [injection HI as <- <- <-; apply (RF R _ (KReals _) _ sowcr Bsowcr); (intros e; rewrite in_sub; unfold m; cbn [m_actnum m_poro m_ntg m_swcr m_sowcr m_permx m_permy m_permz m_satnum]; split; [intros H; repeat match goal with H : _ \/ _ |- _ => destruct H as [H|H] end; try (destruct H as (? & H)); try discriminate; injection H as ->; tauto|intros (H & ->); tauto])|].
    destruct HI as [HI|HI]; [injection HI as <- <- <-; apply (RF R _ (KReals _) _ permx Bpermx); (intros e; rewrite in_sub; unfold m; cbn [m_actnum m_poro m_ntg m_swcr m_sowcr m_permx m_permy m_permz m_satnum]; split; [intros H; repeat match goal with H : _ \/ _ |- _ => destruct H as [H|H] end; try (destruct H as (? & H)); try discriminate; injection H as ->; tauto|intros (H & ->); tauto])|].
    destruct HI as [HI|HI]; [injection HI as <- <- <-; apply (RF R _ (KReals _) _ permy Bpermy); (intros e; rewrite in_sub; unfold m; cbn [m_actnum m_poro m_ntg m_swcr m_sowcr m_permx m_permy m_permz m_satnum]; split; [intros H; repeat match goal with H : _ \/ _ |- _ => destruct H as [H|H] end; try (destruct H as (? & H)); try discriminate; injection H as ->; tauto|intros (H & ->); tauto])|].
    destruct HI as [HI|HI]; [injection HI as <- <- <-; apply (RF R _ (KReals _) _ permz Bpermz); (intros e; rewrite in_sub; unfold m; cbn [m_actnum m_poro m_ntg m_swcr m_sowcr m_permx m_permy m_permz m_satnum]; split; [intros H; repeat match goal with H : _ \/ _ |- _ => destruct H as [H|H] end; try (destruct H as (? & H)); try discriminate; injection H as ->; tauto|intros (H & ->); tauto])|].
    destruct HI.
  - intros kw get HI. cbn [int_fields In] in HI.
    destruct HI as [HI|HI]; [injection HI as <- <-; apply (RF Z _ KInts _ actnum Bactnum); (intros e; rewrite in_sub; unfold m; cbn [m_actnum m_poro m_ntg m_swcr m_sowcr m_permx m_permy m_permz m_satnum]; split; [intros H; repeat match goal with H : _ \/ _ |- _ => destruct H as [H|H] end; try (destruct H as (? & H)); try discriminate; injection H as ->; tauto|intros (H & ->); tauto])|].
    destruct HI as [HI|HI]; [injection HI as <- <-; apply (RF Z _ KInts _ satnum Bsatnum); (intros e; rewrite in_sub; unfold m; cbn [m_actnum m_poro m_ntg m_swcr m_sowcr m_permx m_permy m_permz m_satnum]; split; [intros H; repeat match goal with H : _ \/ _ |- _ => destruct H as [H|H] end; try (destruct H as (? & H)); try discriminate; injection H as ->; tauto|intros (H & ->); tauto])|].
    destruct HI.
Qed.
(* ---- a case *)
Lemma uint_plain : forall u, no_blank (NilEmpty.string_of_uint u).
Proof. induction u; cbn; auto. Qed.
Lemma digits_plain z : plain (digits z).
Proof.
  unfold digits, plain. assert (forall u, NilZero.string_of_uint u <> "" /\ NilZero.string_of_uint u <> "/" /\ no_blank (NilZero.string_of_uint u)) as G.
  { intros u. unfold NilZero.string_of_uint. destruct u; (split; [discriminate|]); (split; [discriminate|]); first [exact (conj eq_refl I)|cbn; split; [reflexivity|apply uint_plain]]. }
  destruct (Z.to_int z) as [u|u]; cbn [NilZero.string_of_int]; [apply G|]. destruct (G u) as (G1 & _ & G3). split; [discriminate|]. split; [discriminate|]. cbn. split; [reflexivity|exact G3].
Qed.
Definition one_deck : cdeck := mkDeck g_slanted (Some [1]) (Some [(1/4)%R]) None None None (Some [100%R]) None None (Some [2]).
Lemma one_deck_ok : sized one_deck.
Proof.
  split.
  - intros kw dim get f HI HG. cbn [real_fields In] in HI. repeat (destruct HI as [HI|HI]; [injection HI as <- <- <-; first [discriminate HG|injection HG as <-; reflexivity]|]). destruct HI.
  - intros kw get f HI HG. cbn [int_fields In] in HI. repeat (destruct HI as [HI|HI]; [injection HI as <- <-; injection HG as <-; reflexivity|]). destruct HI.
Qed.
Lemma field_units : exists d m, wf_arrays (g_nx (dk_grid d)) (g_ny (dk_grid d)) (g_nz (dk_grid d)) (g_coord (dk_grid d)) (g_zcorn (dk_grid d)) /\ sized d /\ chop_deck d 0 1 0 1 1%R 2%R true = Ok m /\
  exists raw, In ("COORD", KReals DLength raw) (sub_deck m) /\ si_data (KReals DLength raw) <> map (fun y => factor Field DLength * y)%R raw.
Proof.
  destruct slanted_meets as (H1 & H2 & H3 & H4 & out & H5 & H6). destruct (contents one_deck 0 1 0 1 1 2 true out H1 H2 one_deck_ok H5) as (m & E & _ & _ & HC & _). exists one_deck, m. split; [exact H1|]. split; [exact one_deck_ok|]. split; [exact E|].
  destruct (chop_pillars g_slanted 0 1 0 1 1 2 true out H1 H2 H5) as (_ & xc & yc & _ & _ & HP). destruct (cell_source g_slanted 0 1 0 1 1 2 true out unit [tt] H1 H2 H5 eq_refl) as (Nx & Ny & _).
  destruct (HP 0 0 5 ltac:(lia) ltac:(lia) ltac:(lia)) as (v & w & _ & Gw & _ & Hw). assert (w = 2 - 1)%R as -> by (apply Hw; reflexivity). apply zget_In in Gw. exists (c_coord out). split; [apply HC; split; [intros Q; rewrite Q in Gw; destruct Gw|reflexivity]|]. intros Q. pose proof (ext_in_map Q _ Gw) as Q'. cbn in Q'. lra.
Qed.
