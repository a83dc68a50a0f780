From Verif Require Import Fluid_Spec Lin_Facts BaseFacts RBaseFacts Fluid_Proofs Rprop_Proofs3 Rprop_Proofs2 Euler_Proofs2.
From Coq Require Import Lra Lia.
Open Scope Z_scope.

(* ---- the comment header *)
Lemma after_line_app body t : ~ In newline body -> after_line (body ++ newline :: t) = Some t.
Proof.
  induction body as [| c b IH]; intros H; cbn [app after_line].
  - rewrite Ascii.eqb_refl. reflexivity.
  - destruct (Ascii.eqb_spec c newline) as [-> |]; [exfalso; apply H; left; reflexivity |]. apply IH. intros I. apply H. right. exact I.
Qed.
Lemma after_line_none body : ~ In newline body -> after_line body = None.
Proof.
  induction body as [| c b IH]; intros H; cbn [after_line]; [reflexivity |].
  destruct (Ascii.eqb_spec c newline) as [-> |]; [exfalso; apply H; left; reflexivity |]. apply IH. intros I. apply H. right. exact I.
Qed.
Lemma peek_good l : is_peek (mkIst l false false) = (match l with [] => None | c :: _ => Some c end, match l with [] => mkIst [] true false | _ => mkIst l false false end).
Proof. destruct l; reflexivity. Qed.
Lemma skip_comment fuel c body t : comment_char c -> ~ In newline body ->
  skip_loop (S fuel) (Some c) (mkIst (c :: body ++ newline :: t) false false) =
  let '(c', s) := is_peek (mkIst t false false) in skip_loop fuel c' s.
Proof.
  intros [-> | ->] H; cbn [skip_loop].
  - cbn -[is_getline is_peek skip_loop]. unfold is_getline at 1. cbn [is_rest is_eof is_fail orb]. rewrite after_line_app by exact H. reflexivity.
  - cbn -[is_getline is_peek skip_loop]. unfold is_getline at 1. cbn [is_rest is_eof is_fail orb after_line].
    replace (Ascii.eqb "#" newline) with false by reflexivity. rewrite after_line_app by exact H. reflexivity.
Qed.
Lemma skip_ok cs : Forall comment_line cs -> forall rest fuel, not_comment rest -> (length cs <= fuel)%nat ->
  exists s, (let '(c, s) := is_peek (mkIst (concat cs ++ rest) false false) in skip_loop fuel c s) = Some s /\ is_rest s = rest /\ is_fail s = false.
Proof.
  induction 1 as [| l cs (c & body & -> & Hc & Hb) _ IH]; intros rest fuel N F.
  - cbn [concat app]. rewrite peek_good. destruct rest as [| c t].
    + destruct fuel; exists (mkIst [] true false); auto.
    + exists (mkIst (c :: t) false false). split; [| auto]. specialize (N c t eq_refl).
      assert (E : (Ascii.eqb c "-" || Ascii.eqb c "#") = false).
      { destruct (Ascii.eqb_spec c "-"); [exfalso; apply N; left; assumption |]. destruct (Ascii.eqb_spec c "#"); [exfalso; apply N; right; assumption | reflexivity]. }
      destruct fuel; cbn [skip_loop]; rewrite E; reflexivity.
  - cbn [length] in F. destruct fuel as [| fuel]; [lia |].
    cbn [concat]. replace ((c :: body ++ [newline]) ++ concat cs) with (c :: body ++ newline :: concat cs) by (cbn; rewrite <- app_assoc; reflexivity).
    replace ((c :: body ++ newline :: concat cs) ++ rest) with (c :: body ++ newline :: (concat cs ++ rest)) by (cbn; rewrite <- app_assoc; reflexivity).
    rewrite peek_good. rewrite skip_comment by assumption. apply IH; [exact N | lia].
Qed.
Lemma concat_len cs : Forall comment_line cs -> (length cs <= length (concat cs))%nat.
Proof.
  induction 1 as [| l cs (c & body & -> & _) _ IH]; cbn; [lia |]. rewrite !app_length. cbn. lia.
Qed.
Lemma header_ok cs rest : Forall comment_line cs -> not_comment rest -> skip_header (concat cs ++ rest) = Ok rest.
Proof.
  intros H N. unfold skip_header. pose proof (concat_len cs H).
  destruct (skip_ok cs H rest (S (length (concat cs ++ rest))) N) as (s & E & R & F). { rewrite app_length. lia. }
  destruct (is_peek _) as [c s0]. rewrite E, F, R. reflexivity.
Qed.
(* an unterminated comment at the end of the file *)
Lemma skip_bad cs : Forall comment_line cs -> forall c body fuel, comment_char c -> ~ In newline body -> (length cs < fuel)%nat ->
  exists s, (let '(c', s) := is_peek (mkIst (concat cs ++ c :: body) false false) in skip_loop fuel c' s) = Some s /\ is_fail s = true.
Proof.
  induction 1 as [| l cs (c & body & -> & Hc & Hb) _ IH]; intros c' body' fuel Hc' Hb' F.
  - destruct fuel as [| fuel]; [lia |]. cbn [concat app]. rewrite peek_good.
    destruct Hc' as [-> | ->]; cbn [skip_loop].
    + cbn -[is_getline is_peek skip_loop]. unfold is_getline at 1. cbn [is_rest is_eof is_fail orb]. rewrite after_line_none by exact Hb'.
      cbn -[skip_loop]. destruct fuel; cbn; eauto.
    + cbn -[is_getline is_peek skip_loop]. unfold is_getline at 1. cbn [is_rest is_eof is_fail orb after_line].
      replace (Ascii.eqb "#" newline) with false by reflexivity. rewrite after_line_none by exact Hb'.
      cbn -[skip_loop]. destruct fuel; cbn; eauto.
  - cbn [length] in F. destruct fuel as [| fuel]; [lia |].
    cbn [concat]. replace ((c :: body ++ [newline]) ++ concat cs) with (c :: body ++ newline :: concat cs) by (cbn; rewrite <- app_assoc; reflexivity).
    replace ((c :: body ++ newline :: concat cs) ++ c' :: body') with (c :: body ++ newline :: (concat cs ++ c' :: body')) by (cbn; rewrite <- app_assoc; reflexivity).
    rewrite peek_good. rewrite skip_comment by assumption. apply IH; [assumption | assumption | lia].
Qed.
Lemma header_bad cs c body : Forall comment_line cs -> comment_char c -> ~ In newline body -> skip_header (concat cs ++ c :: body) = Throw.
Proof.
  intros H Hc Hb. unfold skip_header. pose proof (concat_len cs H).
  destruct (skip_bad cs H c body (S (length (concat cs ++ c :: body))) Hc Hb) as (s & E & F). { rewrite app_length. cbn. lia. }
  destruct (is_peek _) as [c' s0]. rewrite E, F. reflexivity.
Qed.
Lemma split_line (l : list ascii) : (exists body t, l = body ++ newline :: t /\ ~ In newline body) \/ ~ In newline l.
Proof.
  induction l as [| c t IH]; [right; auto |].
  destruct (Ascii.eqb_spec c newline) as [-> | N]; [left; exists [], t; auto |].
  destruct IH as [(body & t' & -> & Hb) | Hn].
  - left. exists (c :: body), t'. split; [reflexivity |]. intros [E | I]; [auto | auto].
  - right. intros [E | I]; auto.
Qed.
(* every file is comment lines followed by something that is no comment or an unterminated comment *)
Lemma header_cases file : exists cs rest, file = concat cs ++ rest /\ Forall comment_line cs /\
  (not_comment rest \/ exists c body, rest = c :: body /\ comment_char c /\ ~ In newline body).
Proof.
  remember (length file) as n eqn:En. revert file En. induction n as [n IH] using lt_wf_ind. intros file ->.
  destruct file as [| c t]. { exists [], []. split; [reflexivity | split; [constructor | left]]. intros c t E. discriminate. }
  assert (D : comment_char c \/ ~ comment_char c).
  { unfold comment_char. destruct (Ascii.eqb_spec c "-"); [auto |]. destruct (Ascii.eqb_spec c "#"); [auto |]. right. intros [E | E]; auto. }
  destruct D as [D | D].
  2: { exists [], (c :: t). split; [reflexivity | split; [constructor | left]]. intros c' t' E. injection E as <- <-. exact D. }
  destruct (split_line t) as [(body & t' & -> & Hb) | Hn].
  - destruct (IH (length t') ltac:(cbn; rewrite app_length; cbn; lia) t' eq_refl) as (cs & rest & -> & Hcs & E).
    exists ((c :: body ++ [newline]) :: cs), rest. split; [cbn; rewrite <- !app_assoc; reflexivity |]. split; [| exact E].
    constructor; [exists c, body; auto | exact Hcs].
  - exists [], (c :: t). split; [reflexivity | split; [constructor | right]]. exists c, t. auto.
Qed.
(* a first line of data with a leading minus sign is taken for a comment *)
Definition minus_file : list ascii := ["-"; "1"; " "; "2"; newline; "3"]%char.
Lemma header_documented_refuted : exists file rest, skip_header file = Ok rest /\ ~ exists cs, Forall documented_comment cs /\ file = concat cs ++ rest.
Proof.
  exists minus_file, ["3"%char]. split; [reflexivity |]. intros (cs & H & E). destruct H as [| l cs (body & _ & [-> | ->]) _]; discriminate.
Qed.

(* ---- the rows *)
Lemma jrock_rows_ok rows tail : (length tail < 4)%nat -> (forall o, In o tail -> o <> None) -> jrock_rows (flat_map row_tokens rows ++ tail) = Ok rows.
Proof.
  intros L N. induction rows as [| [[[a b] c] d] rows IH].
  - assert (F : forallb (fun o => match o with Some _ => true | None => false end) tail = true).
    { apply forallb_forall. intros [x |] I; [reflexivity | exfalso; exact (N None I eq_refl)]. }
    cbn [flat_map app].
    destruct tail as [| [x1 |] [| [x2 |] [| [x3 |] [| x4 tail]]]]; try reflexivity; try (cbn in F; discriminate); cbn in L; lia.
  - cbn [flat_map row_tokens app jrock_rows]. rewrite IH. reflexivity.
Qed.
Lemma jrock_rows_bad n toks : (length toks <= n)%nat -> In None toks -> jrock_rows toks = Throw.
Proof.
  revert toks. induction n as [| n IH]; intros toks L I. { destruct toks; [destruct I | cbn in L; lia]. }
  assert (F : forallb (fun o : option R => match o with Some _ => true | None => false end) toks = false).
  { apply not_true_is_false. intros T. rewrite forallb_forall in T. specialize (T None I). discriminate. }
  destruct toks as [| [a |] [| [b |] [| [c |] [| [d |] toks]]]]; try (cbn [jrock_rows]; rewrite F; reflexivity).
  cbn [jrock_rows]. rewrite (IH toks); [reflexivity | cbn in L; lia |].
  destruct I as [E | [E | [E | [E | I]]]]; try discriminate. exact I.
Qed.
Lemma rset_0 l i : 0 <= i < zlen l -> exists l', (let* x := rget l i in if Req_EM_T x 0 then Ok l else rset l i 0%R) = Ok l' /\ zlen l' = zlen l /\
  forall k, zget l' k = if k =? i then Some 0%R else zget l k.
Proof.
  intros H. destruct (zget_in_range l i H) as [x E]. unfold rget. rewrite E. cbn [bind]. destruct (Req_EM_T x 0) as [-> | N].
  - exists l. split; [reflexivity | split; [reflexivity |]]. intros k. destruct (Z.eqb_spec k i) as [-> |]; [exact E | reflexivity].
  - destruct (rset_at l i 0%R H) as (l' & E' & L & G). exists l'. auto.
Qed.
Lemma read_table_ok rows : rows <> [] -> exists t, read_table rows = Ok t /\
  zlen (jt_s t) = zlen rows /\ zlen (jt_krw t) = zlen rows /\ zlen (jt_kro t) = zlen rows /\ zlen (jt_J t) = zlen rows /\
  (forall i a b c d, zget rows i = Some (a, b, c, d) -> zget (jt_s t) i = Some a /\ zget (jt_krw t) i = Some (if i =? 0 then 0%R else b) /\
     zget (jt_kro t) i = Some (if i =? zlen rows - 1 then 0%R else c) /\ zget (jt_J t) i = Some d) /\
  zget (jt_s t) 0 = Some (jt_smin t) /\ zget (jt_s t) (zlen rows - 1) = Some (jt_smax t).
Proof.
  intros N. assert (P : 0 < zlen rows) by (destruct rows; [contradiction | unfold zlen; cbn; lia]).
  unfold read_table. cbv zeta.
  set (sv := map (fun r : R * R * R * R => fst (fst (fst r))) rows). set (kw := map (fun r : R * R * R * R => snd (fst (fst r))) rows).
  set (ko := map (fun r : R * R * R * R => snd (fst r)) rows). set (J := map (snd (A := R * R * R) (B := R)) rows).
  assert (Ls : zlen sv = zlen rows) by (unfold zlen, sv; rewrite map_length; reflexivity).
  assert (Lw : zlen kw = zlen rows) by (unfold zlen, kw; rewrite map_length; reflexivity).
  assert (Lo : zlen ko = zlen rows) by (unfold zlen, ko; rewrite map_length; reflexivity).
  assert (Lj : zlen J = zlen rows) by (unfold zlen, J; rewrite map_length; reflexivity).
  destruct (rset_0 kw 0 ltac:(lia)) as (kw' & Ew & Lw' & Gw).
  destruct (rset_0 ko (zlen rows - 1) ltac:(lia)) as (ko' & Eo & Lo' & Go).
  destruct (zget_in_range sv 0 ltac:(lia)) as [a Ea]. destruct (zget_in_range sv (zlen rows - 1) ltac:(lia)) as [b Eb].
  exists (mkJTab sv kw' ko' J a b). split.
  - destruct (rget kw 0) as [w0 | |] eqn:W0; cbn [bind] in *; try discriminate.
    rewrite Ew. cbn [bind]. destruct (rget ko (zlen rows - 1)) as [o0 | |] eqn:O0; cbn [bind] in *; try discriminate.
    rewrite Eo. cbn [bind]. unfold rget. rewrite Ea. cbn [bind]. rewrite Eb. reflexivity.
  - cbn [jt_s jt_krw jt_kro jt_J jt_smin jt_smax]. do 4 (split; [lia |]). split; [| auto].
    intros i x y z w E. unfold sv, J. rewrite !zget_map, E. cbn [option_map]. split; [reflexivity |].
    rewrite Gw, Go. unfold kw, ko. rewrite !zget_map, E. cbn [option_map fst snd].
    repeat split; destruct (i =? _); reflexivity.
Qed.
Lemma read_table_empty : read_table [] = UB.
Proof. reflexivity. Qed.
Lemma specs_ok n lines : (n <= length (filter nonempty lines))%nat -> rock_specs n lines = Some (firstn n (filter nonempty lines)).
Proof.
  revert lines. induction n as [| n IH]; intros lines H; [reflexivity |]. cbn [rock_specs].
  assert (G : match next_spec lines with None => filter nonempty lines = [] | Some (l, t) => filter nonempty lines = l :: filter nonempty t end).
  { clear. induction lines as [| [| c l] t IH]; cbn [next_spec filter nonempty]; [reflexivity | exact IH | reflexivity]. }
  destruct (next_spec lines) as [[l t] |]; rewrite G in *; cbn in H; [| lia].
  rewrite IH by lia. reflexivity.
Qed.
Lemma specs_stuck n lines : (length (filter nonempty lines) < n)%nat -> rock_specs n lines = None.
Proof.
  revert lines. induction n as [| n IH]; intros lines H; [lia |]. cbn [rock_specs].
  assert (G : match next_spec lines with None => True | Some (l, t) => filter nonempty lines = l :: filter nonempty t end).
  { clear. induction lines as [| [| c l] t IH]; cbn [next_spec filter nonempty]; [auto | exact IH | reflexivity]. }
  destruct (next_spec lines) as [[l t] |]; [| reflexivity]. rewrite G in *. cbn in H. rewrite IH by lia. reflexivity.
Qed.

Lemma in_zget {A} (l : list A) x : In x l -> exists i, zget l i = Some x.
Proof. intros H. apply In_nth_error in H as [n E]. exists (Z.of_nat n). rewrite zget_nth by lia. rewrite Nat2Z.id. exact E. Qed.
Lemma zget_In {A} (l : list A) i x : zget l i = Some x -> In x l.
Proof. intros E. pose proof (zget_Some_range _ _ _ E). rewrite zget_nth in E by lia. eapply nth_error_In. exact E. Qed.
Lemma zero_step rows k i : five_columns rows -> 0 <= k < zlen rows -> 0 <= i < 5 ->
  exists rows', (let* row := rget rows k in let* x := rget row i in if Req_EM_T x 0 then Ok rows else let* row := rset row i 0%R in rset rows k row) = Ok rows' /\
    zlen rows' = zlen rows /\ five_columns rows' /\ forall a b, field rows' a b = if (a =? k) && (b =? i) then Some 0%R else field rows a b.
Proof.
  intros F Hk Hi. destruct (zget_in_range rows k Hk) as [row Er]. pose proof (F row (zget_In _ _ _ Er)) as L.
  destruct (zget_in_range row i ltac:(lia)) as [x Ex]. unfold rget. rewrite Er. cbn [bind]. rewrite Ex. cbn [bind].
  destruct (Req_EM_T x 0) as [-> | N].
  - exists rows. split; [reflexivity |]. split; [reflexivity |]. split; [exact F |]. intros a b.
    destruct (Z.eqb_spec a k) as [-> |]; [| reflexivity]. destruct (Z.eqb_spec b i) as [-> |]; [| reflexivity]. unfold field. rewrite Er. exact Ex.
  - destruct (rset_at row i 0%R ltac:(lia)) as (row' & E1 & L1 & G1). rewrite E1. cbn [bind].
    destruct (rset_at rows k row' Hk) as (rows' & E2 & L2 & G2). exists rows'. split; [exact E2 |]. split; [exact L2 |]. split.
    + intros r I. apply in_zget in I as [j Ej]. rewrite G2 in Ej. destruct (Z.eqb_spec j k); [injection Ej as <-; lia | apply F; eapply zget_In; eauto].
    + intros a b. unfold field. rewrite G2. destruct (Z.eqb_spec a k) as [-> |]; [| reflexivity]. rewrite G1, Er. reflexivity.
Qed.
Lemma aniso_ok phase rows : rows <> [] -> five_columns rows -> exists cols, read_aniso phase rows = Ok cols /\ zlen cols = 5 /\
  forall k i, 0 <= k < 5 -> 0 <= i < zlen rows ->
    field cols k i = if (2 <=? k) && (i =? (if phase =? 0 then 0 else zlen rows - 1)) then Some 0%R else field rows i k.
Proof.
  intros N F. assert (P : 0 < zlen rows) by (destruct rows; [contradiction | unfold zlen; cbn; lia]).
  unfold read_aniso, aniso_zero_ends. set (k0 := if phase =? 0 then 0 else zlen rows - 1).
  assert (Hk : 0 <= k0 < zlen rows) by (unfold k0; destruct (phase =? 0); lia).
  replace (zrange 2 5) with [2; 3; 4] by reflexivity. cbn [foldM].
  destruct (zero_step rows k0 2 F Hk ltac:(lia)) as (r1 & E1 & L1 & F1 & G1). fold k0. rewrite E1. cbn [bind].
  rewrite L1. fold k0. destruct (zero_step r1 k0 3 F1 ltac:(lia) ltac:(lia)) as (r2 & E2 & L2 & F2 & G2). rewrite E2. cbn [bind].
  rewrite L2, L1. fold k0. destruct (zero_step r2 k0 4 F2 ltac:(lia) ltac:(lia)) as (r3 & E3 & L3 & F3 & G3). rewrite E3. cbn [bind].
  assert (C : forall k, 0 <= k < 5 -> exists col, mapM (fun row => rget row k) r3 = Ok col).
  { intros k Hk5. apply mapM_exists. intros r I. destruct (zget_in_range r k) as [x E]; [rewrite (F3 r I); lia |]. exists x. unfold rget. rewrite E. reflexivity. }
  destruct (mapM_exists (fun k => mapM (fun row : list R => rget row k) r3) (zrange 0 5)) as [cols Ec].
  { intros k I. apply In_zrange in I. apply C. lia. }
  exists cols. split; [exact Ec |]. split. { apply mapM_len in Ec. unfold zlen. rewrite Ec. reflexivity. }
  intros k i Hk5 Hi. destruct (mapM_get _ _ _ k (0 + k) Ec) as (col & E & G); [rewrite zget_zrange by lia; reflexivity |].
  unfold field at 1. rewrite G. destruct (zget_in_range r3 i ltac:(lia)) as [row Er].
  destruct (mapM_get _ _ _ i row E Er) as (x & Ex & Gx). rewrite Gx. unfold rget in Ex.
  assert (Fx : field r3 i k = Some x). { unfold field. rewrite Er. cbn [Z.add] in Ex. destruct (zget row k); [injection Ex as ->; reflexivity | discriminate]. }
  rewrite <- Fx, G3, G2, G1. destruct (Z.eqb_spec i k0) as [-> | ]; cbn [andb]; [| rewrite andb_false_r; reflexivity].
  rewrite andb_true_r. destruct (Z.leb_spec 2 k).
  - assert (k = 2 \/ k = 3 \/ k = 4) as [-> | [-> | ->]] by lia; reflexivity.
  - assert (k = 0 \/ k = 1) as [-> | ->] by lia; reflexivity.
Qed.
