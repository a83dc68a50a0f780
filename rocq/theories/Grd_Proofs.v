(* Proofs about GRDECL text and sub-decks. *)
From Coq Require Import Lra.
From Verif Require Import BaseFacts Chop_Proofs Grd_Spec.
Open Scope Z_scope.
Open Scope string_scope.

Fixpoint none_of (sep : ascii -> bool) (s : string) : Prop := match s with "" => True | String c t => sep c = false /\ none_of sep t end.
Lemma split_nonnil sep s : split sep s <> [].
Proof. destruct s as [|c t]; cbn; [discriminate|]. destruct (sep c); [discriminate|]. destruct (split sep t); discriminate. Qed.
Lemma split_sep sep c b : sep c = true -> forall a, split sep (a ++ String c b) = (split sep a ++ split sep b)%list.
Proof.
  intros Hc. induction a as [|x a IH]; cbn [append split]; [rewrite Hc; reflexivity|]. destruct (sep x); [rewrite IH; reflexivity|]. rewrite IH. pose proof (split_nonnil sep a) as N. destruct (split sep a); [congruence|reflexivity].
Qed.
Lemma split_none sep : forall a, none_of sep a -> split sep a = [a].
Proof. induction a as [|x a IH]; [reflexivity|]. cbn [none_of split]. intros (-> & H). rewrite (IH H). reflexivity. Qed.
Lemma no_blank_none : forall s, no_blank s -> none_of blank s.
Proof. induction s as [|c t IH]; cbn; tauto. Qed.
Lemma no_blank_line : forall s, no_blank s -> none_of newline s.
Proof. induction s as [|c t IH]; cbn; [tauto|]. intros (H & K). split; [|apply IH; exact K]. unfold blank in H. apply Bool.orb_false_iff in H. apply H. Qed.
Lemma none_app sep : forall a b, none_of sep a -> none_of sep b -> none_of sep (a ++ b).
Proof. induction a as [|c a IH]; cbn; [tauto|]. intros b (H & K) L. split; [exact H|]. apply IH; assumption. Qed.
Lemma app_assoc_s : forall a b c : string, (a ++ b) ++ c = a ++ (b ++ c).
Proof. induction a as [|x a IH]; intros b c; cbn [append]; [reflexivity|]. rewrite IH. reflexivity. Qed.
Lemma app_nil_s : forall a : string, a ++ "" = a.
Proof. induction a as [|x a IH]; cbn [append]; [reflexivity|]. rewrite IH. reflexivity. Qed.
Lemma len_app : forall a b, String.length (a ++ b) = (String.length a + String.length b)%nat.
Proof. induction a as [|x a IH]; intros b; cbn; [reflexivity|]. rewrite IH. reflexivity. Qed.

(* ---- words *)
Lemma words_sep c a b : blank c = true -> words (a ++ String c b) = (words a ++ words b)%list.
Proof. intros H. unfold words. rewrite (split_sep blank c b H a), filter_app. reflexivity. Qed.
Lemma words_one a : no_blank a -> a <> "" -> words a = [a].
Proof. intros H N. unfold words. rewrite (split_none blank a (no_blank_none a H)). cbn [filter]. apply String.eqb_neq in N. rewrite N. reflexivity. Qed.
Lemma words_values nl rest : forall vals i, (forall v, In v vals -> plain v) -> words (output_values nl i vals ++ rest) = (vals ++ words rest)%list.
Proof.
  induction vals as [|v t IH]; intros i H; [reflexivity|]. cbn [output_values]. rewrite app_assoc_s. cbn [append]. rewrite words_sep by (destruct (_ =? 0)%Z; reflexivity). destruct (H v (or_introl eq_refl)) as (P1 & P2 & P3). rewrite (words_one v P3 P1). cbn [List.app]. f_equal. apply IH. intros w Hw. apply H. right. exact Hw.
Qed.
Lemma words_field nl kw vals rest : no_blank kw -> kw <> "" -> (forall v, In v vals -> plain v) -> words (output_field nl kw vals ++ rest) = ((match vals with [] => [] | _ => kw :: vals ++ ["/"] end) ++ words rest)%list.
Proof.
  intros HK NK HV. unfold output_field. destruct vals as [|v t]; [reflexivity|]. set (l := v :: t) in *. rewrite app_assoc_s. cbn [append]. rewrite words_sep by reflexivity. rewrite (words_one kw HK NK). rewrite app_assoc_s, words_values by exact HV.
  cbn [List.app]. f_equal. rewrite <- app_assoc. f_equal. destruct (negb _); cbn [append].
  - change (String LF (String "/" (String LF (String LF rest)))) with ("" ++ String LF ("/" ++ String LF ("" ++ String LF rest))). rewrite !words_sep by reflexivity. reflexivity.
  - change (String "/" (String LF (String LF rest))) with ("/" ++ String LF ("" ++ String LF rest)). rewrite !words_sep by reflexivity. reflexivity.
Qed.
Lemma keywords_field kw vals ws : (forall v, In v vals -> v <> "/") -> keywords None ((match vals with [] => [] | _ => kw :: vals ++ ["/"] end) ++ ws) = ((match vals with [] => [] | _ => [(kw, vals)] end) ++ keywords None ws)%list.
Proof.
  assert (forall l acc, (forall v, In v l -> v <> "/") -> keywords (Some (kw, acc)) ((l ++ ["/"]) ++ ws) = ((kw, acc ++ l) :: keywords None ws)%list) as G.
  { induction l as [|v t IH]; intros acc H; [cbn; rewrite app_nil_r; reflexivity|]. cbn [List.app keywords]. rewrite (proj2 (String.eqb_neq v "/") (H v (or_introl eq_refl))). rewrite (IH (acc ++ [v])%list) by (intros w Hw; apply H; right; exact Hw). rewrite <- app_assoc. reflexivity. }
  intros H. destruct vals as [|v t]; [reflexivity|]. set (l := v :: t) in *. cbn [List.app keywords]. rewrite (G l [] H). reflexivity.
Qed.
Section Text.
Variables (fmt : R -> string) (fmti : Z -> string).
Hypothesis Hf : forall x, plain (fmt x).
Hypothesis Hi : forall z, plain (fmti z).
Hypothesis H1 : fmti 1 = "1".
Definition one {A} (kw : string) (f : A -> string) (l : list A) : list (string * list string) := match map f l with [] => [] | _ => [(kw, map f l)] end.
Lemma read_field {A} nl kw (f : A -> string) l rest : no_blank kw -> kw <> "" -> (forall x, plain (f x)) -> keywords None (words (output_field nl kw (map f l) ++ rest)) = (one kw f l ++ keywords None (words rest))%list.
Proof.
  intros K1 K2 HF. assert (forall v, In v (map f l) -> plain v) as HV by (intros v Hv; apply in_map_iff in Hv; destruct Hv as (x & <- & _); apply HF). rewrite words_field by assumption. apply keywords_field. intros v Hv. apply (HV v Hv).
Qed.
Lemma opt_field {A} nl kw (f : A -> string) l : (if negb (zlen l =? 0)%Z then output_field nl kw (map f l) else "") = output_field nl kw (map f l).
Proof using. destruct l; [reflexivity|]. destruct (Z.eqb_spec (zlen (a :: l)) 0) as [E|E]; [discriminate E|reflexivity]. Qed.
Lemma add_double_eq d kw dim l : map (fun e => (fst e, tokens fmt fmti (snd e))) (add_double d kw dim l) = (map (fun e => (fst e, tokens fmt fmti (snd e))) d ++ one kw fmt l)%list.
Proof. unfold add_double, one. destruct l; [cbn; rewrite app_nil_r; reflexivity|]. rewrite map_app. reflexivity. Qed.
Lemma add_int_eq d kw l : map (fun e => (fst e, tokens fmt fmti (snd e))) (add_int d kw l) = (map (fun e => (fst e, tokens fmt fmti (snd e))) d ++ one kw fmti l)%list.
Proof. unfold add_int, one. destruct l; [cbn; rewrite app_nil_r; reflexivity|]. rewrite map_app. reflexivity. Qed.
Lemma read_text m : keywords None (words (write_grdecl fmt fmti m)) = map (fun e => (fst e, tokens fmt fmti (snd e))) (sub_deck m).
Proof using Hf Hi H1.
  unfold write_grdecl, sub_deck. rewrite !opt_field. rewrite add_int_eq, !add_double_eq, add_int_eq, !add_double_eq. cbn [map fst snd tokens]. rewrite H1.
  set (body := output_field 3 "COORD" _ ++ _). assert (keywords None (words body) = one "COORD" fmt (m_coord m) ++ one "ZCORN" fmt (m_zcorn m) ++ one "ACTNUM" fmti (m_actnum m) ++ one "PORO" fmt (m_poro m) ++ one "NTG" fmt (m_ntg m) ++ one "SWCR" fmt (m_swcr m) ++ one "SOWCR" fmt (m_sowcr m) ++ one "PERMX" fmt (m_permx m) ++ one "PERMY" fmt (m_permy m) ++ one "PERMZ" fmt (m_permz m) ++ one "SATNUM" fmti (m_satnum m))%list as EB.
  { unfold body. do 10 (rewrite read_field; [|cbn; tauto|discriminate|assumption]). rewrite <- (app_nil_s (output_field 20 "SATNUM" _)). rewrite read_field; [|cbn; tauto|discriminate|assumption]. cbn [words split blank filter keywords]. rewrite app_nil_r. reflexivity. }
  assert (forall z, words (fmti z) = [fmti z]) as WI by (intros z; destruct (Hi z) as (P1 & _ & P3); apply words_one; assumption).
  assert (forall z, String.eqb (fmti z) "/" = false) as NS by (intros z; apply String.eqb_neq; apply (Hi z)).
  assert (words ("SPECGRID" ++ String LF (fmti (m_nx m) ++ " " ++ fmti (m_ny m) ++ " " ++ fmti (m_nz m) ++ " 1 F" ++ String LF ("/" ++ String LF (String LF body)))) =
    "SPECGRID" :: fmti (m_nx m) :: fmti (m_ny m) :: fmti (m_nz m) :: "1" :: "F" :: "/" :: words body) as EW.
  { change (" 1 F" ++ String LF ("/" ++ String LF (String LF body))) with (String " " ("1" ++ String " " ("F" ++ String LF ("/" ++ String LF ("" ++ String LF body))))).
    change (" " ++ fmti (m_ny m) ++ ?x) with (String " " (fmti (m_ny m) ++ x)). change (" " ++ fmti (m_nz m) ++ ?x) with (String " " (fmti (m_nz m) ++ x)). clearbody body.
    repeat (rewrite words_sep by reflexivity). rewrite !WI. reflexivity. }
  rewrite EW. cbn [keywords]. rewrite !NS. cbn [String.eqb Ascii.eqb Bool.eqb keywords List.app]. f_equal. rewrite EB. rewrite <- !app_assoc. reflexivity.
Qed.
End Text.
