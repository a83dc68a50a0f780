From Verif Require Import BaseFacts RBaseFacts Relp_Proofs Euler_Proofs2 Icap_Proofs2 Cap_Spec.
Open Scope Z_scope.

(* ---- command line *)
Lemma dash_opt k : dash (String "-" k) = Some k.
Proof. reflexivity. Qed.
Lemma dash_none s : ~ is_option s -> dash s = None.
Proof.
  intros H. destruct s as [|c t]; [reflexivity|]. cbn. destruct (Ascii.eqb c "-") eqn:E; [|reflexivity]. exfalso. apply H.
  apply Ascii.eqb_eq in E. subst. exists t. reflexivity.
Qed.
Lemma dash_some s k : dash s = Some k -> s = String "-" k.
Proof.
  destruct s as [|c t]; [discriminate|]. cbn. destruct (Ascii.eqb c "-") eqn:E; [|discriminate]. apply Ascii.eqb_eq in E. intros [= ->]. subst. reflexivity.
Qed.
Lemma set_known o k v q : known o k -> (known (opt_set o k v) q <-> known o q).
Proof.
  unfold known, opt_set. intros K. destruct (String.eqb q k) eqn:E; [|tauto]. apply String.eqb_eq in E. subst. split; [tauto|discriminate].
Qed.
Fixpoint sets (o : optmap) (kvs : list (string * string)) : optmap :=
  match kvs with [] => o | kv :: r => sets (opt_set o (fst kv) (snd kv)) r end.
Lemma sets_known kvs : forall o q, (forall kv, In kv kvs -> known o (fst kv)) -> (known (sets o kvs) q <-> known o q).
Proof.
  induction kvs as [|kv r IH]; intros o q K; [reflexivity|]. cbn [sets]. rewrite IH.
  - apply set_known. apply K. now left.
  - intros e I. apply set_known; [apply K; now left|]. apply K. now right.
Qed.
Lemma sets_app o l r : sets o (l ++ r) = sets (sets o l) r.
Proof. revert o. induction l as [|kv l IH]; intros o; [reflexivity|]. cbn. apply IH. Qed.
Lemma sets_last kvs : forall o k, sets o kvs k = last_value o kvs k.
Proof.
  induction kvs as [|kv r IH] using rev_ind; intros o k; [reflexivity|]. rewrite sets_app. unfold last_value. rewrite rev_app_distr. cbn.
  unfold opt_set. rewrite String.eqb_sym. destruct (String.eqb (fst kv) k); [reflexivity|]. apply IH.
Qed.
Lemma parse_options kvs : forall o idx ecl rest, (forall kv, In kv kvs -> known o (fst kv)) ->
  parse_args o idx ecl (option_args kvs ++ rest) =
  parse_args (sets o kvs) (idx + 2 * zlen kvs) (match kvs with [] => ecl | _ => idx + 2 * zlen kvs end) rest.
Proof.
  induction kvs as [|kv r IH]; intros o idx ecl rest K.
  - cbn [option_args flat_map app sets]. replace (idx + 2 * zlen (@nil (string * string))) with idx by (unfold zlen; cbn; lia). reflexivity.
  - cbn [option_args flat_map app sets parse_args]. rewrite dash_opt. assert (K0 : known o (fst kv)) by (apply K; now left).
    destruct (o (fst kv)) eqn:E; [|now destruct K0]. fold (option_args r). rewrite IH.
    + replace (zlen (kv :: r)) with (1 + zlen r) by (unfold zlen; cbn [length]; lia). replace (idx + 2 + 2 * zlen r) with (idx + 2 * (1 + zlen r)) by lia.
      destruct r; [|reflexivity]. replace (idx + 2) with (idx + 2 * (1 + zlen (@nil (string * string)))) by (unfold zlen; cbn; lia). reflexivity.
    + intros e I. apply set_known; [assumption|]. apply K. now right.
Qed.
Lemma option_args_len kvs : zlen (option_args kvs) = 2 * zlen kvs.
Proof.
  induction kvs as [|kv r IH]; [reflexivity|]. cbn [option_args flat_map]. fold (option_args r). rewrite zlen_app, IH. unfold zlen. cbn [length]. lia.
Qed.
Lemma skipn_exact {A} (l r : list A) x : skipn (length l + 1) (l ++ x :: r) = r.
Proof. induction l; [reflexivity|]. cbn. apply IHl. Qed.
Lemma args_nonempty {A B} (l : list A) (x y : B) : (match l with [] => x | _ => y end) = if zlen l =? 0 then x else y.
Proof. destruct l; [reflexivity|]. replace (zlen (a :: l) =? 0) with false; [reflexivity|]. symmetry. apply Z.eqb_neq. unfold zlen. cbn [length]. lia. Qed.
Lemma cl_ok o kvs file files : (forall kv, In kv kvs -> known o (fst kv)) -> ~ is_option file -> files <> [] ->
  exists o', command_line o (option_args kvs ++ file :: files) = Ok (o', (file, files)) /\ forall k, o' k = last_value o kvs k.
Proof.
  intros K F N. exists (sets o kvs). split; [|intros k; apply sets_last]. unfold command_line.
  rewrite args_nonempty. rewrite zlen_app, option_args_len. assert (L : 0 < zlen files) by (destruct files; [easy|unfold zlen; cbn [length]; lia]).
  assert (L1 : zlen (file :: files) = 1 + zlen files) by (unfold zlen; cbn [length]; lia). rewrite L1.
  pose proof (zlen_nonneg kvs). replace (2 * zlen kvs + (1 + zlen files) =? 0) with false by (symmetry; apply Z.eqb_neq; lia).
  rewrite parse_options by assumption. cbn [parse_args]. rewrite dash_none by assumption. cbn [bind fst snd].
  replace (1 + (2 * zlen kvs + (1 + zlen files)) <=? 1 + 2 * zlen kvs + 1) with false by (symmetry; apply Z.leb_gt; lia).
  replace (1 + 2 * zlen kvs - 1) with (zlen (option_args kvs)) by (rewrite option_args_len; lia).
  assert (G : rget (option_args kvs ++ file :: files) (zlen (option_args kvs)) = Ok file).
  { apply rget_Ok. rewrite zget_app_r by lia. rewrite Z.sub_diag. reflexivity. }
  rewrite G. cbn [bind]. do 3 f_equal. replace (Z.to_nat (1 + 2 * zlen kvs)) with (length (option_args kvs) + 1)%nat; [apply skipn_exact|].
  pose proof (option_args_len kvs) as Q. unfold zlen in *. lia.
Qed.
Lemma cl_unknown o kvs k rest : (forall kv, In kv kvs -> known o (fst kv)) -> ~ known o k ->
  command_line o (option_args kvs ++ String "-" k :: rest) = Throw.
Proof.
  intros K U. unfold command_line. rewrite args_nonempty. rewrite zlen_app. replace (zlen (String "-" k :: rest)) with (1 + zlen rest) by (unfold zlen; cbn [length]; lia).
  pose proof (zlen_nonneg (option_args kvs)). pose proof (zlen_nonneg rest). replace (_ =? 0) with false by (symmetry; apply Z.eqb_neq; lia).
  rewrite parse_options by assumption. cbn [parse_args]. rewrite dash_opt. destruct (sets o kvs k) eqn:E; [|reflexivity]. exfalso. apply U.
  apply (sets_known kvs); [assumption|]. unfold known. now rewrite E.
Qed.
Lemma cl_dangling o kvs k : (forall kv, In kv kvs -> known o (fst kv)) -> known o k ->
  command_line o (option_args kvs ++ [String "-" k]) = UB.
Proof.
  intros K U. unfold command_line. rewrite args_nonempty. rewrite zlen_app. change (zlen [String "-" k]) with 1.
  pose proof (zlen_nonneg (option_args kvs)). replace (_ =? 0) with false by (symmetry; apply Z.eqb_neq; lia).
  rewrite parse_options by assumption. cbn [parse_args]. rewrite dash_opt. apply (sets_known kvs) in U; [|assumption]. unfold known in U.
  destruct (sets o kvs k); [reflexivity|now destruct U].
Qed.
Lemma cl_missing o kvs rest : (forall kv, In kv kvs -> known o (fst kv)) -> rest = [] \/ (exists file, ~ is_option file /\ rest = [file]) ->
  command_line o (option_args kvs ++ rest) = Throw.
Proof.
  intros K [-> | (file & F & ->)].
  - rewrite app_nil_r. unfold command_line. destruct kvs as [|kv r]; [reflexivity|]. cbn [option_args flat_map app]. fold (option_args r).
    change (String "-" (fst kv) :: snd kv :: option_args r) with (option_args (kv :: r)).
    pose proof (parse_options (kv :: r) o 1 0 [] K) as P. rewrite app_nil_r in P. rewrite P. cbn [parse_args bind snd fst].
    rewrite option_args_len. replace (_ <=? _) with true by (symmetry; apply Z.leb_le; lia). reflexivity.
  - unfold command_line. rewrite args_nonempty. rewrite zlen_app, option_args_len. change (zlen [file]) with 1. pose proof (zlen_nonneg kvs).
    replace (_ =? 0) with false by (symmetry; apply Z.eqb_neq; lia). rewrite parse_options by assumption. cbn [parse_args]. rewrite dash_none by assumption.
    cbn [bind fst snd]. replace (_ <=? _) with true by (symmetry; apply Z.leb_le; lia). reflexivity.
Qed.
Lemma cl_complete o args : exists kvs rest, args = option_args kvs ++ rest /\ (forall kv, In kv kvs -> known o (fst kv)) /\
  (rest = [] \/ (exists file files, ~ is_option file /\ rest = file :: files) \/
   (exists k l, ~ known o k /\ rest = String "-" k :: l) \/ (exists k, known o k /\ rest = [String "-" k])).
Proof.
  remember (length args) as n eqn:En. revert args En. induction n as [n IH] using lt_wf_ind. intros args En.
  destruct args as [|a t]; [exists [], []; split; [reflexivity|]; split; [intros ? []|now left]|].
  destruct (dash a) as [k|] eqn:D.
  - apply dash_some in D. subst a. destruct (o k) as [w|] eqn:E.
    + assert (Kk : known o k) by (unfold known; now rewrite E). destruct t as [|v t'].
      * exists [], [String "-" k]. split; [reflexivity|]. split; [intros ? []|]. right. right. right. now exists k.
      * destruct (IH (length t') ltac:(subst n; cbn; lia) t' eq_refl) as (kvs & rest & A & B & C). exists ((k, v) :: kvs), rest.
        split; [now rewrite A|]. split; [|exact C]. intros kv [<-|I]; [exact Kk|now apply B].
    + exists [], (String "-" k :: t). split; [reflexivity|]. split; [intros ? []|]. right. right. left. exists k, t. split; [unfold known; rewrite E; tauto|reflexivity].
  - exists [], (a :: t). split; [reflexivity|]. split; [intros ? []|]. right. left. exists a, t. split; [|reflexivity]. intros (k & ->). discriminate.
Qed.

(* ---- rock files *)
Lemma rocks_each {A} (load : string -> res A) files curves : rock_curves load (zlen files) files = Ok curves <-> mapM load files = Ok curves.
Proof.
  unfold rock_curves. rewrite Z.eqb_refl. rewrite (mapM_Ok load). rewrite mapM_Ok. split; intros H.
  - assert (L : length curves = length files).
    { apply Forall2_length' in H. rewrite zrange_length in H. unfold zlen in H. lia. }
    assert (Q : forall l c k, Forall2 (fun i b => (let* f := rget files i in load f) = Ok b) (zrange k (k + zlen l)) c -> skipn (Z.to_nat k) files = l -> 0 <= k -> Forall2 (fun a b => load a = Ok b) l c).
    { clear. induction l as [|a l IH]; intros c k H Sk K.
      - replace (k + zlen (@nil string)) with k in H by (unfold zlen; cbn; lia). rewrite zrange_empty in H by lia. inversion H. constructor.
      - replace (zlen (a :: l)) with (1 + zlen l) in H by (unfold zlen; cbn [length]; lia). rewrite zrange_cons in H by (pose proof (zlen_nonneg l); lia).
        inversion H as [|? b ? c' Hb Hc]; subst. constructor.
        + replace (rget files k) with (Ok a) in Hb; [exact Hb|]. symmetry. apply rget_Ok. rewrite zget_nth by lia.
          rewrite <- (firstn_skipn (Z.to_nat k) files), Sk. rewrite nth_error_app2; rewrite firstn_length_le.
          * now rewrite Nat.sub_diag.
          * assert (length (skipn (Z.to_nat k) files) <> 0)%nat by (rewrite Sk; discriminate). rewrite skipn_length in H0. lia.
          * lia.
          * assert (length (skipn (Z.to_nat k) files) <> 0)%nat by (rewrite Sk; discriminate). rewrite skipn_length in H0. lia.
        + apply (IH c' (k + 1)); [now replace (k + 1 + zlen l) with (k + (1 + zlen l)) by lia| |lia].
          replace (Z.to_nat (k + 1)) with (S (Z.to_nat k)) by lia. clear - Sk. revert Sk. generalize (Z.to_nat k). intros n. revert files. induction n as [|n IHn]; intros [|x fs] Sk; cbn in *; try discriminate.
          * now injection Sk.
          * now apply IHn. }
    apply (Q files curves 0); [exact H|reflexivity|lia].
  - assert (Q : forall fs cs pre, Forall2 (fun a b => load a = Ok b) fs cs -> files = pre ++ fs -> Forall2 (fun i b => (let* f := rget files i in load f) = Ok b) (zrange (zlen pre) (zlen files)) cs).
    { clear. induction fs as [|a fs IH]; intros cs pre H E; inversion H; subst.
      - rewrite app_nil_r. rewrite zrange_empty by lia. constructor.
      - assert (zlen (pre ++ a :: fs) = zlen pre + 1 + zlen fs) as Z1 by (rewrite zlen_app; unfold zlen; cbn [length]; lia).
        rewrite zrange_cons by (pose proof (zlen_nonneg fs); lia). constructor.
        + replace (rget (pre ++ a :: fs) (zlen pre)) with (Ok a); [assumption|]. symmetry. apply rget_Ok. rewrite zget_app_r by lia. now rewrite Z.sub_diag.
        + specialize (IH _ (pre ++ [a]) H4). rewrite <- app_assoc in IH. specialize (IH eq_refl). rewrite zlen_app in IH. exact IH. }
    exact (Q files curves [] H eq_refl).
Qed.
Lemma map_const {A B} (c : B) (l : list A) : map (fun _ => c) l = repeat c (length l).
Proof.
  induction l; [reflexivity|]. cbn. now f_equal.
Qed.
Lemma rocks_single {A} (load : string -> res A) file stones : stones <> 1 -> 0 <= stones ->
  (forall c, load file = Ok c -> rock_curves load stones [file] = Ok (zrepeat c stones)) /\
  (0 < stones -> load file = Throw -> rock_curves load stones [file] = Throw).
Proof.
  intros N P. unfold rock_curves. change (zlen [file]) with 1. replace (1 =? stones) with false by (symmetry; apply Z.eqb_neq; lia).
  change (1 =? 1) with true. cbn iota. split.
  - intros c H. rewrite (mapM_all_Ok _ (fun _ => c)).
    + f_equal. rewrite map_const, zrange_length. unfold zrepeat. do 2 f_equal. lia.
    + intros i _. cbn. exact H.
  - intros Q H. rewrite zrange_cons by lia. cbn. now rewrite H.
Qed.
Lemma rocks_wrong {A} (load : string -> res A) files stones : zlen files <> stones -> zlen files <> 1 -> rock_curves load stones files = Throw.
Proof.
  intros N P. unfold rock_curves. apply Z.eqb_neq in N. apply Z.eqb_neq in P. now rewrite N, P.
Qed.
