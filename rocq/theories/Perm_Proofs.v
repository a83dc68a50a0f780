From Coq Require Import Lra.
From Verif Require Import BaseFacts RBaseFacts Impl_Proofs Relp_Proofs4 Cap_Proofs Perm_Spec.
Open Scope Z_scope.
Open Scope list_scope.

Lemma known_b_set o k v kv : known o k -> known_b (opt_set o k v) kv = known_b o kv.
Proof. intros K. unfold known_b, opt_set. destruct (String.eqb_spec (fst kv) k) as [->|]; [|reflexivity]. unfold known in K. destruct (o k); [reflexivity|congruence]. Qed.
Lemma options_run kvs : forall o n rest, (rest = [] \/ exists x, rest = [x]) ->
  perm_options o n (option_args kvs ++ rest) = Ok (sets o (known_ones o kvs), n + 2 * zlen (known_ones o kvs)).
Proof.
  induction kvs as [|kv r IH]; intros o n rest Hr.
  - cbn [option_args flat_map app known_ones filter sets]. change (zlen (@nil (string * string))) with 0. rewrite Z.mul_0_r, Z.add_0_r. destruct Hr as [->|(x & ->)]; reflexivity.
  - cbn [option_args flat_map app]. fold (option_args r). cbn [perm_options]. rewrite dash_opt. change (known_ones o (kv :: r)) with (if known_b o kv then kv :: known_ones o r else known_ones o r).
    assert (Eb : known_b o kv = match o (fst kv) with Some _ => true | None => false end) by reflexivity. rewrite Eb.
    destruct (o (fst kv)) as [v|] eqn:E.
    + rewrite IH by exact Hr. assert (K : known o (fst kv)) by (unfold known; congruence).
      assert (Ek : known_ones (opt_set o (fst kv) (snd kv)) r = known_ones o r) by (unfold known_ones; apply filter_ext; intros a; apply known_b_set; exact K).
      rewrite Ek. cbn [sets]. rewrite zlen_cons. do 2 f_equal. lia.
    + rewrite IH by exact Hr. reflexivity.
Qed.
Lemma known_all o kvs : (forall kv, In kv kvs -> known o (fst kv)) -> known_ones o kvs = kvs.
Proof.
  intros K. unfold known_ones. induction kvs as [|kv r IH]; [reflexivity|]. cbn [filter]. assert (E : known_b o kv = true). { unfold known_b. specialize (K kv (or_introl eq_refl)). unfold known in K. destruct (o (fst kv)); congruence. }
  rewrite E, IH; [reflexivity|]. intros kv' H. apply K. now right.
Qed.
Lemma perm_nonempty o args : args <> [] -> perm_command o args = (let* p := perm_options o 1 args in let* f := rget args (snd p - 1) in Ok (fst p, f)).
Proof. destruct args; [congruence|reflexivity]. Qed.
(* options with known names, then the grid file *)
Lemma command_ok o kvs file : (forall kv, In kv kvs -> known o (fst kv)) ->
  exists o', perm_command o (option_args kvs ++ [file]) = Ok (o', file) /\ forall k, o' k = last_value o kvs k.
Proof.
  intros K. exists (sets o kvs). split; [|intros k; apply sets_last]. rewrite perm_nonempty by (intros E; apply app_eq_nil in E; destruct E; discriminate).
  rewrite options_run by eauto. rewrite known_all by exact K. cbn [bind fst snd].
  replace (1 + 2 * zlen kvs - 1) with (zlen (option_args kvs)) by (rewrite option_args_len; lia).
  rewrite (proj2 (rget_Ok (option_args kvs ++ [file]) (zlen (option_args kvs)) file)); [reflexivity|]. rewrite zget_app_r, Z.sub_diag by lia. reflexivity.
Qed.
(* the argument taken as the grid file *)
Lemma zget_option_args kvs : forall i, 0 <= i < zlen kvs -> exists k, zget (option_args kvs) (2 * i) = Some (String "-" k).
Proof.
  induction kvs as [|kv r IH]; intros i Hi; [change (zlen (@nil (string * string))) with 0 in Hi; lia|]. rewrite zlen_cons in Hi. cbn [option_args flat_map app]. fold (option_args r).
  destruct (Z.eq_dec i 0) as [-> |N]; [exists (fst kv); reflexivity|]. destruct (IH (i - 1) ltac:(lia)) as (k & Hk). exists k.
  change (String "-" (fst kv) :: snd kv :: option_args r) with ([String "-" (fst kv); snd kv] ++ option_args r). rewrite zget_app_r by (change (zlen [String "-" (fst kv); snd kv]) with 2; lia).
  change (zlen [String "-" (fst kv); snd kv]) with 2. replace (2 * i - 2) with (2 * (i - 1)) by lia. exact Hk.
Qed.
Lemma command_unknown o kvs file : (exists kv, In kv kvs /\ ~ known o (fst kv)) ->
  exists o' k, perm_command o (option_args kvs ++ [file]) = Ok (o', String "-" k) /\
    zget (option_args kvs) (2 * zlen (known_ones o kvs)) = Some (String "-" k) /\ forall q, o' q = last_value o (known_ones o kvs) q.
Proof.
  intros (kv & Hin & Hu).
  assert (L : zlen (known_ones o kvs) < zlen kvs).
  { unfold known_ones. induction kvs as [|a r IH]; [destruct Hin|]. cbn [filter]. assert (Lr : zlen (filter (known_b o) r) <= zlen r) by (clear; unfold zlen; induction r as [|x r IH]; cbn [filter length]; [lia|]; destruct (known_b o x); cbn [length]; lia).
    destruct Hin as [->|Hin].
    - assert (E : known_b o kv = false) by (unfold known_b; unfold known in Hu; destruct (o (fst kv)); [exfalso; apply Hu; discriminate|reflexivity]). rewrite E, zlen_cons. lia.
    - specialize (IH Hin). destruct (known_b o a); rewrite ?zlen_cons; lia. }
  pose proof (zlen_nonneg (known_ones o kvs)) as L0. destruct (zget_option_args kvs (zlen (known_ones o kvs)) ltac:(lia)) as (k & Hk).
  exists (sets o (known_ones o kvs)), k. split; [|split; [exact Hk|intros q; apply sets_last]].
  rewrite perm_nonempty by (intros E; apply app_eq_nil in E; destruct E; discriminate). rewrite options_run by eauto. cbn [bind fst snd].
  replace (1 + 2 * zlen (known_ones o kvs) - 1) with (2 * zlen (known_ones o kvs)) by lia.
  rewrite (proj2 (rget_Ok (option_args kvs ++ [file]) _ (String "-" k))); [reflexivity|]. rewrite zget_app_l by (rewrite option_args_len; lia). exact Hk.
Qed.
(* the grid file forgotten *)
Lemma command_dangling o kvs : kvs <> [] -> (forall kv, In kv kvs -> known o (fst kv)) -> perm_command o (option_args kvs) = UB.
Proof.
  intros Hn K. rewrite perm_nonempty by (destruct kvs; [congruence|discriminate]). pose proof (options_run kvs o 1 [] ltac:(auto)) as E. rewrite app_nil_r in E. rewrite E, known_all by exact K. cbn [bind fst snd].
  destruct (rget (option_args kvs) (1 + 2 * zlen kvs - 1)) as [x| |] eqn:Er; [|destruct (rget_nothrow _ _ Er)|reflexivity].
  apply rget_Ok in Er. apply zget_Some_range in Er. rewrite option_args_len in Er. lia.
Qed.
Lemma command_none o : perm_command o [] = Throw.
Proof. reflexivity. Qed.
(* an argument in the place of an option that does not start with a dash *)
Lemma command_nodash o kvs a v rest : ~ is_option a -> perm_command o (option_args kvs ++ a :: v :: rest) = Throw.
Proof.
  intros Ha. rewrite perm_nonempty by (intros E; apply app_eq_nil in E; destruct E; discriminate).
  assert (G : forall kvs o n, perm_options o n (option_args kvs ++ a :: v :: rest) = Throw).
  { clear -Ha. induction kvs as [|kv r IH]; intros o n.
    - cbn [option_args flat_map app perm_options]. rewrite dash_none by exact Ha. reflexivity.
    - cbn [option_args flat_map app]. fold (option_args r). cbn [perm_options]. rewrite dash_opt. destruct (o (fst kv)); apply IH. }
  rewrite G. reflexivity.
Qed.
(* every command line is of one of these forms *)
Lemma command_complete : forall args, exists kvs rest, args = option_args kvs ++ rest /\ (rest = [] \/ (exists file, rest = [file]) \/ exists a v l, ~ is_option a /\ rest = a :: v :: l).
Proof.
  assert (G : forall n args, (length args <= n)%nat -> exists kvs rest, args = option_args kvs ++ rest /\ (rest = [] \/ (exists file, rest = [file]) \/ exists a v l, ~ is_option a /\ rest = a :: v :: l)).
  { induction n as [|n IH]; intros args L.
    - destruct args; [|cbn in L; lia]. exists [], []. auto.
    - destruct args as [|a [|v t]]; [exists [], []; auto|exists [], [a]; eauto|]. destruct (dash a) as [k|] eqn:D.
      + destruct (IH t ltac:(cbn [length] in L; lia)) as (kvs & rest & -> & Hr). exists ((k, v) :: kvs), rest. split; [|exact Hr]. cbn [option_args flat_map app fst snd]. f_equal.
        destruct a as [|c s]; [discriminate|]. cbn [dash] in D. destruct (Ascii.eqb_spec c "-"); [|discriminate]. congruence.
      + exists [], (a :: v :: t). split; [reflexivity|]. right. right. exists a, v, t. split; [|reflexivity]. intros (k & ->). cbn in D. discriminate. }
  intros args. apply (G (length args) args). lia.
Qed.

(* boundary conditions *)
Lemma find_char_spec c s : match find_char c s with Some i => 0 <= i < Z.of_nat (String.length s) /\ letter_in c s | None => ~ letter_in c s end.
Proof.
  induction s as [|a t IH]; cbn [find_char].
  - intros (i & H). destruct i; discriminate.
  - destruct (Ascii.eqb_spec a c) as [->|N].
    + split; [cbn [String.length]; lia|]. exists 0%nat. reflexivity.
    + destruct (find_char c t) as [i|]; cbn [option_map].
      * destruct IH as [R (j & Hj)]. split; [cbn [String.length]; lia|]. exists (S j). exact Hj.
      * intros (j & Hj). apply IH. destruct j as [|j]; [cbn in Hj; congruence|]. exists j. exact Hj.
Qed.
Lemma found3_spec c s : Z.of_nat (String.length s) <= 3 -> found3 c s = true <-> letter_in c s.
Proof.
  intros L. unfold found3. pose proof (find_char_spec c s) as H. destruct (find_char c s) as [i|].
  - destruct H as [R H]. split; [auto|]. intros _. apply Z.ltb_lt. lia.
  - split; [discriminate|]. intros H'. destruct (H H').
Qed.
Lemma flags_ok bc f : perm_flags bc = Ok f <->
  (1 <= Z.of_nat (String.length bc) <= 3 /\ (pf_fixed f = true <-> letter_in "f"%char bc) /\ (pf_linear f = true <-> letter_in "l"%char bc) /\ (pf_periodic f = true <-> letter_in "p"%char bc) /\
   (pf_fixed f || pf_linear f || pf_periodic f = true)).
Proof.
  unfold perm_flags. cbv zeta. destruct ((1 <=? Z.of_nat (String.length bc)) && (Z.of_nat (String.length bc) <=? 3)) eqn:E.
  - apply andb_prop in E. destruct E as [E1 E2]. apply Z.leb_le in E1, E2. pose proof (found3_spec "f"%char bc E2) as F. pose proof (found3_spec "l"%char bc E2) as L. pose proof (found3_spec "p"%char bc E2) as P.
    destruct f as [ff fl fp]. cbn [pf_fixed pf_linear pf_periodic].
    assert (G : forall a b q, (a = true <-> q) -> (b = true <-> q) -> a = b) by (intros [|] [|] q A B; tauto || (exfalso; intuition discriminate) || reflexivity).
    destruct (negb (found3 "f" bc) && negb (found3 "l" bc) && negb (found3 "p" bc)) eqn:Hn.
    + split; [discriminate|]. intros (_ & A & B & C & D). rewrite <- (G _ _ _ F A), <- (G _ _ _ L B), <- (G _ _ _ P C) in D.
      destruct (found3 "f" bc), (found3 "l" bc), (found3 "p" bc); discriminate.
    + split.
      * intros H. injection H as <- <- <-. repeat (split; [auto; lia|]). destruct (found3 "f" bc), (found3 "l" bc), (found3 "p" bc); cbn in *; congruence.
      * intros (_ & A & B & C & _). rewrite (G _ _ _ F A), (G _ _ _ L B), (G _ _ _ P C). reflexivity.
  - split; [discriminate|]. intros (R & _). apply andb_false_iff in E. destruct E as [E|E]; apply Z.leb_gt in E; lia.
Qed.
Lemma flags_total bc : perm_flags bc = Throw \/ exists f, perm_flags bc = Ok f.
Proof. unfold perm_flags. cbv zeta. destruct (_ && _); [|auto]. destruct (_ && _); eauto. Qed.

(* results *)
Definition with_both : ubase := mkUbase 1 true false false.
Lemma results_ok up por md d f : has_grid d -> (forall u, exists k, up u = Ok k) -> (forall u, exists p, por u = Ok p) ->
  exists r, perm_results up por md d f = Ok r /\
    (pf_fixed f = true -> exists k, up (alone 0) = Ok k /\ pr_fixed r = Some (in_md md k)) /\
    (pf_periodic f = true -> exists k, up (alone 2) = Ok k /\ pr_periodic r = Some (in_md md k)) /\
    (pf_linear f = true -> pf_fixed f = false -> exists k, up (alone 1) = Ok k /\ pr_linear r = Some (in_md md k)) /\
    (pf_linear f = true -> pf_fixed f = true -> exists k, up (mkUbase 1 true false false) = Ok k /\ pr_linear r = Some (in_md md k)) /\
    (pf_fixed f = false -> pr_fixed r = None) /\ (pf_linear f = false -> pr_linear r = None) /\ (pf_periodic f = false -> pr_periodic r = None) /\
    (pd_poro d = false -> pr_poro r = 0%R) /\
    (pd_poro d = true -> por (alone (if pf_periodic f then 2 else if pf_fixed f then 0 else 1)) = Ok (pr_poro r)).
Proof.
  intros (G1 & G2 & G3) Hu Hp. unfold perm_results. rewrite G1, G2, G3. cbn [andb negb].
  assert (Md : forall k, map (fun x => x * (1 / md))%R k = in_md md k) by (intros k; unfold in_md; apply map_ext; intros x; unfold Rdiv; ring).
  destruct (Hu (alone 0)) as (k0 & E0). destruct (Hu (alone 1)) as (k1 & E1). destruct (Hu (alone 2)) as (k2 & E2). destruct (Hu (mkUbase 1 true false false)) as (k3 & E3).
  assert (T0 : perm_tensor up md 0 (init_deck 0) = Ok (init_deck 0, in_md md k0)) by (unfold perm_tensor; cbn [set_bctype init_deck ub_type Z.eqb andb orb negb bind ub_clip ub_periodic_ext]; unfold alone, init_deck in E0; cbn in E0; rewrite E0; cbn [bind]; rewrite Md; reflexivity).
  assert (T1 : perm_tensor up md 1 (init_deck 1) = Ok (init_deck 1, in_md md k1)) by (unfold perm_tensor; cbn [set_bctype init_deck ub_type Z.eqb Pos.eqb andb orb negb bind ub_clip ub_periodic_ext]; unfold alone, init_deck in E1; cbn in E1; rewrite E1; cbn [bind]; rewrite Md; reflexivity).
  assert (T2 : perm_tensor up md 2 (init_deck 2) = Ok (init_deck 2, in_md md k2)) by (unfold perm_tensor; cbn [set_bctype init_deck ub_type Z.eqb Pos.eqb andb orb negb bind ub_clip ub_periodic_ext]; unfold alone, init_deck in E2; cbn in E2; rewrite E2; cbn [bind]; rewrite Md; reflexivity).
  assert (T3 : perm_tensor up md 1 (init_deck 0) = Ok (mkUbase 1 true false false, in_md md k3)) by (unfold perm_tensor; cbn [set_bctype init_deck ub_type Z.eqb Pos.eqb andb orb negb bind ub_clip ub_periodic_ext]; rewrite E3; cbn [bind]; rewrite Md; reflexivity).
  assert (Po : exists po, (if pd_poro d then if pf_periodic f then por (init_deck 2) else por (init_deck (if pf_fixed f then 0 else 1)) else Ok 0%R) = Ok po /\
    (pd_poro d = false -> po = 0%R) /\ (pd_poro d = true -> por (alone (if pf_periodic f then 2 else if pf_fixed f then 0 else 1)) = Ok po)).
  { destruct (pd_poro d); [|exists 0%R; split; [reflexivity|split; [reflexivity|discriminate]]].
    destruct (Hp (alone (if pf_periodic f then 2 else if pf_fixed f then 0 else 1))) as (p & Ep). exists p. split; [|split; [discriminate|auto]]. rewrite <- Ep. unfold alone. destruct (pf_periodic f); reflexivity. }
  destruct Po as (po & -> & P1 & P2). cbn [bind].
  destruct (pf_fixed f) eqn:Ff, (pf_linear f) eqn:Fl, (pf_periodic f) eqn:Fp; cbv iota; cbn [bind fst snd]; rewrite ?T0; cbn [bind fst snd]; rewrite ?T1, ?T3; cbn [bind fst snd]; rewrite ?T2; cbn [bind fst snd];
    (eexists; split; [reflexivity|]; cbn [pr_fixed pr_linear pr_periodic pr_poro]; repeat split; intros; try discriminate; eauto).
Qed.
Lemma no_grid up por md d f : ~ has_grid d -> perm_results up por md d f = Throw.
Proof.
  intros H. unfold perm_results. destruct (pd_specgrid d && pd_coord d && pd_zcorn d) eqn:E; [|reflexivity]. exfalso. apply H. apply andb_prop in E. destruct E as [E E3]. apply andb_prop in E. destruct E. now repeat split.
Qed.
(* linear results depend on whether fixed ones are asked for, too *)
Lemma linear_alone_refuted : exists up por md d r r', has_grid d /\ (forall u, exists k, up u = Ok k) /\
  perm_results up por md d (mkPflags false true false) = Ok r /\ perm_results up por md d (mkPflags true true false) = Ok r' /\ pr_linear r <> pr_linear r'.
Proof.
  exists (fun u => Ok [if ub_clip u then 1 else 2]%R), (fun _ => Ok 0%R), 1%R, (mkPdeck true true true false).
  eexists. eexists. split; [repeat split|]. split; [eauto|]. split; [reflexivity|]. split; [reflexivity|].
  cbn. intros H. injection H as H. lra.
Qed.
(* a component that fails stops the program *)
Lemma results_fail up por md d f r : perm_results up por md d f = Ok r ->
  (pf_fixed f = true -> exists k, up (alone 0) = Ok k) /\ (pf_periodic f = true -> exists k, up (alone 2) = Ok k) /\ (pf_linear f = true -> exists k, up (if pf_fixed f then mkUbase 1 true false false else alone 1) = Ok k).
Proof.
  assert (T : forall t u r, perm_tensor up md t u = Ok r -> set_bctype t u = Ok (fst r) /\ exists k, up (fst r) = Ok k).
  { intros t u r0 H. unfold perm_tensor in H. destruct (set_bctype t u) as [u'| |]; try discriminate. cbn [bind] in H. destruct (up u') as [k| |] eqn:E; try discriminate. cbn [bind] in H. injection H as <-. cbn [fst]. eauto. }
  intros H. unfold perm_results in H. destruct (negb _); [discriminate|]. cbv zeta in H.
  destruct (if pd_poro d then _ else _) as [po| |]; try discriminate. cbn [bind] in H.
  destruct (pf_fixed f).
  - destruct (perm_tensor up md 0 (init_deck 0)) as [rf| |] eqn:Ef; try discriminate. cbn [bind fst snd] in H. destruct (T _ _ _ Ef) as [Sf Kf]. injection Sf as Sf. rewrite <- Sf in *.
    split; [intros _; exact Kf|].
    destruct (pf_linear f).
    + destruct (perm_tensor up md 1 _) as [rl| |] eqn:El in H; try discriminate. cbn [bind fst snd] in H. destruct (T _ _ _ El) as [Sl Kl]. injection Sl as Sl. rewrite <- Sl in *.
      destruct (pf_periodic f); [|split; [discriminate|intros _; exact Kl]]. destruct (perm_tensor up md 2 _) as [rp| |] eqn:Epp in H; try discriminate. destruct (T _ _ _ Epp) as [Sp Kp]. injection Sp as Sp. rewrite <- Sp in *. split; intros _; [exact Kp|exact Kl].
    + cbn [bind fst snd] in H. destruct (pf_periodic f); [|split; discriminate]. destruct (perm_tensor up md 2 _) as [rp| |] eqn:Epp in H; try discriminate. destruct (T _ _ _ Epp) as [Sp Kp]. injection Sp as Sp. rewrite <- Sp in *. split; [intros _; exact Kp|discriminate].
  - cbn [bind fst snd] in H. split; [discriminate|].
    destruct (pf_linear f).
    + destruct (perm_tensor up md 1 _) as [rl| |] eqn:El in H; try discriminate. cbn [bind fst snd] in H. destruct (T _ _ _ El) as [Sl Kl]. injection Sl as Sl. rewrite <- Sl in *.
      destruct (pf_periodic f); [|split; [discriminate|intros _; exact Kl]]. destruct (perm_tensor up md 2 _) as [rp| |] eqn:Epp in H; try discriminate. destruct (T _ _ _ Epp) as [Sp Kp]. injection Sp as Sp. rewrite <- Sp in *. split; intros _; [exact Kp|exact Kl].
    + cbn [bind fst snd] in H. destruct (pf_periodic f); [|split; discriminate]. destruct (perm_tensor up md 2 _) as [rp| |] eqn:Epp in H; try discriminate. destruct (T _ _ _ Epp) as [Sp Kp]. injection Sp as Sp. rewrite <- Sp in *. split; [intros _; exact Kp|discriminate].
Qed.
(* the whole program *)
Lemma main_ok readable parse num md up por kvs file d f : (forall kv, In kv kvs -> known perm_defaults (fst kv)) -> readable file = true -> parse file = Ok d ->
  perm_flags (match last_value perm_defaults kvs "bc"%string with Some v => v | None => EmptyString end) = Ok f ->
  forall r, perm_results (up (num (match last_value perm_defaults kvs "minPerm"%string with Some v => v | None => EmptyString end) * md)%R file)
                         (por (num (match last_value perm_defaults kvs "minPerm"%string with Some v => v | None => EmptyString end) * md)%R file) md d f = Ok r ->
  perm_main readable parse num md up por (option_args kvs ++ [file]) =
    Ok (r, match last_value perm_defaults kvs "output"%string with Some v => if String.eqb v "" then None else Some v | None => None end).
Proof.
  intros K Rd Pa Fl r Hr. destruct (command_ok perm_defaults kvs file K) as (o' & E & Ho). unfold perm_main. rewrite E. cbn [bind fst snd]. cbv zeta. rewrite Rd. cbn [negb]. rewrite !Ho, Fl. cbn [bind]. rewrite Pa. cbn [bind]. rewrite Hr. cbn [bind].
  destruct (last_value perm_defaults kvs "output") as [v|]; [reflexivity|]. reflexivity.
Qed.
