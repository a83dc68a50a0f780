From Verif Require Import BaseFacts RBaseFacts Steady_Proofs Impl_Proofs Cap_Proofs Visc_Proofs8 Rpd_Spec.
From Coq Require Import Lra Lia.
Open Scope Z_scope.

(* ------- options *)
Lemma fluids_ok s b : fluid_system s = Ok b <-> (b = true /\ In s ["ow"; "wo"]%string) \/ (b = false /\ In s ["go"; "og"]%string).
Proof.
  unfold fluid_system. cbn [In]. destruct (String.eqb_spec s "ow") as [->|N1]; [|destruct (String.eqb_spec s "wo") as [->|N2]; [|destruct (String.eqb_spec s "go") as [->|N3]; [|destruct (String.eqb_spec s "og") as [->|N4]]]]; cbn [orb];
  (split; [intros E; try discriminate; injection E as <-; tauto|intros [(-> & [A|[A|[]]])|(-> & [A|[A|[]]])]; congruence]).
Qed.
Lemma fluids_total s : (exists b, fluid_system s = Ok b) \/ fluid_system s = Throw.
Proof. unfold fluid_system. destruct (_ || _)%bool; eauto. destruct (_ || _)%bool; eauto. Qed.
Lemma letter_ok s t n : bc_letter s = Ok (t, n) <-> exists c r, s = String c r /\ ((c = "f"%char /\ t = 0 /\ n = 3) \/ (c = "l"%char /\ t = 1 /\ n = 9) \/ (c = "p"%char /\ t = 2 /\ n = 9)).
Proof.
  unfold bc_letter. destruct s as [|c r]; [split; [discriminate|intros (c & r & E & _); discriminate]|].
  destruct (Ascii.eqb_spec c "f") as [->|N1]; [|destruct (Ascii.eqb_spec c "l") as [->|N2]; [|destruct (Ascii.eqb_spec c "p") as [->|N3]]];
  (split; [intros E; first [discriminate|inversion E; subst; eexists; eexists; split; [reflexivity|tauto]]
          |intros (c' & r' & E & [(-> & -> & ->)|[(-> & -> & ->)|(-> & -> & ->)]]); congruence]).
Qed.
Lemma letter_total s : (exists r, bc_letter s = Ok r) \/ bc_letter s = Throw.
Proof. unfold bc_letter. destruct s as [|c r]; [now right|]. destruct (Ascii.eqb c "f"), (Ascii.eqb c "l"), (Ascii.eqb c "p"); eauto. Qed.
Lemma rp_cons o a l : rp_command o (a :: l) =
  let* p := parse_args o 1 0 (a :: l) in
  match fst p "fluids"%string, fst p "bc"%string with
  | Some fl, Some bc => let* ow := fluid_system fl in
      if 1 + zlen (a :: l) <=? snd p + 1 then Throw
      else let* b := bc_letter bc in let* f := rget (a :: l) (snd p - 1) in Ok ((fst p, (f, skipn (Z.to_nat (snd p)) (a :: l))), (ow, b))
  | _, _ => Throw
  end.
Proof. reflexivity. Qed.
Lemma rp_nonempty o args : args <> [] -> rp_command o args =
  let* p := parse_args o 1 0 args in
  match fst p "fluids"%string, fst p "bc"%string with
  | Some fl, Some bc => let* ow := fluid_system fl in
      if 1 + zlen args <=? snd p + 1 then Throw
      else let* b := bc_letter bc in let* f := rget args (snd p - 1) in Ok ((fst p, (f, skipn (Z.to_nat (snd p)) args)), (ow, b))
  | _, _ => Throw
  end.
Proof. destruct args; [intros N; now contradiction N|intros _; apply rp_cons]. Qed.
Lemma command_ok o kvs file files fl bc : (forall kv, In kv kvs -> known o (fst kv)) -> ~ is_option file -> files <> [] ->
  last_value o kvs "fluids"%string = Some fl -> last_value o kvs "bc"%string = Some bc ->
  (forall ow b, fluid_system fl = Ok ow -> bc_letter bc = Ok b ->
     exists o', rp_command o (option_args kvs ++ file :: files) = Ok ((o', (file, files)), (ow, b)) /\ forall k, o' k = last_value o kvs k) /\
  ((forall ow, fluid_system fl <> Ok ow) \/ (forall b, bc_letter bc <> Ok b) -> rp_command o (option_args kvs ++ file :: files) = Throw).
Proof.
  intros K F N Hf Hb. rewrite rp_nonempty by (destruct kvs; discriminate). rewrite parse_options by assumption. cbn [parse_args]. rewrite dash_none by assumption. cbn [bind fst snd].
  rewrite !sets_last, Hf, Hb. assert (L : 0 < zlen files) by (destruct files; [easy|unfold zlen; cbn [length]; lia]). pose proof (zlen_nonneg kvs) as Lk.
  rewrite zlen_app, option_args_len, zlen_cons. replace (_ <=? _) with false by (symmetry; apply Z.leb_gt; lia).
  replace (1 + 2 * zlen kvs - 1) with (zlen (option_args kvs)) by (rewrite option_args_len; lia).
  assert (G : rget (option_args kvs ++ file :: files) (zlen (option_args kvs)) = Ok file).
  { apply rget_Ok. rewrite zget_app_r by lia. rewrite Z.sub_diag. reflexivity. }
  rewrite G. replace (Z.to_nat (1 + 2 * zlen kvs)) with (length (option_args kvs) + 1)%nat by (pose proof (option_args_len kvs) as Q; unfold zlen in *; lia). rewrite skipn_exact. split.
  - intros ow b -> ->. exists (sets o kvs). split; [reflexivity|]. intros k. apply sets_last.
  - intros [H|H].
    + destruct (fluids_total fl) as [(ow & E)| ->]; [now destruct (H ow)|reflexivity].
    + destruct (letter_total bc) as [(b & E)| ->]; [now destruct (H b)|]. destruct (fluids_total fl) as [(ow & ->)| ->]; reflexivity.
Qed.
Lemma command_unknown o kvs k rest : (forall kv, In kv kvs -> known o (fst kv)) -> ~ known o k -> rp_command o (option_args kvs ++ String "-" k :: rest) = Throw.
Proof.
  intros K U. rewrite rp_nonempty by (destruct kvs; discriminate). rewrite parse_options by assumption. cbn [parse_args]. rewrite dash_opt. destruct (sets o kvs k) eqn:E; [|reflexivity].
  exfalso. apply U. apply (sets_known kvs); [assumption|]. unfold known. now rewrite E.
Qed.
Lemma command_dangling o kvs k : (forall kv, In kv kvs -> known o (fst kv)) -> known o k -> rp_command o (option_args kvs ++ [String "-" k]) = UB.
Proof.
  intros K U. rewrite rp_nonempty by (destruct kvs; discriminate). rewrite parse_options by assumption. cbn [parse_args]. rewrite dash_opt. apply (sets_known kvs) in U; [|assumption]. unfold known in U.
  destruct (sets o kvs k); [reflexivity|now destruct U].
Qed.
Lemma command_missing o kvs rest : (forall kv, In kv kvs -> known o (fst kv)) -> rest = [] \/ (exists file, ~ is_option file /\ rest = [file]) -> rp_command o (option_args kvs ++ rest) = Throw.
Proof.
  intros K H. assert (T : forall (o' : optmap) (m : Z) A, 1 + zlen (option_args kvs ++ rest) <= m + 1 ->
    match o' "fluids"%string, o' "bc"%string with
    | Some fl, Some bc => let* ow := fluid_system fl in if 1 + zlen (option_args kvs ++ rest) <=? m + 1 then Throw else A bc ow | _, _ => Throw end = (Throw : res ((optmap * (string * list string)) * (bool * (Z * Z))))).
  { intros o' m A L. destruct (o' "fluids"%string) as [fl|]; [|reflexivity]. destruct (o' "bc"%string); [|reflexivity]. destruct (fluids_total fl) as [(ow & ->)| ->]; [|reflexivity]. cbn [bind]. now rewrite (proj2 (Z.leb_le _ _) L). }
  destruct H as [-> | (file & F & ->)].
  - destruct kvs as [|kv r]; [reflexivity|]. rewrite rp_nonempty by discriminate. rewrite parse_options by assumption. cbn [parse_args bind fst snd].
    apply (T (sets o (kv :: r)) (1 + 2 * zlen (kv :: r)) (fun bc ow => let* b := bc_letter bc in let* f := rget (option_args (kv :: r) ++ []) (1 + 2 * zlen (kv :: r) - 1) in Ok (sets o (kv :: r), (f, skipn (Z.to_nat (1 + 2 * zlen (kv :: r))) (option_args (kv :: r) ++ [])), (ow, b)))).
    rewrite app_nil_r, option_args_len. lia.
  - rewrite rp_nonempty by (destruct kvs; discriminate). rewrite parse_options by assumption. cbn [parse_args]. rewrite dash_none by assumption. cbn [bind fst snd].
    apply (T (sets o kvs) (1 + 2 * zlen kvs) (fun bc ow => let* b := bc_letter bc in let* f := rget (option_args kvs ++ [file]) (1 + 2 * zlen kvs - 1) in Ok (sets o kvs, (f, skipn (Z.to_nat (1 + 2 * zlen kvs)) (option_args kvs ++ [file])), (ow, b)))).
    rewrite zlen_app, option_args_len. change (zlen [file]) with 1. lia.
Qed.

(* ------- curves *)
Definition pick {C} (d p : Z) (l : list ((Z * Z) * C)) : list C := map snd (filter (fun e => (d =? fst (fst e)) && (p =? snd (fst e))) l).
Lemma push_pick {C} (l : list ((Z * Z) * C)) : forall kr d p, push_curves kr l d p = kr d p ++ pick d p l.
Proof.
  unfold push_curves, pick. induction l as [|e l IH]; intros kr d p; cbn [fold_left filter map]; [now rewrite app_nil_r|]. rewrite IH.
  destruct ((d =? fst (fst e)) && (p =? snd (fst e))); cbn [map]; [now rewrite <- app_assoc|reflexivity].
Qed.
Lemma fold_pick {C} (rs : list (C * list ((Z * Z) * C))) : forall kr d p, fold_left (fun kr r => push_curves kr (snd r)) rs kr d p = kr d p ++ flat_map (fun r => pick d p (snd r)) rs.
Proof.
  induction rs as [|r rs IH]; intros kr d p; cbn [fold_left flat_map]; [now rewrite app_nil_r|]. now rewrite IH, push_pick, app_assoc.
Qed.
Definition rock_good {C} (read : string -> Z -> Z -> res C) (inv : C -> option C) (aniso both : bool) (jcol kcol : Z) (f : string) (r : C * list ((Z * Z) * C)) : Prop :=
  (exists j, read f (fst (inverted_column aniso jcol)) (snd (inverted_column aniso jcol)) = Ok j /\ inv j = Some (fst r)) /\
  forall d p, match column_of aniso both kcol d p with Some xy => exists c, read f (fst xy) (snd xy) = Ok c /\ pick d p (snd r) = [c] | None => pick d p (snd r) = [] end.
Lemma rock_inv {C} (read : string -> Z -> Z -> res C) inv (aniso both : bool) jcol kcol f r :
  (if aniso then rp_aniso read inv both else rp_iso read inv both jcol kcol) f = Ok r -> rock_good read inv aniso both jcol kcol f r.
Proof.
  destruct aniso.
  - unfold rp_aniso, rock_good, column_of, inverted_column. cbn [fst snd]. destruct (read f 2 1) as [j| |] eqn:Ej; try discriminate. cbn [bind]. destruct (inv j) as [v|] eqn:Ev; [|discriminate].
    destruct (read f 2 3) as [a| |] eqn:Ea; try discriminate. destruct (read f 2 4) as [b| |] eqn:Eb; try discriminate. destruct (read f 2 5) as [c| |] eqn:Ec; try discriminate. cbn [bind].
    assert (D : forall d, (0 <=? d) && (d <? 3) = true -> d = 0 \/ d = 1 \/ d = 2) by (intros d H; apply andb_prop in H; destruct H as [H1 H2]; apply Z.leb_le in H1; apply Z.ltb_lt in H2; lia).
    assert (D' : forall d, (0 <=? d) && (d <? 3) = false -> (d =? 0) = false /\ (d =? 1) = false /\ (d =? 2) = false).
    { intros d H. apply Bool.andb_false_iff in H. rewrite !Z.eqb_neq. destruct H as [H|H]; [apply Z.leb_gt in H|apply Z.ltb_ge in H]; lia. }
    destruct both.
    + destruct (read f 2 6) as [x| |] eqn:Ex; try discriminate. destruct (read f 2 7) as [y| |] eqn:Ey; try discriminate. destruct (read f 2 8) as [z| |] eqn:Ez; try discriminate. cbn [bind]. intros E. injection E as <-. cbn [fst snd].
      split; [eauto|]. intros d p. unfold pick. cbn [filter fst snd]. destruct ((0 <=? d) && (d <? 3)) eqn:Hd.
      * destruct (D d Hd) as [->|[->| ->]]; cbn [Z.eqb Pos.eqb andb]; (destruct (Z.eqb_spec p 0) as [->|N0]; [cbn; eauto|]; destruct (Z.eqb_spec p 1) as [->|N1]; cbn; eauto).
      * destruct (D' d Hd) as (-> & -> & ->). reflexivity.
    + intros E. injection E as <-. cbn [fst snd]. split; [eauto|]. intros d p. unfold pick. cbn [filter fst snd]. destruct ((0 <=? d) && (d <? 3)) eqn:Hd.
      * destruct (D d Hd) as [->|[->| ->]]; cbn [Z.eqb Pos.eqb andb]; (destruct (Z.eqb_spec p 0) as [->|N0]; [cbn; eauto|]; rewrite Bool.andb_false_r; cbn; eauto).
      * destruct (D' d Hd) as (-> & -> & ->). reflexivity.
  - unfold rp_iso, rock_good, column_of, inverted_column. cbn [fst snd]. destruct (read f 1 jcol) as [j| |] eqn:Ej; try discriminate. cbn [bind]. destruct (inv j) as [v|] eqn:Ev; [|discriminate]. destruct both.
    + destruct (read f 1 2) as [a| |] eqn:Ea; try discriminate. destruct (read f 1 3) as [b| |] eqn:Eb; try discriminate. cbn [bind]. intros E. injection E as <-. cbn [fst snd]. split; [eauto|].
      intros d p. unfold pick. cbn [filter fst snd]. destruct (Z.eqb_spec d 0) as [->|N]; cbn [andb]; [|reflexivity]. destruct (Z.eqb_spec p 0) as [->|N0]; [cbn; eauto|]. destruct (Z.eqb_spec p 1) as [->|N1]; cbn; eauto.
    + destruct (read f 1 kcol) as [a| |] eqn:Ea; try discriminate. cbn [bind]. intros E. injection E as <-. cbn [fst snd]. split; [eauto|].
      intros d p. unfold pick. cbn [filter fst snd]. destruct (Z.eqb_spec d 0) as [->|N]; cbn [andb]; [|reflexivity]. destruct (Z.eqb_spec p 0) as [->|N0]; [cbn; eauto|]. rewrite Bool.andb_false_r. reflexivity.
Qed.
Lemma rock_exists {C} (read : string -> Z -> Z -> res C) inv (aniso both : bool) jcol kcol f :
  (exists j v, read f (fst (inverted_column aniso jcol)) (snd (inverted_column aniso jcol)) = Ok j /\ inv j = Some v) ->
  (forall d p xy, column_of aniso both kcol d p = Some xy -> exists c, read f (fst xy) (snd xy) = Ok c) ->
  exists r, (if aniso then rp_aniso read inv both else rp_iso read inv both jcol kcol) f = Ok r.
Proof.
  intros (j & v & Ej & Ev) H. destruct aniso; cbn [inverted_column fst snd] in Ej.
  - unfold rp_aniso. rewrite Ej. cbn [bind]. rewrite Ev.
    destruct (H 0 0 _ eq_refl) as (a & Ea). destruct (H 1 0 _ eq_refl) as (b & Eb). destruct (H 2 0 _ eq_refl) as (c & Ec). cbn in Ea, Eb, Ec. rewrite Ea, Eb, Ec. cbn [bind]. destruct both; [|eauto].
    destruct (H 0 1 _ eq_refl) as (x & Ex). destruct (H 1 1 _ eq_refl) as (y & Ey). destruct (H 2 1 _ eq_refl) as (z & Ez). cbn in Ex, Ey, Ez. rewrite Ex, Ey, Ez. cbn [bind]. eauto.
  - unfold rp_iso. rewrite Ej. cbn [bind]. rewrite Ev. destruct both.
    + destruct (H 0 0 _ eq_refl) as (a & Ea). destruct (H 0 1 _ eq_refl) as (b & Eb). cbn in Ea, Eb. rewrite Ea, Eb. cbn [bind]. eauto.
    + destruct (H 0 0 _ eq_refl) as (a & Ea). cbn in Ea. rewrite Ea. cbn [bind]. eauto.
Qed.
Lemma rocks_files {A} (load : string -> res A) stones files rs : 0 <= stones -> (rock_curves load stones files = Ok rs <->
  (zlen files = stones \/ zlen files = 1) /\ zlen rs = stones /\ forall i r, zget rs i = Some r -> exists f, file_for files stones i = Some f /\ load f = Ok r).
Proof.
  intros Hs. unfold rock_curves, file_for. destruct (Z.eqb_spec (zlen files) stones) as [E|E].
  - rewrite mapM_Ok. split.
    + intros F. split; [now left|]. pose proof (Forall2_length' _ _ _ F) as L. rewrite zrange_length in L. split; [unfold zlen; lia|]. intros i r Hr. pose proof (zget_Some_range _ _ _ Hr) as B.
      assert (Hz : zget (zrange 0 stones) i = Some i) by (rewrite zget_zrange by (unfold zlen in B; lia); f_equal; lia). destruct (Forall2_zget _ _ _ F i _ Hz) as (r0 & Hr0 & Q). rewrite Hr in Hr0. injection Hr0 as <-. cbn in Q.
      destruct (rget files i) as [f| |] eqn:Ef; try discriminate. exists f. split; [now apply rget_Ok|exact Q].
    + intros (_ & L & H). assert (G : forall l2 k, (forall i r, zget l2 i = Some r -> exists f, zget files (k + i) = Some f /\ load f = Ok r) -> Forall2 (fun i b => (let* f := rget files i in load f) = Ok b) (zrange k (k + zlen l2)) l2).
      { induction l2 as [|x l2 IH]; intros k Hk; [rewrite zlen_nil, Z.add_0_r, zrange_empty by lia; constructor|]. rewrite zlen_cons. pose proof (zlen_nonneg l2). rewrite zrange_cons by lia. constructor.
        - destruct (Hk 0 x eq_refl) as (f & Ef & El). rewrite Z.add_0_r in Ef. now rewrite (proj2 (rget_Ok _ _ f) Ef).
        - replace (k + (1 + zlen l2)) with (k + 1 + zlen l2) by lia. apply IH. intros i r Hr. pose proof (zget_Some_range _ _ _ Hr) as B. replace (k + 1 + i) with (k + (i + 1)) by lia. apply Hk.
          rewrite zget_nth by (rewrite ?zlen_cons; lia). replace (Z.to_nat (i + 1)) with (S (Z.to_nat i)) by lia. cbn [nth_error]. rewrite zget_nth in Hr by lia. exact Hr. }
      specialize (G rs 0 H). rewrite Z.add_0_l, L in G. exact G.
  - destruct (Z.eqb_spec (zlen files) 1) as [E1|E1]; [|split; [discriminate|intros ([X|X] & _); contradiction]]. rewrite mapM_Ok. split.
    + intros F. split; [now right|]. pose proof (Forall2_length' _ _ _ F) as L. rewrite zrange_length in L. split; [unfold zlen; lia|]. intros i r Hr. pose proof (zget_Some_range _ _ _ Hr) as B.
      assert (Hz : zget (zrange 0 stones) i = Some i) by (rewrite zget_zrange by (unfold zlen in B; lia); f_equal; lia). destruct (Forall2_zget _ _ _ F i _ Hz) as (r0 & Hr0 & Q). rewrite Hr in Hr0. injection Hr0 as <-. cbn in Q.
      destruct (rget files 0) as [f| |] eqn:Ef; try discriminate. exists f. split; [now apply rget_Ok|exact Q].
    + intros (_ & L & H). assert (G : forall l2 k, (forall r, In r l2 -> exists f, zget files 0 = Some f /\ load f = Ok r) -> Forall2 (fun _ b => (let* f := rget files 0 in load f) = Ok b) (zrange k (k + zlen l2)) l2).
      { induction l2 as [|x l2 IH]; intros k Hk; [rewrite zrange_empty by (change (zlen (@nil A)) with 0; lia); constructor|]. rewrite zlen_cons. pose proof (zlen_nonneg l2) as L2. rewrite (zrange_cons k) by lia. constructor.
        - destruct (Hk x (or_introl eq_refl)) as (f & Ef & El). now rewrite (proj2 (rget_Ok _ _ f) Ef).
        - replace (k + (1 + zlen l2)) with (k + 1 + zlen l2) by lia. apply IH. intros r I. apply Hk. now right. }
      rewrite <- L. apply (G rs 0). intros r I. apply In_zget in I. destruct I as (i & _ & I). exact (H i r I).
Qed.
Lemma curves_ok {C} (read : string -> Z -> Z -> res C) inv (aniso both : bool) jcol kcol stones files invs kr : 0 <= stones ->
  saturation_functions read inv aniso both jcol kcol stones files = Ok (invs, kr) ->
  (zlen files = stones \/ zlen files = 1) /\ zlen invs = stones /\
  (forall i, 0 <= i < stones -> exists f j v, file_for files stones i = Some f /\ read f (fst (inverted_column aniso jcol)) (snd (inverted_column aniso jcol)) = Ok j /\ inv j = Some v /\ zget invs i = Some v) /\
  (forall d p, column_of aniso both kcol d p = None -> kr d p = []) /\
  (forall d p xy, column_of aniso both kcol d p = Some xy -> zlen (kr d p) = stones /\
     forall i, 0 <= i < stones -> exists f c, file_for files stones i = Some f /\ read f (fst xy) (snd xy) = Ok c /\ zget (kr d p) i = Some c).
Proof.
  intros Hs. unfold saturation_functions. destruct (rock_curves _ stones files) as [rs| |] eqn:E; try discriminate. cbn [bind]. intros Q. injection Q as <- <-. apply rocks_files in E; [|exact Hs]. destruct E as (Ef & L & H).
  assert (G : forall i r, zget rs i = Some r -> exists f, file_for files stones i = Some f /\ rock_good read inv aniso both jcol kcol f r).
  { intros i r Hr. destruct (H i r Hr) as (f & A & B). exists f. split; [exact A|]. now apply rock_inv. }
  split; [exact Ef|]. split; [now rewrite zlen_map|]. split; [|split].
  - intros i Hi. destruct (zget_in_range rs i) as [r Hr]; [lia|]. destruct (G i r Hr) as (f & A & (j & B1 & B2) & _). exists f, j, (fst r). rewrite zget_map, Hr. auto.
  - intros d p Hc. rewrite fold_pick. cbn [app]. assert (A : forall r, In r rs -> pick d p (snd r) = []).
    { intros r I. apply In_zget in I. destruct I as (i & _ & I). destruct (G i r I) as (f & _ & _ & B). specialize (B d p). now rewrite Hc in B. }
    clear - A. induction rs as [|r rs IH]; [reflexivity|]. cbn [flat_map]. rewrite A by now left. apply IH. intros x I. apply A. now right.
  - intros d p xy Hc. rewrite fold_pick. cbn [app]. assert (A : forall i r, zget rs i = Some r -> exists f c, file_for files stones i = Some f /\ read f (fst xy) (snd xy) = Ok c /\ pick d p (snd r) = [c]).
    { intros i r I. destruct (G i r I) as (f & F & _ & B). specialize (B d p). rewrite Hc in B. destruct B as (c & B1 & B2). exists f, c. auto. }
    assert (SS : forall l : list (C * list (Z * Z * C)), (forall r, In r l -> exists c, pick d p (snd r) = [c]) -> zlen (flat_map (fun r => pick d p (snd r)) l) = zlen l /\ forall i r c, zget l i = Some r -> pick d p (snd r) = [c] -> zget (flat_map (fun r => pick d p (snd r)) l) i = Some c).
    { clear. induction l as [|r l IH]; intros A; [split; [reflexivity|intros i r c H; apply zget_Some_range in H; unfold zlen in H; cbn [length] in H; lia]|].
      destruct (A r (or_introl eq_refl)) as (c & Ec). destruct IH as [L G]; [intros x I; apply A; now right|]. cbn [flat_map]. rewrite Ec. cbn [app]. rewrite !zlen_cons, L. split; [reflexivity|].
      intros i r' c' Hr Hp. pose proof (zget_Some_range _ _ _ Hr) as B. rewrite zlen_cons in B. rewrite zget_nth in Hr by (rewrite ?zlen_cons; lia). rewrite zget_nth by (rewrite ?zlen_cons, ?L; lia). destruct (Z.to_nat i) as [|n] eqn:En; cbn [nth_error] in *; [injection Hr as <-; congruence|].
      specialize (G (i - 1) r' c'). rewrite !zget_nth in G by (rewrite ?L; lia). replace (Z.to_nat (i - 1)) with n in G by lia. now apply G. }
    destruct (SS rs) as [Ls Gs]. { intros r I. apply In_zget in I. destruct I as (i & _ & I). destruct (A i r I) as (f & c & _ & _ & X). eauto. }
    split; [lia|]. intros i Hi. destruct (zget_in_range rs i) as [r Hr]; [lia|]. destruct (A i r Hr) as (f & c & B1 & B2 & B3). exists f, c. split; [exact B1|]. split; [exact B2|]. exact (Gs i r c Hr B3).
Qed.
Lemma rock_curves_total {A} (load : string -> res A) stones files : zlen files = stones \/ zlen files = 1 -> (forall f, In f files -> exists r, load f = Ok r) -> exists rs, rock_curves load stones files = Ok rs.
Proof.
  intros F Ld. unfold rock_curves. destruct (Z.eqb_spec (zlen files) stones) as [E|E].
  - apply mapM_exists. intros i I. apply In_zrange in I. destruct (zget_in_range files i) as [f Ef]; [lia|].
    rewrite (proj2 (rget_Ok _ _ f) Ef). cbn [bind]. apply Ld. exact (zget_In _ _ _ Ef).
  - assert (E1 : zlen files = 1) by tauto. rewrite (proj2 (Z.eqb_eq _ _) E1). apply mapM_exists.
    intros i _. destruct (zget_in_range files 0) as [f Ef]; [lia|]. rewrite (proj2 (rget_Ok _ _ f) Ef). cbn [bind]. apply Ld. exact (zget_In _ _ _ Ef).
Qed.
Lemma mapM_throws {A B} (f : A -> res B) l : (forall a, In a l -> f a <> UB) -> (exists a, In a l /\ f a = Throw) -> mapM f l = Throw.
Proof.
  induction l as [|a l IH]; intros H (x & I & E); [destruct I|]. cbn [mapM]. destruct (f a) as [b| |] eqn:Ea; [|reflexivity|exfalso; exact (H a (or_introl eq_refl) Ea)]. cbn [bind].
  destruct I as [-> |I]; [congruence|]. rewrite IH; [reflexivity|intros y Iy; apply H; now right|eauto].
Qed.
Lemma rock_refused {C} (read : string -> Z -> Z -> res C) inv (aniso both : bool) jcol kcol f j : read f (fst (inverted_column aniso jcol)) (snd (inverted_column aniso jcol)) = Ok j -> inv j = None ->
  (if aniso then rp_aniso read inv both else rp_iso read inv both jcol kcol) f = Throw.
Proof. intros Ej En. destruct aniso; cbn [inverted_column fst snd] in Ej; [unfold rp_aniso|unfold rp_iso]; rewrite Ej; cbn [bind]; rewrite En; reflexivity. Qed.
Lemma curves_refused {C} (read : string -> Z -> Z -> res C) inv (aniso both : bool) jcol kcol stones files : 1 <= stones -> zlen files = stones \/ zlen files = 1 ->
  (forall f x y, In f files -> exists c, read f x y = Ok c) ->
  (exists f j, In f files /\ read f (fst (inverted_column aniso jcol)) (snd (inverted_column aniso jcol)) = Ok j /\ inv j = None) ->
  saturation_functions read inv aniso both jcol kcol stones files = Throw.
Proof.
  intros Hs F Rd (f & j & If & Ej & En). unfold saturation_functions. set (load := if aniso then rp_aniso read inv both else rp_iso read inv both jcol kcol).
  assert (Lf : load f = Throw) by (exact (rock_refused read inv aniso both jcol kcol f j Ej En)).
  assert (Lu : forall g, In g files -> load g <> UB).
  { intros g Ig E. destruct (Rd g (fst (inverted_column aniso jcol)) (snd (inverted_column aniso jcol)) Ig) as (j' & Ej'). destruct (inv j') as [v|] eqn:Ev.
    - destruct (rock_exists read inv aniso both jcol kcol g) as (r & Er); [eauto|intros d p xy _; apply Rd; exact Ig|]. unfold load in E. rewrite E in Er. discriminate.
    - unfold load in E. rewrite (rock_refused read inv aniso both jcol kcol g j' Ej' Ev) in E. discriminate. }
  assert (T : rock_curves load stones files = Throw); [|rewrite T; reflexivity].
  unfold rock_curves. destruct (Z.eqb_spec (zlen files) stones) as [E|E].
  - apply mapM_throws.
    + intros i I. apply In_zrange in I. destruct (zget_in_range files i) as [g Eg]; [lia|]. rewrite (proj2 (rget_Ok _ _ g) Eg). cbn [bind]. apply Lu. exact (zget_In _ _ _ Eg).
    + apply In_zget in If. destruct If as (i & Hi & Gi). exists i. split; [apply In_zrange; lia|]. rewrite (proj2 (rget_Ok _ _ f) Gi). exact Lf.
  - assert (E1 : zlen files = 1) by tauto. rewrite (proj2 (Z.eqb_eq _ _) E1). destruct files as [|g [|g' files]]; [destruct If| |exfalso; rewrite !zlen_cons in E1; pose proof (zlen_nonneg files); lia].
    destruct If as [<- |[]]. apply mapM_throws.
    + intros i _. change (rget [g] 0) with (Ok g). cbn [bind]. rewrite Lf. discriminate.
    + exists 0. split; [apply In_zrange; lia|]. exact Lf.
Qed.
Lemma curves_total {C} (read : string -> Z -> Z -> res C) inv (aniso both : bool) jcol kcol stones files : 0 <= stones ->
  (zlen files <> stones -> zlen files <> 1 -> saturation_functions read inv aniso both jcol kcol stones files = Throw) /\
  (zlen files = stones \/ zlen files = 1 ->
   (forall f, In f files -> (exists j v, read f (fst (inverted_column aniso jcol)) (snd (inverted_column aniso jcol)) = Ok j /\ inv j = Some v) /\
      forall d p xy, column_of aniso both kcol d p = Some xy -> exists c, read f (fst xy) (snd xy) = Ok c) ->
   exists r, saturation_functions read inv aniso both jcol kcol stones files = Ok r).
Proof.
  intros Hs. unfold saturation_functions. split.
  - intros N1 N2. unfold rock_curves. rewrite (proj2 (Z.eqb_neq _ _) N1), (proj2 (Z.eqb_neq _ _) N2). reflexivity.
  - intros F H. destruct (rock_curves_total (if aniso then rp_aniso read inv both else rp_iso read inv both jcol kcol) stones files F) as (rs & ->); [|cbn [bind]; eauto].
    intros f I. destruct (H f I) as [A B]. exact (rock_exists read inv aniso both jcol kcol f A B).
Qed.
