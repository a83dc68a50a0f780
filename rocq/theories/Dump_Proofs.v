(* Proofs about restart files. *)
From Coq Require Import Lra.
From Verif Require Import RBaseFacts BaseFacts Cap_Proofs7 Steady_Proofs Steady_Proofs2 Dump_Spec.
Open Scope Z_scope.

(* ---- the container *)
Lemma cmp_trans : forall a b c, String.compare a b = Lt -> String.compare b c = Lt -> String.compare a c = Lt.
Proof.
  induction a as [|x a IH]; intros [|y b] [|z c]; cbn; try discriminate; auto.
  destruct (Ascii.compare x y) eqn:E1; try discriminate; destruct (Ascii.compare y z) eqn:E2; try discriminate; intros H1 H2.
  - apply Ascii.compare_eq_iff in E1. subst y. rewrite E2. eapply IH; eassumption.
  - apply Ascii.compare_eq_iff in E1. subst y. rewrite E2. reflexivity.
  - apply Ascii.compare_eq_iff in E2. subst z. rewrite E1. reflexivity.
  - assert (Ascii.compare x z = Lt) as ->; [|reflexivity]. unfold Ascii.compare in *. apply N.compare_lt_iff in E1. apply N.compare_lt_iff in E2. apply N.compare_lt_iff. eapply N.lt_trans; eassumption.
Qed.
Lemma cmp_refl : forall a, String.compare a a = Eq.
Proof. induction a as [|x a IH]; cbn; [reflexivity|]. unfold Ascii.compare. rewrite N.compare_refl. exact IH. Qed.
Lemma insert_ok name f sol : by_name (map fst sol) -> by_name (map fst (sol_insert name f sol)) /\
  forall n g, In (n, g) (sol_insert name f sol) <-> In (n, g) sol \/ (n = name /\ g = f /\ ~ In name (map fst sol)).
Proof.
  unfold by_name. induction sol as [|[n0 g0] t IH]; intros HS.
  - cbn. split; [repeat constructor|]. intros n g. split; [intros [[= <- <-]|[]]; tauto|intros [[]|(-> & -> & _)]; auto].
  - cbn [map fst] in HS. inversion HS as [|? ? H1 H2]; subst. cbn [sol_insert]. destruct (String.compare name n0) eqn:E.
    + apply String.compare_eq_iff in E. subst n0. split; [exact HS|]. intros n g. split; [tauto|]. intros [H|(_ & _ & H)]; [exact H|]. exfalso. apply H. left. reflexivity.
    + split.
      * cbn [map fst]. constructor; [exact HS|]. constructor; [exact E|]. rewrite Forall_forall in *. intros x Hx. eapply cmp_trans; [exact E|apply H2; exact Hx].
      * intros n g. split; [|intros [H|(-> & -> & _)]; [right; exact H|left; reflexivity]]. intros [[= <- <-]|H]; [|tauto]. right. repeat split. intros [K|K]; [cbn in K; subst n0; rewrite cmp_refl in E; discriminate|].
        rewrite Forall_forall in H2. pose proof (cmp_trans _ _ _ E (H2 _ K)) as C. rewrite cmp_refl in C. discriminate.
    + destruct (IH H1) as (I1 & I2). split.
      * cbn [map fst]. constructor; [exact I1|]. rewrite Forall_forall in *. intros x Hx. apply in_map_iff in Hx. destruct Hx as ([n g] & <- & Hx). apply I2 in Hx. cbn [fst]. destruct Hx as [Hx|(-> & _)]; [apply H2; apply in_map_iff; exists (n, g); auto|]. rewrite String.compare_antisym, E. reflexivity.
      * intros n g. cbn [In map fst]. rewrite I2. split.
        -- intros [K|[K|(-> & -> & K)]]; [tauto|tauto|]. right. repeat split. intros [->|Q]; [rewrite cmp_refl in E; discriminate|exact (K Q)].
        -- intros [[K|K]|(-> & -> & K)]; tauto.
Qed.

(* ---- files *)
Lemma open_before file k : in_order file -> rst_open file k = before k file.
Proof.
  unfold in_order, before. induction file as [|e t IH]; intros HS; [reflexivity|]. inversion HS as [|? ? H1 H2]; subst. cbn [rst_open filter]. destruct (Z.ltb_spec (fst e) k) as [L|L]; [rewrite IH by exact H1; reflexivity|].
  symmetry. clear -H2 L. induction t as [|x t IH]; [reflexivity|]. inversion H2; subst. cbn [filter]. destruct (Z.ltb_spec (fst x) k); [lia|]. apply IH. assumption.
Qed.
Lemma before_in k file e : In e (before k file) <-> In e file /\ fst e < k.
Proof. unfold before. rewrite filter_In, Z.ltb_lt. tauto. Qed.
Lemma before_order k file : in_order file -> in_order (before k file).
Proof.
  unfold in_order, before. induction 1 as [|e t H1 IH H2]; cbn [filter]; [constructor|]. destruct (fst e <? k); [|exact IH]. constructor; [exact IH|]. rewrite Forall_forall in *. intros x Hx. apply filter_In in Hx. apply H2. tauto.
Qed.
Lemma order_snoc file e : in_order file -> (forall x, In x file -> fst x < fst e) -> in_order (file ++ [e]).
Proof.
  unfold in_order. induction 1 as [|x t H1 IH H2]; intros H; cbn [app]; [repeat constructor|]. constructor; [apply IH; intros y Hy; apply H; right; exact Hy|]. rewrite Forall_forall in *. intros y Hy. apply in_app_iff in Hy. destruct Hy as [Hy|[<-|[]]]; [apply H2; exact Hy|apply H; left; reflexivity].
Qed.
Lemma write_ok rnd nx ny nz na data step time posix file : in_order file -> by_name (map fst data) -> exists arrays,
  write_ecl rnd nx ny nz na data step time posix file = before step file ++ [(step, [RIntehead nx ny nz na posix; RDoubhead (IZR posix - time)%R time; RMessage "STARTSOL"] ++ arrays ++ [RMessage "ENDSOL"])] /\
  in_order (write_ecl rnd nx ny nz na data step time posix file) /\ (exists names, by_name names /\ map (fun r => match r with RArray n _ => Some n | _ => None end) arrays = map Some names) /\
  forall n v, In (RArray n v) arrays <-> exists d, In (n, mkField true d) data /\ v = map rnd d.
Proof.
  intros HO HN. set (arr := flat_map (fun e => if fl_restart (snd e) then [RArray (fst e) (map rnd (fl_data (snd e)))] else []) data). exists arr. unfold write_ecl. fold arr. rewrite (open_before file step HO). split; [reflexivity|]. split.
  - apply order_snoc; [apply before_order; exact HO|]. intros x Hx. apply before_in in Hx. cbn [fst]. tauto.
  - split.
    + exists (map fst (filter (fun e => fl_restart (snd e)) data)). subst arr. unfold by_name in *. induction data as [|[n f] t IH]; [cbn; split; [constructor|reflexivity]|]. cbn [map fst] in HN. inversion HN as [|? ? H1 H2]; subst. destruct (IH H1) as (I1 & I2). cbn [flat_map filter fst snd]. destruct (fl_restart f); cbn [app map fst]; [|split; assumption].
      split; [|f_equal; exact I2]. constructor; [exact I1|]. rewrite Forall_forall in *. intros x Hx. apply H2. apply in_map_iff in Hx. destruct Hx as (y & <- & Hy). apply filter_In in Hy. apply in_map. tauto.
    + intros n v. unfold arr. rewrite in_flat_map. split.
      * intros ([m [b d]] & Hm & Hx). cbn [fst snd fl_restart fl_data] in Hx. destruct b; [|destruct Hx]. destruct Hx as [[= <- <-]|[]]. exists d. auto.
      * intros (d & Hd & ->). exists (n, mkField true d). split; [exact Hd|]. left. reflexivity.
Qed.

(* ---- one step of the run *)
Lemma int_part_spec x : (IZR (Int_part x) <= x < IZR (Int_part x) + 1)%R.
Proof. pose proof (base_Int_part x). lra. Qed.
Lemma int_ok x : (0 <= x)%R -> to_int x = if Rltb x (IZR (2 ^ 31)) then Ok (Int_part x) else UB.
Proof.
  intros H. unfold to_int. destruct (Rltb_spec x 0); [lra|]. pose proof (int_part_spec x) as (H1 & H2). assert (0 <= Int_part x) as HP.
  { apply Z.lt_succ_r. apply lt_IZR. rewrite succ_IZR. lra. }
  replace (- 2 ^ 31 <=? Int_part x) with true by (symmetry; apply Z.leb_le; lia). cbn [andb]. destruct (Rltb_spec x (IZR (2 ^ 31))) as [L|L].
  - replace (Int_part x <? 2 ^ 31) with true; [reflexivity|]. symmetry. apply Z.ltb_lt. apply lt_IZR. lra.
  - replace (Int_part x <? 2 ^ 31) with false; [reflexivity|]. symmetry. apply Z.ltb_ge. apply Z.lt_succ_r. apply lt_IZR. rewrite succ_IZR. lra.
Qed.
Definition recs (cfg : dcfg) (press out : list R) (t : R) : list record :=
  let z := Int_part t in
  [RIntehead (dc_nx cfg) (dc_ny cfg) (dc_nz cfg) (dc_cells cfg) (start_2012 + z); RDoubhead (IZR (start_2012 + z) - t)%R t; RMessage "STARTSOL";
   RArray "PRESSURE" (map (dc_rnd cfg) press); RArray "SWAT" (map (dc_rnd cfg) out); RMessage "ENDSOL"].
Lemma dump_step_ok cfg press sat it t file : (0 <= t)%R -> dump_step cfg press sat it t file = if Rltb t (IZR (2 ^ 31)) then Ok (rst_open file it ++ [(it, recs cfg press sat t)]) else UB.
Proof.
  intros Ht. unfold dump_step. destruct (destripe_both sat) as (sb & E1 & E2 & _). rewrite E1. cbn [bind]. rewrite E2. cbn [bind]. unfold posix_time. rewrite (int_ok t Ht). destruct (Rltb t (IZR (2 ^ 31))); reflexivity.
Qed.
Lemma body_facts p pv tr ss ss' : (0 < sp_max_step p)%R -> (0 < ss_step ss)%R -> ss_body p pv tr ss = Ok ss' ->
  let out := tr (ss_calls ss) (ss_sat ss) (ss_step ss) in
  ss_calls ss' = ss_calls ss ++ [mkCall (ss_sat ss) (ss_step ss) (fst out) (snd out)] /\ ss_it ss' = ss_it ss + 1 /\ (0 < ss_step ss')%R.
Proof.
  intros HM HS. unfold ss_body. destruct (tr (ss_calls ss) (ss_sat ss) (ss_step ss)) as [cv out]. cbn [fst snd]. destruct cv.
  - destruct (sat_diff pv out (ss_old ss)) as [me| |]; cbn [bind]; try discriminate. intros [= <-]. cbn [ss_calls ss_it ss_step]. repeat split. destruct (below _ _); [|exact HS]. rewrite smin_Rmin. apply Rmin_glb_lt; lra.
  - intros [= <-]. cbn [ss_calls ss_it ss_step]. repeat split. lra.
Qed.

(* ---- the run *)
Fixpoint dumps (cfg : dcfg) (press : list R) (t : R) (k : Z) (calls : list tcall) : list rstep :=
  match calls with
  | [] => []
  | c :: r => if tc_conv c then (k, recs cfg press (tc_out c) (t + tc_step c)%R) :: dumps cfg press (t + tc_step c)%R (k + 1) r else dumps cfg press t (k + 1) r
  end.
Definition joined (file new : list rstep) : list rstep := match new with [] => file | e :: _ => rst_open file (fst e) ++ new end.
Lemma conv_app a b : conv_time (a ++ b) = (conv_time a + conv_time b)%R.
Proof. unfold conv_time. rewrite filter_app, map_app, Rsum_app. reflexivity. Qed.
Lemma conv_one c : conv_time [c] = if tc_conv c then tc_step c else 0%R.
Proof. unfold conv_time. cbn [filter]. destruct (tc_conv c); cbn [map]; rewrite ?Rsum_cons, Rsum_nil; ring. Qed.
Lemma dumps_app cfg press b : forall a t k, dumps cfg press t k (a ++ b) = dumps cfg press t k a ++ dumps cfg press (t + conv_time a)%R (k + zlen a) b.
Proof.
  induction a as [|c a IH]; intros t k.
  - cbn [app dumps]. change (conv_time []) with 0%R. rewrite Rplus_0_r. change (zlen []) with 0. rewrite Z.add_0_r. reflexivity.
  - cbn [app dumps]. change (conv_time (c :: a)) with (conv_time ([c] ++ a)). change (zlen (c :: a)) with (zlen ([c] ++ a)). rewrite conv_app, conv_one, zlen_app. change (zlen [c]) with 1. destruct (tc_conv c); rewrite IH; cbn [app].
    + rewrite Rplus_assoc, Z.add_assoc. reflexivity.
    + rewrite Rplus_0_l, Z.add_assoc. reflexivity.
Qed.
Lemma dumps_range cfg press : forall calls t k e, In e (dumps cfg press t k calls) -> k <= fst e < k + zlen calls.
Proof.
  induction calls as [|c r IH]; intros t k e; [intros []|]. cbn [dumps]. assert (zlen (c :: r) = zlen r + 1) as -> by (unfold zlen; cbn [length]; lia). pose proof (zlen_nonneg r) as NR. destruct (tc_conv c); [intros [<-|H]; [cbn; lia|]|intros H]; apply IH in H; lia.
Qed.
Lemma open_all file k : (forall e, In e file -> fst e < k) -> rst_open file k = file.
Proof. induction file as [|e t IH]; intros H; [reflexivity|]. cbn [rst_open]. rewrite (proj2 (Z.ltb_lt _ _) (H e (or_introl eq_refl))). f_equal. apply IH. intros x Hx. apply H. right. exact Hx. Qed.
Lemma open_in file k e : In e (rst_open file k) -> fst e < k.
Proof. induction file as [|x t IH]; [intros []|]. cbn [rst_open]. destruct (Z.ltb_spec (fst x) k); [|intros []]. intros [<-|H']; auto. Qed.
Lemma joined_snoc file new k r : (forall e, In e new -> fst e < k) -> rst_open (joined file new) k ++ [(k, r)] = joined file (new ++ [(k, r)]).
Proof.
  intros H. destruct new as [|e new]; [reflexivity|]. cbn [joined app]. rewrite open_all; [rewrite <- app_assoc; reflexivity|]. intros x Hx. apply in_app_iff in Hx. destruct Hx as [Hx|Hx]; [|apply H; exact Hx]. apply open_in in Hx. pose proof (H e (or_introl eq_refl)). lia.
Qed.
Section Run.
Variables (cfg : dcfg) (p : sparams) (pv : list R) (tr : tsolver) (press : list R) (file : list rstep).
Hypothesis HM : (0 < sp_max_step p)%R.
Definition dstart (ss : sstate) : dstate := mkD ss (conv_time (ss_calls ss)) (joined file (dumps cfg press 0 0 (ss_calls ss))).
Definition pos_calls (ss : sstate) : Prop := (0 < ss_step ss)%R /\ ss_it ss = zlen (ss_calls ss) /\ forall c, In c (ss_calls ss) -> (0 < tc_step c)%R.
Lemma conv_nonneg calls : (forall c, In c calls -> (0 < tc_step c)%R) -> (0 <= conv_time calls)%R.
Proof. intros H. unfold conv_time. apply Rsum_map_nonneg. intros c Hc. apply filter_In in Hc. specialize (H c (proj1 Hc)). lra. Qed.
Lemma body_dump ss ss' : pos_calls ss -> (conv_time (ss_calls ss) < IZR (2 ^ 31))%R -> ss_body p pv tr ss = Ok ss' -> pos_calls ss' /\ (conv_time (ss_calls ss) <= conv_time (ss_calls ss'))%R /\
  dump_body cfg p pv tr press (dstart ss) = if Rltb (conv_time (ss_calls ss')) (IZR (2 ^ 31)) then Ok (dstart ss') else UB.
Proof using HM.
  intros (P1 & P2 & P3) HT HB. destruct (body_facts p pv tr ss ss' HM P1 HB) as (F1 & F2 & F3). set (out := tr (ss_calls ss) (ss_sat ss) (ss_step ss)) in *. set (c := mkCall (ss_sat ss) (ss_step ss) (fst out) (snd out)) in *.
  assert (tc_conv c = fst out) as C1 by reflexivity. assert (tc_step c = ss_step ss) as C2 by reflexivity. assert (tc_out c = snd out) as C3 by reflexivity. clearbody c.
  assert (forall c0, In c0 (ss_calls ss') -> (0 < tc_step c0)%R) as P3'. { rewrite F1. intros d Hd. apply in_app_iff in Hd. destruct Hd as [Hd|[<-|[]]]; [apply P3; exact Hd|rewrite C2; exact P1]. }
  split; [split; [exact F3|]; split; [rewrite F2, F1, zlen_app, P2; reflexivity|exact P3']|]. pose proof (conv_nonneg _ P3) as N0. pose proof (conv_nonneg _ P3') as N1.
  rewrite F1, conv_app, conv_one in N1 |- *. rewrite C1, C2 in N1 |- *. split; [destruct (fst out); lra|].
  unfold dump_body. cbn [dstart d_ss d_time d_file]. fold out. destruct (fst out) eqn:EC.
  - rewrite dump_step_ok by lra. destruct (Rltb_spec (conv_time (ss_calls ss) + ss_step ss) (IZR (2 ^ 31))) as [L|L]; [|reflexivity]. cbn [bind]. rewrite HB. cbn [bind fst snd]. unfold dstart. rewrite F1, conv_app, conv_one. rewrite C1, C2. do 2 f_equal.
    rewrite dumps_app. cbn [dumps]. rewrite C1, C2, C3. rewrite Rplus_0_l, Z.add_0_l. rewrite P2. apply joined_snoc. intros e He. apply dumps_range in He. lia.
  - cbn [bind]. rewrite HB. cbn [bind fst snd]. destruct (Rltb_spec (conv_time (ss_calls ss) + 0) (IZR (2 ^ 31))) as [L|L]; [|lra]. unfold dstart. rewrite F1, conv_app, conv_one. rewrite C1. do 2 f_equal; [ring|].
    rewrite dumps_app. cbn [dumps]. rewrite C1, app_nil_r. reflexivity.
Qed.
Lemma loop_dump fuel : forall ss ss', pos_calls ss -> (conv_time (ss_calls ss) < IZR (2 ^ 31))%R -> ss_loop fuel p pv tr ss = Ok ss' -> pos_calls ss' /\ (conv_time (ss_calls ss) <= conv_time (ss_calls ss'))%R /\
  dump_loop fuel cfg p pv tr press (dstart ss) = if Rltb (conv_time (ss_calls ss')) (IZR (2 ^ 31)) then Ok (dstart ss') else UB.
Proof using HM.
  assert (forall fuel ss ss', pos_calls ss -> ss_loop fuel p pv tr ss = Ok ss' -> pos_calls ss' /\ (conv_time (ss_calls ss) <= conv_time (ss_calls ss'))%R) as MONO.
  { clear fuel. induction fuel as [|fuel IH]; intros ss ss' HP; cbn [ss_loop]; (destruct (negb (ss_stat ss) && (ss_it ss <? sp_max_it p)); [|intros [= <-]; split; [exact HP|lra]]); [discriminate|].
    destruct (ss_body p pv tr ss) as [s1| |] eqn:EB; cbn [bind]; try discriminate. intros HL. pose proof HP as (P1 & P2 & P3). destruct (body_facts p pv tr ss s1 HM P1 EB) as (F1 & F2 & F3). destruct (IH s1 ss') as (I1 & I2); [|exact HL|].
    - split; [exact F3|]. split; [rewrite F2, F1, zlen_app, P2; reflexivity|]. rewrite F1. intros d Hd. apply in_app_iff in Hd. destruct Hd as [Hd|[<-|[]]]; [apply P3; exact Hd|exact P1].
    - split; [exact I1|]. rewrite F1, conv_app, conv_one in I2. cbn [tc_conv tc_step] in I2. destruct (fst _) in I2; lra. }
  induction fuel as [|fuel IH]; intros ss ss' HP HT HL; destruct (MONO _ _ _ HP HL) as (M1 & M2); (split; [exact M1|]); (split; [exact M2|]); cbn [ss_loop dump_loop] in *; cbn [dstart d_ss]; (destruct (negb (ss_stat ss) && (ss_it ss <? sp_max_it p)) eqn:EC; [|injection HL as <-; destruct (Rltb_spec (conv_time (ss_calls ss)) (IZR (2 ^ 31))); [reflexivity|lra]]); [discriminate|].
  fold (dstart ss). destruct (ss_body p pv tr ss) as [s1| |] eqn:EB; cbn [bind] in HL; try discriminate. destruct (body_dump ss s1 HP HT EB) as (B1 & B2 & ->). destruct (MONO _ _ _ B1 HL) as (_ & M3). destruct (Rltb_spec (conv_time (ss_calls s1)) (IZR (2 ^ 31))) as [L|L]; cbn [bind].
  - apply (IH s1 ss' B1 L HL).
  - destruct (Rltb_spec (conv_time (ss_calls ss')) (IZR (2 ^ 31))); [lra|reflexivity].
Qed.
End Run.
Lemma run_dump cfg p pv tr sat0 press file st : (0 < sp_init p)%R -> (0 < sp_max_step p)%R -> steady_run p pv tr sat0 = Ok st ->
  pos_calls st /\ dump_run cfg p pv tr sat0 press file = if Rltb (conv_time (ss_calls st)) (IZR (2 ^ 31)) then Ok (mkD st (conv_time (ss_calls st)) (joined file (dumps cfg press 0 0 (ss_calls st)))) else UB.
Proof.
  intros HI HM HR. unfold steady_run in HR. set (s0 := mkSs sat0 sat0 false 0 (sp_init p) []) in HR.
  assert (pos_calls s0) as P0 by (split; [exact HI|split; [reflexivity|intros c []]]).
  assert (conv_time (ss_calls s0) < IZR (2 ^ 31))%R as T0 by (change (conv_time (ss_calls s0)) with 0%R; apply IZR_lt; reflexivity).
  destruct (loop_dump cfg p pv tr press file HM _ s0 st P0 T0 HR) as (A & _ & B). split; [exact A|]. exact B.
Qed.
Lemma dumps_for cfg press : forall suf pre, (forall c, In c (pre ++ suf) -> (0 < tc_step c)%R) -> Forall2 (step_for cfg press (pre ++ suf)) (dumps cfg press (conv_time pre) (zlen pre) suf) (converged (zlen pre) suf).
Proof.
  induction suf as [|c suf IH]; intros pre HP; [constructor|]. cbn [dumps converged]. assert (pre ++ c :: suf = (pre ++ [c]) ++ suf) as EA by (rewrite <- app_assoc; reflexivity).
  assert (zlen (pre ++ [c]) = zlen pre + 1) as EL by (rewrite zlen_app; reflexivity). pose proof (IH (pre ++ [c]) ltac:(rewrite <- EA; exact HP)) as H. rewrite <- EA, EL, conv_app, conv_one in H. destruct (tc_conv c) eqn:EC.
  - constructor; [|exact H]. unfold step_for. cbn [fst snd].
    assert (conv_time (firstn (Z.to_nat (zlen pre + 1)) (pre ++ c :: suf)) = conv_time pre + tc_step c)%R as ->.
    { rewrite EA, <- EL. unfold zlen at 1. rewrite Nat2Z.id, firstn_app, Nat.sub_diag, firstn_all. cbn [firstn]. rewrite app_nil_r, conv_app, conv_one, EC. reflexivity. }
    exists (Int_part (conv_time pre + tc_step c)). split; [apply int_part_spec|reflexivity].
  - rewrite Rplus_0_r in H. exact H.
Qed.
Lemma converged_dumps cfg press : forall calls t k, map fst (dumps cfg press t k calls) = map fst (converged k calls).
Proof. induction calls as [|c r IH]; intros t k; [reflexivity|]. cbn [dumps converged]. destruct (tc_conv c); cbn [map fst]; rewrite IH; reflexivity. Qed.
Lemma dumps_order cfg press : forall calls t k, in_order (dumps cfg press t k calls).
Proof.
  unfold in_order. induction calls as [|c r IH]; intros t k; cbn [dumps]; [constructor|]. destruct (tc_conv c); [|apply IH]. constructor; [apply IH|]. rewrite Forall_forall. intros e He. apply dumps_range in He. cbn. lia.
Qed.
Lemma order_app a b : in_order a -> in_order b -> (forall x y, In x a -> In y b -> fst x < fst y) -> in_order (a ++ b).
Proof.
  unfold in_order. induction 1 as [|x t H1 IH H2]; intros HB H; [exact HB|]. cbn [app]. constructor; [apply IH; [exact HB|intros y z Hy Hz; apply H; [right; exact Hy|exact Hz]]|]. rewrite Forall_forall in *. intros y Hy. apply in_app_iff in Hy. destruct Hy as [Hy|Hy]; [apply H2; exact Hy|apply H; [left; reflexivity|exact Hy]].
Qed.
(* the file after a run *)
Lemma dump_ok cfg p pv tr sat0 press file st : (0 < sp_init p)%R -> (0 < sp_max_step p)%R -> in_order file -> steady_run p pv tr sat0 = Ok st ->
  ((conv_time (ss_calls st) < IZR (2 ^ 31))%R -> exists d new, dump_run cfg p pv tr sat0 press file = Ok d /\ d_ss d = st /\ d_file d = kept (ss_calls st) file ++ new /\ in_order (d_file d) /\ Forall2 (step_for cfg press (ss_calls st)) new (converged 0 (ss_calls st))) /\
  ((IZR (2 ^ 31) <= conv_time (ss_calls st))%R -> dump_run cfg p pv tr sat0 press file = UB).
Proof.
  intros HI HM HO HR. destruct (run_dump cfg p pv tr sat0 press file st HI HM HR) as ((_ & _ & P3) & E). rewrite E. split; intros HT; destruct (Rltb_spec (conv_time (ss_calls st)) (IZR (2 ^ 31))); try lra; [|reflexivity].
  set (new := dumps cfg press 0 0 (ss_calls st)). exists (mkD st (conv_time (ss_calls st)) (joined file new)), new. split; [reflexivity|]. split; [reflexivity|]. cbn [d_file].
  assert (joined file new = kept (ss_calls st) file ++ new) as EJ.
  { pose proof (converged_dumps cfg press (ss_calls st) 0%R 0) as EM. fold new in EM. unfold kept, joined. destruct new as [|e t]; destruct (converged 0 (ss_calls st)) as [|[k c] l]; cbn [map] in EM; try discriminate; [rewrite app_nil_r; reflexivity|]. injection EM as EM _. cbn [fst] in EM. rewrite EM, open_before by exact HO. reflexivity. }
  split; [exact EJ|]. split.
  - rewrite EJ. pose proof (converged_dumps cfg press (ss_calls st) 0%R 0) as EM. fold new in EM. pose proof (dumps_order cfg press (ss_calls st) 0%R 0) as ON. fold new in ON. unfold kept. destruct (converged 0 (ss_calls st)) as [|[k c] l].
    + destruct new; [rewrite app_nil_r; exact HO|discriminate].
    + apply order_app; [apply before_order; exact HO|exact ON|]. intros x y Hx Hy. apply before_in in Hx. destruct new as [|e t]; [destruct Hy|]. injection EM as EM _. inversion ON as [|? ? _ H2]; subst. destruct Hy as [<-|Hy]; [lia|]. rewrite Forall_forall in H2. specialize (H2 y Hy). lia.
  - apply (dumps_for cfg press (ss_calls st) []). exact P3.
Qed.
(* the start of the simulation in the headers *)
Lemma start_date cfg press calls e kc start elapsed : step_for cfg press calls e kc -> In (RDoubhead start elapsed) (snd e) ->
  (IZR start_2012 - 1 < start <= IZR start_2012)%R /\ (start = IZR start_2012 <-> exists z, elapsed = IZR z).
Proof.
  intros (z & Hz & ->). cbn zeta in *. set (t := conv_time _) in *. clearbody t. generalize start_2012. intros B. cbn [snd In]. intros [K|[K|[K|[K|[K|[K|[]]]]]]]; try discriminate. injection K as <- <-. rewrite plus_IZR. split; [lra|]. split.
  - intros H. exists z. lra.
  - intros (y & ->). destruct Hz as (H1 & H2). apply le_IZR in H1. rewrite <- plus_IZR in H2. apply lt_IZR in H2. assert (y = z) by lia. subst y. ring.
Qed.
(* ---- with the default parameters *)
Lemma swing_overflow : exists st, steady_run default_params [1]%R swing [1 / 2]%R = Ok st /\ (IZR (2 ^ 31) <= conv_time (ss_calls st))%R.
Proof.
  destruct (steady_ok default_params [1]%R swing [1 / 2]%R eq_refl ltac:(rewrite Rsum_cons, Rsum_nil; lra) ltac:(intros; reflexivity) ltac:(cbn; lra) ltac:(cbn; lra)) as (st & E & L1 & L2 & HC & HS & HT & HF). cbn zeta in *. exists st. split; [exact E|]. set (calls := ss_calls st) in *.
  assert (forall k c, zget calls k = Some c -> zlen (firstn (Z.to_nat k) calls) = k) as HL.
  { intros k c Hk. apply zget_Some_range in Hk. unfold zlen in *. rewrite firstn_length. lia. }
  assert (forall k c, zget calls k = Some c -> tc_conv c = true /\ tc_out c = [if Z.even k then 101 / 200 else 1 / 2]%R) as HO.
  { intros k c Hk. destruct (HC k c Hk) as (H1 & _). unfold swing in H1. rewrite (HL k c Hk) in H1. injection H1 as <- <-. split; reflexivity. }
  assert (forall k c, zget calls k = Some c -> tc_in c = [if Z.even k then 1 / 2 else 101 / 200]%R) as HIn.
  { intros k c Hk. destruct (HC k c Hk) as (_ & -> & _). pose proof (zget_Some_range _ _ _ Hk) as HR. destruct (Z.eq_dec k 0) as [->|NK]; [reflexivity|].
    destruct (zget_in_range calls (k - 1) ltac:(lia)) as (b & EB).
    destruct (HO _ _ EB) as (_ & OB). assert (firstn (Z.to_nat k) calls = firstn (Z.to_nat (k - 1)) calls ++ [b]) as ->.
    { replace (Z.to_nat k) with (S (Z.to_nat (k - 1))) by lia. rewrite zget_nth in EB by lia. clear -EB. revert EB. generalize (Z.to_nat (k - 1)). generalize calls. clear. intros l n. revert l. induction n as [|n IH]; intros [|x l]; cbn [nth_error]; try discriminate; [intros [= <-]; reflexivity|]. intros H. change (x :: firstn (S n) l = x :: (firstn n l ++ [b])). rewrite (IH l H). reflexivity. }
    unfold sat_after. rewrite map_app. cbn [map]. rewrite last_last, OB. replace (Z.even (k - 1)) with (negb (Z.even k)) by (rewrite Z.even_sub; cbn; destruct (Z.even k); reflexivity). destruct (Z.even k); reflexivity. }
  assert (forall k c d, zget calls k = Some c -> change_of default_params [1]%R c d -> d = (1 / 200)%R) as HD.
  { intros k c d Hk Hd. destruct (HO _ _ Hk) as (_ & OB). pose proof (HIn _ _ Hk) as IB. unfold change_of in Hd. cbn [default_params sp_maxdiff] in Hd. destruct Hd as (D1 & D2 & D3). rewrite OB, IB in D2, D3. change (zlen [1]%R) with 1 in *.
    assert (Rabs (nthR [if Z.even k then 101 / 200 else 1 / 2] 0 - nthR [if Z.even k then 1 / 2 else 101 / 200] 0) = 1 / 200)%R as EA.
    { change (nthR [if Z.even k then 101 / 200 else 1 / 2]%R 0) with (if Z.even k then 101 / 200 else 1 / 2)%R. change (nthR [if Z.even k then 1 / 2 else 101 / 200]%R 0) with (if Z.even k then 1 / 2 else 101 / 200)%R. destruct (Z.even k); [rewrite Rabs_pos_eq; lra|rewrite Rabs_left; lra]. }
    pose proof (D2 0 ltac:(lia)) as D4. rewrite EA in D4. destruct D3 as [D3|(i & Hi & D3)]; [lra|]. assert (i = 0) by lia. subst i. rewrite EA in D3. exact D3. }
  assert (forall n k c, k = Z.of_nat n -> k <= 12 -> zget calls k = Some c -> tc_step c = (864000 * 2 ^ n)%R) as HSt.
  { induction n as [|n IH]; intros k c Ek K12 Hk.
    - destruct (HC k c Hk) as (_ & _ & _ & H0 & _). rewrite (H0 ltac:(lia)). cbn. lra.
    - pose proof (zget_Some_range _ _ _ Hk) as HR. destruct (HC k c Hk) as (_ & _ & _ & _ & HN). destruct (zget_in_range calls (k - 1) ltac:(lia)) as (b & EB).
      destruct (HN b EB) as (NS & _). unfold next_step in NS. rewrite (proj1 (HO _ _ EB)) in NS. destruct NS as (d & Hd & NS). rewrite (HD _ _ _ EB Hd) in NS. pose proof (IH (k - 1) b ltac:(lia) ltac:(lia) EB) as SB. cbn [default_params sp_dt_tol sp_max_step] in NS. destruct NS as [(_ & ->)|(NS & _)]; [|lra]. rewrite SB.
      assert (2 ^ n <= 2 ^ 11)%R as PN by (apply Rle_pow; [lra|lia]). rewrite Rmin_right by (cbn in *; lra). cbn [pow]. ring. }
  assert (13 <= zlen calls) as H13.
  { destruct (Z_lt_le_dec (zlen calls) 13) as [L|L]; [exfalso|exact L]. destruct (ss_stat st) eqn:ES.
    - destruct (proj1 HT eq_refl) as (c & Hc & (_ & d & Hd & HS2)). rewrite (HD _ _ _ Hc Hd) in HS2. pose proof (zget_Some_range _ _ _ Hc) as HR. rewrite (HSt (Z.to_nat (zlen calls - 1)) (zlen calls - 1) c ltac:(lia) ltac:(lia) Hc) in HS2. cbn [default_params sp_year sp_change] in HS2.
      assert (2 ^ Z.to_nat (zlen calls - 1) <= 2 ^ 11)%R as PN by (apply Rle_pow; [lra|lia]). assert (0 < 2 ^ Z.to_nat (zlen calls - 1))%R as PP by (apply pow_lt; lra). set (q := (2 ^ Z.to_nat (zlen calls - 1))%R) in *.
      apply (Rmult_lt_compat_r (864000 * q)) in HS2; [|lra]. unfold Rdiv in HS2 at 1. rewrite Rmult_assoc, Rinv_l in HS2 by lra. cbn in PN. lra.
    - specialize (HF eq_refl). cbn in HF. lia. }
  destruct (zget_in_range calls 12 ltac:(lia)) as (c & EC).
  pose proof (HSt 12%nat 12 c eq_refl ltac:(lia) EC) as SC. pose proof (zget_In _ _ _ EC) as InC.
  assert (forall x, In x calls -> (0 < tc_step x)%R) as PX. { intros x Hx. apply In_zget in Hx. destruct Hx as (k & _ & Hk). apply (HC k x Hk). }
  assert (tc_step c <= conv_time calls)%R as GE.
  { clear -InC PX HO EC. pose proof (proj1 (HO 12 c EC)) as CC. clear HO EC. unfold conv_time. induction calls as [|x l IH]; [destruct InC|]. cbn [filter]. assert (forall y, In y l -> (0 < tc_step y)%R) as PL by (intros y Hy; apply PX; right; exact Hy).
    assert (0 <= Rsum (map tc_step (filter tc_conv l)))%R as NN by (apply (conv_nonneg l PL)). pose proof (PX x (or_introl eq_refl)). destruct InC as [->|InC]; [rewrite CC; cbn [map]; rewrite Rsum_cons; lra|]. specialize (IH InC PL). destruct (tc_conv x); cbn [map]; [rewrite Rsum_cons|]; lra. }
  rewrite SC in GE. change (2 ^ 31) with 2147483648. cbn in GE. lra.
Qed.
Lemma swing_dump cfg press file : (exists st, steady_run default_params [1]%R swing [1 / 2]%R = Ok st) /\ dump_run cfg default_params [1]%R swing [1 / 2]%R press file = UB.
Proof.
  destruct swing_overflow as (st & E & HT). split; [exists st; exact E|]. destruct (run_dump cfg default_params [1]%R swing [1 / 2]%R press file st ltac:(cbn; lra) ltac:(cbn; lra) E) as (_ & ->). destruct (Rltb_spec (conv_time (ss_calls st)) (IZR (2 ^ 31))); [lra|reflexivity].
Qed.
(* ---- name and pressures *)
Lemma name_text dec s dir pd : (0 <= dir <= 2 -> dump_name dec s dir pd = Ok ("ecldump-steadystate-" ++ dec s ++ "-" ++ code_text (letter dir) ++ "-" ++ dec pd)%string) /\ (~ (0 <= dir <= 3) -> dump_name dec s dir pd = UB).
Proof.
  split; intros H.
  - assert (dir = 0 \/ dir = 1 \/ dir = 2) as [-> | [-> | ->]] by lia; reflexivity.
  - unfold dump_name, direction_text. rewrite !(proj2 (Z.eqb_neq _ _)) by lia. reflexivity.
Qed.
Lemma pressures_ok n cells : 0 <= n -> NoDup (map fst cells) -> (forall i p, In (i, p) cells -> 0 <= i < n) -> exists v, cell_pressures n cells = Ok v /\ zlen v = n /\ forall i p, In (i, p) cells -> zget v i = Some p.
Proof.
  intros Hn ND HR. unfold cell_pressures.
  assert (forall (cells : list (Z * R)) (w : list R), zlen w = n -> NoDup (map fst cells) -> (forall i p, In (i, p) cells -> 0 <= i < n) ->
    exists v, foldM (fun v c => rset v (fst c) (snd c)) cells w = Ok v /\ zlen v = n /\ (forall i p, In (i, p) cells -> zget v i = Some p) /\ forall i, ~ In i (map fst cells) -> zget v i = zget w i) as G.
  { clear ND HR cells. induction cells as [|[i p] t IH]; intros w LW ND HR.
    - exists w. split; [reflexivity|]. split; [exact LW|]. split; [intros i p []|reflexivity].
    - cbn [map fst] in ND. apply NoDup_cons_iff in ND. destruct ND as (N1 & N2). cbn [foldM fst snd]. destruct (rset_exists w i p ltac:(rewrite LW; apply (HR i p); left; reflexivity)) as (w' & E & _). rewrite E. cbn [bind]. destruct (rset_zget _ _ _ _ E) as (Z1 & Z2 & Z3).
      destruct (IH w' ltac:(lia) N2 ltac:(intros j q Hj; apply (HR j q); right; exact Hj)) as (v & E2 & L & G1 & G2). exists v. split; [exact E2|]. split; [exact L|]. split.
      + intros j q [[= <- <-]|Hj]; [rewrite G2 by exact N1; exact Z2|apply G1; exact Hj].
      + intros j Hj. cbn [map fst In] in Hj. rewrite G2 by tauto. apply Z3. intros ->. tauto. }
  destruct (G cells (zrepeat 0%R n) (zlen_zrepeat _ _ Hn) ND HR) as (v & E & L & G1 & _). exists v. auto.
Qed.
Lemma late_case : exists st c, steady_run (mkSp 1 2 4 (/ 100) (/ 100) true 1) [1; 1]%R late [1; 0]%R = Ok st /\ (conv_time (ss_calls st) < IZR (2 ^ 31))%R /\ converged 0 (ss_calls st) = [(1, c)] /\ tc_out c = [1; 0]%R.
Proof.
  destruct (steady_ok (mkSp 1 2 4 (/ 100) (/ 100) true 1) [1; 1]%R late [1; 0]%R eq_refl ltac:(rewrite !Rsum_cons, Rsum_nil; lra) ltac:(intros h s dt H; exact H) ltac:(cbn; lra) ltac:(cbn; lra)) as (st & E & L1 & L2 & HC & HS & HT & HF). cbn zeta in *. cbn [sp_init sp_max_step sp_max_it] in *.
  destruct (ss_calls st) as [|a [|b [|? l]]] eqn:EC.
  - destruct (ss_stat st) eqn:ES; [|specialize (HF eq_refl); discriminate]. destruct (proj1 HT eq_refl) as (c & Hc & _). discriminate.
  - destruct (ss_stat st) eqn:ES; [|specialize (HF eq_refl); discriminate]. destruct (proj1 HT eq_refl) as (c & Hc & (CC & _)). destruct (HC 0 a eq_refl) as (HA & _). change (Some a = Some c) in Hc. injection Hc as <-. cbn in HA. injection HA as A1 _. congruence.
  - destruct (HC 0 a eq_refl) as (HA & IA & _). destruct (HC 1 b eq_refl) as (HB & IB & SB & _). unfold sat_after in IA, IB. cbn in HA, HB, IA, IB. injection HA as A1 A2. injection HB as B1 B2. exists st, b. rewrite EC. split; [exact E|]. split.
    + unfold conv_time. cbn [filter]. rewrite <- A1, <- B1. cbn [map]. rewrite Rsum_cons, Rsum_nil. rewrite Rmax_right in SB by lra. change (2 ^ 31) with 2147483648. lra.
    + cbn [converged]. rewrite <- A1, <- B1. split; [reflexivity|]. change (Pos.to_nat 1) with 1%nat in IB. cbn [firstn map last] in IB. congruence.
  - exfalso. unfold zlen in L2. cbn [length] in L2. lia.
Qed.
Lemma overflow_iff cfg p pv tr sat0 press file st : (0 < sp_init p)%R -> (0 < sp_max_step p)%R -> steady_run p pv tr sat0 = Ok st ->
  (dump_run cfg p pv tr sat0 press file = UB <-> (IZR (2 ^ 31) <= conv_time (ss_calls st))%R) /\ dump_run cfg p pv tr sat0 press file <> Throw.
Proof.
  intros HI HM HR. destruct (run_dump cfg p pv tr sat0 press file st HI HM HR) as (_ & ->). destruct (Rltb_spec (conv_time (ss_calls st)) (IZR (2 ^ 31))); split; try discriminate; split; try discriminate; intros; try lra; reflexivity.
Qed.
