From Verif Require Import BaseFacts RBaseFacts Steady_Proofs Impl_Proofs Sim_Proofs Sim_Spec.
From Coq Require Import Lra Lia.
Open Scope Z_scope.

(* ------- time loop *)
Lemma max_change_ok s old : zlen old = zlen s -> exists m, max_change s old = Ok m /\ is_max_change m (zlen s) s old.
Proof.
  intros L. unfold max_change. set (n := zlen s). 
  assert (H : forall l done m, (forall c, In c l -> 0 <= c < n) -> (forall c, In c done -> 0 <= c < n) -> (0 <= m)%R -> (forall c, In c done -> (Rabs (nthR s c - nthR old c) <= m)%R) -> (m = 0%R \/ exists c, In c done /\ m = Rabs (nthR s c - nthR old c)) ->
    exists m', foldM (fun m c => let* a := rget s c in let* b := rget old c in Ok (smax m (Rabs (a - b)))) l m = Ok m' /\ (0 <= m')%R /\ (forall c, In c (done ++ l) -> (Rabs (nthR s c - nthR old c) <= m')%R) /\ (m' = 0%R \/ exists c, 0 <= c < n /\ m' = Rabs (nthR s c - nthR old c))).
  { induction l as [|c l IH]; intros done m B D M U E.
    - exists m. split; [reflexivity|]. split; [exact M|]. rewrite app_nil_r. split; [exact U|]. destruct E as [E|(c & I & E)]; [now left|right; exists c; auto].
    - cbn [foldM]. pose proof (B c (or_introl eq_refl)) as Hc. rewrite (proj2 (rget_Ok s c _) (zget_nthR s c Hc)), (proj2 (rget_Ok old c _) (zget_nthR old c ltac:(lia))). cbn [bind]. rewrite smax_Rmax.
      pose proof (Rmax_l m (Rabs (nthR s c - nthR old c))) as M1. pose proof (Rmax_r m (Rabs (nthR s c - nthR old c))) as M2.
      destruct (IH (done ++ [c]) (Rmax m (Rabs (nthR s c - nthR old c)))) as (m' & Em & A & U' & X).
      + intros x I. apply B. now right.
      + intros x I. apply in_app_or in I. destruct I as [I|[<-|[]]]; [now apply D|exact Hc].
      + lra.
      + intros x I. apply in_app_or in I. destruct I as [I|[<-|[]]]; [specialize (U x I); lra|exact M2].
      + unfold Rmax. destruct (Rle_dec m _); [right; exists c; split; [apply in_or_app; right; now left|reflexivity]|]. destruct E as [E|(x & I & E)]; [now left|right; exists x; split; [apply in_or_app; now left|exact E]].
      + exists m'. split; [exact Em|]. split; [exact A|]. split; [|exact X]. intros x I. apply U'. rewrite <- app_assoc. exact I. }
  destruct (H (zrange 0 n) [] 0%R) as (m & E & A & U & X).
  - intros c I. apply In_zrange in I. exact I.
  - intros c [].
  - lra.
  - intros c [].
  - now left.
  - exists m. split; [exact E|]. split; [exact A|]. split; [|exact X]. intros i Hi. apply U, In_zrange. exact Hi.
Qed.
Lemma zget_cons_pos {A} (x : A) l i : 0 < i -> zget (x :: l) i = zget l (i - 1).
Proof. intros H. unfold zget. rewrite (proj2 (Z.ltb_ge i 0)), (proj2 (Z.ltb_ge (i - 1) 0)) by lia. replace (Z.to_nat i) with (Datatypes.S (Z.to_nat (i - 1))) by lia. reflexivity. Qed.
Lemma before_cons s x out i : 0 < i -> before s (x :: out) i = before (fst x) out (i - 1).
Proof.
  intros H. unfold before. rewrite (proj2 (Z.eqb_neq i 0)) by lia. destruct (Z.eqb_spec (i - 1) 0) as [E|E]; [rewrite E; reflexivity|]. rewrite zget_cons_pos by lia. reflexivity.
Qed.
Lemma loop_ok {F} (flow : Z -> list R -> res F) transport n : (forall i s f s', transport i s f = Ok s' -> zlen s' = zlen s) -> forall i s, let r := sim_loop flow transport i n s s in
  (forall j o, zget (fst r) j = Some o -> exists f, flow (i + j) (before s (fst r) j) = Ok f /\ transport (i + j) (before s (fst r) j) f = Ok (fst o) /\ is_max_change (snd o) (zlen (fst o)) (fst o) (before s (fst r) j)) /\
  (match snd r with
   | Ok final => zlen (fst r) = Z.of_nat n /\ final = before s (fst r) (zlen (fst r))
   | _ => zlen (fst r) < Z.of_nat n /\ forall f s', flow (i + zlen (fst r)) (before s (fst r) (zlen (fst r))) = Ok f -> transport (i + zlen (fst r)) (before s (fst r) (zlen (fst r))) f <> Ok s'
   end).
Proof.
  intros K. induction n as [|n IH]; intros i s r.
  - subst r. cbn [sim_loop fst snd]. split; [intros j o E; apply zget_Some_range in E; unfold zlen in E; cbn [length] in E; lia|]. split; reflexivity.
  - subst r. cbn [sim_loop]. destruct (flow i s) as [f| |] eqn:Ef; cbn [bind].
    + destruct (transport i s f) as [s1| |] eqn:Et; cbn [bind].
      * pose proof (K _ _ _ _ Et) as L. destruct (max_change_ok s1 s (eq_sym L)) as (m & Em & Hm). rewrite Em. cbn [bind fst snd]. specialize (IH (i + 1) s1). cbv zeta in IH. destruct IH as [A B]. set (r := sim_loop flow transport (i + 1) n s1 s1) in *. split.
        -- intros j o Ej. pose proof (zget_Some_range _ _ _ Ej) as Bj. destruct (Z.eq_dec j 0) as [->|Nj].
           ++ unfold zget in Ej. cbn in Ej. injection Ej as <-. cbn [fst snd]. change (before s ((s1, m) :: fst r) 0) with s. rewrite Z.add_0_r. exists f. auto.
           ++ rewrite zget_cons_pos in Ej by lia. destruct (A _ _ Ej) as (g & G1 & G2 & G3). rewrite before_cons by lia. cbn [fst]. replace (i + j) with (i + 1 + (j - 1)) by lia. exists g. auto.
        -- rewrite zlen_cons. pose proof (zlen_nonneg (fst r)). rewrite before_cons by lia. cbn [fst]. replace (1 + zlen (fst r) - 1) with (zlen (fst r)) by lia. replace (i + (1 + zlen (fst r))) with (i + 1 + zlen (fst r)) by lia. destruct (snd r); [destruct B; split; [lia|assumption]|destruct B; split; [lia|assumption]|destruct B; split; [lia|assumption]].
      * cbn [fst snd]. split; [intros j o E; apply zget_Some_range in E; unfold zlen in E; cbn [length] in E; lia|]. change (zlen (@nil (list R * R))) with 0. rewrite Z.add_0_r. change (before s [] 0) with s. split; [lia|]. congruence.
      * cbn [fst snd]. split; [intros j o E; apply zget_Some_range in E; unfold zlen in E; cbn [length] in E; lia|]. change (zlen (@nil (list R * R))) with 0. rewrite Z.add_0_r. change (before s [] 0) with s. split; [lia|]. congruence.
    + cbn [fst snd]. split; [intros j o E; apply zget_Some_range in E; unfold zlen in E; cbn [length] in E; lia|]. change (zlen (@nil (list R * R))) with 0. rewrite Z.add_0_r. change (before s [] 0) with s. split; [lia|]. congruence.
    + cbn [fst snd]. split; [intros j o E; apply zget_Some_range in E; unfold zlen in E; cbn [length] in E; lia|]. change (zlen (@nil (list R * R))) with 0. rewrite Z.add_0_r. change (before s [] 0) with s. split; [lia|]. congruence.
Qed.
Lemma run_steps {F} (flow : Z -> list R -> res F) transport s i o : (forall dt j sat f sat', transport dt j sat f = Ok sat' -> zlen sat' = zlen sat) -> zget (fst (sim_run flow transport s)) i = Some o ->
  exists f, flow i (before (si_sat s) (fst (sim_run flow transport s)) i) = Ok f /\ transport (si_step s) i (before (si_sat s) (fst (sim_run flow transport s)) i) f = Ok (fst o) /\
    is_max_change (snd o) (zlen (fst o)) (fst o) (before (si_sat s) (fst (sim_run flow transport s)) i).
Proof.
  intros K E. unfold sim_run in *. destruct (loop_ok flow (transport (si_step s)) (Z.to_nat (si_steps s)) (K (si_step s)) 0 (si_sat s)) as [A _]. cbv zeta in A. specialize (A i o E). rewrite Z.add_0_l in A. exact A.
Qed.
Lemma run_end {F} (flow : Z -> list R -> res F) transport s out final : (forall dt j sat f sat', transport dt j sat f = Ok sat' -> zlen sat' = zlen sat) -> sim_run flow transport s = (out, Ok final) ->
  zlen out = Z.max 0 (si_steps s) /\ final = before (si_sat s) out (zlen out).
Proof.
  intros K E. unfold sim_run in E. destruct (loop_ok flow (transport (si_step s)) (Z.to_nat (si_steps s)) (K (si_step s)) 0 (si_sat s)) as [_ B]. cbv zeta in B. rewrite E in B. cbn [fst snd] in B. destruct B as [B1 B2]. split; [lia|exact B2].
Qed.
Lemma run_failure {F} (flow : Z -> list R -> res F) transport s out e : (forall dt j sat f sat', transport dt j sat f = Ok sat' -> zlen sat' = zlen sat) -> sim_run flow transport s = (out, e) -> (forall final, e <> Ok final) ->
  zlen out < si_steps s /\ forall f sat', flow (zlen out) (before (si_sat s) out (zlen out)) = Ok f -> transport (si_step s) (zlen out) (before (si_sat s) out (zlen out)) f <> Ok sat'.
Proof.
  intros K E N0. unfold sim_run in E. destruct (loop_ok flow (transport (si_step s)) (Z.to_nat (si_steps s)) (K (si_step s)) 0 (si_sat s)) as [_ B]. cbv zeta in B. rewrite E in B. cbn [fst snd] in B. rewrite Z.add_0_l in B. destruct e; [exfalso; now apply (N0 a)| |]; pose proof (zlen_nonneg out); destruct B as [B1 B2]; (split; [lia|exact B2]).
Qed.

(* ------- grid and properties *)
Lemma setup_eclipse_ok md j p f : gp_format p = Some "eclipse"%string -> gp_file p = Some f -> gp_ecl p <> Some true ->
  exists s, setup_grid md j p = Ok s /\
    (let usej := match gp_usej p with Some b => b | None => j end in
     let e := setup_eclipse f (given (gp_periodic p) false) (given (gp_turn p) false) (given (gp_clip p) false) (given (gp_unique p) false)
       (match gp_threshold p with Some t => t * md | None => 0 end)%R (given (gp_rocks p) "no_list"%string) usej
       (if usej then match gp_sigma p with Some x => x | None => 1 end else 1)%R (if usej then match gp_theta p with Some x => x | None => 0 end else 0)%R in
     su_grid s = su_grid e /\ su_props s = su_props e /\ su_unique s = su_unique e /\
     (su_visc s = su_visc e <-> gp_visc1 p = None /\ gp_visc2 p = None) /\
     (forall v, su_visc s = Some v -> (forall x, gp_visc1 p = Some x -> fst v = x) /\ (gp_visc1 p = None -> fst v = (1 / 1000)%R) /\ (forall x, gp_visc2 p = Some x -> snd v = x) /\ (gp_visc2 p = None -> snd v = (3 / 1000)%R))).
Proof.
  intros H1 H2 H3. unfold setup_grid. rewrite H1, H2. cbn [given required bind]. change (String.eqb "eclipse" "eclipse") with true. cbn iota. assert (E : given (gp_ecl p) false = false) by (destruct (gp_ecl p) as [[]|]; [congruence|reflexivity|reflexivity]). rewrite E. cbn [bind fst snd].
  eexists. split; [reflexivity|]. cbv zeta. unfold setup_eclipse. cbn [su_grid su_props su_unique su_visc]. split; [reflexivity|]. split.
  { unfold given. destruct (gp_threshold p); [reflexivity|]. now rewrite Rmult_0_l. }
  split; [reflexivity|]. split.
  - destruct (gp_visc1 p), (gp_visc2 p); split; try discriminate; try tauto; intros [? ?]; discriminate.
  - intros v Hv. destruct (gp_visc1 p) as [a|] eqn:Ea, (gp_visc2 p) as [b|] eqn:Eb; try discriminate; injection Hv as <-; cbn [given fst snd]; repeat split; intros; congruence.
Qed.
Lemma setup_outcome md j p : (exists s, setup_grid md j p = Ok s) \/ setup_grid md j p = Throw.
Proof. unfold setup_grid. destruct (String.eqb _ "eclipse"); [destruct (gp_file p); [cbn [required bind]; destruct (given (gp_ecl p) false); [now right|left; eexists; reflexivity]|now right]|]. destruct (String.eqb _ "cartesian"); [left; eexists; reflexivity|now right]. Qed.
Lemma setup_throws md j p : setup_grid md j p = Throw <-> 
  (gp_format p = Some "eclipse"%string /\ (gp_file p = None \/ gp_ecl p = Some true)) \/ (exists f, gp_format p = Some f /\ f <> "eclipse"%string /\ f <> "cartesian"%string).
Proof.
  unfold setup_grid. destruct (gp_format p) as [f|]; cbn [given].
  - destruct (String.eqb_spec f "eclipse") as [->|N1].
    + destruct (gp_file p); cbn [required bind].
      * destruct (gp_ecl p) as [[]|]; cbn [given bind]; split; auto; try discriminate; intros [[_ [Q|Q]]|(f & Q & N1 & _)]; congruence.
      * split; auto.
    + destruct (String.eqb_spec f "cartesian") as [->|N2]; cbn [bind].
      * split; [discriminate|]. intros [[Q _]|(f & Q & N2 & N3)]; congruence.
      * split; [|reflexivity]. intros _. right. exists f. auto.
  - change (String.eqb "cartesian" "eclipse") with false. change (String.eqb "cartesian" "cartesian") with true. cbn [bind]. split; [discriminate|]. intros [[Q _]|(f & Q & _)]; discriminate.
Qed.
Lemma setup_cartesian md j p : gp_format p = None \/ gp_format p = Some "cartesian"%string -> exists dims sizes poro perm, setup_grid md j p = Ok (mkSetup (Cartesian dims sizes) None (Uniform poro (perm * md)) (given (gp_unique p) false)) /\
  Forall2 (fun o n => o = Some n \/ o = None /\ n = 1) (gp_dims p) dims /\ Forall2 (fun o x => o = Some x \/ o = None /\ x = 1%R) (gp_sizes p) sizes /\
  (gp_poro p = Some poro \/ gp_poro p = None /\ poro = (1 / 5)%R) /\ (gp_perm p = Some perm \/ gp_perm p = None /\ perm = 100%R).
Proof.
  intros H. exists (map (fun o => given o 1) (gp_dims p)), (map (fun o => given o 1%R) (gp_sizes p)), (given (gp_poro p) (1 / 5)%R), (given (gp_perm p) 100%R). split.
  { unfold setup_grid. destruct H as [-> | ->]; reflexivity. }
  split; [|split; [|split]].
  - induction (gp_dims p) as [|o l IH]; constructor; [destruct o; cbn [given]; auto|exact IH].
  - induction (gp_sizes p) as [|o l IH]; constructor; [destruct o; cbn [given]; auto|exact IH].
  - destruct (gp_poro p); cbn [given]; auto.
  - destruct (gp_perm p); cbn [given]; auto.
Qed.
Lemma grids_agree md j p s : gp_format p <> None -> gp_clip p <> Some true -> setup_grid md j p = Ok s -> init_cp_grid p = Ok (su_grid s).
Proof.
  intros H1 H2. unfold setup_grid, init_cp_grid. destruct (gp_format p) as [f|]; [|congruence]. cbn [given required bind]. destruct (String.eqb f "eclipse").
  - destruct (gp_file p); cbn [required bind]; [|discriminate]. destruct (given (gp_ecl p) false); cbn [bind]; [discriminate|]. intros E. injection E as <-. cbn [su_grid fst]. destruct (gp_clip p) as [[]|]; [congruence|reflexivity|reflexivity].
  - destruct (String.eqb f "cartesian"); cbn [bind]; [|discriminate]. intros E. injection E as <-. reflexivity.
Qed.
Lemma clip_ignored : exists p s g, setup_grid 1%R false p = Ok s /\ init_cp_grid p = Ok g /\ su_grid s <> g.
Proof. exists (mkGparam (Some "eclipse"%string) (Some "a"%string) None (Some true) None None None None None None None None None [] [] None None None). do 2 eexists. split; [reflexivity|]. split; [reflexivity|]. cbn. discriminate. Qed.
Lemma cp_format_required p : gp_format p = None -> init_cp_grid p = Throw /\ forall md j, exists s, setup_grid md j p = Ok s.
Proof. intros H. unfold init_cp_grid. rewrite H. split; [reflexivity|]. intros md j. destruct (setup_cartesian md j p (or_introl H)) as (? & ? & ? & ? & E & _). eexists. exact E. Qed.

(* ------- comparison *)
Lemma too_far_close at_ rt a b : (too_far at_ rt a b = false <-> close at_ rt a b).
Proof.
  unfold too_far, close. rewrite smax_Rmax. pose proof (Rabs_pos a). pose proof (Rabs_pos b). pose proof (Rmax_l (Rabs a) (Rabs b)). pose proof (Rmax_r (Rabs a) (Rabs b)).
  destruct (Req_dec (Rmax (Rabs a) (Rabs b)) 0) as [Z0|Z0].
  - rewrite Z0, fdiv_None. split; [|reflexivity]. intros _. right. right.
    split; [destruct (Req_dec a 0) as [|Na]; [assumption|pose proof (Rabs_pos_lt a Na); lra]|destruct (Req_dec b 0) as [|Nb]; [assumption|pose proof (Rabs_pos_lt b Nb); lra]].
  - rewrite fdiv_Some by exact Z0. assert (P : (0 < Rmax (Rabs a) (Rabs b))%R) by lra. rewrite andb_false_iff, !Rltb_false. split.
    + intros [Q|Q]; [|now left]. right. left. apply (Rmult_le_compat_r _ _ _ (Rlt_le _ _ P)) in Q. unfold Rdiv in Q. rewrite Rmult_assoc, Rinv_l, Rmult_1_r in Q by lra. exact Q.
    + intros [Q|[Q|[Qa Qb]]]; [now right| |subst; rewrite Rabs_R0, Rmax_left in P by lra; lra]. left. apply (Rmult_le_reg_r _ _ _ P). unfold Rdiv. rewrite Rmult_assoc, Rinv_l, Rmult_1_r by lra. exact Q.
Qed.
Lemma compare_ok at_ rt f g : let a := flat_map line_numbers f in let b := flat_map line_numbers g in
  (compare_files at_ rt f g = Ok tt <-> zlen a = zlen b /\ forall i, 0 <= i < zlen a -> close at_ rt (nthR a i) (nthR b i)) /\ (compare_files at_ rt f g <> Ok tt -> compare_files at_ rt f g = Throw).
Proof.
  intros a b. unfold compare_files. fold a b. destruct (Z.eqb_spec (zlen a) (zlen b)) as [L|L]; cbn [negb]; [|split; [split; [discriminate|tauto]|reflexivity]].
  set (k := fun i => let* x := rget a i in let* y := rget b i in if too_far at_ rt x y then Throw else Ok tt).
  assert (K : forall i, 0 <= i < zlen a -> k i = if too_far at_ rt (nthR a i) (nthR b i) then Throw else Ok tt).
  { intros i Hi. unfold k. rewrite (proj2 (rget_Ok a i _) (zget_nthR a i Hi)), (proj2 (rget_Ok b i _) (zget_nthR b i ltac:(lia))). reflexivity. }
  assert (G : forall l, (forall i, In i l -> 0 <= i < zlen a) -> (exists us, mapM k l = Ok us /\ forall i, In i l -> too_far at_ rt (nthR a i) (nthR b i) = false) \/ (mapM k l = Throw /\ exists i, In i l /\ too_far at_ rt (nthR a i) (nthR b i) = true)).
  { induction l as [|i l IH]; intros Hl; [left; exists []; split; [reflexivity|intros i []]|]. cbn [mapM]. rewrite K by (apply Hl; now left). destruct (too_far at_ rt (nthR a i) (nthR b i)) eqn:E; cbn [bind]; [right; split; [reflexivity|exists i; split; [now left|exact E]]|].
    destruct (IH (fun j I => Hl j (or_intror I))) as [(us & Eu & H)|(Eu & j & I & H)]; rewrite Eu; cbn [bind].
    - left. eexists. split; [reflexivity|]. intros j [<-|I]; auto.
    - right. split; [reflexivity|]. exists j. split; [now right|exact H]. }
  destruct (G (zrange 0 (zlen a)) (fun i I => proj1 (In_zrange _ _ _) I)) as [(us & Eu & H)|(Eu & j & I & H)]; rewrite Eu; cbn [bind].
  - split; [|congruence]. split; [|reflexivity]. intros _. split; [exact L|]. intros i Hi. apply too_far_close, H, In_zrange. exact Hi.
  - split; [|reflexivity]. split; [discriminate|]. intros [_ Q]. apply In_zrange in I. pose proof (proj2 (too_far_close _ _ _ _) (Q j I)); congruence.
Qed.
Lemma comment_eqb w : String.eqb (substring 0 1 w) "#" = true <-> comment_word w.
Proof.
  unfold comment_word. destruct w as [|c t]; cbn [substring].
  - split; [discriminate|]. intros (t & E). discriminate.
  - assert (E : substring 0 0 t = ""%string) by (destruct t; reflexivity). rewrite E. rewrite String.eqb_eq. split; [intros Q; injection Q as ->; now exists t|intros (t' & Q); now injection Q as -> _].
Qed.
Lemma line_ok l : exists pre rest, l = pre ++ rest /\ line_numbers l = map snd pre /\ (forall w x, In (w, x) pre -> ~ comment_word w) /\ (rest = [] \/ exists w x t, rest = (w, x) :: t /\ comment_word w).
Proof.
  induction l as [|[w x] l IH]; [exists [], []; split; [reflexivity|]; split; [reflexivity|]; split; [intros w x []|now left]|]. cbn [line_numbers]. destruct (String.eqb (substring 0 1 w) "#") eqn:E.
  - exists [], ((w, x) :: l). split; [reflexivity|]. split; [reflexivity|]. split; [intros ? ? []|]. right. exists w, x, l. split; [reflexivity|now apply comment_eqb].
  - destruct IH as (pre & rest & E1 & E2 & E3 & E4). exists ((w, x) :: pre), rest. cbn [app map snd]. split; [now f_equal|]. split; [now f_equal|]. split; [|exact E4]. intros w' x' [Q|I]; [|now apply (E3 w' x')]. injection Q as -> ->. intros C. apply comment_eqb in C. congruence.
Qed.
Lemma compare_same at_ rt f : (0 <= at_)%R -> compare_files at_ rt f f = Ok tt.
Proof. intros H. apply compare_ok. split; [reflexivity|]. intros i Hi. left. rewrite Rminus_diag_eq by reflexivity. rewrite Rabs_R0. exact H. Qed.
Lemma compare_sym at_ rt f g : compare_files at_ rt f g = compare_files at_ rt g f.
Proof.
  destruct (compare_ok at_ rt f g) as [[A1 A2] A3]. destruct (compare_ok at_ rt g f) as [[B1 B2] B3]. cbv zeta in *.
  assert (Sy : forall u v, compare_files at_ rt u v = Ok tt -> compare_files at_ rt v u = Ok tt).
  { intros u v H. apply compare_ok in H. destruct H as [L H]. apply compare_ok. split; [now symmetry|]. intros i Hi. specialize (H i ltac:(lia)). unfold close in *. rewrite (Rabs_minus_sym (nthR (flat_map line_numbers v) i)), (Rmax_comm (Rabs (nthR (flat_map line_numbers v) i))). tauto. }
  destruct (compare_files at_ rt f g) as [[]| |] eqn:E; [symmetry; now apply Sy| |].
  - symmetry. apply B3. intros Q. apply Sy in Q. congruence.
  - specialize (A3 ltac:(discriminate)). discriminate.
Qed.

(* ------- what goes wrong with sources *)
Ltac nthc := cbv [nthR zget Z.ltb Z.compare Z.to_nat Pos.to_nat Pos.iter_op nth_error Nat.add]; lra.
Definition unit_box : block := mkBlock [0; 0; 0]%R [1; 1; 1]%R (Some 2%R).
Lemma in_unit c : sc_centre c = [1 / 2; 1 / 2; 1 / 2]%R -> in_block (Some unit_box) c.
Proof. intros E d Hd. cbn [unit_box bl_low bl_high]. rewrite E. assert (Q : d = 0 \/ d = 1 \/ d = 2) by lia. destruct Q as [->|[->| ->]]; nthc. Qed.
Lemma overlap_refuted : exists p cells t s', usable (sp_inj p) /\ usable (sp_prod p) /\ cells_ok cells /\ flex_sources p cells sim_new = Ok (t, s') /\ entry_sum (si_inj s') 0 <> nthR (si_psolver s') 0.
Proof.
  set (c := mkScell 0 1%R [1 / 2; 1 / 2; 1 / 2]%R). set (p := mkSparam None None None None None (Some unit_box) (Some unit_box)). assert (U : usable (Some unit_box)) by (split; [split; reflexivity|discriminate]).
  assert (C : cells_ok [c]). { intros i x E. pose proof (zget_Some_range _ _ _ E) as B. unfold zlen in B. cbn [length] in B. assert (i = 0) by lia. subst i. unfold zget in E. cbn in E. injection E as <-. split; reflexivity. }
  destruct (sources_ok p [c] sim_new U U C) as (ti & tp & s' & E & A & B & _). exists p, [c], (ti, tp), s'. repeat (split; [assumption|]). destruct (A 0 c eq_refl) as (A1 & _). rewrite A1 by (now apply in_unit).
  assert (Iu : in_block (Some unit_box) c) by now apply in_unit. rewrite (B 0 c 2%R 2%R eq_refl); [cbn; lra|intros _; cbn; lra|intros Q; now exfalso|intros _; cbn; lra|intros Q; now exfalso].
Qed.
Lemma stale_refuted : exists p1 p2 cells t1 s1 t2 s2, usable (sp_inj p1) /\ usable (sp_inj p2) /\ sp_prod p1 = None /\ sp_prod p2 = None /\ cells_ok cells /\
  flex_sources p1 cells sim_new = Ok (t1, s1) /\ flex_sources p2 cells s1 = Ok (t2, s2) /\ entry_sum (si_inj s2) 0 = 0%R /\ nthR (si_psolver s2) 0 = 2%R.
Proof.
  set (c := mkScell 0 1%R [1 / 2; 1 / 2; 1 / 2]%R). set (p1 := mkSparam None None None None None (Some unit_box) None). set (p2 := mkSparam None None None None None None None). assert (U : usable (Some unit_box)) by (split; [split; reflexivity|discriminate]).
  assert (C : cells_ok [c]). { intros i x E. pose proof (zget_Some_range _ _ _ E) as B. unfold zlen in B. cbn [length] in B. assert (i = 0) by lia. subst i. unfold zget in E. cbn in E. injection E as <-. split; reflexivity. }
  destruct (sources_ok p1 [c] sim_new U I C) as (ti & tp & s1 & E & A & B & _). destruct (sources_ok p2 [c] s1 I I C) as (ti2 & tp2 & s2 & E2 & A2 & B2 & _).
  exists p1, p2, [c], (ti, tp), s1, (ti2, tp2), s2. split; [exact U|]. split; [exact I|]. split; [reflexivity|]. split; [reflexivity|]. split; [exact C|]. split; [exact E|]. split; [exact E2|]. split.
  - rewrite (B2 0 c 0%R 0%R eq_refl); [lra|intros []|reflexivity|intros []|reflexivity].
  - destruct (A2 0 c eq_refl) as (_ & _ & A3). rewrite A3 by (intros []). destruct (A 0 c eq_refl) as (_ & A4 & _). rewrite A4; [cbn; lra|intros []|now apply in_unit].
Qed.
Lemma order_refuted : exists p cells t s', usable (sp_inj p) /\ usable (sp_prod p) /\ cells_ok cells /\ (forall c, In c cells -> in_block (sp_inj p) c -> ~ in_block (sp_prod p) c) /\ flex_sources p cells sim_new = Ok (t, s') /\ ~ in_order (si_inj s').
Proof.
  set (c := mkScell 0 1%R [3 / 2; 1 / 2; 1 / 2]%R). set (d := mkScell 1 1%R [1 / 2; 1 / 2; 1 / 2]%R). set (other := mkBlock [1; 0; 0]%R [2; 1; 1]%R (Some 2%R)). set (p := mkSparam None None None None None (Some unit_box) (Some other)).
  assert (U : usable (Some unit_box)) by (split; [split; reflexivity|discriminate]). assert (U2 : usable (Some other)) by (split; [split; reflexivity|discriminate]).
  assert (C : cells_ok [c; d]). { intros i x E. pose proof (zget_Some_range _ _ _ E) as B. unfold zlen in B. cbn [length] in B. assert (Q : i = 0 \/ i = 1) by lia. destruct Q as [->| ->]; unfold zget in E; cbn in E; injection E as <-; split; reflexivity. }
  assert (D : in_block (Some unit_box) d) by now apply in_unit.
  assert (D2 : in_block (Some other) c). { intros k Hk. cbn [other c bl_low bl_high sc_centre]. assert (Q : k = 0 \/ k = 1 \/ k = 2) by lia. destruct Q as [->|[->| ->]]; nthc. }
  destruct (sources_ok p [c; d] sim_new U U2 C) as (ti & tp & s' & E & _). exists p, [c; d], (ti, tp), s'. split; [exact U|]. split; [exact U2|]. split; [exact C|]. split.
  - intros x Ix I1 I2. specialize (I1 0 ltac:(lia)). specialize (I2 0 ltac:(lia)). cbn [p sp_inj sp_prod unit_box other bl_low bl_high] in I1, I2. change (nthR [0; 0; 0]%R 0) with 0%R in I1. change (nthR [1; 1; 1]%R 0) with 1%R in I1. change (nthR [1; 0; 0]%R 0) with 1%R in I2. lra.
  - split; [exact E|]. intros O. apply (proj1 (sources_order p [c; d] sim_new s' (ti, tp) U U2 C E)) with (c := d) (c' := c) in O; [cbn in O; lia|right; now left|now left|exact D|exact D2].
Qed.
Lemma init_ok p cells s t s' : sim_init p cells s = Ok (t, s') -> init_saturation p (zlen cells) = Ok (si_sat s') /\ si_steps s' = si_steps (init_control p s) /\ si_step s' = si_step (init_control p s) /\
  exists s0, si_psolver s0 = si_psolver s /\ flex_sources p cells s0 = Ok (t, s').
Proof.
  unfold sim_init. cbv zeta. destruct (init_saturation p (zlen cells)) as [sat| |]; cbn [bind]; try discriminate. intros E. set (s0 := mkSim _ _ sat _ _) in E. assert (K : si_sat s' = sat /\ si_steps s' = si_steps s0 /\ si_step s' = si_step s0).
  { unfold flex_sources in E. destruct (source_option (sp_inj p) _ _ _ _) as [a| |]; cbn [bind] in E; try discriminate. destruct (source_option (sp_prod p) _ _ _ _) as [b| |]; cbn [bind] in E; try discriminate. injection E as _ <-. repeat split. }
  destruct K as (-> & K2 & K3). split; [reflexivity|]. split; [exact K2|]. split; [exact K3|]. exists s0. split; [reflexivity|exact E].
Qed.
Lemma setup_rocks md j p f : gp_format p = Some "eclipse"%string -> gp_file p = Some f -> gp_ecl p <> Some true ->
  exists s t r u si th, setup_grid md j p = Ok s /\ su_props s = FromDeck t r u si th /\
    (r = None <-> gp_rocks p = None \/ gp_rocks p = Some "no_list"%string) /\ (forall n, r = Some n <-> gp_rocks p = Some n /\ n <> "no_list"%string).
Proof.
  intros E1 E2 E3. destruct (setup_eclipse_ok md j p f E1 E2 E3) as (s & Es & _ & Ep & _). exists s. unfold setup_eclipse in Ep. cbn [su_props] in Ep.
  do 5 eexists. split; [exact Es|]. split; [exact Ep|]. unfold rock_option. destruct (gp_rocks p) as [r|]; cbn [given].
  - destruct (String.eqb_spec r "no_list") as [->|Nr].
    + split; [split; [now right|reflexivity]|]. intros n. split; [discriminate|]. intros (Q & N1). injection Q as <-. now destruct N1.
    + split; [split; [discriminate|intros [Q|Q]; [discriminate|injection Q as ->; now destruct Nr]]|]. intros n. split.
      * intros Q. injection Q as <-. now split.
      * now intros (-> & _).
  - cbn. split; [split; [now left|reflexivity]|]. intros n. split; [discriminate|now intros (Q & _)].
Qed.
