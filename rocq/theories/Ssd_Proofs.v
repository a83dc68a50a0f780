From Verif Require Import BaseFacts RBaseFacts Steady_Proofs Steady_Proofs2 Bound_Proofs2 Matx_Proofs3 Euler_Proofs2 Cap_Spec Cap_Proofs5 Impl_Proofs Ssd_Spec.
From Coq Require Import Lra Lia.
Open Scope Z_scope.

(* ------- choices *)
Lemma flow_dir_ok s d : flow_dir s = Ok d <-> (s = "x" /\ d = 0) \/ (s = "y" /\ d = 1) \/ (s = "z" /\ d = 2).
Proof.
  unfold flow_dir. destruct (String.eqb_spec s "x") as [->|N1]; [|destruct (String.eqb_spec s "y") as [->|N2]; [|destruct (String.eqb_spec s "z") as [->|N3]]];
  (split; [intros E; try discriminate; injection E as <-; tauto|intros [[A ->]|[[A ->]|[A ->]]]; congruence]).
Qed.
Lemma flow_dir_total s : (exists d, flow_dir s = Ok d) \/ flow_dir s = Throw.
Proof. unfold flow_dir. destruct (String.eqb s "x"), (String.eqb s "y"), (String.eqb s "z"); eauto. Qed.
Lemma bc_choice_ok s t n : bc_choice s = Ok (t, n) <->
  (In s ["fixed"; "f"]%string /\ t = 0 /\ n = 3) \/ (In s ["periodic"; "p"]%string /\ t = 2 /\ n = 6) \/ (In s ["linear"; "l"]%string /\ t = 1 /\ n = 9).
Proof.
  unfold bc_choice. cbn [In].
  destruct (String.eqb_spec s "fixed") as [->|N1]; [|destruct (String.eqb_spec s "f") as [->|N2]; [|destruct (String.eqb_spec s "periodic") as [->|N3];
    [|destruct (String.eqb_spec s "p") as [->|N4]; [|destruct (String.eqb_spec s "linear") as [->|N5]; [|destruct (String.eqb_spec s "l") as [->|N6]]]]]]; cbn [orb];
  (split; [intros E; try discriminate; injection E as <- <-; tauto|intros [([A|[A|[]]] & -> & ->)|[([A|[A|[]]] & -> & ->)|([A|[A|[]]] & -> & ->)]]; congruence]).
Qed.
Lemma bc_choice_total s : (exists r, bc_choice s = Ok r) \/ bc_choice s = Throw.
Proof. unfold bc_choice. destruct (_ || _)%bool; eauto. destruct (_ || _)%bool; eauto. destruct (_ || _)%bool; eauto. Qed.

(* ------- words *)
Lemma first_word_ok l : word_of l (first_word l).
Proof.
  unfold first_word. assert (S1 : exists b, l = b ++ skip_blanks l /\ forall c, In c b -> is_blank c = true).
  { induction l as [|c t IH]; [exists []; split; [reflexivity|intros c []]|]. cbn [skip_blanks]. destruct (is_blank c) eqn:E.
    - destruct IH as (b & E1 & H1). exists (c :: b). split; [cbn; now f_equal|]. intros x [<-|I]; auto.
    - exists []. split; [reflexivity|intros x []]. }
  assert (S2 : skip_blanks l = [] \/ exists c t, skip_blanks l = c :: t /\ is_blank c = false).
  { clear. induction l as [|c t IH]; [now left|]. cbn [skip_blanks]. destruct (is_blank c) eqn:E; [exact IH|right; eauto]. }
  assert (S3 : forall k, exists r, k = take_word k ++ r /\ (forall c, In c (take_word k) -> is_blank c = false) /\ (r = [] \/ exists c r', r = c :: r' /\ is_blank c = true)).
  { clear. induction k as [|c t (r & E & H1 & H2)]; [exists []; repeat split; [intros c []|now left]|]. cbn [take_word]. destruct (is_blank c) eqn:Eb.
    - exists (c :: t). repeat split; [intros x []|right; eauto].
    - exists r. split; [cbn; now f_equal|]. split; [|exact H2]. intros x [<-|I]; auto. }
  destruct S1 as (b & Eb & Hb). destruct (S3 (skip_blanks l)) as (r & Er & Hw & Hr). exists b, r. split; [rewrite <- Er; exact Eb|]. split; [exact Hb|]. split; [exact Hw|]. split; [exact Hr|].
  intros W. destruct S2 as [E0|(c & t & E0 & Ec)].
  - rewrite W in Er. cbn in Er. congruence.
  - rewrite E0 in W. cbn [take_word] in W. rewrite Ec in W. discriminate.
Qed.
Lemma word_split b w r : (forall c, In c b -> is_blank c = true) -> (forall c, In c w -> is_blank c = false) ->
  (r = [] \/ exists c r', r = c :: r' /\ is_blank c = true) -> (w = [] -> r = []) -> first_word (b ++ w ++ r) = w.
Proof.
  intros Hb Hw Hr He. unfold first_word.
  assert (E : skip_blanks (b ++ w ++ r) = w ++ r).
  { induction b as [|c t IH].
    - cbn [app]. destruct w as [|c t]; [rewrite He by reflexivity; reflexivity|]. cbn [app skip_blanks]. now rewrite (Hw c (or_introl eq_refl)).
    - cbn [app skip_blanks]. rewrite (Hb c (or_introl eq_refl)). apply IH. intros x I. apply Hb. now right. }
  rewrite E. clear E. induction w as [|c t IH].
  - now rewrite He by reflexivity.
  - cbn [app take_word]. rewrite (Hw c (or_introl eq_refl)). f_equal. clear He. 
    assert (G : forall k, (forall c, In c k -> is_blank c = false) -> take_word (k ++ r) = k).
    { induction k as [|x k IHk]; intros H.
      - destruct Hr as [->|(c' & r' & -> & Ec)]; [reflexivity|]. cbn. now rewrite Ec.
      - cbn [app take_word]. rewrite (H x (or_introl eq_refl)). f_equal. apply IHk. intros y I. apply H. now right. }
    apply G. intros y I. apply Hw. now right.
Qed.
Lemma word_unique l w : word_of l w <-> w = first_word l.
Proof.
  split; [intros (b & r & -> & A & B & C & D); symmetry; now apply word_split|intros ->; apply first_word_ok].
Qed.

(* ------- rock list *)
Lemma rock_ends_ok load l e : rock_ends load l = Ok e <-> good_rock load l e.
Proof.
  unfold rock_ends, good_rock. split.
  - destruct (load (first_word l)) as [x| |] eqn:E; cbn [bind]; try discriminate. destruct (Rltb (fst x) 0) eqn:A; [discriminate|]. destruct (Rltb 1 (fst x)) eqn:B; [discriminate|]. cbn [orb].
    intros K. injection K as <-. exists (first_word l). split; [apply first_word_ok|]. split; [exact E|]. unfold Rltb in A, B. destruct (Rlt_dec (fst x) 0); [discriminate|]. destruct (Rlt_dec 1 (fst x)); [discriminate|]. lra.
  - intros (w & W & E & H). apply word_unique in W. subst w. rewrite E. cbn [bind]. unfold Rltb. destruct (Rlt_dec (fst e) 0); [lra|]. destruct (Rlt_dec 1 (fst e)); [lra|]. reflexivity.
Qed.
Lemma read_ends_ok load : forall n lines es, read_ends load n lines = Some (Ok es) <-> exists specs, rock_specs n lines = Some specs /\ Forall2 (good_rock load) specs es.
Proof.
  induction n as [|n IH]; intros lines es; cbn [read_ends rock_specs].
  - split; [intros E; injection E as <-; exists []; auto|intros (sp & E & F); injection E as <-; inversion F; reflexivity].
  - destruct (next_spec lines) as [[l t]|]; [|split; [discriminate|intros (sp & E & _); discriminate]]. split.
    + destruct (rock_ends load l) as [e| |] eqn:E; try discriminate. destruct (read_ends load n t) as [[es'| |]|] eqn:E2; try discriminate. cbn. intros K. injection K as <-.
      destruct (proj1 (IH t es') E2) as (sp & E3 & F). exists (l :: sp). rewrite E3. split; [reflexivity|]. constructor; [now apply rock_ends_ok|exact F].
    + intros (sp & E & F). destruct (rock_specs n t) as [sp'|] eqn:E3; [|discriminate]. injection E as <-. inversion F as [|? e ? es' G F']; subst. apply rock_ends_ok in G. rewrite G.
      rewrite (proj2 (IH t es')) by (exists sp'; auto). reflexivity.
Qed.
Lemma read_ends_hang load : forall n lines, read_ends load n lines = None <->
  exists k specs es, (k < n)%nat /\ rock_specs k lines = Some specs /\ rock_specs (S k) lines = None /\ Forall2 (good_rock load) specs es.
Proof.
  induction n as [|n IH]; intros lines; cbn [read_ends].
  - split; [discriminate|intros (k & _ & _ & H & _); lia].
  - destruct (next_spec lines) as [[l t]|] eqn:En.
    + split.
      * destruct (rock_ends load l) as [e| |] eqn:E; try discriminate. destruct (read_ends load n t) as [r|] eqn:E2; [discriminate|]. intros _.
        destruct (proj1 (IH t) E2) as (k & sp & es & Hk & E3 & E4 & F). exists (S k), (l :: sp), (e :: es). split; [lia|]. split; [|split].
        -- cbn [rock_specs]. rewrite En. now rewrite E3.
        -- change (rock_specs (S (S k)) lines) with (match next_spec lines with None => None | Some (l, t) => match rock_specs (S k) t with None => None | Some r => Some (l :: r) end end). now rewrite En, E4.
        -- constructor; [now apply rock_ends_ok|exact F].
      * intros (k & sp & es & Hk & E3 & E4 & F). change (rock_specs (S k) lines) with (match next_spec lines with None => None | Some (l, t) => match rock_specs k t with None => None | Some r => Some (l :: r) end end) in E4. rewrite En in E4.
        destruct k as [|k]; [cbn in E4; discriminate|]. cbn [rock_specs] in E3. rewrite En in E3. destruct (rock_specs k t) as [sp'|] eqn:E5; [|discriminate]. injection E3 as <-.
        destruct (rock_specs (S k) t) eqn:E6; [discriminate|]. inversion F as [|? e ? es' G F']; subst. apply rock_ends_ok in G. rewrite G.
        rewrite (proj2 (IH t)); [reflexivity|]. exists k, sp', es'. repeat split; auto. lia.
    + split; [|reflexivity]. intros _. exists 0%nat, [], []. split; [lia|]. split; [reflexivity|]. split; [cbn; now rewrite En|constructor].
Qed.

(* ------- rock numbers *)
Lemma greatest_fold t x : In (fold_left (fun m s => if m <? s then s else m) t x) (x :: t) /\ forall s, In s (x :: t) -> s <= fold_left (fun m s => if m <? s then s else m) t x.
Proof.
  revert x. induction t as [|y t IH]; intros x; cbn [fold_left]; [split; [now left|intros s [<-|[]]; lia]|]. destruct (Z.ltb_spec x y) as [L|L].
  - destruct (IH y) as [A B]. split; [right; exact A|]. intros s [<-|I]; [specialize (B y (or_introl eq_refl)); lia|now apply B].
  - destruct (IH x) as [A B]. split; [destruct A as [A|A]; [left; exact A|right; right; exact A]|]. intros s [<-|[<-|I]]; [apply B; now left|specialize (B x (or_introl eq_refl)); lia|apply B; now right].
Qed.
Lemma types_ok sat ends : (types_check sat ends = UB <-> sat = []) /\
  (types_check sat ends = Ok tt <-> In (zlen ends) sat /\ forall s, In s sat -> s <= zlen ends).
Proof.
  unfold types_check, greatest. destruct sat as [|x t]; [cbn; split; [tauto|]; split; [discriminate|intros [[] _]]|]. cbn [bind]. destruct (greatest_fold t x) as [A B].
  set (m := fold_left (fun m s => if m <? s then s else m) t x) in *. destruct (Z.eqb_spec m (zlen ends)) as [E|E].
  - split; [split; discriminate|]. split; [intros _; rewrite <- E; auto|reflexivity].
  - split; [split; discriminate|]. split; [discriminate|]. intros [I H]. exfalso. apply E. specialize (H m A). specialize (B _ I). lia.
Qed.

(* ------- range *)
Lemma at_get sat i : 0 <= i < zlen sat -> rget sat i = Ok (at_num sat i).
Proof. intros H. destruct (zget_in_range sat i H) as [s E]. apply rget_Ok. unfold at_num. now rewrite E. Qed.
Lemma range_ok sat poro ends cells : grid_fits sat poro cells -> (forall s, In s sat -> s <= zlen ends) ->
  sat_range sat poro ends cells = if Req_EM_T (total_pore sat poro cells) 0 then UB else Ok (mean_end fst sat poro ends cells, mean_end snd sat poro ends cells).
Proof.
  intros [Nd Rg] Hs. unfold sat_range.
  set (w := fun f cv => (rock_volume sat poro cv * rock_end f sat ends cv)%R).
  destruct (foldM_split_inv (range_cell sat poro ends)
    (fun done st => zlen (fst st) = zlen sat /\ (forall cv, In cv done -> nthR (fst st) (fst cv) = rock_volume sat poro cv) /\
       (forall c, ~ In c (map fst done) -> nthR (fst st) c = 0%R) /\
       fst (snd st) = Rsum (map (w fst) done) /\ snd (snd st) = Rsum (map (w snd) done)) cells (zrepeat 0%R (zlen sat), (0, 0)%R))
    as (st & E & L & A & B & C & D).
  - cbn [fst snd map]. rewrite Rsum_nil. split; [apply zlen_zrepeat, zlen_nonneg|]. split; [intros cv []|]. split; [intros c _; apply nthR_zrepeat0|auto].
  - intros done cv rest st El (L & A & B & C & D). assert (I : In cv cells) by (rewrite El; apply in_elt). destruct (Rg cv I) as [R1 R2].
    assert (Nin : ~ In (fst cv) (map fst done)).
    { rewrite El, map_app in Nd. cbn [map] in Nd. apply NoDup_remove_2 in Nd. intros X. apply Nd. apply in_or_app. now left. }
    unfold range_cell. rewrite at_get by exact R1. cbn [bind]. rewrite !map_app, !Rsum_app. cbn [map]. rewrite !Rsum_cons, !Rsum_nil. unfold w at 2 4.
    destruct (Z.ltb_spec 0 (at_num sat (fst cv))) as [P|P].
    + destruct (zget_in_range poro (fst cv)) as [p Ep]; [lia|]. rewrite (proj2 (rget_Ok _ _ p) Ep). cbn [bind].
      assert (Hle : at_num sat (fst cv) <= zlen ends). { apply Hs. pose proof (at_get sat _ R1) as G. apply rget_Ok in G. exact (zget_In _ _ _ G). }
      destruct (rset_exists (fst st) (fst cv) (snd cv * p)%R ltac:(lia)) as (pv & Es & Lp & _). rewrite Es. cbn [bind].
      destruct (zget_in_range ends (at_num sat (fst cv) - 1)) as [e Ee]; [lia|]. rewrite (proj2 (rget_Ok _ _ e) Ee). cbn [bind].
      assert (Ev : rock_volume sat poro cv = (snd cv * p)%R). { unfold rock_volume. destruct (Z.ltb_spec 0 (at_num sat (fst cv))); [|lia]. unfold nthR. now rewrite Ep. }
      assert (Er : forall f, rock_end f sat ends cv = f e). { intros f. unfold rock_end. now rewrite Ee. }
      eexists. split; [reflexivity|]. cbn [fst snd]. destruct (rset_nthR _ _ _ _ Es) as (_ & _ & G & _). split; [lia|]. split; [|split; [|split]].
      * intros c Ic. rewrite G. apply in_app_iff in Ic. destruct Ic as [Ic|[<-|[]]].
        -- destruct (Z.eqb_spec (fst c) (fst cv)) as [X|X]; [exfalso; apply Nin; rewrite <- X; now apply in_map|now apply A].
        -- now rewrite Z.eqb_refl, Ev.
      * intros c Nc. rewrite G. destruct (Z.eqb_spec c (fst cv)) as [->|X]; [exfalso; apply Nc; apply in_or_app; right; now left|]. apply B. intros X2. apply Nc. apply in_or_app. now left.
      * rewrite C, Ev, Er. lra.
      * rewrite D, Ev, Er. lra.
    + assert (Ev : rock_volume sat poro cv = 0%R). { unfold rock_volume. destruct (Z.ltb_spec 0 (at_num sat (fst cv))); [lia|reflexivity]. }
      eexists. split; [reflexivity|]. split; [exact L|]. split; [|split; [|rewrite C, D, Ev; split; lra]].
      * intros c Ic. apply in_app_iff in Ic. destruct Ic as [Ic|[<-|[]]]; [now apply A|]. rewrite Ev. now apply B.
      * intros c Nc. apply B. intros X2. apply Nc. apply in_or_app. now left.
  - rewrite E. cbn [bind]. rewrite racc_id. assert (T : Rsum (fst st) = total_pore sat poro cells).
    { transitivity (sum_cells (nthR (fst st)) (zrange 0 (zlen sat))).
      - unfold sum_cells. f_equal. apply zlist_ext; [rewrite zlen_map, zlen_zrange by apply zlen_nonneg; lia|]. intros i Hi. rewrite sweep_get by lia. destruct (zget_in_range (fst st) i Hi) as [x Ex]. unfold nthR. now rewrite Ex.
      - apply sum_scattered; [exact Nd|intros cv I; apply Rg, I|exact A|intros c _ N; now apply B]. }
    rewrite T, C, D. destruct (Req_EM_T (total_pore sat poro cells) 0) as [Z0|Z0]; [now rewrite Z0, mdiv_0|]. rewrite !mdiv_Ok by exact Z0. reflexivity.
Qed.
Lemma range_bounds sat poro ends cells lo hi : grid_fits sat poro cells -> (forall s, In s sat -> s <= zlen ends) ->
  (forall cv, In cv cells -> (0 <= snd cv)%R /\ (0 <= nthR poro (fst cv))%R) -> sat_range sat poro ends cells = Ok (lo, hi) ->
  (forall a b, (forall e, In e ends -> (a <= fst e /\ snd e <= b)%R) -> (forall e, In e ends -> (fst e <= snd e)%R) -> (a <= lo /\ lo <= hi /\ hi <= b)%R) /\
  (forall n s, (lo <= hi)%R -> In s (sat_sweep n lo hi) -> (lo <= s <= hi)%R).
Proof.
  intros G Hs P E. rewrite range_ok in E by assumption. destruct (Req_EM_T (total_pore sat poro cells) 0) as [Z0|Z0]; [discriminate|]. injection E as <- <-.
  assert (W : forall cv, In cv cells -> (0 <= rock_volume sat poro cv)%R).
  { intros cv I. destruct (P cv I). unfold rock_volume. destruct (0 <? _); [now apply Rmult_le_pos|lra]. }
  assert (T : (0 < total_pore sat poro cells)%R).
  { assert (0 <= total_pore sat poro cells)%R; [|lra]. unfold total_pore. now apply Rsum_map_nonneg. }
  assert (In_end : forall cv, In cv cells -> rock_volume sat poro cv <> 0%R -> exists e, In e ends /\ forall f, rock_end f sat ends cv = f e).
  { intros cv I N. destruct (proj2 G cv I) as [R1 _]. unfold rock_volume in N. destruct (Z.ltb_spec 0 (at_num sat (fst cv))) as [L|L]; [|lra].
    pose proof (at_get sat _ R1) as Q. apply rget_Ok, zget_In in Q. specialize (Hs _ Q). destruct (zget_in_range ends (at_num sat (fst cv) - 1)) as [e Ee]; [lia|].
    exists e. split; [exact (zget_In _ _ _ Ee)|]. intros f. unfold rock_end. now rewrite Ee. }
  split.
  - intros a b Hab He. split; [|split].
    + unfold mean_end. apply (Rmult_le_reg_r (total_pore sat poro cells)); [exact T|]. unfold Rdiv. rewrite Rmult_assoc, Rinv_l, Rmult_1_r by lra. unfold total_pore. rewrite <- Rsum_map_scale. apply Rsum_map_le. intros cv I.
      destruct (Req_EM_T (rock_volume sat poro cv) 0) as [Q|Q]; [rewrite Q; lra|]. destruct (In_end cv I Q) as (e & Ie & Ee). rewrite Ee. specialize (W cv I). destruct (Hab e Ie). nra.
    + unfold mean_end. apply Rmult_le_compat_r; [left; now apply Rinv_0_lt_compat|]. apply Rsum_map_le. intros cv I.
      destruct (Req_EM_T (rock_volume sat poro cv) 0) as [Q|Q]; [rewrite Q; lra|]. destruct (In_end cv I Q) as (e & Ie & Ee). rewrite !Ee. specialize (W cv I). specialize (He e Ie). nra.
    + unfold mean_end. apply (Rmult_le_reg_r (total_pore sat poro cells)); [exact T|]. unfold Rdiv. rewrite Rmult_assoc, Rinv_l, Rmult_1_r by lra. unfold total_pore. rewrite <- Rsum_map_scale. apply Rsum_map_le. intros cv I.
      destruct (Req_EM_T (rock_volume sat poro cv) 0) as [Q|Q]; [rewrite Q; lra|]. destruct (In_end cv I Q) as (e & Ie & Ee). rewrite Ee. specialize (W cv I). destruct (Hab e Ie). nra.
  - generalize (mean_end fst sat poro ends cells) (mean_end snd sat poro ends cells). clear. intros lo hi n s H I. unfold sat_sweep in I. apply in_map_iff in I. destruct I as (i & <- & I). apply In_zrange in I.
    assert (F : (0 <= sweep_factor n i <= 1)%R). { destruct (Z.eq_dec n 1) as [->|N]; [unfold sweep_factor; cbn; lra|]. apply (factor_props n); lia. }
    nra.
Qed.

(* ------- runs *)
Lemma driver_series_len limits run : forall pd before s init, zlen (driver_series limits run before s init pd) = zlen pd.
Proof.
  induction pd as [|p t IH]; intros before s init; [reflexivity|]. cbn [driver_series]. destruct (run before s p (limits init)) as [[ok fin] ks]. rewrite !zlen_cons. f_equal. apply IH.
Qed.
Lemma last_good_limits limits : (forall s, limits (limits s) = limits s) -> forall l init, limits (last_good l (limits init)) = limits (last_good l init).
Proof. intros Hid. induction l as [|x l IH]; intros init; cbn [last_good]; [apply Hid|]. destruct (dr_success x); auto. Qed.
Lemma driver_series_ok limits run : (forall s, limits (limits s) = limits s) -> forall pd before s init k r,
  zget (driver_series limits run before s init pd) k = Some r ->
  let prev := firstn (Z.to_nat k) (driver_series limits run before s init pd) in
  dr_sat r = s /\ zget pd k = Some (dr_pdrop r) /\ dr_start r = limits (last_good prev init) /\
  run (before ++ prev) s (dr_pdrop r) (dr_start r) = (dr_success r, dr_final r, (dr_k1 r, dr_k2 r)).
Proof.
  intros Hid. induction pd as [|p t IH]; intros before s init k r H; cbv zeta.
  { apply zget_Some_range in H. unfold zlen in H; cbn in H; lia. }
  pose proof (zget_Some_range _ _ _ H) as B. cbn [driver_series] in *. destruct (run before s p (limits init)) as [[ok fin] ks] eqn:Er.
  set (r0 := mkSrun s p (limits init) ok fin (fst ks) (snd ks)) in *. rewrite zget_nth in H by lia. destruct (Z.to_nat k) as [|n] eqn:En.
  - cbn in H. injection H as <-. cbn [firstn last_good]. rewrite app_nil_r, zget_nth, En by lia. subst r0. cbn. rewrite Er. destruct ks; auto.
  - cbn [nth_error] in H. assert (H' : zget (driver_series limits run (before ++ [r0]) s (if ok then fin else limits init) t) (k - 1) = Some r).
    { rewrite zget_nth by lia. replace (Z.to_nat (k - 1)) with n by lia. exact H. }
    specialize (IH _ _ _ _ _ H'). cbv zeta in IH. replace (Z.to_nat (k - 1)) with n in IH by lia. destruct IH as (I0 & I1 & I2 & I3). split; [exact I0|]. cbn [firstn]. split; [|split].
    + rewrite zget_nth in I1 by lia. rewrite zget_nth, En by lia. replace (Z.to_nat (k - 1)) with n in I1 by lia. exact I1.
    + rewrite I2. cbn [last_good]. subst r0. cbn [dr_success dr_final]. destruct ok; [reflexivity|]. now apply last_good_limits.
    + rewrite <- app_assoc in I3. exact I3.
Qed.
Lemma driver_profile_ok cfl cl n s : 0 <= n -> (forall v, cl = Some v -> zlen v = n) ->
  (cfl = true -> forall v, cl = Some v -> driver_profile cfl cl n s = v) /\ (cfl = false \/ cl = None -> driver_profile cfl cl n s = repeat s (Z.to_nat n)).
Proof.
  intros Hn Hc. assert (U : vec_resize n s [] = repeat s (Z.to_nat n)). { unfold vec_resize. rewrite firstn_nil. change (zlen (@nil R)) with 0. rewrite Z.sub_0_r. reflexivity. }
  assert (V : forall v : list R, zlen v = n -> vec_resize n s v = v).
  { intros v L. unfold vec_resize. rewrite L, Z.sub_diag. replace (Z.to_nat n) with (length v) by (unfold zlen in L; lia). rewrite firstn_all. apply app_nil_r. }
  unfold driver_profile. split.
  - intros -> v ->. apply V, Hc. reflexivity.
  - intros [->| ->]; [exact U|]. destruct cfl; [|exact U]. rewrite U. apply V. unfold zlen. rewrite repeat_length. lia.
Qed.
Lemma driver_runs_len limits run cfl cl nc : forall pts before, zlen (driver_runs limits run cfl cl nc before pts) = zlen pts.
Proof. induction pts as [|[s pd] t IH]; intros before; [reflexivity|]. cbn [driver_runs]. rewrite !zlen_cons. f_equal. apply IH. Qed.
Lemma driver_runs_ok limits run cfl cl nc : (forall s, limits (limits s) = limits s) -> forall pts before i s pd, zget pts i = Some (s, pd) ->
  let all := driver_runs limits run cfl cl nc before pts in
  exists rs, zget all i = Some rs /\ zlen rs = zlen pd /\ forall k r, zget rs k = Some r ->
    let prev := firstn (Z.to_nat k) rs in
    dr_sat r = s /\ zget pd k = Some (dr_pdrop r) /\ dr_start r = limits (last_good prev (driver_profile cfl (cl s) nc s)) /\
    run (before ++ List.concat (firstn (Z.to_nat i) all) ++ prev) s (dr_pdrop r) (dr_start r) = (dr_success r, dr_final r, (dr_k1 r, dr_k2 r)).
Proof.
  intros Hid. induction pts as [|[s0 pd0] t IH]; intros before i s pd H; cbv zeta.
  { apply zget_Some_range in H. unfold zlen in H; cbn in H; lia. }
  pose proof (zget_Some_range _ _ _ H) as B. cbn [driver_runs]. set (rs0 := driver_series limits run before s0 (driver_profile cfl (cl s0) nc s0) pd0).
  rewrite zget_nth in H by lia. destruct (Z.to_nat i) as [|n] eqn:En.
  - cbn in H. injection H as -> ->. exists rs0. split; [rewrite zget_nth, En by lia; reflexivity|]. split; [apply driver_series_len|]. intros k r Hk. cbn [firstn List.concat app].
    exact (driver_series_ok limits run Hid pd before s _ k r Hk).
  - cbn [nth_error] in H. assert (H' : zget t (i - 1) = Some (s, pd)). { rewrite zget_nth by lia. replace (Z.to_nat (i - 1)) with n by lia. exact H. }
    specialize (IH (before ++ rs0) _ _ _ H'). cbv zeta in IH. replace (Z.to_nat (i - 1)) with n in IH by lia. destruct IH as (rs & G & L & K). exists rs. split.
    { rewrite zget_nth in G by lia. rewrite zget_nth, En by lia. replace (Z.to_nat (i - 1)) with n in G by lia. exact G. }
    split; [exact L|]. intros k r Hk. specialize (K k r Hk). cbn [firstn List.concat]. rewrite <- !app_assoc in *. exact K.
Qed.
Lemma runs_ok lo hi run cfl cl nc nsat npd smin smax pmin pmax i s : 0 <= nc -> (forall x v, cl x = Some v -> zlen v = nc) -> 0 <= nsat -> 0 <= npd ->
  zget (sat_sweep nsat smin smax) i = Some s ->
  let all := driver_runs (init_sat_limits lo hi) run cfl cl nc [] (driver_points nsat npd smin smax pmin pmax) in
  zlen all = nsat /\
  exists rs init, zget all i = Some rs /\ zlen rs = npd /\
    (cfl = true -> forall v, cl s = Some v -> init = v) /\ (cfl = false \/ cl s = None -> init = repeat s (Z.to_nat nc)) /\
    forall k r, zget rs k = Some r ->
      let prev := firstn (Z.to_nat k) rs in
      dr_sat r = s /\ zget (pdrop_sweep npd pmin pmax) k = Some (dr_pdrop r) /\ dr_start r = init_sat_limits lo hi (last_good prev init) /\
      run (List.concat (firstn (Z.to_nat i) all) ++ prev) s (dr_pdrop r) (dr_start r) = (dr_success r, dr_final r, (dr_k1 r, dr_k2 r)).
Proof.
  intros Hn Hc H1 H2 H. cbv zeta. split.
  { rewrite driver_runs_len. unfold driver_points, sat_sweep. rewrite !zlen_map, zlen_zrange; lia. }
  assert (Hp : zget (driver_points nsat npd smin smax pmin pmax) i = Some (s, pdrop_sweep npd pmin pmax)). { unfold driver_points. rewrite zget_map, H. reflexivity. }
  destruct (driver_runs_ok (init_sat_limits lo hi) run cfl cl nc (limits_idem lo hi) _ [] _ _ _ Hp) as (rs & G & L & K).
  exists rs, (driver_profile cfl (cl s) nc s). split; [exact G|]. split; [rewrite L; unfold pdrop_sweep; rewrite zlen_map, zlen_zrange; lia|].
  destruct (driver_profile_ok cfl (cl s) nc s Hn (Hc s)) as [P1 P2]. split; [exact P1|]. split; [exact P2|exact K].
Qed.

(* ------- tables *)
Lemma In_rset {A} (l l' : list A) i x y : rset l i x = Ok l' -> In y l' -> y = x \/ In y l.
Proof.
  intros E I. apply rset_inv in E. destruct E as (Hi & L & G & O). apply In_zget in I. destruct I as (j & Hj & Ej). destruct (Z.eq_dec j i) as [->|N]; [left; congruence|right]. rewrite O in Ej by exact N. exact (zget_In _ _ _ Ej).
Qed.
Lemma get_ordered K v : zlen K = 9 -> 0 <= v < 9 -> exists x, get_voigt K v = Ok x /\ ordered_entry K v = Some x.
Proof.
  intros L H. assert (C : v = 0 \/ v = 1 \/ v = 2 \/ v = 3 \/ v = 4 \/ v = 5 \/ v = 6 \/ v = 7 \/ v = 8) by lia.
  assert (Q : forall p, 0 <= p < 9 -> exists x, rget K p = Ok x /\ zget K p = Some x). { intros p Hp. destruct (zget_in_range K p) as [x E]; [lia|]. exists x. split; [now apply rget_Ok|exact E]. }
  destruct C as [->|[->|[->|[->|[->|[->|[->|[->| ->]]]]]]]]; apply Q; lia.
Qed.
Lemma store_one n m q t i j v x : shape3 n m q t -> 0 <= i < n -> 0 <= j < m -> 0 <= v < q ->
  exists t', (let* r := rget t i in let* row := rget r j in let* row := rset row v x in let* r := rset r j row in rset t i r) = Ok t' /\ shape3 n m q t' /\
    entry3 t' i j v = Some x /\ forall a b c, (a, b, c) <> (i, j, v) -> entry3 t' a b c = entry3 t a b c.
Proof.
  intros [L S] Hi Hj Hv. destruct (zget_in_range t i) as [r Er]; [lia|]. destruct (S r (zget_In _ _ _ Er)) as [Lr Sr]. destruct (zget_in_range r j) as [row Ew]; [lia|]. pose proof (Sr row (zget_In _ _ _ Ew)) as Lw.
  rewrite (proj2 (rget_Ok _ _ r) Er). cbn [bind]. rewrite (proj2 (rget_Ok _ _ row) Ew). cbn [bind].
  destruct (rset_exists row v x) as (row' & E1 & L1 & G1 & O1); [lia|]. rewrite E1. cbn [bind]. destruct (rset_exists r j row') as (r' & E2 & L2 & G2 & O2); [lia|]. rewrite E2. cbn [bind].
  destruct (rset_exists t i r') as (t' & E3 & L3 & G3 & O3); [lia|]. exists t'. split; [exact E3|]. split; [|split].
  - split; [lia|]. intros y I. destruct (In_rset _ _ _ _ _ E3 I) as [->|I']; [|now apply S]. split; [lia|]. intros z I2. destruct (In_rset _ _ _ _ _ E2 I2) as [->|I']; [lia|now apply Sr].
  - unfold entry3. now rewrite G3, G2.
  - intros a b c N. unfold entry3. destruct (Z.eq_dec a i) as [->|Na]; [|now rewrite O3]. rewrite G3, Er. destruct (Z.eq_dec b j) as [->|Nb]; [|now rewrite O2]. rewrite G2, Ew. apply O1. congruence.
Qed.
Lemma store_row_ok n m q t i j K : shape3 n m q t -> 0 <= i < n -> 0 <= j < m -> 0 <= q <= 9 -> zlen K = 9 ->
  exists t', store_row q i j K t = Ok t' /\ shape3 n m q t' /\ (forall v, 0 <= v < q -> entry3 t' i j v = ordered_entry K v) /\
    forall a b c, (a, b) <> (i, j) -> entry3 t' a b c = entry3 t a b c.
Proof.
  intros S Hi Hj Hq LK. unfold store_row.
  destruct (foldM_inv (fun t v => let* x := get_voigt K v in let* r := rget t i in let* row := rget r j in let* row := rset row v x in let* r := rset r j row in rset t i r)
    (fun done t' => shape3 n m q t' /\ (forall v, In v done -> entry3 t' i j v = ordered_entry K v) /\ forall a b c, (a, b) <> (i, j) -> entry3 t' a b c = entry3 t a b c) (zrange 0 q) t) as (t' & E & A & B & C).
  - split; [exact S|]. split; [intros v []|reflexivity].
  - intros done v s I (A & B & C). apply In_zrange in I. destruct (get_ordered K v LK) as (x & E1 & E2); [lia|]. rewrite E1. cbn [bind].
    destruct (store_one n m q s i j v x A Hi Hj I) as (s' & E3 & A' & G & O). exists s'. split; [exact E3|]. split; [exact A'|]. split.
    + intros u Iu. destruct (Z.eq_dec u v) as [->|N]; [now rewrite G|]. rewrite O by congruence. apply B. apply in_app_iff in Iu. destruct Iu as [Iu|[<-|[]]]; [exact Iu|congruence].
    + intros a b c N. rewrite O by congruence. now apply C.
  - exists t'. split; [exact E|]. split; [exact A|]. split; [intros v Hv; apply B, In_zrange; exact Hv|exact C].
Qed.
Lemma tables_ok tec nsat npd runs : 0 <= tec <= 9 -> 0 <= nsat -> 0 <= npd -> zlen runs = nsat ->
  (forall rs, In rs runs -> zlen rs = npd /\ forall r, In r rs -> zlen (dr_k1 r) = 9 /\ zlen (dr_k2 r) = 9) ->
  exists a b, driver_tables tec nsat npd runs = Ok (a, b) /\ shape3 nsat npd tec a /\ shape3 nsat npd tec b /\
    forall i j v rs r, zget runs i = Some rs -> zget rs j = Some r -> 0 <= v < tec -> entry3 a i j v = ordered_entry (dr_k1 r) v /\ entry3 b i j v = ordered_entry (dr_k2 r) v.
Proof.
  intros Ht Hn Hm L S. unfold driver_tables. set (zero := zrepeat (zrepeat (zrepeat 0%R tec) npd) nsat).
  assert (S0 : shape3 nsat npd tec zero).
  { split; [unfold zero; apply zlen_zrepeat; lia|]. intros r I. apply repeat_spec in I. subst r. split; [apply zlen_zrepeat; lia|]. intros w I. apply repeat_spec in I. subst w. apply zlen_zrepeat. lia. }
  destruct (foldM_inv (fun t ij => let* rs := rget runs (fst ij) in let* r := rget rs (snd ij) in
      let* a := store_row tec (fst ij) (snd ij) (dr_k1 r) (fst t) in let* b := store_row tec (fst ij) (snd ij) (dr_k2 r) (snd t) in Ok (a, b))
    (fun done ab => shape3 nsat npd tec (fst ab) /\ shape3 nsat npd tec (snd ab) /\
       forall i j v rs r, In (i, j) done -> zget runs i = Some rs -> zget rs j = Some r -> 0 <= v < tec -> entry3 (fst ab) i j v = ordered_entry (dr_k1 r) v /\ entry3 (snd ab) i j v = ordered_entry (dr_k2 r) v)
    (pairs (zrange 0 nsat) (zrange 0 npd)) (zero, zero)) as (ab & E & A & B & C).
  - cbn [fst snd]. split; [exact S0|]. split; [exact S0|]. intros i j v rs r [].
  - intros done [i j] st I (A & B & C). apply In_pairs in I. rewrite !In_zrange in I. cbn [fst snd]. destruct (zget_in_range runs i) as [rs Ers]; [lia|]. destruct (S rs (zget_In _ _ _ Ers)) as [Lr Sr].
    destruct (zget_in_range rs j) as [r Er]; [lia|]. destruct (Sr r (zget_In _ _ _ Er)) as [K1 K2]. rewrite (proj2 (rget_Ok _ _ rs) Ers). cbn [bind]. rewrite (proj2 (rget_Ok _ _ r) Er). cbn [bind].
    destruct (store_row_ok nsat npd tec (fst st) i j (dr_k1 r) A) as (a & E1 & A1 & G1 & O1); [lia|lia|exact Ht|exact K1|]. rewrite E1. cbn [bind].
    destruct (store_row_ok nsat npd tec (snd st) i j (dr_k2 r) B) as (b & E2 & A2 & G2 & O2); [lia|lia|exact Ht|exact K2|]. rewrite E2. cbn [bind].
    eexists. split; [reflexivity|]. cbn [fst snd]. split; [exact A1|]. split; [exact A2|]. intros i' j' v rs' r' I' Q1 Q2 Hv.
    destruct (Z.eq_dec i' i) as [->|Ni]; [destruct (Z.eq_dec j' j) as [->|Nj]|].
    + assert (rs' = rs) by congruence. subst rs'. assert (r' = r) by congruence. subst r'. auto.
    + rewrite O1, O2 by congruence. apply in_app_iff in I'. destruct I' as [I'|[X|[]]]; [exact (C _ _ _ _ _ I' Q1 Q2 Hv)|congruence].
    + rewrite O1, O2 by congruence. apply in_app_iff in I'. destruct I' as [I'|[X|[]]]; [exact (C _ _ _ _ _ I' Q1 Q2 Hv)|congruence].
  - exists (fst ab), (snd ab). rewrite E. split; [now destruct ab|]. split; [exact A|]. split; [exact B|]. intros i j v rs r Q1 Q2 Hv. apply (C i j v rs r); try assumption.
    apply In_pairs. rewrite !In_zrange. pose proof (zget_Some_range _ _ _ Q1). pose proof (zget_Some_range _ _ _ Q2). destruct (S rs (zget_In _ _ _ Q1)). lia.
Qed.

(* ------- the program *)
Lemma numbers_ok cells satnum rocktype : (forall s, satnum = Some s -> sat_numbers cells satnum rocktype = s) /\
  (forall s, satnum = None -> rocktype = Some s -> sat_numbers cells satnum rocktype = s) /\
  (satnum = None -> rocktype = None -> sat_numbers cells satnum rocktype = repeat 1 (Z.to_nat cells)).
Proof. unfold sat_numbers. repeat split; intros; subst; reflexivity. Qed.
Lemma specs_len : forall n lines specs, rock_specs n lines = Some specs -> length specs = n.
Proof.
  induction n as [|n IH]; intros lines specs; cbn [rock_specs]; [intros E; now injection E as <-|]. destruct (next_spec lines) as [[l t]|]; [|discriminate]. destruct (rock_specs n t) as [r|] eqn:E; [|discriminate]. intros Q. injection Q as <-. cbn. f_equal. exact (IH _ _ E).
Qed.
Lemma driver_runs_shape limits run cfl cl nc (P : srun -> Prop) :
  (forall h s p x ok fin ks, run h s p x = (ok, fin, ks) -> P (mkSrun s p x ok fin (fst ks) (snd ks))) ->
  forall pts before rs, In rs (driver_runs limits run cfl cl nc before pts) -> (exists pd, In pd (map snd pts) /\ zlen rs = zlen pd) /\ forall r, In r rs -> P r.
Proof.
  intros H. assert (H1 : forall pd before s init r, In r (driver_series limits run before s init pd) -> P r).
  { induction pd as [|p t IH]; intros before s init r; [intros []|]. cbn [driver_series]. destruct (run before s p (limits init)) as [[ok fin] ks] eqn:E. intros [<-|I]; [exact (H _ _ _ _ _ _ _ E)|exact (IH _ _ _ _ I)]. }
  induction pts as [|[s pd] t IH]; intros before rs; [intros []|]. cbn [driver_runs map snd]. intros [<-|I].
  - split; [exists pd; split; [now left|apply driver_series_len]|]. intros r I. exact (H1 _ _ _ _ _ I).
  - destruct (IH _ _ I) as [(pd' & I' & L) Q]. split; [exists pd'; split; [now right|exact L]|exact Q].
Qed.
Lemma program_ok load n lines specs ends d p limits run cl fd bct tec :
  sd_has d = true -> flow_dir (sp_flowdir p) = Ok fd -> bc_choice (sp_bc p) = Ok (bct, tec) -> 0 <= n ->
  rock_specs (Z.to_nat n) lines = Some specs -> Forall2 (good_rock load) specs ends ->
  let sat := sat_numbers (zlen (sd_poro d)) (sd_satnum d) (sd_rocktype d) in
  In n sat -> (forall s, In s sat -> s <= n) -> grid_fits sat (sd_poro d) (sd_cells d) -> total_pore sat (sd_poro d) (sd_cells d) <> 0%R ->
  0 <= sp_nsat p -> 0 <= sp_npd p ->
  (forall a b h s q x ok fin k1 k2, run a b h s q x = (ok, fin, (k1, k2)) -> zlen k1 = 9 /\ zlen k2 = 9) ->
  exists t1 t2, let lo := mean_end fst sat (sd_poro d) ends (sd_cells d) in let hi := mean_end snd sat (sd_poro d) ends (sd_cells d) in
    let runs := driver_runs limits (run fd bct) (sp_cl p) cl (sd_ncells d) [] (driver_points (sp_nsat p) (sp_npd p) lo hi (sp_pmin p) (sp_pmax p)) in
    driver load (Some (n, lines)) d p limits run cl = Some (Ok (runs, (t1, t2))) /\
    shape3 (sp_nsat p) (sp_npd p) tec t1 /\ shape3 (sp_nsat p) (sp_npd p) tec t2 /\
    forall i j v rs r, zget runs i = Some rs -> zget rs j = Some r -> 0 <= v < tec ->
      entry3 t1 i j v = ordered_entry (dr_k1 r) v /\ entry3 t2 i j v = ordered_entry (dr_k2 r) v.
Proof.
  cbv zeta. intros Hh Hf Hb Hn Es F. set (sat := sat_numbers _ _ _). intros In_n Le G T H1 H2 HK.
  assert (Ln : zlen ends = n). { pose proof (Forall2_length' _ _ _ F) as Q. pose proof (specs_len _ _ _ Es). unfold zlen. lia. }
  set (runs := driver_runs _ _ _ _ _ _ _). destruct (tables_ok tec (sp_nsat p) (sp_npd p) runs) as (a & b & E & A & B & C); [|lia|lia| | |].
  - apply bc_choice_ok in Hb. destruct Hb as [(_ & _ & ->)|[(_ & _ & ->)|(_ & _ & ->)]]; lia.
  - unfold runs. rewrite driver_runs_len. unfold driver_points, sat_sweep. rewrite !zlen_map, zlen_zrange; lia.
  - intros rs I. destruct (driver_runs_shape limits (run fd bct) (sp_cl p) cl (sd_ncells d) (fun r => zlen (dr_k1 r) = 9 /\ zlen (dr_k2 r) = 9)) with (2 := I) as [(pd & Ip & L) Q].
    { intros h s q x ok fin [k1 k2] E. cbn. exact (HK _ _ _ _ _ _ _ _ _ _ E). }
    split; [|exact Q]. rewrite L. unfold driver_points in Ip. rewrite map_map in Ip. apply in_map_iff in Ip. destruct Ip as (s & <- & _). cbn. unfold pdrop_sweep. rewrite zlen_map, zlen_zrange; lia.
  - exists a, b. split; [|auto]. unfold driver. rewrite Hh, Hf, Hb. cbn [negb]. unfold extreme_sats. destruct (Z.ltb_spec n 0); [lia|]. rewrite (proj2 (read_ends_ok load _ _ ends)) by (exists specs; auto). f_equal. fold sat.
    rewrite (proj2 (proj2 (types_ok sat ends))) by (rewrite Ln; auto). cbn [bind]. rewrite range_ok by (rewrite ?Ln; assumption). destruct (Req_EM_T _ 0); [contradiction|]. cbn [bind fst snd].
    destruct (Z.ltb_spec (sp_nsat p) 0); [lia|]. destruct (Z.ltb_spec (sp_npd p) 0); [lia|]. cbn [orb]. fold runs. rewrite E. reflexivity.
Qed.
Lemma program_stops load file d p limits run cl :
  (sd_has d = false \/ (forall fd, flow_dir (sp_flowdir p) <> Ok fd) \/ (forall r, bc_choice (sp_bc p) <> Ok r) -> driver load file d p limits run cl = Some Throw) /\
  (file = None \/ (exists n lines, file = Some (n, lines) /\ n < 0) -> driver load file d p limits run cl = Some Throw) /\
  (forall n lines ends, sd_has d = true -> file = Some (n, lines) -> 0 <= n -> read_ends load (Z.to_nat n) lines = Some (Ok ends) ->
     let sat := sat_numbers (zlen (sd_poro d)) (sd_satnum d) (sd_rocktype d) in
     sat <> [] -> ~ (In (zlen ends) sat /\ forall s, In s sat -> s <= zlen ends) -> driver load file d p limits run cl = Some Throw).
Proof.
  unfold driver. destruct (flow_dir_total (sp_flowdir p)) as [(fd & Ef)|Ef], (bc_choice_total (sp_bc p)) as [([bt tc] & Eb)|Eb]; rewrite ?Ef, ?Eb; (split; [|split]).
  4-12: intros; destruct (negb (sd_has d)); reflexivity.
  - intros [->|[N|N]]; [reflexivity|destruct (N fd); reflexivity|destruct (N (bt, tc)); reflexivity].
  - destruct (sd_has d); cbn [negb]; [|reflexivity]. intros [->|(n & lines & -> & L)]; [reflexivity|]. unfold extreme_sats. destruct (Z.ltb_spec n 0); [reflexivity|lia].
  - cbv zeta. intros n lines ends Hh -> Hn E. set (sat := sat_numbers _ _ _). intros Ne Nt. rewrite Hh. cbn [negb]. unfold extreme_sats. destruct (Z.ltb_spec n 0); [lia|]. rewrite E. f_equal. try fold sat.
    destruct (types_ok sat ends) as [U O]. destruct (types_check sat ends) as [[]| |] eqn:Q; [exfalso; apply Nt; now apply O|reflexivity|exfalso; apply Ne; now apply U].
Qed.
Lemma program_hangs load n lines d p limits run cl fd bt : sd_has d = true -> flow_dir (sp_flowdir p) = Ok fd -> bc_choice (sp_bc p) = Ok bt -> 0 <= n ->
  (driver load (Some (n, lines)) d p limits run cl = None <->
   exists k specs es, (k < Z.to_nat n)%nat /\ rock_specs k lines = Some specs /\ rock_specs (S k) lines = None /\ Forall2 (good_rock load) specs es).
Proof.
  intros Hh Hf Hb Hn. rewrite <- read_ends_hang. unfold driver. rewrite Hh, Hf, Hb. cbn [negb]. destruct bt as [bt tc]. unfold extreme_sats. destruct (Z.ltb_spec n 0); [lia|].
  destruct (read_ends load (Z.to_nat n) lines) as [[e| |]|]; split; try discriminate; reflexivity.
Qed.
(* the upper end points are not looked at *)
Lemma upper_unchecked_refuted : exists load l e, rock_ends load l = Ok e /\ (1 < snd e)%R.
Proof.
  exists (fun _ => Ok (0, 2)%R), [], (0, 2)%R. split; [|cbn; lra]. apply rock_ends_ok. exists []. split; [|split; [reflexivity|cbn; lra]]. apply (first_word_ok []).
Qed.

(* ------- example *)
Definition ex_deck : sdeck := mkSdeck true [1 / 5; 1 / 10; 1 / 5]%R (Some [1; 0; 2]) None [(0, 1%R); (1, 1%R); (2, 3%R)] 3.
Definition ex_ends : list (R * R) := [(1 / 10, 4 / 5); (1 / 5, 9 / 10)]%R.
Lemma ex_fits : grid_fits [1; 0; 2] (sd_poro ex_deck) (sd_cells ex_deck) /\ total_pore [1; 0; 2] (sd_poro ex_deck) (sd_cells ex_deck) = (4 / 5)%R /\
  mean_end fst [1; 0; 2] (sd_poro ex_deck) ex_ends (sd_cells ex_deck) = (7 / 40)%R.
Proof.
  assert (T : total_pore [1; 0; 2] (sd_poro ex_deck) (sd_cells ex_deck) = (4 / 5)%R).
  { unfold total_pore, ex_deck. cbn [sd_poro sd_cells map]. rewrite !Rsum_cons, Rsum_nil. unfold rock_volume. cbn [fst snd].
    change (at_num [1; 0; 2] 0) with 1. change (at_num [1; 0; 2] 1) with 0. change (at_num [1; 0; 2] 2) with 2. change (nthR [1 / 5; 1 / 10; 1 / 5] 0)%R with (1 / 5)%R. change (nthR [1 / 5; 1 / 10; 1 / 5]%R 2) with (1 / 5)%R. cbn [Z.ltb Z.compare]. lra. }
  split; [|split; [exact T|]].
  - split; [cbn; repeat constructor; cbn; intuition lia|]. intros cv [<-|[<-|[<-|[]]]]; cbn; unfold zlen; cbn; lia.
  - unfold mean_end. rewrite T. unfold ex_deck. cbn [sd_poro sd_cells map]. rewrite !Rsum_cons, Rsum_nil. unfold rock_volume, rock_end. cbn [fst snd].
    change (at_num [1; 0; 2] 0) with 1. change (at_num [1; 0; 2] 1) with 0. change (at_num [1; 0; 2] 2) with 2. change (nthR [1 / 5; 1 / 10; 1 / 5] 0)%R with (1 / 5)%R. change (nthR [1 / 5; 1 / 10; 1 / 5]%R 2) with (1 / 5)%R.
    change (zget ex_ends (1 - 1)) with (Some (1 / 10, 4 / 5)%R). change (zget ex_ends (2 - 1)) with (Some (1 / 5, 9 / 10)%R). cbn [Z.ltb Z.compare fst]. lra.
Qed.
Lemma ex_list : exists specs, rock_specs 2 (map list_ascii_of_string [""; "a.txt"; " b.txt x"]%string) = Some specs /\
  Forall2 (good_rock (fun w => if list_eq_dec Ascii.ascii_dec w (list_ascii_of_string "a.txt") then Ok (1 / 10, 4 / 5)%R else if list_eq_dec Ascii.ascii_dec w (list_ascii_of_string "b.txt") then Ok (1 / 5, 9 / 10)%R else Throw)) specs ex_ends.
Proof.
  eexists. split; [reflexivity|]. repeat constructor; (eexists; split; [apply first_word_ok|split; [reflexivity|cbn; lra]]).
Qed.
