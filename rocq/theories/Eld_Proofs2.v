(* Solvers, subdomains and load cases of the elasticity program. *)
From Coq Require Import Lra Lia.
From Verif Require Import BaseFacts RBaseFacts Smat_Proofs Asm_Proofs3 Asm_Proofs4 Asm_Proofs5 Mort_Proofs2 Elast_Proofs10 Eld_Spec.
Open Scope Z_scope.

Lemma bind_Ok {X Y} (r : res X) (k : X -> res Y) y : bind r k = Ok y -> exists x, r = Ok x /\ k x = Ok y.
Proof. destruct r as [x| |]; cbn; try discriminate. intros E. now exists x. Qed.
(* ---- solvers *)
Lemma system_cases A B n m : system A B n m -> sm_n A = n /\ sm_m A = n /\ 0 < n /\ ((sm_n B = 0 /\ m = 0) \/ (sm_n B = n /\ sm_m B = m /\ 0 < m /\ coupled A B n m)).
Proof.
  intros (Hn & W & (D1 & D2) & H). split; [exact D1|]. split; [exact D2|]. split; [exact Hn|]. destruct H as [H|[C Hm]]; [tauto|]. right. pose proof (coupled_sizes _ _ _ _ C). tauto.
Qed.
Lemma column_ok l main m : 0 < m -> exists c, column_pcs l main m = Ok c.
Proof. intros H. unfold column_pcs. destruct (Z.leb_spec m 0); [lia|]. destruct (same_pre _ _); now eexists. Qed.
Lemma setup_size l main t A B n m : system A B n m -> exists s, setup_solvers l main t A B = Ok s /\ so_size s = n + m.
Proof.
  intros H. apply system_cases in H as (H1 & H2 & Hn & H). unfold setup_solvers. rewrite H1. destruct (ln_iterative l).
  - destruct H as [[-> ->]|(-> & -> & Hm & C)]; cbn [Z.eqb negb].
    + eexists. split; [reflexivity|]. cbn. lia.
    + destruct (Z.eqb_spec n 0); [lia|]. cbn [negb]. destruct (column_ok l main m Hm) as (c & Ec). rewrite Ec.
      destruct (ln_mortarpre l); (eexists; split; [reflexivity|reflexivity]).
  - destruct H as [[-> ->]|(-> & Em & Hm & C)]; cbn [Z.eqb negb bind].
    + eexists. split; [reflexivity|]. cbn. lia.
    + destruct (Z.eqb_spec n 0); [lia|]. cbn [negb]. destruct (direct_matrix A B n m C) as (r & Er & _ & (D1 & _) & _). rewrite Er. cbn [bind]. eexists. split; [reflexivity|exact D1].
Qed.
Lemma setup_operator l main t A B n m s : system A B n m -> setup_solvers l main t A B = Ok s ->
  (ln_iterative l = true -> so_op s = A) /\
  (ln_iterative l = false -> dims (so_op s) (n + m) (n + m) /\ forall i j, 0 <= i < n + m -> 0 <= j < n + m -> coef (so_op s) i j = saddle n (coef A) (coef B) i j).
Proof.
  intros H E. pose proof H as (_ & _ & D & _). apply system_cases in H as (H1 & H2 & Hn & H). unfold setup_solvers in E. rewrite H1 in E. destruct (ln_iterative l); (split; [intros Q; try discriminate Q|intros Q; try discriminate Q]).
  - destruct (negb _); [|injection E as <-; reflexivity]. apply bind_Ok in E as (c & _ & E). injection E as <-. reflexivity.
  - destruct H as [[HB ->]|(HB & Em & Hm & C)]; rewrite HB in E.
    + cbn in E. injection E as <-. cbn. rewrite Z.add_0_r. split; [exact D|]. intros i j Hi Hj. unfold saddle. destruct (Z.ltb_spec i n); [|lia]. destruct (Z.ltb_spec j n); [|lia]. reflexivity.
    + destruct (Z.eqb_spec n 0); [lia|]. cbn [negb] in E. destruct (direct_matrix A B n m C) as (r & Er & _ & D' & Q'). rewrite Er in E. cbn [bind] in E. injection E as <-. cbn [so_op]. split; [exact D'|exact Q'].
Qed.
Definition solver_of (l : lin) (m : Z) (p : pc_obj) : solver_obj :=
  if ln_iterative l then if 0 <? m then if ln_uzawa l then Uzawa Primary else if ln_symmetric l then Minres p else Gmres p else Cg p else Lu.
Definition copies (l : lin) (main : pc_type) (m : Z) : bool := if separate l m then pc_copy (own_pre (ln_mortarpre l)) else pc_copy main.
Lemma columns_copy l main m c : 0 < m -> match ln_mortarpre l with MSimple => Ok ([], pc_copy main) | _ => column_pcs l main m end = Ok c -> snd c = copies l main m.
Proof.
  intros Hm E. unfold copies, separate. destruct (Z.ltb_spec 0 m); [|lia]. cbn [andb]. unfold column_pcs in E. destruct (Z.leb_spec m 0); [lia|].
  destruct (ln_mortarpre l); cbn [same_pre own_pre] in *; destruct (ln_pre l); cbn in *; injection E as <-; reflexivity.
Qed.
Lemma zget_zrange_map {T} (f : Z -> T) n i : 0 <= i < n -> zget (map f (zrange 0 n)) i = Some (f i).
Proof. intros H. rewrite zget_map, zget_zrange by lia. reflexivity. Qed.
Lemma lu_list t i : 0 <= i < t -> zget (Lu :: map (fun _ : Z => Lu) (zrange 1 t)) i = Some Lu.
Proof.
  intros H. destruct (zget_in_range (Lu :: map (fun _ : Z => Lu) (zrange 1 t)) i) as (x & Ex).
  - unfold zlen. cbn [length]. rewrite map_length. assert (zlen (zrange 1 t) = t - 1) as L by (rewrite zlen_zrange; lia). unfold zlen in L. lia.
  - rewrite Ex. f_equal. apply zget_In in Ex. destruct Ex as [<-|Ex]; [reflexivity|]. apply in_map_iff in Ex as (y & <- & _). reflexivity.
Qed.
Lemma setup_solver l main t A B n m s i : system A B n m -> setup_solvers l main t A B = Ok s -> 0 <= i < (if ln_uzawa l then 1 else t) -> 1 <= t ->
  zget (so_list s) i = Some (solver_of l m (thread_pc (copies l main m) i)).
Proof.
  intros H E Hi Ht. assert (0 <= i < t) as Hi' by (destruct (ln_uzawa l); lia). apply system_cases in H as (H1 & H2 & Hn & H). unfold setup_solvers in E. rewrite H1 in E. unfold solver_of. destruct (ln_iterative l).
  - destruct H as [[HB ->]|(HB & Em & Hm & C)]; rewrite HB in E; cbn [Z.eqb negb] in E.
    + injection E as <-. cbn [so_list]. change (0 <? 0) with false. rewrite zget_zrange_map by lia. unfold copies, separate. reflexivity.
    + destruct (Z.eqb_spec n 0); [lia|]. cbn [negb] in E. rewrite Em in E. apply bind_Ok in E as (c & Ec & E). apply columns_copy in Ec; [|exact Hm]. injection E as <-. cbn [so_list]. rewrite Ec. destruct (Z.ltb_spec 0 m); [|lia].
      destruct (ln_uzawa l); [replace i with 0 by lia; reflexivity|]. destruct (ln_symmetric l); rewrite zget_zrange_map by lia; reflexivity.
  - apply bind_Ok in E as (op & _ & E). injection E as <-. cbn [so_list]. apply lu_list. exact Hi'.
Qed.
Lemma setup_threads l main t A B n m s i : system A B n m -> setup_solvers l main t A B = Ok s -> 1 <= t -> 0 <= i < threads_used l t ->
  exists x, zget (so_list s) i = Some x /\
    (ln_iterative l = false -> x = Lu) /\
    (ln_iterative l = true -> m = 0 -> exists p, x = Cg p) /\
    (ln_iterative l = true -> 0 < m -> ln_uzawa l = true -> x = Uzawa Primary) /\
    (ln_iterative l = true -> 0 < m -> ln_uzawa l = false -> ln_symmetric l = true -> exists p, x = Minres p) /\
    (ln_iterative l = true -> 0 < m -> ln_uzawa l = false -> ln_symmetric l = false -> exists p, x = Gmres p).
Proof.
  intros H E Ht Hi. unfold threads_used in Hi. eexists. split; [eapply setup_solver; eassumption|]. unfold solver_of.
  split; [intros ->; reflexivity|]. split; [intros -> ->; eexists; reflexivity|].
  split; [intros -> Hm ->; destruct (Z.ltb_spec 0 m); [reflexivity|lia]|]. split; intros -> Hm -> ->; (destruct (Z.ltb_spec 0 m); [eexists; reflexivity|lia]).
Qed.
Lemma copies_schwarz l main m : copies l main m = true <-> ~ last_schwarz l main m.
Proof.
  unfold copies, last_schwarz, separate. destruct (0 <? m); cbn [andb].
  - destruct (ln_mortarpre l), (ln_pre l); cbn; try (destruct main; cbn; split; congruence); split; congruence.
  - destruct main; cbn; split; congruence.
Qed.
Lemma setup_shared l main t A B n m s i j x y p : system A B n m -> setup_solvers l main t A B = Ok s -> ln_uzawa l = false -> 0 <= i < t -> 0 <= j < t -> i <> j ->
  zget (so_list s) i = Some x -> zget (so_list s) j = Some y -> pc_of x = Some p -> (pc_of y = Some p <-> last_schwarz l main m).
Proof.
  intros H E U Hi Hj N Ex Ey Ep. rewrite (setup_solver l main t A B n m s i H E) in Ex by (rewrite ?U; lia). rewrite (setup_solver l main t A B n m s j H E) in Ey by (rewrite ?U; lia).
  injection Ex as <-. injection Ey as <-. unfold solver_of in *. rewrite U in *. destruct (ln_iterative l); [|discriminate].
  assert (Some (thread_pc (copies l main m) i) = Some p) as Ep' by (destruct (0 <? m); [destruct (ln_symmetric l)|]; exact Ep). injection Ep' as <-.
  assert (pc_of (if 0 <? m then if ln_symmetric l then Minres (thread_pc (copies l main m) j) else Gmres (thread_pc (copies l main m) j) else Cg (thread_pc (copies l main m) j)) = Some (thread_pc (copies l main m) j)) as -> by (destruct (0 <? m); [destruct (ln_symmetric l)|]; reflexivity).
  pose proof (copies_schwarz l main m) as C. unfold thread_pc. destruct (copies l main m).
  - split; [|intros Q; exfalso; apply C; [reflexivity|exact Q]]. destruct (Z.eqb_spec i 0), (Z.eqb_spec j 0); intros Q; try discriminate Q; try lia. injection Q as Q. lia.
  - split; [|reflexivity]. intros _. assert (~ ~ last_schwarz l main m) as D by (rewrite <- C; discriminate). unfold last_schwarz in *. destruct (separate l m).
    + destruct (ln_mortarpre l); try reflexivity; exfalso; apply D; discriminate.
    + destruct main; try reflexivity; exfalso; apply D; discriminate.
Qed.
(* a Schwarz method for the multipliers makes the threads share a primary preconditioner that should be copied *)
Lemma shared_refuted : exists l, ln_mortarpre l = MSchurSchwarz /\ ln_pre l = PreAmg /\
  forall A B n m t, system A B n m -> 0 < m -> 2 <= t -> exists s, setup_solvers l (pc_main PreAmg (ln_smoother l)) t A B = Ok s /\ pc_copy (pc_main PreAmg (ln_smoother l)) = true /\
    zget (so_list s) 0 = Some (Minres Primary) /\ zget (so_list s) 1 = Some (Minres Primary).
Proof.
  set (l := mkLin true 1000 (1 / 100000000) 10000 2 2 5000 true false PreAmg MSchurSchwarz false 2 Ssor). exists l. split; [reflexivity|]. split; [reflexivity|]. intros A B n m t H Hm Ht.
  destruct (setup_size l (pc_main PreAmg (ln_smoother l)) t A B n m H) as (s & E & _). exists s. split; [exact E|]. split; [reflexivity|].
  assert (copies l (pc_main PreAmg (ln_smoother l)) m = false) as C by (unfold copies, separate; destruct (Z.ltb_spec 0 m); [reflexivity|lia]).
  split; rewrite (setup_solver l _ t A B n m s _ H E) by (cbn; lia); rewrite C; unfold solver_of; destruct (Z.ltb_spec 0 m); try lia; reflexivity.
Qed.
(* columns of the multiplier block *)
Lemma column_classes l main t A B n m s : system A B n m -> setup_solvers l main t A B = Ok s -> ln_iterative l = true -> 0 < m -> ln_mortarpre l <> MSimple ->
  zlen (so_columns s) = m /\ forall c p, zget (so_columns s) c = Some p -> class_of main p = if separate l m then own_pre (ln_mortarpre l) else main.
Proof.
  intros H E I Hm N. apply system_cases in H as (H1 & H2 & Hn & H). unfold setup_solvers in E. rewrite H1, I in E.
  destruct H as [[HB ->]|(HB & Em & _ & C)]; [lia|]. rewrite HB in E. destruct (Z.eqb_spec n 0); [lia|]. cbn [negb] in E. rewrite Em in E. apply bind_Ok in E as (c & Ec & E). injection E as <-. cbn [so_columns].
  assert (column_pcs l main m = Ok c) as Ec' by (destruct (ln_mortarpre l); try exact Ec; congruence). clear Ec. unfold column_pcs in Ec'. destruct (Z.leb_spec m 0); [lia|].
  assert (separate l m = negb (same_pre (ln_mortarpre l) (ln_pre l))) as Es.
  { unfold separate. destruct (Z.ltb_spec 0 m); [|lia]. destruct (ln_mortarpre l), (ln_pre l); try reflexivity; congruence. }
  rewrite Es. destruct (same_pre _ _); injection Ec' as <-; cbn [fst negb]; (split; [rewrite zlen_map, zlen_zrange by lia; lia|]); intros i p Ep; apply zget_In in Ep; apply in_map_iff in Ep as (k & <- & _); destruct (pc_copy _); destruct (k =? 0); reflexivity.
Qed.
(* the heuristic finds "two level", the columns are to use two levels: they use AMG *)
Lemma heuristic_refuted l t A B n m s sm : system A B n m -> 0 < m -> ln_iterative l = true -> ln_pre l = PreTwoLevel -> ln_mortarpre l = MSchurTwoLevel ->
  setup_solvers l (pc_main PreUndetermined sm) t A B = Ok s -> zlen (so_columns s) = m /\ forall c p, zget (so_columns s) c = Some p -> class_of (pc_main PreUndetermined sm) p = TAmg sm.
Proof.
  intros H Hm I P M E. destruct (column_classes l _ t A B n m s H E I Hm ltac:(congruence)) as [L C]. split; [exact L|]. intros c p Ep. rewrite (C c p Ep).
  unfold separate. rewrite M, P. destruct (0 <? m); reflexivity.
Qed.
Lemma no_multipliers_ub l main t A B : ln_iterative l = true -> ln_mortarpre l <> MSimple -> sm_n B <> 0 -> sm_m B <= 0 -> setup_solvers l main t A B = UB.
Proof.
  intros I N HB Hm. unfold setup_solvers. rewrite I. destruct (Z.eqb_spec (sm_n B) 0); [contradiction|]. cbn [negb]. unfold column_pcs. destruct (Z.leb_spec (sm_m B) 0); [|lia]. destruct (ln_mortarpre l); try reflexivity; congruence.
Qed.

(* ---- subdomains *)
Lemma insert_ok' rows k r e : wf_adj rows k -> 0 <= r < k -> exists rows', sub_insert rows r e = Ok rows' /\ wf_adj rows' k /\ forall a b, padj rows' a b <-> padj rows a b \/ (a = r /\ b = e /\ 0 <= b).
Proof.
  intros W Hr. unfold sub_insert. destruct (Z.ltb_spec (-1) e).
  - destruct (adj_insert_ok rows k r e W Hr) as (x & E & W' & P). exists x. split; [exact E|]. split; [exact W'|]. intros a b. rewrite P. intuition lia.
  - exists rows. split; [reflexivity|]. split; [exact W|]. intros a b. intuition lia.
Qed.
Section Sub.
Variables (nel1 nel2 nodes neq : Z) (M : mpcmap) (eqn : list Z).
Hypothesis LEN : zlen eqn = nodes * 3.
Hypothesis RNG : forall d q, zget eqn d = Some q -> -1 <= q < neq.
Hypothesis MR : forall k x c, couples 3 M k x c -> 0 <= x < nodes * 3.
Hypothesis WF : wf_mpcs 3 M.
Definition reaches (n m e : Z) : Prop := match mm_find M (n * 3 + m) with Some p => exists d, In d (mp_master p) /\ eq_of eqn (md_node d * 3 + m) = e | None => eq_of eqn (n * 3 + m) = e end.
Lemma sub_dof_ok rows k r n m : wf_adj rows k -> 0 <= r < k -> 0 <= n < nodes -> 0 <= m < 3 ->
  exists rows', sub_dof M eqn r n rows m = Ok rows' /\ wf_adj rows' k /\ forall a b, padj rows' a b <-> padj rows a b \/ (a = r /\ 0 <= b /\ reaches n m b).
Proof using LEN RNG MR WF.
  intros W Hr Hn Hm. unfold sub_dof, get_mpc, reaches. destruct (mm_find M (n * 3 + m)) as [p|] eqn:Ep.
  - assert (forall d, In d (mp_master p) -> 0 <= md_node d * 3 + m < nodes * 3) as Hd.
    { intros d Hd. assert (0 <= dof_key 3 d < nodes * 3) as K by (apply (MR (n * 3 + m) _ (md_coeff d)); exists p, d; tauto).
      destruct (proj2 (proj2 WF _ _ Ep) d Hd) as [Q _]. unfold dof_key in K. nia. }
    destruct (grow (fun rows d => let* e := rget eqn (md_node d * 3 + m) in sub_insert rows r e) (fun d a b => a = r /\ 0 <= b /\ eq_of eqn (md_node d * 3 + m) = b) k (mp_master p)) with (adj := rows) as (x & E & W' & P); [|exact W|].
    + clear rows W. intros rows d Hi W. rewrite (proj1 (eq_of_get 3 nodes neq eqn LEN RNG _ (Hd d Hi))). cbn [bind].
      destruct (insert_ok' rows k r (eq_of eqn (md_node d * 3 + m)) W Hr) as (x & E & W' & P). exists x. split; [exact E|]. split; [exact W'|]. intros a b. rewrite P. intuition lia.
    + exists x. split; [exact E|]. split; [exact W'|]. intros a b. rewrite P. split; (intros [Q|Q]; [now left|right]).
      * destruct Q as (d & Hi & -> & Hb & <-). split; [reflexivity|]. split; [exact Hb|]. now exists d.
      * destruct Q as (-> & Hb & d & Hi & <-). exists d. tauto.
  - rewrite (proj1 (eq_of_get 3 nodes neq eqn LEN RNG (n * 3 + m) ltac:(lia))). cbn [bind].
    destruct (insert_ok' rows k r (eq_of eqn (n * 3 + m)) W Hr) as (x & E & W' & P). exists x. split; [exact E|]. split; [exact W'|]. intros a b. rewrite P. intuition lia.
Qed.
Lemma sub_raw cells : columns_ok nel1 nel2 cells -> (forall c n, In c cells -> In n (snd c) -> 0 <= n < nodes) ->
  exists rows, subdomains nel1 nel2 M eqn cells = Ok rows /\ wf_adj rows (nel1 * nel2) /\
    forall r e, padj rows r e <-> 0 <= e /\ exists c n m, In c cells /\ column nel1 c = r /\ In n (snd c) /\ 0 <= m < 3 /\ reaches n m e.
Proof using LEN RNG MR WF.
  intros (H1 & H2 & HC) HN. destruct (empty_adj (nel1 * nel2) ltac:(nia)) as [W0 P0]. unfold subdomains.
  destruct (grow (fun rows c =>
      foldM (fun rows n => let* idx := rget (snd c) n in
          foldM (sub_dof M eqn (fst (fst c) + nel1 * snd (fst c)) idx) (zrange 0 3) rows) (zrange 0 8) rows)
      (fun (c : (Z * Z) * list Z) a b => a = column nel1 c /\ 0 <= b /\ exists n m, In n (snd c) /\ 0 <= m < 3 /\ reaches n m b) (nel1 * nel2) cells) with (adj := zrepeat (@nil Z) (nel1 * nel2)) as (rows & E & W & P); [|exact W0|].
  - intros rows c Hc W. destruct (HC c Hc) as (C1 & C2 & C3). assert (0 <= column nel1 c < nel1 * nel2) as Hr by (unfold column; nia).
    destruct (grow (fun rows n => let* idx := rget (snd c) n in foldM (sub_dof M eqn (fst (fst c) + nel1 * snd (fst c)) idx) (zrange 0 3) rows)
      (fun j a b => a = column nel1 c /\ 0 <= b /\ exists n m, zget (snd c) j = Some n /\ 0 <= m < 3 /\ reaches n m b) (nel1 * nel2) (zrange 0 8)) with (adj := rows) as (x & E & W' & P); [|exact W|].
    + clear rows W. intros rows j Hj W. apply In_zrange in Hj. destruct (zget_in_range (snd c) j ltac:(lia)) as (n & En). assert (rget (snd c) j = Ok n) as -> by (apply rget_Ok; exact En). cbn [bind].
      assert (0 <= n < nodes) as Hn by (apply (HN c); [exact Hc|eapply zget_In; exact En]).
      destruct (grow (sub_dof M eqn (fst (fst c) + nel1 * snd (fst c)) n) (fun m a b => a = column nel1 c /\ 0 <= b /\ reaches n m b) (nel1 * nel2) (zrange 0 3)) with (adj := rows) as (x & E & W' & P); [|exact W|].
      * clear rows W. intros rows m Hm W. apply In_zrange in Hm. apply sub_dof_ok; assumption.
      * exists x. split; [exact E|]. split; [exact W'|]. intros a b. rewrite P. split; (intros [Q|Q]; [now left|right]).
        -- destruct Q as (m & Hm & -> & Hb & Hr'). apply In_zrange in Hm. split; [reflexivity|]. split; [exact Hb|]. exists n, m. tauto.
        -- destruct Q as (-> & Hb & n' & m & En' & Hm & Hr'). rewrite En in En'. injection En' as <-. exists m. rewrite In_zrange. tauto.
    + exists x. split; [exact E|]. split; [exact W'|]. intros a b. rewrite P. split; (intros [Q|Q]; [now left|right]).
      * destruct Q as (j & Hj & -> & Hb & n & m & En & Hm & Hr'). split; [reflexivity|]. split; [exact Hb|]. exists n, m. split; [eapply zget_In; exact En|tauto].
      * destruct Q as (-> & Hb & n & m & Hn & Hm & Hr'). apply In_zget in Hn as (j & Hj & En). exists j. rewrite In_zrange. split; [lia|]. split; [reflexivity|]. split; [exact Hb|]. exists n, m. tauto.
  - exists rows. split; [exact E|]. split; [exact W|]. intros r e. rewrite P. split.
    + intros [Q|(c & Hc & -> & Hb & n & m & Q)]; [exfalso; exact (P0 _ _ Q)|]. split; [exact Hb|]. exists c, n, m. tauto.
    + intros (Hb & c & n & m & Hc & <- & Hn & Hm & Hr'). right. exists c. split; [exact Hc|]. split; [reflexivity|]. split; [exact Hb|]. exists n, m. tauto.
Qed.
Lemma reaches_acts n m e : aligned 3 M -> 0 <= m < 3 -> (reaches n m e <-> acts 3 M eqn (n * 3 + m) e).
Proof using WF.
  clear LEN RNG MR. intros AL Hm. unfold reaches, acts. destruct (mm_find M (n * 3 + m)) as [p|] eqn:Ep; [|reflexivity].
  assert (forall d, In d (mp_master p) -> dof_key 3 d = md_node d * 3 + m) as K.
  { intros d Hd. destruct (proj2 (proj2 WF _ _ Ep) d Hd) as [Q _]. assert (dof_key 3 d mod 3 = (n * 3 + m) mod 3) as Q2 by (apply (AL _ _ (md_coeff d)); exists p, d; tauto).
    assert (dof_key 3 d = md_node d * 3 + (md_dof d - 1)) as D by (unfold dof_key; ring). rewrite D in *. rewrite (proj2 (divmod 3 (md_node d) (md_dof d - 1) ltac:(lia))) in Q2. rewrite (proj2 (divmod 3 n m Hm)) in Q2. lia. }
  split; intros (d & Hd & Ed); exists d; (split; [exact Hd|]); [rewrite K|rewrite <- K]; assumption.
Qed.
End Sub.
Lemma touches_alt M eqn c e : zlen (snd c) = 8 -> (touches M eqn c e <-> exists n m, In n (snd c) /\ 0 <= m < 3 /\ acts 3 M eqn (n * 3 + m) e).
Proof. intros L. unfold touches. rewrite <- (cell_acts_alt 3 M eqn ltac:(lia)). unfold cell_acts. rewrite L. reflexivity. Qed.
Lemma aligned_chain dim M : aligned dim M -> forall k x c, chain dim M k x c -> x mod dim = k mod dim.
Proof. intros H k x c C. induction C as [k x c C|k y x c d C _ IH]; [exact (H _ _ _ C)|]. rewrite IH. exact (H _ _ _ C). Qed.
Lemma subdomains_ok nodes cells M F fuel s nel1 nel2 : grid_ok 3 nodes (map snd cells) M F -> wf_mpcs 3 M -> aligned 3 M -> columns_ok nel1 nel2 cells ->
  init_assembly fuel 3 nodes (map snd cells) M F = Some (Ok s) ->
  exists rows, subdomains nel1 nel2 (as_mpcs s) (as_meqn s) cells = Ok rows /\ zlen rows = nel1 * nel2 /\ (forall row, In row rows -> increasing row) /\
    (forall r e, in_sub rows r e <-> 0 <= e /\ exists c, In c cells /\ column nel1 c = r /\ touches (as_mpcs s) (as_meqn s) c e) /\
    (forall e f, stored (as_A s) e f -> exists r, in_sub rows r e /\ in_sub rows r f).
Proof.
  intros HG W AL HC E. pose proof (init_inv 3 nodes _ M F fuel s HG W E) as I.
  pose proof (e_RNG 3 nodes (map snd cells) M F s I) as RNG. pose proof (e_LEN 3 nodes (map snd cells) M F s I) as LEN. pose proof (e_MR 3 nodes (map snd cells) M F s HG I) as MR.
  destruct I as (I1 & I2 & I3 & I4 & I5 & I6 & I7 & I8 & I9 & I10 & I11 & I12).
  assert (aligned 3 (as_mpcs s)) as AL' by (intros k x c Hc; exact (aligned_chain 3 M AL _ _ _ (I5 _ _ _ Hc))).
  destruct (sub_raw nel1 nel2 nodes (as_neq s) (as_mpcs s) (as_meqn s) LEN RNG MR I2 cells HC) as (rows & Er & (W1 & W2) & P).
  { intros c n Hc Hn. destruct HG as (_ & _ & HV & _). apply (HV (snd c)); [now apply in_map|exact Hn]. }
  assert (forall r e, in_sub rows r e <-> 0 <= e /\ exists c, In c cells /\ column nel1 c = r /\ touches (as_mpcs s) (as_meqn s) c e) as Q.
  { intros r e. change (in_sub rows r e) with (padj rows r e). rewrite P. split.
    - intros (He & c & n & m & Hc & Hr & Hn & Hm & Hx). split; [exact He|]. exists c. split; [exact Hc|]. split; [exact Hr|]. apply touches_alt; [apply HC; exact Hc|]. exists n, m. split; [exact Hn|]. split; [exact Hm|].
      apply (reaches_acts (as_mpcs s) (as_meqn s) I2 n m e AL' Hm). exact Hx.
    - intros (He & c & Hc & Hr & Ht). split; [exact He|]. apply touches_alt in Ht; [|apply HC; exact Hc]. destruct Ht as (n & m & Hn & Hm & Hx). exists c, n, m. split; [exact Hc|]. split; [exact Hr|]. split; [exact Hn|]. split; [exact Hm|].
      apply (reaches_acts (as_mpcs s) (as_meqn s) I2 n m e AL' Hm). exact Hx. }
  exists rows. split; [exact Er|]. split; [exact W1|]. split; [exact W2|]. split; [exact Q|].
  intros e f S. apply I11 in S as (He & Hf & v & Hv & a & b & Ha & Hb & Aa & Ab). apply in_map_iff in Hv as (c & <- & Hc). destruct (proj2 (proj2 HC) c Hc) as (_ & _ & L). rewrite L in *.
  exists (column nel1 c). split; apply Q; (split; [assumption|]); exists c; (split; [exact Hc|]); (split; [reflexivity|]); [exists a|exists b]; (split; [lia|assumption]).
Qed.
Lemma subdomains_cover nodes cells M F fuel s nel1 nel2 rows : grid_ok 3 nodes (map snd cells) M F -> wf_mpcs 3 M -> aligned 3 M -> columns_ok nel1 nel2 cells ->
  init_assembly fuel 3 nodes (map snd cells) M F = Some (Ok s) -> subdomains nel1 nel2 (as_mpcs s) (as_meqn s) cells = Ok rows ->
  (forall n, 0 <= n < nodes -> exists c, In c cells /\ In n (snd c)) -> forall e, 0 <= e < as_neq s -> exists r, 0 <= r < nel1 * nel2 /\ in_sub rows r e.
Proof.
  intros HG W AL HC E Er CV e He. destruct (subdomains_ok nodes cells M F fuel s nel1 nel2 HG W AL HC E) as (rows' & Er' & L & _ & Q & _). rewrite Er in Er'. injection Er' as <-.
  pose proof (init_inv 3 nodes _ M F fuel s HG W E) as I. pose proof (e_NUM 3 nodes (map snd cells) M F s I) as (N0 & N1 & N2 & N3 & N4). destruct (N3 e He) as (d & Hd & Hf & Hg).
  destruct (dof_split 3 nodes d ltac:(lia) Hd) as (D1 & D2 & D3). destruct (CV (d / 3) D1) as (c & Hc & Hn). exists (column nel1 c). destruct HC as (H1 & H2 & HC). destruct (HC c Hc) as (C1 & C2 & C3). split; [unfold column; nia|].
  apply Q. split; [lia|]. exists c. split; [exact Hc|]. split; [reflexivity|]. apply touches_alt; [exact C3|]. exists (d / 3), (d mod 3). split; [exact Hn|]. split; [exact D2|]. rewrite <- D3. unfold acts.
  destruct I as (_ & _ & I3 & _). destruct (mm_find (as_mpcs s) d) as [p|] eqn:Ep; [exfalso; apply (proj1 Hf); apply I3; unfold slaveof; congruence|]. unfold eq_of. now rewrite Hg.
Qed.

(* a constraint that couples two directions: the equation that acts is left out of the subdomain *)
Definition skew_cell : (Z * Z) * list Z := ((0, 0), [0; 1; 2; 3; 4; 5; 6; 7]).
Definition skew_mpcs : mpcmap := [(0, mkMpc (mkMdof 0 1 0) [mkMdof 8 2 1])].
Definition skew_eqn : list Z := zrepeat (-1) 24 ++ [-1; 0; -1].
Lemma skew_refuted : wf_mpcs 3 skew_mpcs /\ columns_ok 1 1 [skew_cell] /\ touches skew_mpcs skew_eqn skew_cell 0 /\ subdomains 1 1 skew_mpcs skew_eqn [skew_cell] = Ok [[]].
Proof.
  split; [split; [cbn; split; [intros y []|exact I]|]|].
  - intros k p E. cbn in E. destruct k as [|k|k]; try discriminate. injection E as <-. split; [reflexivity|]. intros m [<-|[]]. cbn. split; [lia|].
    unfold mpc_tol. rewrite Rabs_R1. rewrite <- Rinv_1. apply Rinv_lt_contravar; lra.
  - split; [split; [lia|]; split; [lia|]; intros c [<-|[]]; cbn; repeat split; lia|]. split; [|reflexivity].
    exists 0. split; [lia|]. cbn. exists (mkMdof 8 2 1). split; [now left|reflexivity].
Qed.

(* ---- load cases *)
Lemma solve_ok apply sl t b s : zget sl t = Some s -> solve apply sl t b =
  match apply s (zrepeat 0%R (zlen b)) b with Solved u => Ok u | Istl u => Ok u | Other => Throw end.
Proof. intros E. unfold solve. assert (rget sl t = Ok s) as -> by (apply rget_Ok; exact E). reflexivity. Qed.
Lemma solve_no_solver apply sl t b : zget sl t = None -> solve apply sl t b = UB.
Proof. intros E. unfold solve, rget. now rewrite E. Qed.
(* a solver that gives up is not told from one that has found the solution *)
Lemma solve_failure apply sl t b s u : zget sl t = Some s -> apply s (zrepeat 0%R (zlen b)) b = Istl u -> solve apply sl t b = Ok u.
Proof. intros E H. rewrite (solve_ok _ _ _ _ _ E), H. reflexivity. Qed.
Lemma case_ok inspect stored load apply sl thread stress i row : load_case inspect stored load apply sl thread stress i = Ok row ->
  exists u v, (inspect = "results"%string -> stored i = Ok u) /\ (inspect <> "results"%string -> exists b, load i = Ok b /\ solve apply sl (thread i) b = Ok u) /\
    stress i u = Ok v /\ zlen row = 6 /\ forall j, 0 <= j < 6 -> exists x, zget v j = Some x /\ zget row j = Some (clamp x).
Proof.
  intros E. unfold load_case in E. apply bind_Ok in E as (u & Eu & E). apply bind_Ok in E as (v & Ev & E). exists u, v.
  split; [intros ->; exact Eu|]. split. { intros N. destruct (String.eqb_spec inspect "results"); [contradiction|]. apply bind_Ok in Eu as (b & Eb & Es). now exists b. }
  split; [exact Ev|]. apply mapM_Ok in E. split; [apply Forall2_length' in E; unfold zlen; rewrite <- E; reflexivity|]. intros j Hj.
  destruct (Forall2_zget _ _ _ E j j) as (y & Ey & Q); [rewrite zget_zrange by lia; f_equal; lia|]. apply bind_Ok in Q as (x & Ex & Q). injection Q as <-. apply rget_Ok in Ex. now exists x.
Qed.
Lemma cases_ok inspect stored load apply sl thread stress C : run_cases inspect stored load apply sl thread stress = Ok (Some C) ->
  inspect <> "mesh"%string /\ zlen C = 6 /\ forall i, 0 <= i < 6 -> exists row, zget C i = Some row /\ load_case inspect stored load apply sl thread stress i = Ok row.
Proof.
  unfold run_cases. destruct (String.eqb_spec inspect "mesh"); [discriminate|]. intros E. apply bind_Ok in E as (C' & E & Q). injection Q as ->. split; [assumption|].
  apply mapM_Ok in E. split; [apply Forall2_length' in E; unfold zlen; rewrite <- E; reflexivity|]. intros i Hi. destruct (Forall2_zget _ _ _ E i i) as (y & Ey & Q); [rewrite zget_zrange by lia; f_equal; lia|]. now exists y.
Qed.
Lemma cases_mesh stored load apply sl thread stress : run_cases "mesh" stored load apply sl thread stress = Ok None.
Proof. reflexivity. Qed.
Lemma case_solved inspect stored load apply sl thread stress i row (sys : list R -> list R -> Prop) : inspect <> "results"%string ->
  (forall s z b u, apply s z b = Solved u -> sys b u) -> (forall s z b u, apply s z b <> Istl u) -> load_case inspect stored load apply sl thread stress i = Ok row ->
  exists b u v, load i = Ok b /\ sys b u /\ stress i u = Ok v /\ forall j, 0 <= j < 6 -> exists x, zget v j = Some x /\ zget row j = Some (clamp x).
Proof.
  intros N HS HI E. destruct (case_ok _ _ _ _ _ _ _ _ _ E) as (u & v & _ & H & Ev & _ & Hr). destruct (H N) as (b & Eb & Es). exists b, u, v. split; [exact Eb|]. split; [|split; [exact Ev|exact Hr]].
  unfold solve in Es. apply bind_Ok in Es as (s & _ & Es). destruct (apply s _ b) eqn:Ea; [injection Es as <-; eapply HS; exact Ea|exfalso; eapply HI; exact Ea|discriminate].
Qed.
Lemma solve_defined l main t A B n m s apply i b : system A B n m -> setup_solvers l main t A B = Ok s -> 1 <= t -> 0 <= i < threads_used l t -> solve apply (so_list s) i b <> UB.
Proof.
  intros H E Ht Hi. destruct (setup_threads l main t A B n m s i H E Ht Hi) as (x & Ex & _). rewrite (solve_ok _ _ _ _ _ Ex). destruct (apply _ _ _); discriminate.
Qed.
