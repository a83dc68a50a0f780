(* Proofs about the faces of a grid and their pillars. *)
From Verif Require Import BaseFacts RBaseFacts Mim_Proofs Bgrid_Proofs Bgrid_Proofs5 Bgrid_Proofs6 Eups_Proofs2 Eups_Spec.
Open Scope Z_scope.

(* ---- the face of a cell *)
Lemma face_verts_filter side d : 0 <= d < 3 -> face_verts side d = filter (fun f => Bool.eqb (Z.testbit f d) side) (zrange 0 8).
Proof. intros H. destruct (dir3 d H) as [->|[->| ->]], side; reflexivity. Qed.
Lemma face_verts_in side d f : 0 <= d < 3 -> (In f (face_verts side d) <-> 0 <= f < 8 /\ Z.testbit f d = side).
Proof.
  intros H. rewrite face_verts_filter, filter_In, In_zrange by exact H. split; intros [A B]; (split; [exact A|]).
  - apply eqb_prop in B. exact B.
  - subst. apply eqb_reflx.
Qed.
Lemma foldM_gather {A B} (f : list B -> A -> res (list B)) (g : A -> list B) l :
  (forall acc a, In a l -> f acc a = Ok (acc ++ g a)) -> forall acc, foldM f l acc = Ok (acc ++ flat_map g l).
Proof.
  induction l as [|a l IH]; intros H acc; cbn [foldM flat_map]; [rewrite app_nil_r; reflexivity|].
  rewrite H by (left; reflexivity). cbn [bind]. rewrite IH by (intros; apply H; right; assumption). rewrite app_assoc. reflexivity.
Qed.
Lemma flat_map_full {A B} (b : A -> bool) (g : A -> B) l : length (flat_map (fun a => if b a then [g a] else []) l) = length l ->
  (forall a, In a l -> b a = true) /\ flat_map (fun a => if b a then [g a] else []) l = map g l.
Proof.
  assert (Le : forall l, (length (flat_map (fun a => if b a then [g a] else []) l) <= length l)%nat).
  { clear l. induction l as [|a l IH]; cbn; [lia|]. rewrite app_length. destruct (b a); cbn; lia. }
  induction l as [|a l IH]; cbn; [intros _; split; [intros _ []|reflexivity]|]. rewrite app_length. intros E.
  specialize (Le l). destruct (b a) eqn:Eb; cbn in E; [|lia]. destruct IH as [A1 A2]; [lia|]. split.
  - intros x [<-|Hx]; [exact Eb|apply A1; exact Hx].
  - cbn. rewrite A2. reflexivity.
Qed.
Lemma flat_map_all {A B} (b : A -> bool) (g : A -> B) l : (forall a, In a l -> b a = true) ->
  flat_map (fun a => if b a then [g a] else []) l = map g l.
Proof.
  induction l as [|a l IH]; cbn; [reflexivity|]. intros H. rewrite (H a) by (left; reflexivity). cbn. rewrite IH by (intros; apply H; right; assumption). reflexivity.
Qed.

Section Cell.
Variables (tol coord : R) (verts : list pos3) (d : Z) (side : bool) (cell : list Z).
Hypothesis (Hd : 0 <= d < 3) (Hc : zlen cell = 8) (Hv : forall n, In n cell -> 0 <= n < zlen verts).
Let ix (f : Z) : Z := match zget cell f with Some n => n | None => 0 end.
Let ps (f : Z) : pos3 := match zget verts (ix f) with Some c => c | None => (0, 0, 0)%R end.
Let vt (f : Z) : vertex := mkVertex (ix f) (fst (others d (ps f))) (snd (others d (ps f))).
Lemma ix_ok f : 0 <= f < 8 -> zget cell f = Some (ix f) /\ zget verts (ix f) = Some (ps f).
Proof.
  intros H. destruct (zget_in_range cell f) as (n & E); [lia|]. assert (En : ix f = n) by (unfold ix; rewrite E; reflexivity).
  rewrite En. split; [exact E|]. unfold ps. rewrite En. destruct (zget_in_range verts n) as (c & Ec); [apply Hv, (zget_In _ _ _ E)|]. rewrite Ec. reflexivity.
Qed.
Lemma vt_corner f : In f (face_verts side d) -> face_corner verts d side cell (vt f).
Proof.
  intros H. apply face_verts_in in H; [|exact Hd]. destruct H as [Hf Hs]. destruct (ix_ok f Hf) as [A B].
  exists f, (ps f). unfold vt. cbn [v_i v_x v_y]. rewrite <- surjective_pairing. auto.
Qed.
Lemma cell_face_eq : exists vs, cell_face tol verts (2 ^ d) coord side cell = Ok vs /\
  ((zlen vs = 4 /\ on_boundary tol verts d coord side cell /\ vs = map vt (face_verts side d)) \/
   (zlen vs <> 4 /\ ~ on_boundary tol verts d coord side cell)).
Proof.
  unfold cell_face. rewrite dir_pow by lia. set (on f := is_on_plane tol (2 ^ d) (ps f) coord).
  assert (F4 : length (face_verts side d) = 4%nat) by (destruct (dir3 d Hd) as [->|[->| ->]], side; reflexivity).
  assert (Bd : on_boundary tol verts d coord side cell <-> forall f, In f (face_verts side d) -> on f = true).
  { split.
    - intros H f Hf. apply face_verts_in in Hf; [|exact Hd]. destruct Hf as [Hf Hs]. destruct (H f Hf Hs) as (n & c & E1 & E2 & D).
      destruct (ix_ok f Hf) as [A B]. rewrite A in E1. injection E1 as <-. rewrite B in E2. injection E2 as <-. apply plane_iff; assumption.
    - intros H f Hf Hs. destruct (ix_ok f Hf) as [A B]. exists (ix f), (ps f). split; [exact A|]. split; [exact B|].
      apply (plane_iff tol d); [exact Hd|]. apply H. apply face_verts_in; auto. }
  destruct (face_verts side d) as [|f0 fs] eqn:Ef; [discriminate|].
  assert (H0 : In f0 (f0 :: fs)) by (left; reflexivity).
  assert (Hr : forall f, In f (f0 :: fs) -> 0 <= f < 8) by (intros f Hf; rewrite <- Ef in Hf; apply face_verts_in in Hf; [tauto|exact Hd]).
  rewrite (proj2 (rget_Ok (f0 :: fs) 0 f0) eq_refl). cbn [bind].
  destruct (ix_ok f0 (Hr f0 H0)) as [A0 B0]. rewrite (proj2 (rget_Ok _ _ _) A0). cbn [bind]. rewrite (proj2 (rget_Ok _ _ _) B0). cbn [bind].
  fold (on f0).
  assert (G : foldM (fun l f => let* idx := rget cell f in let* p := rget verts idx in
      if is_on_plane tol (2 ^ d) p coord then let* xy := bg_extract p d in Ok (l ++ [mkVertex idx (fst xy) (snd xy)]) else Ok l) (f0 :: fs) []
    = Ok ([] ++ flat_map (fun f => if on f then [vt f] else []) (f0 :: fs))).
  { apply foldM_gather. intros acc f Hf. destruct (ix_ok f (Hr f Hf)) as [A B]. rewrite (proj2 (rget_Ok _ _ _) A). cbn [bind].
    rewrite (proj2 (rget_Ok _ _ _) B). cbn [bind]. fold (on f). destruct (on f); [|rewrite app_nil_r; reflexivity].
    rewrite extract_ok by exact Hd. reflexivity. }
  destruct (on f0) eqn:E0.
  - rewrite G. eexists; split; [reflexivity|]. cbn [app].
    destruct (Z.eq_dec (zlen (flat_map (fun f => if on f then [vt f] else []) (f0 :: fs))) 4) as [E4|E4].
    + left. split; [exact E4|]. unfold zlen in E4. destruct (flat_map_full on vt (f0 :: fs)) as [P Q]; [rewrite F4; lia|].
      split; [apply Bd; exact P|]. exact Q.
    + right. split; [exact E4|]. intros H. apply E4. rewrite flat_map_all by (apply Bd; exact H). unfold zlen. rewrite map_length, F4. reflexivity.
  - exists []. split; [reflexivity|]. right. split; [discriminate|]. intros H. rewrite (proj1 Bd H f0 H0) in E0. discriminate.
Qed.
Lemma face_quad_ok srt dc : sorts srt -> on_boundary tol verts d coord side cell ->
  exists q, face_quad srt dc (map vt (face_verts side d)) = Ok q /\ quad_of_face verts d side dc cell q.
Proof.
  intros Hs Hb. set (vs := map vt (face_verts side d)).
  assert (L : zlen vs = 4) by (unfold vs, zlen; rewrite map_length; destruct (dir3 d Hd) as [->|[->| ->]], side; reflexivity).
  destruct (pickers srt vs Hs L) as (a & b & c & e & E1 & E2 & E3 & E4 & P & Y1 & Y2 & X).
  assert (Hin : forall v, In v [a; b; c; e] -> face_corner verts d side cell v).
  { intros v Hi. apply (Permutation_in _ P) in Hi. apply in_map_iff in Hi. destruct Hi as (f & <- & Hf). apply vt_corner. exact Hf. }
  assert (Pi : Permutation (map (fun v => Some (v_i v)) [a; b; c; e]) (map (zget cell) (filter (fun f => Bool.eqb (Z.testbit f d) side) (zrange 0 8)))).
  { rewrite (Permutation_map (fun v => Some (v_i v)) P). unfold vs. rewrite map_map, <- face_verts_filter by exact Hd.
    apply Permutation_refl'. apply map_ext_in. intros f Hf. apply face_verts_in in Hf; [|exact Hd]. cbn [v_i]. symmetry. apply (ix_ok f). tauto. }
  unfold face_quad. rewrite E1, E2. cbn [bind]. destruct dc; rewrite E3, E4; cbn [bind].
  - eexists; split; [reflexivity|]. split; [|split].
    + cbn. auto.
    + eapply perm_trans; [|exact Pi]. unfold q_verts. cbn. do 2 apply perm_skip. apply perm_swap.
    + intros v Hi. apply Hin. cbn in *. tauto.
  - eexists; split; [reflexivity|]. split; [|split].
    + cbn. auto.
    + exact Pi.
    + exact Hin.
Qed.
End Cell.

(* ---- pillars *)
Definition hd_x (c : R * list quad) : R := fst c.
Definition left_of (a b : R * list quad) : Prop := (fst a + 1 / 10000000 <= fst b)%R.
Definition col_ok (c : R * list quad) : Prop := exists q t, snd c = q :: t /\ v_x (q_v0 q) = fst c /\ forall q', In q' (snd c) -> near q q'.
Lemma near_refl q : near q q.
Proof. unfold near. replace (v_x (q_v0 q) - v_x (q_v0 q))%R with 0%R by ring. rewrite Rabs_R0. lra. Qed.
Lemma near_sym a b : near a b -> near b a.
Proof. unfold near. rewrite Rabs_minus_sym. exact (fun H => H). Qed.
Lemma nearb_iff a b : nearb a b = true <-> near a b.
Proof. apply Rltb_true. Qed.
Lemma match_some m q m' : col_match m q = Some m' ->
  exists a k l b, m = a ++ (k, l) :: b /\ m' = a ++ (k, l ++ [q]) :: b /\ (Rabs (k - v_x (q_v0 q)) < 1 / 10000000)%R.
Proof.
  revert m'. induction m as [|[k l] m IH]; intros m'; cbn; [discriminate|]. destruct (Rltb _ _) eqn:E.
  - intros [= <-]. exists [], k, l, m. apply Rltb_true in E. auto.
  - destruct (col_match m q) as [t|] eqn:Em; [|discriminate]. intros [= <-]. destruct (IH t eq_refl) as (a & k' & l' & b & -> & -> & H).
    exists ((k, l) :: a), k', l', b. auto.
Qed.
Lemma match_none m q : col_match m q = None -> forall c, In c m -> (1 / 10000000 <= Rabs (fst c - v_x (q_v0 q)))%R.
Proof.
  induction m as [|[k l] m IH]; cbn; [intros _ c []|]. destruct (Rltb _ _) eqn:E; [discriminate|]. destruct (col_match m q); [discriminate|].
  intros _ c [<-|Hc]; [apply Rltb_false in E; cbn; lra|apply IH; [reflexivity|exact Hc]].
Qed.
Lemma insert_split m q : StronglySorted left_of m -> (forall c, In c m -> (1 / 10000000 <= Rabs (fst c - v_x (q_v0 q)))%R) ->
  exists a b, m = a ++ b /\ col_insert m (v_x (q_v0 q)) q = a ++ (v_x (q_v0 q), [q]) :: b /\
    (forall c, In c a -> fst c + 1 / 10000000 <= v_x (q_v0 q))%R /\ (forall c, In c b -> v_x (q_v0 q) + 1 / 10000000 <= fst c)%R.
Proof.
  induction m as [|[k l] m IH]; intros S G; cbn.
  - exists [], []. repeat split; intros c [].
  - apply StronglySorted_inv in S. destruct S as [S F]. rewrite Forall_forall in F. unfold left_of in F. cbn in F.
    pose proof (G (k, l) (or_introl eq_refl)) as Gk. cbn in Gk. set (x := v_x (q_v0 q)) in *.
    destruct (Rltb x k) eqn:E1; [apply Rltb_true in E1|apply Rltb_false in E1].
    + exists [], ((k, l) :: m). split; [reflexivity|]. split; [reflexivity|]. split; [intros c []|].
      intros c [<-|Hc]; cbn; [rewrite Rabs_right in Gk by lra; lra|]. specialize (F c Hc). rewrite Rabs_right in Gk by lra. lra.
    + destruct (Rltb k x) eqn:E2; [apply Rltb_true in E2|apply Rltb_false in E2].
      * destruct IH as (a & b & -> & E & A & B); [exact S|intros c Hc; apply G; right; exact Hc|].
        exists ((k, l) :: a), b. split; [reflexivity|]. split; [rewrite E; reflexivity|]. split; [|exact B].
        intros c [<-|Hc]; [|apply A; exact Hc]. cbn. rewrite Rabs_left in Gk by lra. lra.
      * exfalso. replace k with x in Gk by lra. replace (x - x)%R with 0%R in Gk by ring. rewrite Rabs_R0 in Gk. lra.
Qed.
Lemma sorted_app {A} (R : A -> A -> Prop) a b : StronglySorted R (a ++ b) <-> StronglySorted R a /\ StronglySorted R b /\ forall x y, In x a -> In y b -> R x y.
Proof.
  induction a as [|x a IH]; cbn.
  - split; [intros H; split; [constructor|]; split; [exact H|intros x y []]|tauto].
  - split.
    + intros H. apply StronglySorted_inv in H. destruct H as [S F]. apply IH in S. destruct S as (S1 & S2 & S3). rewrite Forall_forall in F. split; [|split].
      * constructor; [exact S1|]. apply Forall_forall. intros y Hy. apply F, in_app_iff. left; exact Hy.
      * exact S2.
      * intros u y [<-|Hu] Hy; [apply F, in_app_iff; right; exact Hy|apply S3; assumption].
    + intros (S1 & S2 & S3). apply StronglySorted_inv in S1. destruct S1 as [S1 F]. rewrite Forall_forall in F. constructor.
      * apply IH. split; [exact S1|]. split; [exact S2|]. intros u y Hu Hy. apply S3; [right; exact Hu|exact Hy].
      * apply Forall_forall. intros y Hy. apply in_app_iff in Hy. destruct Hy as [Hy|Hy]; [apply F; exact Hy|apply S3; [left; reflexivity|exact Hy]].
Qed.
Definition inv_cols (m : colmap) (qs : list quad) : Prop :=
  StronglySorted left_of m /\ (forall c, In c m -> col_ok c) /\ Permutation (concat (map snd m)) qs /\
  (separated qs -> forall c q t, In c m -> snd c = q :: t -> snd c = filter (nearb q) qs).
Lemma separated_sub qs q : separated (qs ++ [q]) -> separated qs.
Proof. intros H a b c Ha Hb Hc. apply H; apply in_app_iff; left; assumption. Qed.
Lemma col_add_inv m qs q : inv_cols m qs -> inv_cols (col_add m q) (qs ++ [q]).
Proof.
  intros (S & K & P & Fi).
  assert (Gap : forall c c' h t h' t', StronglySorted left_of m -> In c m -> In c' m -> snd c = h :: t -> snd c' = h' :: t' -> near h h' -> c = c').
  { clear - K. intros c c' h t h' t' S Hc Hc' E E' Nr. destruct (K c Hc) as (q1 & t1 & E1 & X1 & _). destruct (K c' Hc') as (q2 & t2 & E2 & X2 & _).
    rewrite E in E1. injection E1 as <- <-. rewrite E' in E2. injection E2 as <- <-. unfold near in Nr. rewrite X1, X2 in Nr.
    apply in_split in Hc. destruct Hc as (a & b & ->). apply sorted_app in S. destruct S as (_ & S & S3).
    apply StronglySorted_inv in S. destruct S as [_ F]. rewrite Forall_forall in F. apply in_app_iff in Hc'. destruct Hc' as [Hc'|[Hc'|Hc']]; [|exact Hc'|].
    - specialize (S3 c' c Hc' (or_introl eq_refl)). unfold left_of in S3. rewrite Rabs_right in Nr by lra. lra.
    - specialize (F c' Hc'). unfold left_of in F. rewrite Rabs_left in Nr by lra. lra. }
  unfold col_add. destruct (col_match m q) as [m'|] eqn:E.
  - apply match_some in E. destruct E as (a & k & l & b & Em & -> & D).
    destruct (K (k, l)) as (h & t & El & Xh & Nh); [rewrite Em; apply in_app_iff; right; left; reflexivity|]. cbn in El, Xh, Nh.
    assert (Nq : near h q) by (unfold near; rewrite Xh; exact D).
    split; [|split; [|split]].
    + rewrite Em in S. apply sorted_app in S. destruct S as (S1 & S2 & S3). apply StronglySorted_inv in S2. destruct S2 as [S2 F]. apply sorted_app.
      split; [exact S1|]. split; [constructor; [exact S2|]; rewrite Forall_forall in *; intros x Hx; exact (F x Hx)|].
      intros x y Hx [<-|Hy]; [exact (S3 x (k, l) Hx (or_introl eq_refl))|apply S3; [exact Hx|right; exact Hy]].
    + intros c Hc. apply in_app_iff in Hc. destruct Hc as [Hc|[<-|Hc]].
      * apply K. rewrite Em. apply in_app_iff. left; exact Hc.
      * exists h, (t ++ [q]). cbn [snd fst]. split; [rewrite El; reflexivity|]. split; [exact Xh|]. intros q' Hq. apply in_app_iff in Hq.
        destruct Hq as [Hq|[<-|[]]]; [apply Nh; exact Hq|exact Nq].
      * apply K. rewrite Em. apply in_app_iff. right; right; exact Hc.
    + rewrite Em in P. rewrite map_app, concat_app in *. cbn [map snd concat] in *. rewrite <- P.
      rewrite <- !app_assoc. apply Permutation_app_head. apply Permutation_app_head. cbn. apply Permutation_cons_append.
    + intros Sp. pose proof (separated_sub _ _ Sp) as Sp'. specialize (Fi Sp'). intros c q0 t0 Hc Ec. rewrite filter_app. cbn [filter].
      assert (Sub : forall x, In x m -> forall y, In y (snd x) -> In y qs).
      { intros x Hx y Hy. apply (Permutation_in _ P). apply in_concat. exists (snd x). split; [apply in_map; exact Hx|exact Hy]. }
      assert (Ih : In (k, l) m) by (rewrite Em; apply in_app_iff; right; left; reflexivity).
      assert (Other : In c m -> c <> (k, l) -> nearb q0 q = false).
      { intros Hm Hn. destruct (nearb q0 q) eqn:En; [|reflexivity]. exfalso. apply Hn. apply nearb_iff in En.
        apply (Gap c (k, l) q0 t0 h t S Hm Ih Ec El). apply (Sp q0 q h).
        - apply in_app_iff. left. apply (Sub c Hm). rewrite Ec. left; reflexivity.
        - apply in_app_iff. right. left. reflexivity.
        - apply in_app_iff. left. apply (Sub (k, l) Ih). cbn. rewrite El. left; reflexivity.
        - exact En.
        - apply near_sym. exact Nq. }
      assert (Sk : forall x, In x a \/ In x b -> fst x <> k).
      { rewrite Em in S. apply sorted_app in S. destruct S as (_ & S2 & S3). apply StronglySorted_inv in S2. destruct S2 as [_ F]. rewrite Forall_forall in F.
        unfold left_of in *. intros x [Hx|Hx]; [specialize (S3 x (k, l) Hx (or_introl eq_refl))|specialize (F x Hx)]; cbn in *; lra. }
      apply in_app_iff in Hc. destruct Hc as [Hc|[<-|Hc]].
      * assert (Hm : In c m) by (rewrite Em; apply in_app_iff; left; exact Hc). rewrite Other; [rewrite app_nil_r; exact (Fi c q0 t0 Hm Ec)|exact Hm|].
        intros ->. exact (Sk (k, l) (or_introl Hc) eq_refl).
      * cbn [snd] in *. rewrite El in Ec. cbn in Ec. injection Ec as <- <-. rewrite (proj2 (nearb_iff h q) Nq).
        f_equal. exact (Fi (k, l) h t Ih El).
      * assert (Hm : In c m) by (rewrite Em; apply in_app_iff; right; right; exact Hc). rewrite Other; [rewrite app_nil_r; exact (Fi c q0 t0 Hm Ec)|exact Hm|].
        intros ->. exact (Sk (k, l) (or_intror Hc) eq_refl).
  - pose proof (match_none m q E) as G. destruct (insert_split m q S G) as (a & b & Em & -> & A & B). split; [|split; [|split]].
    + rewrite Em in S. apply sorted_app in S. destruct S as (S1 & S2 & S3). apply sorted_app. split; [exact S1|]. split.
      * constructor; [exact S2|]. apply Forall_forall. exact B.
      * intros x y Hx [<-|Hy]; [apply A; exact Hx|apply S3; assumption].
    + intros c Hc. apply in_app_iff in Hc. destruct Hc as [Hc|[<-|Hc]].
      * apply K. rewrite Em. apply in_app_iff. left; exact Hc.
      * exists q, []. cbn. split; [reflexivity|]. split; [reflexivity|]. intros q' [<-|[]]. apply near_refl.
      * apply K. rewrite Em. apply in_app_iff. right; exact Hc.
    + rewrite Em in P. rewrite map_app, concat_app in *. cbn [map snd concat] in *. rewrite <- P.
      cbn. rewrite <- Permutation_middle. apply Permutation_cons_append.
    + intros Sp. pose proof (separated_sub _ _ Sp) as Sp'. specialize (Fi Sp'). intros c q0 t0 Hc Ec. rewrite filter_app. cbn [filter].
      assert (Hq : c = (v_x (q_v0 q), [q]) \/ In c m).
      { rewrite Em. rewrite !in_app_iff in *. destruct Hc as [Hc|[Hc|Hc]]; [tauto|left; symmetry; exact Hc|tauto]. }
      destruct Hq as [->|Hm].
      * cbn in Ec. injection Ec as <- <-. rewrite (proj2 (nearb_iff q q) (near_refl q)). cbn [snd].
        replace (filter (nearb q) qs) with (@nil quad); [reflexivity|]. symmetry.
        destruct (filter (nearb q) qs) as [|y l] eqn:Ef; [reflexivity|]. exfalso.
        assert (Hy : In y (filter (nearb q) qs)) by (rewrite Ef; left; reflexivity). apply filter_In in Hy. destruct Hy as [Hy Ny]. apply nearb_iff in Ny.
        pose proof (Permutation_in _ (Permutation_sym P) Hy) as Hy'. apply in_concat in Hy'. destruct Hy' as (s & Hs & Hys). apply in_map_iff in Hs.
        destruct Hs as (c & <- & Hcm). destruct (K c Hcm) as (h & t & Eh & Xh & Nh). specialize (G c Hcm). rewrite <- Xh in G.
        assert (Nhq : near h q); [|unfold near in Nhq; lra]. apply (Sp h y q).
        -- apply in_app_iff. left. apply (Permutation_in _ P). apply in_concat. exists (snd c). split; [apply in_map; exact Hcm|rewrite Eh; left; reflexivity].
        -- apply in_app_iff. left; exact Hy.
        -- apply in_app_iff. right; left; reflexivity.
        -- apply Nh. exact Hys.
        -- apply near_sym; exact Ny.
      * rewrite (Fi c q0 t0 Hm Ec) at 1. destruct (nearb q0 q) eqn:En; [|rewrite app_nil_r; reflexivity]. exfalso.
        apply nearb_iff in En. destruct (K c Hm) as (h & t & Eh & Xh & _). rewrite Ec in Eh. injection Eh as <- <-. specialize (G c Hm).
        unfold near in En. rewrite Xh in En. lra.
Qed.
Lemma inv_pillars m qs : inv_cols m qs -> pillars qs (map snd m) /\
  (separated qs -> forall col, In col (map snd m) -> exists q, col = filter (nearb q) qs /\ In q qs).
Proof.
  intros (S & K & P & Fi). split; [split; [exact P|split]|].
  - intros col Hc. apply in_map_iff in Hc. destruct Hc as (c & <- & Hc). destruct (K c Hc) as (q & t & E & _ & Nr). exists q, t. split; [exact E|exact Nr].
  - clear P Fi. induction m as [|c m IH]; cbn; [constructor|]. apply StronglySorted_inv in S. destruct S as [S F]. constructor.
    + apply IH; [exact S|]. intros x Hx. apply K. right; exact Hx.
    + apply Forall_forall. intros y Hy. apply in_map_iff in Hy. destruct Hy as (c' & <- & Hc'). rewrite Forall_forall in F. specialize (F c' Hc').
      unfold left_of in F. intros q q' Eq Eq'. destruct (K c (or_introl eq_refl)) as (h & t & Eh & Xh & _). destruct (K c' (or_intror Hc')) as (h' & t' & Eh' & Xh' & _).
      rewrite Eh in Eq. rewrite Eh' in Eq'. cbn in Eq, Eq'. injection Eq as <-. injection Eq' as <-. rewrite Xh, Xh'. exact F.
  - intros Sp col Hc. apply in_map_iff in Hc. destruct Hc as (c & <- & Hc). destruct (K c Hc) as (q & t & E & _ & _). exists q. split; [exact (Fi Sp c q t Hc E)|].
    apply (Permutation_in _ P). apply in_concat. exists (snd c). split; [apply in_map; exact Hc|rewrite E; left; reflexivity].
Qed.

Lemma picks_app {A} (P : A -> Prop) l1 l2 r1 r2 : picks P l1 r1 -> picks P l2 r2 -> picks P (l1 ++ l2) (r1 ++ r2).
Proof. intros H1 H2. induction H1; cbn; [exact H2|apply picks_in; assumption|apply picks_out; assumption]. Qed.

Lemma master_face tol verts cells srt d coord side dc : 0 <= d < 3 -> wf_cells verts cells -> sorts srt ->
  exists grid cols mine qs kept, extract_master_face tol verts cells srt (2 ^ d) coord side dc = Ok (grid, cols) /\
    picks (on_boundary tol verts d coord side) cells mine /\ Forall2 (quad_of_face verts d side dc) mine qs /\
    picks (fun q => roomy (q_verts q)) qs kept /\ Forall2 (fun q q' => q_verts q' = q_verts q /\ boxed q') kept grid /\
    pillars qs cols /\ (separated qs -> forall col, In col cols -> exists q, In q qs /\ col = filter (nearb q) qs).
Proof.
  intros Hd W Hs. unfold extract_master_face. set (step := fun st cell => _).
  assert (G : forall cells, wf_cells verts cells -> forall m grid qs0 kept0, inv_cols m qs0 -> picks (fun q => roomy (q_verts q)) qs0 kept0 ->
    Forall2 (fun q q' => q_verts q' = q_verts q /\ boxed q') kept0 grid ->
    exists m' grid' mine qs kept, foldM step cells (m, grid) = Ok (m', grid') /\ picks (on_boundary tol verts d coord side) cells mine /\
      Forall2 (quad_of_face verts d side dc) mine qs /\ inv_cols m' (qs0 ++ qs) /\ picks (fun q => roomy (q_verts q)) (qs0 ++ qs) kept /\
      Forall2 (fun q q' => q_verts q' = q_verts q /\ boxed q') kept grid').
  { clear cells W. induction cells as [|cell cells IH]; intros W m grid qs0 kept0 I Pk F; cbn [foldM].
    - exists m, grid, [], [], kept0. rewrite app_nil_r. split; [reflexivity|]. split; [constructor|]. split; [constructor|]. split; [exact I|]. split; [exact Pk|exact F].
    - destruct (W cell (or_introl eq_refl)) as [L8 Lv]. destruct (cell_face_eq tol coord verts d side cell Hd L8 Lv) as (vs & Ev & C).
      assert (W' : wf_cells verts cells) by (intros x Hx; apply W; right; exact Hx).
      unfold step at 1. rewrite Ev. cbn [bind]. destruct C as [(L & Hb & Evs)|(L & Hb)].
      + rewrite (proj2 (Z.eqb_eq _ _) L). rewrite Evs. destruct (face_quad_ok tol coord verts d side cell Hd L8 Lv srt dc Hs Hb) as (q & Eq & Q). rewrite Eq. cbn [bind].
        pose proof (col_add_inv m qs0 q I) as I'. destruct (add_spec grid q) as [A1 A2].
        assert (Step : exists kept1, picks (fun q => roomy (q_verts q)) (qs0 ++ [q]) kept1 /\ Forall2 (fun q q' => q_verts q' = q_verts q /\ boxed q') kept1 (bg_add grid q)).
        { destruct (area_ok q) eqn:Ar; [assert (Hr : roomy (q_verts q)) by (apply area_roomy; exact Ar)|assert (Hr : ~ roomy (q_verts q)) by (intros Hr; apply area_roomy in Hr; congruence)].
          - destruct (A1 Hr) as (q' & -> & Ev' & Bx). exists (kept0 ++ [q]). split; [apply picks_app; [exact Pk|apply picks_in; [exact Hr|constructor]]|].
            apply Forall2_app; [exact F|]. constructor; [split; assumption|constructor].
          - rewrite (A2 Hr). exists kept0. split; [|exact F]. rewrite <- (app_nil_r kept0). apply picks_app; [exact Pk|apply picks_out; [exact Hr|constructor]]. }
        destruct Step as (kept1 & Pk1 & F1). destruct (IH W' _ _ _ _ I' Pk1 F1) as (m' & grid' & mine & qs & kept & E & P1 & P2 & P3 & P4 & P5).
        exists m', grid', (cell :: mine), (q :: qs), kept. rewrite <- app_assoc in P3, P4. split; [exact E|]. split; [apply picks_in; assumption|].
        split; [constructor; assumption|]. split; [exact P3|]. split; assumption.
      + rewrite (proj2 (Z.eqb_neq _ _) L). cbn [bind]. destruct (IH W' m grid qs0 kept0 I Pk F) as (m' & grid' & mine & qs & kept & E & P1 & P2 & P3 & P4 & P5).
        exists m', grid', mine, qs, kept. split; [exact E|]. split; [apply picks_out; assumption|]. split; [exact P2|]. split; [exact P3|]. split; assumption. }
  destruct (G cells W [] [] [] []) as (m' & grid' & mine & qs & kept & E & P1 & P2 & P3 & P4 & P5).
  - split; [constructor|]. split; [intros c []|]. split; [constructor|intros _ c q t []].
  - constructor.
  - constructor.
  - match goal with |- context [foldM step cells ?s] => pose proof (E : foldM step cells s = Ok (m', grid')) as E' end.
    rewrite E'. cbn [bind]. destruct (inv_pillars _ _ P3) as [Pi Se]. exists grid', (map snd m'), mine, qs, kept.
    split; [reflexivity|]. split; [exact P1|]. split; [exact P2|]. split; [exact P4|]. split; [exact P5|]. split; [exact Pi|].
    intros Sp col Hc. destruct (Se Sp col Hc) as (q & Hq & Hi). exists q. auto.
Qed.
