From Coq Require Import Lra.
From Verif Require Import BaseFacts RBaseFacts Steady_Proofs Euler_Proofs2 Impl_Model Impl_Spec Impl_Proofs.
Open Scope Z_scope.

(* ---- effect of additions to the system *)
Definition cols (s : jsys) : list (list Z) := map (map fst) (y_mat s).
Definition eff (s s' : jsys) (dm : Z -> Z -> R) (dr : Z -> R) : Prop :=
  cols s' = cols s /\ zlen (y_res s') = zlen (y_res s) /\
  (forall a b, entry (y_mat s') a b = entry (y_mat s) a b + dm a b)%R /\
  (forall a, nthR (y_res s') a = nthR (y_res s) a + dr a)%R.
Lemma eff_refl s : eff s s (fun _ _ => 0%R) (fun _ => 0%R).
Proof. repeat split; intros; ring. Qed.
Lemma eff_trans s1 s2 s3 m1 r1 m2 r2 : eff s1 s2 m1 r1 -> eff s2 s3 m2 r2 ->
  eff s1 s3 (fun a b => m1 a b + m2 a b)%R (fun a => r1 a + r2 a)%R.
Proof.
  intros (A1 & B1 & C1 & D1) (A2 & B2 & C2 & D2). split; [congruence|]. split; [congruence|].
  split; intros; [rewrite C2, C1|rewrite D2, D1]; ring.
Qed.
Lemma eff_eq s1 s2 m r m' r' : eff s1 s2 m r -> (forall a b, m a b = m' a b) -> (forall a, r a = r' a) -> eff s1 s2 m' r'.
Proof. intros (A & B & C & D) E F. repeat split; auto; intros; [rewrite C, E|rewrite D, F]; auto. Qed.

Lemma row_add_ok j v : forall row, In j (map fst row) -> exists row', row_add row j v = Ok row' /\ map fst row' = map fst row /\
  forall b, Rsum (map snd (filter (fun e => fst e =? b) row')) = (Rsum (map snd (filter (fun e => fst e =? b) row)) + (if b =? j then v else 0))%R.
Proof.
  induction row as [|[j' x] t IH]; intros H; [destruct H|]. cbn [row_add]. destruct (Z.eqb_spec j' j) as [->|N].
  - eexists. split; [reflexivity|]. split; auto. intros b. cbn [filter fst]. rewrite (Z.eqb_sym b j). destruct (Z.eqb_spec j b); cbn [map snd]; rewrite ?Rsum_cons; ring.
  - destruct H as [H|H]; [cbn in H; congruence|]. destruct (IH H) as (t' & E & F & G). rewrite E. cbn [bind].
    eexists. split; [reflexivity|]. cbn [map fst]. split; [congruence|]. intros b. cbn [filter fst]. destruct (j' =? b); cbn [map snd]; rewrite ?Rsum_cons, G; ring.
Qed.
Lemma mat_add_ok s i j v cs : zget (cols s) i = Some cs -> In j cs ->
  exists s', mat_add s i j v = Ok s' /\ eff s s' (fun a b => if (a =? i) && (b =? j) then v else 0%R) (fun _ => 0%R).
Proof.
  intros H Hj. unfold cols in H. rewrite zget_map in H. destruct (zget (y_mat s) i) as [row|] eqn:E; cbn in H; [|discriminate]. injection H as <-.
  unfold mat_add. apply rget_Ok in E as E'. rewrite E'. cbn [bind]. destruct (row_add_ok j v row Hj) as (row' & A & B & C). rewrite A. cbn [bind].
  destruct (rset_exists (y_mat s) i row' (zget_Some_range _ _ _ E)) as (m & M & L & Gi & Go). rewrite M. cbn [bind].
  eexists. split; [reflexivity|]. unfold eff, cols. cbn [y_mat y_res]. split; [|split; [auto|split; [|intros; ring]]].
  - apply zlist_ext; [unfold zlen in *; rewrite !map_length; lia|]. intros k Hk. rewrite !zget_map. destruct (Z.eq_dec k i) as [->|N].
    + rewrite Gi, E. cbn. now rewrite B.
    + now rewrite Go.
  - intros a b. unfold entry. destruct (Z.eqb_spec a i) as [->|N]; cbn [andb].
    + rewrite Gi, E. apply C.
    + rewrite Go by auto. ring.
Qed.
Lemma vec_add_ok s i v : 0 <= i < zlen (y_res s) ->
  exists s', vec_add s i v = Ok s' /\ eff s s' (fun _ _ => 0%R) (fun a => if a =? i then v else 0%R).
Proof.
  intros H. unfold vec_add. destruct (rget_range _ _ H) as (x & E & G). rewrite E. cbn [bind].
  destruct (rset_exists (y_res s) i (x + v)%R H) as (r & M & _). rewrite M. cbn [bind]. eexists. split; [reflexivity|].
  destruct (rset_nthR _ _ _ _ M) as (A & _ & C & _). repeat split; auto; cbn [y_mat y_res]; intros; [ring|].
  rewrite C. apply nthR_get in G. destruct (Z.eqb_spec a i) as [->|]; [rewrite G|]; ring.
Qed.
Lemma eff_cols s s' m r i : eff s s' m r -> zget (cols s') i = zget (cols s) i.
Proof. intros (-> & _). reflexivity. Qed.

(* ---- one cell *)
Section cell.
Context (g : tgrid) (W : wf_grid g) (c : Z) (Hc : 0 <= c < t_nc g) (J1 J2 : Z -> R) (buf : list R) (nconn : Z) (cs : list Z).
Context (Cc : In c cs) (Cn : forall f, In f (conns g c) -> In (across g c f) cs).
Definition asm_body (st : jsys * (Z * Z)) (fn : Z * (Z * Z)) : res (jsys * (Z * Z)) :=
      let c1 := fst (snd fn) in
      let c2 := if c1 =? c then snd (snd fn) else c1 in
      if 0 <=? c2 then
        let* v1 := rget buf (fst (snd st)) in
        let* v2 := rget buf (snd (snd st)) in
        let* s := mat_add (fst st) c c v1 in
        let* s := mat_add s c c2 v2 in
        Ok (s, (fst (snd st) + 1, snd (snd st) + 1))
      else Ok st.
Lemma across_interior f : In f (faces g c) -> (0 <=? across g c f) = interior g f.
Proof.
  intros H. destruct W as (_ & _ & _ & _ & _ & _ & _ & _ & B & S). pose proof (face_range g W c f Hc H) as R.
  specialize (B f R). specialize (S c f Hc H). unfold across, interior. destruct (Z.eqb_spec (first_cell g f) c) as [->|N].
  - destruct (Z.leb_spec 0 c); [reflexivity|lia].
  - destruct S as [S|S]; [lia|]. rewrite S. destruct (Z.leb_spec 0 c); [now rewrite andb_true_r|lia].
Qed.
Lemma asm_fold l : forall s A C D, (forall f, In f l -> In f (faces g c)) ->
  let cl := filter (interior g) l in
  buf = A ++ map J1 cl ++ C ++ map J2 cl ++ D ->
  zget (cols s) c = Some cs ->
  exists s' p, foldM asm_body (map (wends g) l) (s, (zlen A, zlen A + zlen cl + zlen C)) = Ok (s', p) /\
    eff s s' (fun a b => if a =? c then ((if b =? c then Rsum (map J1 cl) else 0) + Rsum (map (fun f => if b =? across g c f then J2 f else 0%R) cl))%R else 0%R) (fun _ => 0%R).
Proof.
  induction l as [|f l IH]; intros s A C D Hl cl Hb Hs.
  - eexists _, _. split; [reflexivity|]. eapply eff_eq; [apply eff_refl| |]; auto. intros a b. cbn. rewrite Rsum_nil. destruct (a =? c), (b =? c); ring.
  - cbn [map foldM]. unfold asm_body at 1. cbn [fst snd wends]. fold (across g c f). rewrite across_interior by (apply Hl; left; auto).
    subst cl. cbn [filter] in *. destruct (interior g f) eqn:E.
    2:{ cbn [bind]. apply (IH s A C D); auto. intros; apply Hl; right; auto. }
    cbn [map app] in Hb. assert (G1 : rget buf (zlen A) = Ok (J1 f)) by (rewrite Hb; apply rget_app; auto).
    assert (Hin : In f (conns g c)) by (apply filter_In; split; auto; apply Hl; left; auto).
    set (cl := filter (interior g) l) in *. rewrite zlen_cons.
    assert (G2 : rget buf (zlen A + (1 + zlen cl) + zlen C) = Ok (J2 f)).
    { rewrite Hb. replace (A ++ J1 f :: map J1 cl ++ C ++ J2 f :: map J2 cl ++ D) with ((A ++ J1 f :: map J1 cl ++ C) ++ J2 f :: map J2 cl ++ D).
      - apply rget_app. rewrite !zlen_app, zlen_cons, zlen_app, zlen_map. lia.
      - rewrite <- !app_assoc. cbn [app]. now rewrite <- app_assoc. }
    rewrite G1, G2. cbn [bind].
    destruct (mat_add_ok s c c (J1 f) cs Hs Cc) as (s1 & E1 & F1). rewrite E1. cbn [bind].
    assert (Hs1 : zget (cols s1) c = Some cs) by (erewrite eff_cols; eauto).
    destruct (mat_add_ok s1 c (across g c f) (J2 f) cs Hs1 (Cn f Hin)) as (s2 & E2 & F2). rewrite E2. cbn [bind].
    assert (Hs2 : zget (cols s2) c = Some cs) by (erewrite eff_cols; eauto).
    destruct (IH s2 (A ++ [J1 f]) (C ++ [J2 f]) D) as (s3 & p & E3 & F3).
    { intros; apply Hl; right; auto. }
    { fold cl. rewrite Hb, <- !app_assoc. reflexivity. }
    { auto. }
    fold cl in E3, F3. rewrite !zlen_app, !zlen_cons in E3. change (zlen (@nil R)) with 0 in E3.
    replace (zlen A + 1) with (zlen A + (1 + 0)) by lia.
    replace (zlen A + (1 + zlen cl) + zlen C + 1) with (zlen A + (1 + 0) + zlen cl + (zlen C + (1 + 0))) by lia.
    rewrite E3. eexists _, _. split; [reflexivity|]. eapply eff_eq; [eapply eff_trans; [exact F1|eapply eff_trans; [exact F2|exact F3]]| |].
    + intros a b. cbn [map]. rewrite !Rsum_cons. destruct (a =? c), (b =? c), (b =? across g c f); cbn [andb]; ring.
    + intros; cbn beta; ring.
Qed.
Lemma vec_fold T : forall P s k n, buf = P ++ T -> zlen P = (2 * nconn + 1) + k -> n = k + zlen T -> 0 <= c < zlen (y_res s) ->
  exists s', foldM (fun s k => let* v := rget buf ((2 * nconn + 1) + k) in vec_add s c v) (zrange k n) s = Ok s' /\
    eff s s' (fun _ _ => 0%R) (fun a => if a =? c then Rsum T else 0%R).
Proof.
  induction T as [|x T IH]; intros P s k n Hb Hp Hn Hs.
  - rewrite zrange_empty by (change (zlen (@nil R)) with 0 in Hn; lia). eexists. split; [reflexivity|]. eapply eff_eq; [apply eff_refl| |]; auto.
    intros a. rewrite Rsum_nil. destruct (a =? c); auto.
  - rewrite zlen_cons in Hn. pose proof (zlen_nonneg T). rewrite zrange_cons by lia. cbn [foldM].
    assert (G : rget buf (2 * nconn + 1 + k) = Ok x) by (rewrite Hb; apply rget_app; lia). rewrite G. cbn [bind]. destruct (vec_add_ok s c x Hs) as (s1 & E1 & F1). rewrite E1. cbn [bind].
    destruct (IH (P ++ [x]) s1 (k + 1) n) as (s2 & E2 & F2).
    { rewrite <- app_assoc. auto. } { rewrite zlen_app, zlen_cons. change (zlen (@nil R)) with 0. lia. } { lia. }
    { destruct F1 as (_ & -> & _). auto. }
    rewrite E2. eexists. split; [reflexivity|]. eapply eff_eq; [eapply eff_trans; eauto| |].
    + intros; cbn beta; ring.
    + intros a. cbn beta. rewrite Rsum_cons. destruct (a =? c); ring.
Qed.
Lemma assemble_cell_ok (accJ i0 accF : R) (F : Z -> R) s :
  nconn = zlen (conns g c) ->
  buf = [accJ] ++ map J1 (conns g c) ++ map J2 (conns g c) ++ [i0] ++ map F (conns g c) ++ [accF] ->
  zget (cols s) c = Some cs -> 0 <= c < zlen (y_res s) ->
  exists s', assemble_cell_contrib g c nconn buf s = Ok s' /\
    eff s s' (fun a b => if a =? c then ((if b =? c then accJ + Rsum (map J1 (conns g c)) else 0)
                  + Rsum (map (fun f => if b =? across g c f then J2 f else 0%R) (conns g c)))%R else 0%R)
             (fun a => if a =? c then (i0 + Rsum (map F (conns g c)) + accF)%R else 0%R).
Proof.
  intros Hn Hb Hs Hr. unfold assemble_cell_contrib.
  assert (G0 : rget buf 0 = Ok accJ) by (rewrite Hb; reflexivity). rewrite G0. cbn [bind].
  destruct (mat_add_ok s c c accJ cs Hs Cc) as (s1 & E1 & F1). rewrite E1. cbn [bind]. rewrite cell_conns_ok by auto. cbn [bind].
  destruct (asm_fold (faces g c) s1 [accJ] [] ([i0] ++ map F (conns g c) ++ [accF])) as (s2 & p & E2 & F2); auto.
  { erewrite eff_cols; eauto. }
  fold (conns g c) in E2, F2. rewrite <- Hn in E2. change (zlen [accJ]) with 1 in E2. change (zlen (@nil R)) with 0 in E2.
  replace (1 + nconn + 0) with (nconn + 1) in E2 by lia. unfold asm_body in E2. rewrite E2. cbn [bind fst].
  destruct (vec_fold ([i0] ++ map F (conns g c) ++ [accF]) ([accJ] ++ map J1 (conns g c) ++ map J2 (conns g c)) s2 0 (nconn + 2)) as (s3 & E3 & F3).
  { rewrite Hb, <- !app_assoc. reflexivity. }
  { rewrite !zlen_app, !zlen_map, <- Hn. change (zlen [accJ]) with 1. lia. }
  { rewrite !zlen_app, zlen_map, <- Hn. change (zlen [i0]) with 1. change (zlen [accF]) with 1. lia. }
  { destruct F2 as (_ & -> & _). destruct F1 as (_ & -> & _). auto. }
  rewrite E3. eexists. split; [reflexivity|]. eapply eff_eq; [eapply eff_trans; [exact F1|eapply eff_trans; [exact F2|exact F3]]| |].
  - intros a b. cbn beta. destruct (a =? c), (b =? c); cbn [andb]; ring.
  - intros a. cbn beta. rewrite !Rsum_app, !Rsum_cons, Rsum_nil. destruct (a =? c); ring.
Qed.
End cell.

(* ---- all cells and sources *)
Section all.
Context (g : tgrid) (W : wf_grid g) (u : ustore) (dt : R).
Definition cJ1 (c f : Z) : R := fst (fst (flux_connection u dt c f (first_cell g f, second_cell g f))).
Definition cJ2 (c f : Z) : R := snd (fst (flux_connection u dt c f (first_cell g f, second_cell g f))).
Definition cF (c f : Z) : R := snd (flux_connection u dt c f (first_cell g f, second_cell g f)).
Definition cell_entry (c b : Z) : R :=
  ((if b =? c then u_pv u c + Rsum (map (cJ1 c) (conns g c)) else 0) + Rsum (map (fun f => if b =? across g c f then cJ2 c f else 0%R) (conns g c)))%R.
Definition cell_resid (c : Z) : R := (Rsum (map (cF c) (conns g c)) + u_pv u c * u_ds u c)%R.
Definition pattern (s : jsys) : Prop := zlen (y_res s) = t_nc g /\
  forall c, 0 <= c < t_nc g -> exists cs, zget (cols s) c = Some cs /\ In c cs /\ forall f, In f (conns g c) -> In (across g c f) cs.
Lemma pattern_eff s s' m r : eff s s' m r -> pattern s -> pattern s'.
Proof. intros (A & B & _) (C & D). split; [congruence|]. rewrite A. auto. Qed.
Lemma flat_single {A B} (h : A -> B) l : flat_map (fun x => [h x]) l = map h l.
Proof. induction l as [|x l IH]; cbn [flat_map map app]; [reflexivity|now rewrite IH]. Qed.
Lemma cells_ok l : forall s, pattern s -> (forall c, In c l -> 0 <= c < t_nc g) ->
  exists s', foldM (fun s c =>
      let* buf := compute_cell_contrib 1 g c (cell_blocks u dt (ends_of g) c) in
      let* n := count_connections g c in
      assemble_cell_contrib g c n buf s) l s = Ok s' /\
    eff s s' (fun a b => Rsum (map (fun c => if a =? c then cell_entry c b else 0%R) l)) (fun a => Rsum (map (fun c => if a =? c then cell_resid c else 0%R) l)).
Proof.
  induction l as [|c l IH]; intros s P Hl.
  - eexists. split; [reflexivity|]. apply eff_refl.
  - cbn [foldM]. assert (Hc : 0 <= c < t_nc g) by (apply Hl; left; auto).
    assert (FE : forall f, k_flux (cell_blocks u dt (ends_of g) c) f =
      let '(a, b, x) := flux_connection u dt c f (ends_of g f) in ([a], [b], [x])) by reflexivity.
    rewrite contrib_ok; auto; try (intros f; unfold fJ1, fJ2, fF; rewrite FE; destruct (flux_connection _ _ _ _ _) as [[? ?] ?]; reflexivity); try reflexivity; try lia.
    rewrite count_ok by auto. cbn [bind].
    assert (X1 : flat_map (fJ1 (cell_blocks u dt (ends_of g) c)) (conns g c) = map (cJ1 c) (conns g c)).
    { rewrite <- flat_single. rewrite !flat_map_concat_map. f_equal. apply map_ext_in. intros f Hf. destruct (conns_range g W c f Hc Hf) as (Hr & _).
      unfold fJ1, cJ1. rewrite FE, ends_of_ok by auto. destruct (flux_connection _ _ _ _ _) as [[? ?] ?]. reflexivity. }
    assert (X2 : flat_map (fJ2 (cell_blocks u dt (ends_of g) c)) (conns g c) = map (cJ2 c) (conns g c)).
    { rewrite <- flat_single. rewrite !flat_map_concat_map. f_equal. apply map_ext_in. intros f Hf. destruct (conns_range g W c f Hc Hf) as (Hr & _).
      unfold fJ2, cJ2. rewrite FE, ends_of_ok by auto. destruct (flux_connection _ _ _ _ _) as [[? ?] ?]. reflexivity. }
    assert (X3 : flat_map (fF (cell_blocks u dt (ends_of g) c)) (conns g c) = map (cF c) (conns g c)).
    { rewrite <- flat_single. rewrite !flat_map_concat_map. f_equal. apply map_ext_in. intros f Hf. destruct (conns_range g W c f Hc Hf) as (Hr & _).
      unfold fF, cF. rewrite FE, ends_of_ok by auto. destruct (flux_connection _ _ _ _ _) as [[? ?] ?]. reflexivity. }
    rewrite X1, X2, X3. cbn [k_accJ k_init k_accF cell_blocks].
    destruct P as (P1 & P2). destruct (P2 c Hc) as (cs & C1 & C2 & C3).
    destruct (assemble_cell_ok g W c Hc (cJ1 c) (cJ2 c) _ (zlen (conns g c)) cs C2 C3 (u_pv u c) 0%R (u_pv u c * u_ds u c)%R (cF c) s eq_refl eq_refl C1 ltac:(lia)) as (s1 & E1 & F1).
    rewrite E1. cbn [bind]. destruct (IH s1) as (s2 & E2 & F2).
    { eapply pattern_eff; eauto. split; auto. } { intros; apply Hl; right; auto. }
    rewrite E2. eexists. split; [reflexivity|]. eapply eff_eq; [eapply eff_trans; eauto| |].
    + intros a b. cbn [map]. rewrite Rsum_cons. unfold cell_entry. destruct (a =? c); ring.
    + intros a. cbn [map]. rewrite Rsum_cons. unfold cell_resid. destruct (a =? c); ring.
Qed.
Lemma sources_ok src : forall s, pattern s -> (forall q, In q src -> 0 <= q_cell q < t_nc g) ->
  exists s', foldM (fun s q => let '(j, f) := source_terms u dt q in
                    let* s := mat_add s (q_cell q) (q_cell q) j in
                    vec_add s (q_cell q) f) src s = Ok s' /\
    eff s s' (fun a b => Rsum (map (fun q => if (a =? q_cell q) && (b =? q_cell q) then fst (source_terms u dt q) else 0%R) src))
             (fun a => Rsum (map (fun q => if a =? q_cell q then snd (source_terms u dt q) else 0%R) src)).
Proof.
  induction src as [|q src IH]; intros s P Hq.
  - eexists. split; [reflexivity|]. apply eff_refl.
  - cbn [foldM map]. destruct (source_terms u dt q) as [j f] eqn:E. assert (Hc : 0 <= q_cell q < t_nc g) by (apply Hq; left; auto).
    destruct P as (P1 & P2). destruct (P2 _ Hc) as (cs & C1 & C2 & C3).
    destruct (mat_add_ok s _ _ j cs C1 C2) as (s1 & E1 & F1). rewrite E1. cbn [bind].
    destruct (vec_add_ok s1 (q_cell q) f) as (s2 & E2 & F2). { destruct F1 as (_ & -> & _). lia. } rewrite E2. cbn [bind].
    destruct (IH s2) as (s3 & E3 & F3). { eapply pattern_eff; eauto. eapply pattern_eff; eauto. split; auto. } { intros; apply Hq; right; auto. }
    rewrite E3. eexists. split; [reflexivity|]. eapply eff_eq; [eapply eff_trans; [exact F1|eapply eff_trans; [exact F2|exact F3]]| |].
    + intros a b. cbn beta. rewrite Rsum_cons. cbn [fst]. destruct (_ && _); ring.
    + intros a. cbn beta. rewrite Rsum_cons. cbn [snd]. destruct (_ =? _); ring.
Qed.
End all.

(* ---- the structure *)
Lemma create_ok g : wf_grid g -> exists s, create_system g = Ok s /\ pattern g s /\
  (forall a b, entry (y_mat s) a b = 0%R) /\ (forall a, nthR (y_res s) a = 0%R) /\
  (forall c, 0 <= c < t_nc g -> exists cs, zget (cols s) c = Some cs /\ NoDup cs /\
     forall j, In j cs <-> j = c \/ exists f, In f (conns g c) /\ j = across g c f).
Proof.
  intros W. pose proof W as (W0 & _). unfold create_system.
  set (rs := fun c => nodup Z.eq_dec (c :: map (across g c) (conns g c))).
  assert (E : mapM (row_structure g) (zrange 0 (t_nc g)) = Ok (map rs (zrange 0 (t_nc g)))).
  { apply mapM_all_Ok. intros c Hc. apply In_zrange in Hc. unfold row_structure. rewrite cell_conns_ok by auto. cbn [bind]. rewrite filter_map, map_map. reflexivity. }
  rewrite E. cbn [bind]. eexists. split; [reflexivity|].
  assert (C : forall c, 0 <= c < t_nc g -> zget (cols (mkJsys (map (map (fun j => (j, 0%R))) (map rs (zrange 0 (t_nc g)))) (zrepeat 0%R (t_nc g)))) c = Some (rs c)).
  { intros c Hc. unfold cols. cbn [y_mat]. rewrite !zget_map, zget_zrange by lia. cbn [option_map Z.add]. f_equal. rewrite map_map. cbn [fst]. apply map_id. }
  assert (I : forall c j, In j (rs c) <-> j = c \/ exists f, In f (conns g c) /\ j = across g c f).
  { intros c j. unfold rs. rewrite nodup_In. cbn [In]. rewrite in_map_iff. split; intros [H|H]; auto; destruct H as (f & H1 & H2); right; exists f; auto. }
  split; [|split; [|split]].
  - split; [cbn [y_res]; apply zlen_zrepeat; lia|]. intros c Hc. exists (rs c). split; auto. split; [apply I; auto|]. intros f Hf. apply I. right. eauto.
  - intros a b. cbn [y_mat]. unfold entry. rewrite !zget_map. destruct (zget (zrange 0 (t_nc g)) a); cbn [option_map]; auto.
    apply Rsum_map_zero. intros x Hx. apply filter_In in Hx. destruct Hx as (Hx & _). apply in_map_iff in Hx. destruct Hx as (? & <- & _). reflexivity.
  - intros a. cbn [y_res]. apply nthR_zrepeat0.
  - intros c Hc. exists (rs c). split; auto. split; [apply NoDup_nodup|]. apply I.
Qed.

Lemma assemble_ok g u dt src s : wf_grid g -> create_system g = Ok s -> (forall q, In q src -> 0 <= q_cell q < t_nc g) ->
  exists s', assemble g u dt src s = Ok s' /\ cols s' = cols s /\ zlen (y_res s') = t_nc g /\
    (forall c b, 0 <= c < t_nc g -> entry (y_mat s') c b = (cell_entry g u dt c b +
        Rsum (map (fun q => if (c =? q_cell q) && (b =? q_cell q) then fst (source_terms u dt q) else 0) src))%R) /\
    (forall c, 0 <= c < t_nc g -> nthR (y_res s') c = (cell_resid g u dt c + Rsum (map (fun q => if c =? q_cell q then snd (source_terms u dt q) else 0) src))%R).
Proof.
  intros W H Hq. destruct (create_ok g W) as (s0 & E & P & M0 & R0 & _). rewrite H in E. injection E as <-. unfold assemble.
  destruct (cells_ok g W u dt (zrange 0 (t_nc g)) s P) as (s1 & E1 & F1). { intros c Hc. apply In_zrange in Hc. auto. }
  rewrite E1. cbn [bind]. destruct (sources_ok g u dt src s1) as (s2 & E2 & F2); auto. { eapply pattern_eff; eauto. }
  exists s2. split; auto. pose proof (eff_trans _ _ _ _ _ _ _ F1 F2) as (A & B & C & D). split; auto.
  split; [rewrite B; apply P|].
  assert (PK : forall (f : Z -> R) c, 0 <= c < t_nc g -> Rsum (map (fun i => if c =? i then f i else 0%R) (zrange 0 (t_nc g))) = f c).
  { intros f c Hc. rewrite (Rsum_map_ext _ (fun i => if i =? c then f i else 0%R)) by (intros; now rewrite Z.eqb_sym).
    pose proof (Rsum_pick f c 0 (Z.to_nat (t_nc g))) as K. rewrite Z2Nat.id in K by lia. cbn [Z.add] in K. rewrite K.
    destruct (Z.leb_spec 0 c), (Z.ltb_spec c (t_nc g)); cbn [andb]; auto; lia. }
  split.
  - intros c b Hc. rewrite C, M0, (PK (fun c => cell_entry g u dt c b)) by auto. ring.
  - intros c Hc. rewrite D, R0, (PK (fun c => cell_resid g u dt c)) by auto. ring.
Qed.
