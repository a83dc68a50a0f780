From Coq Require Import Lra.
From Verif Require Import BaseFacts RBaseFacts Steady_Proofs Euler_Proofs2 Impl_Model Impl_Spec.
Open Scope Z_scope.

Lemma nthZ_get l i : 0 <= i < zlen l -> rget l i = Ok (nthZ l i).
Proof. intros H. destruct (zget_in_range _ _ H) as (x & E). unfold rget, nthZ. now rewrite E. Qed.

(* ---- grid access *)
Section grid.
Context (g : tgrid) (W : wf_grid g).

Lemma pos_mono : forall a b, 0 <= a <= b -> b <= t_nc g -> nthZ (t_pos g) a <= nthZ (t_pos g) b.
Proof.
  destruct W as (_ & _ & _ & _ & M & _). intros a b [A B] C.
  replace b with (a + Z.of_nat (Z.to_nat (b - a))) in * by lia. revert B C. generalize (Z.to_nat (b - a)). clear b.
  induction n as [|n IH]; intros B C; [rewrite Z.add_0_r; lia|].
  replace (a + Z.of_nat (S n)) with (a + Z.of_nat n + 1) in * by lia. etransitivity; [apply IH; lia|]. apply M. lia.
Qed.
Lemma pos_range c : 0 <= c < t_nc g -> 0 <= nthZ (t_pos g) c <= nthZ (t_pos g) (c + 1) /\ nthZ (t_pos g) (c + 1) <= zlen (t_cf g).
Proof.
  intros H. destruct W as (_ & _ & _ & P0 & M & Pn & _). rewrite <- P0, <- Pn.
  split; [split; [apply pos_mono; lia|apply M; lia]|]. apply pos_mono; lia.
Qed.
Lemma face_range c f : 0 <= c < t_nc g -> In f (faces g c) -> 0 <= f < t_nf g.
Proof.
  intros H Hf. pose proof (pos_range c H). destruct W as (_ & _ & _ & _ & _ & _ & F & _). apply F.
  apply in_map_iff in Hf. destruct Hf as (i & <- & Hi). apply In_zrange in Hi.
  destruct (zget_in_range (t_cf g) i ltac:(lia)) as (x & E). unfold nthZ. rewrite E. eapply zget_In; eauto.
Qed.
Lemma cell_face_list_ok c : 0 <= c < t_nc g -> cell_face_list g c = Ok (faces g c).
Proof.
  intros H. pose proof (pos_range c H). destruct W as (_ & _ & L & _). unfold cell_face_list.
  rewrite !nthZ_get by lia. cbn [bind]. apply mapM_all_Ok. intros i Hi. apply In_zrange in Hi. apply nthZ_get. lia.
Qed.
Lemma face_ends_ok f : 0 <= f < t_nf g -> face_ends g f = Ok (first_cell g f, second_cell g f).
Proof. intros H. destruct W as (_ & _ & _ & _ & _ & _ & _ & L & _). unfold face_ends. rewrite !nthZ_get by lia. reflexivity. Qed.
Lemma ends_of_ok f : 0 <= f < t_nf g -> ends_of g f = (first_cell g f, second_cell g f).
Proof. intros H. unfold ends_of. now rewrite face_ends_ok. Qed.
Definition wends (f : Z) : Z * (Z * Z) := (f, (first_cell g f, second_cell g f)).
Lemma cell_conns_ok c : 0 <= c < t_nc g -> cell_conns g c = Ok (map wends (faces g c)).
Proof.
  intros H. unfold cell_conns. rewrite cell_face_list_ok by auto. cbn [bind]. apply mapM_all_Ok. intros f Hf.
  rewrite face_ends_ok by (eapply face_range; eauto). reflexivity.
Qed.
Lemma count_from {A} (p : A -> bool) l : forall n, fold_left (fun n x => n + (if p x then 1 else 0)) l n = n + zlen (filter p l).
Proof.
  induction l as [|x l IH]; intros n; cbn [fold_left filter]; [unfold zlen; cbn; lia|]. rewrite IH. destruct (p x); unfold zlen; cbn [length]; lia.
Qed.
Lemma filter_map {A B} (p : B -> bool) (f : A -> B) l : filter p (map f l) = map f (filter (fun x => p (f x)) l).
Proof. induction l as [|x l IH]; cbn [map filter]; auto. destruct (p (f x)); cbn [map]; now rewrite IH. Qed.
Lemma count_ok c : 0 <= c < t_nc g -> count_connections g c = Ok (zlen (conns g c)).
Proof.
  intros H. unfold count_connections. rewrite cell_conns_ok by auto. cbn [bind]. rewrite count_from, filter_map, zlen_map. reflexivity.
Qed.
Lemma conns_range c f : 0 <= c < t_nc g -> In f (conns g c) -> 0 <= f < t_nf g /\ 0 <= across g c f < t_nc g /\ (first_cell g f = c \/ second_cell g f = c).
Proof.
  intros H Hf. apply filter_In in Hf. destruct Hf as (Hf & I). pose proof (face_range _ _ H Hf) as R.
  split; auto. destruct W as (_ & _ & _ & _ & _ & _ & _ & _ & B & S). specialize (B f R). specialize (S c f H Hf).
  unfold interior in I. unfold across. destruct (Z.eqb_spec (first_cell g f) c); split; auto; lia.
Qed.
End grid.

(* ---- buffer *)
Definition zeros (n : Z) : list R := zrepeat 0%R n.
Lemma zeros_split a b : 0 <= a -> 0 <= b -> zeros (a + b) = zeros a ++ zeros b.
Proof. intros. unfold zeros, zrepeat. rewrite Z2Nat.inj_add, repeat_app by lia. reflexivity. Qed.
Lemma zeros_len n : 0 <= n -> zlen (zeros n) = n.
Proof. apply zlen_zrepeat. Qed.
Lemma zlen_cons {A} (x : A) l : zlen (x :: l) = 1 + zlen l.
Proof. unfold zlen. cbn [length]. lia. Qed.
Lemma zlen_nil {A} : zlen (@nil A) = 0.
Proof. reflexivity. Qed.
Lemma nset_app {A} (a : list A) x y b : nset (a ++ x :: b) (length a) y = a ++ y :: b.
Proof. induction a; cbn; auto. now rewrite IHa. Qed.
Lemma rget_app {A} (a : list A) x b o : o = zlen a -> rget (a ++ x :: b) o = Ok x.
Proof. intros ->. apply rget_Ok. rewrite zget_app_r by lia. replace (zlen a - zlen a) with 0 by lia. reflexivity. Qed.
Lemma rset_app {A} (a : list A) x y b o : o = zlen a -> rset (a ++ x :: b) o y = Ok (a ++ y :: b).
Proof.
  intros ->. rewrite rset_Ok.
  - f_equal. unfold zlen. rewrite Nat2Z.id. apply nset_app.
  - rewrite zlen_app. rewrite zlen_cons. pose proof (zlen_nonneg a). pose proof (zlen_nonneg b). lia.
Qed.
Lemma add_block_ok v : forall a b o, o = zlen a -> add_block (a ++ zeros (zlen v) ++ b) o v = Ok (a ++ v ++ b).
Proof.
  induction v as [|x v IH]; intros a b o Ho; cbn [add_block].
  - reflexivity.
  - rewrite zlen_cons. pose proof (zlen_nonneg v). rewrite zeros_split by lia. change (zeros 1) with [0%R]. cbn [app].
    rewrite rget_app by auto. cbn [bind]. rewrite rset_app by auto. cbn [bind].
    replace (a ++ (0 + x)%R :: zeros (zlen v) ++ b) with ((a ++ [x]) ++ zeros (zlen v) ++ b) by (rewrite <- app_assoc; cbn [app]; now rewrite Rplus_0_l).
    rewrite IH by (rewrite zlen_app, zlen_cons, zlen_nil; lia). now rewrite <- app_assoc.
Qed.
Lemma set_block_ok v : forall a b o, o = zlen a -> set_block (a ++ zeros (zlen v) ++ b) o v = Ok (a ++ v ++ b).
Proof.
  induction v as [|x v IH]; intros a b o Ho; cbn [set_block].
  - reflexivity.
  - rewrite zlen_cons. pose proof (zlen_nonneg v). rewrite zeros_split by lia. change (zeros 1) with [0%R]. cbn [app].
    rewrite rset_app by auto. cbn [bind].
    replace (a ++ x :: zeros (zlen v) ++ b) with ((a ++ [x]) ++ zeros (zlen v) ++ b) by (rewrite <- app_assoc; reflexivity).
    rewrite IH by (rewrite zlen_app, zlen_cons, zlen_nil; lia). now rewrite <- app_assoc.
Qed.

Section buffer.
Context (ndof : Z) (k : blocks) (g : tgrid).
Context (ND : 0 <= ndof) (LI : zlen (k_init k) = ndof) (LJ : zlen (k_accJ k) = ndof * ndof) (LF : zlen (k_accF k) = ndof).
Definition fJ1 (f : Z) : list R := fst (fst (k_flux k f)).
Definition fJ2 (f : Z) : list R := snd (fst (k_flux k f)).
Definition fF (f : Z) : list R := snd (k_flux k f).
Context (L1 : forall f, zlen (fJ1 f) = ndof * ndof) (L2 : forall f, zlen (fJ2 f) = ndof * ndof) (L3 : forall f, zlen (fF f) = ndof).
Lemma zlen_flat {A B} (h : A -> list B) l n : (forall x, zlen (h x) = n) -> zlen (flat_map h l) = zlen l * n.
Proof. intros H. induction l as [|x l IH]; cbn [flat_map]; [reflexivity|]. rewrite zlen_app, IH, H, zlen_cons. lia. Qed.


Definition contrib_body (st : list R * (Z * Z * Z)) (fn : Z * (Z * Z)) : res (list R * (Z * Z * Z)) :=
      if two_sided fn then
        let '(j1, j2, f) := snd st in
        let '(b1, b2, bf) := k_flux k (fst fn) in
        let* x := add_block (fst st) j1 b1 in
        let* x := add_block x j2 b2 in
        let* x := add_block x f bf in
        Ok (x, (j1 + ndof * ndof, j2 + ndof * ndof, f + ndof))
      else Ok st.
Lemma contrib_fold A0 I Z0 l : forall P1 P2 P3,
  let cl := filter (interior g) l in
  let n2 := zlen cl * (ndof * ndof) in
  let n1 := zlen cl * ndof in
  let p1 := zlen A0 + zlen P1 in
  let p2 := p1 + n2 + zlen P2 in
  let p3 := p2 + n2 + zlen I + zlen P3 in
  foldM contrib_body (map (wends g) l) (A0 ++ P1 ++ zeros n2 ++ P2 ++ zeros n2 ++ I ++ P3 ++ zeros n1 ++ Z0, (p1, p2, p3)) =
  Ok (A0 ++ (P1 ++ flat_map fJ1 cl) ++ (P2 ++ flat_map fJ2 cl) ++ I ++ (P3 ++ flat_map fF cl) ++ Z0, (p1 + n2, p2 + n2, p3 + n1)).
Proof.
  induction l as [|f l IH]; intros P1 P2 P3; cbn zeta; cbn [filter].
  - cbn [map foldM flat_map]. change (zlen (@nil Z)) with 0. rewrite !Z.mul_0_l, !Z.add_0_r, !app_nil_r. reflexivity.
  - cbn [map foldM]. unfold contrib_body at 1. change (two_sided (wends g f)) with (interior g f).
    destruct (interior g f) eqn:E; [|cbn [bind]; apply IH].
    cbn [fst snd wends flat_map]. pose proof (zlen_nonneg (filter (interior g) l)) as Hn. set (m := zlen (filter (interior g) l)) in *.
    assert (Hf : k_flux k f = (fJ1 f, fJ2 f, fF f)) by (unfold fJ1, fJ2, fF; destruct (k_flux k f) as [[? ?] ?]; reflexivity). rewrite Hf. rewrite zlen_cons. fold m.
    assert (H2 : 0 <= ndof * ndof) by nia.
    replace ((1 + m) * (ndof * ndof)) with (ndof * ndof + m * (ndof * ndof)) by ring.
    replace ((1 + m) * ndof) with (ndof + m * ndof) by ring.
    rewrite !zeros_split by nia.
    match goal with |- context [add_block ?b ?o (fJ1 f)] =>
      replace b with ((A0 ++ P1) ++ zeros (zlen (fJ1 f)) ++ (zeros (m * (ndof * ndof)) ++ P2 ++ (zeros (ndof * ndof) ++ zeros (m * (ndof * ndof))) ++ I ++ P3 ++ (zeros ndof ++ zeros (m * ndof)) ++ Z0))
        by (rewrite (L1 f), <- !app_assoc; reflexivity) end.
    rewrite add_block_ok by (rewrite zlen_app; lia). cbn [bind].
    match goal with |- context [add_block ?b ?o (fJ2 f)] =>
      replace b with (((A0 ++ P1) ++ fJ1 f ++ zeros (m * (ndof * ndof)) ++ P2) ++ zeros (zlen (fJ2 f)) ++ (zeros (m * (ndof * ndof)) ++ I ++ P3 ++ (zeros ndof ++ zeros (m * ndof)) ++ Z0))
        by (rewrite (L2 f), <- !app_assoc; reflexivity) end.
    rewrite add_block_ok by (rewrite !zlen_app, (L1 f), zeros_len by nia; lia). cbn [bind].
    match goal with |- context [add_block ?b ?o (fF f)] =>
      replace b with (((A0 ++ P1) ++ fJ1 f ++ zeros (m * (ndof * ndof)) ++ P2 ++ fJ2 f ++ zeros (m * (ndof * ndof)) ++ I ++ P3) ++ zeros (zlen (fF f)) ++ (zeros (m * ndof) ++ Z0))
        by (rewrite (L3 f), <- !app_assoc; reflexivity) end.
    rewrite add_block_ok by (rewrite !zlen_app, (L1 f), (L2 f), !zeros_len by nia; lia). cbn [bind].
    specialize (IH (P1 ++ fJ1 f) (P2 ++ fJ2 f) (P3 ++ fF f)). cbn zeta in IH. fold m in IH. rewrite <- !app_assoc in IH. rewrite <- !app_assoc.
    rewrite !zlen_app, (L1 f), (L2 f), (L3 f) in IH.
    match goal with |- foldM _ _ (_, (?x, ?y, ?z)) = _ =>
      match type of IH with foldM _ _ (_, (?u, ?v, ?w)) = _ =>
        replace x with u by ring; replace y with v by ring; replace z with w by ring end end.
    rewrite IH. do 3 f_equal; [f_equal|]; ring.
Qed.

Lemma contrib_ok c : wf_grid g -> 0 <= c < t_nc g ->
  compute_cell_contrib ndof g c k =
  Ok (k_accJ k ++ flat_map fJ1 (conns g c) ++ flat_map fJ2 (conns g c) ++ k_init k ++ flat_map fF (conns g c) ++ k_accF k).
Proof.
  intros W H. unfold compute_cell_contrib. rewrite count_ok, cell_conns_ok by auto. cbn [bind].
  set (n := zlen (conns g c)). pose proof (zlen_nonneg (conns g c)) as Hn. fold n in Hn. assert (H2 : 0 <= ndof * ndof) by nia.
  set (nd2 := ndof * ndof) in *.
  replace (zrepeat 0%R ((2 * n + 1) * nd2 + (n + 2) * ndof)) with
    ((zeros nd2 ++ zeros (n * nd2) ++ zeros (n * nd2)) ++ zeros (zlen (k_init k)) ++ (zeros (n * ndof) ++ zeros ndof)).
  2:{ rewrite LI, <- !zeros_split by nia. change (zrepeat 0%R) with zeros. f_equal. ring. }
  rewrite set_block_ok by (rewrite !zlen_app, !zeros_len by nia; ring). cbn [bind].
  pose proof (contrib_fold (zeros nd2) (k_init k) (zeros ndof) (faces g c) [] [] []) as F. cbn zeta in F. fold (conns g c) n nd2 in F.
  rewrite !zlen_nil in F. cbn [app] in F. rewrite zeros_len, LI in F by nia. rewrite <- !app_assoc.
  replace (nd2 + 0) with nd2 in F by ring. replace (nd2 + n * nd2 + 0) with (nd2 + n * nd2) in F by ring.
  replace (nd2 + n * nd2 + n * nd2 + ndof + 0) with ((2 * n + 1) * nd2 + ndof) in F by ring.
  unfold contrib_body in F. fold nd2 in F. rewrite F. cbn [bind snd fst].
  match goal with |- context [add_block (zeros nd2 ++ ?x) 0 _] => replace (zeros nd2 ++ x) with ([] ++ zeros (zlen (k_accJ k)) ++ x) by (rewrite LJ; reflexivity) end.
  rewrite add_block_ok by reflexivity. cbn [bind app]. replace (zeros ndof) with (zeros (zlen (k_accF k))) by now rewrite LF.
  replace (k_accJ k ++ flat_map fJ1 (conns g c) ++ flat_map fJ2 (conns g c) ++ k_init k ++ flat_map fF (conns g c) ++ zeros (zlen (k_accF k)))
    with ((k_accJ k ++ flat_map fJ1 (conns g c) ++ flat_map fJ2 (conns g c) ++ k_init k ++ flat_map fF (conns g c)) ++ zeros (zlen (k_accF k)) ++ [])
    by (rewrite <- !app_assoc, app_nil_r; reflexivity).
  rewrite add_block_ok.
  - rewrite <- !app_assoc, app_nil_r. reflexivity.
  - rewrite !zlen_app, !(zlen_flat _ _ _ L1), !(zlen_flat _ _ _ L2), !(zlen_flat _ _ _ L3), LJ, LI. fold n nd2. ring.
Qed.
End buffer.
