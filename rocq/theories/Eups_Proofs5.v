(* Proofs about the pattern and the entries of the mortar matrix. *)
From Verif Require Import BaseFacts RBaseFacts Mim_Proofs Smat_Proofs Asm_Proofs Steady_Proofs Eups_Proofs Eups_Proofs2 Eups_Spec.
Open Scope Z_scope.

Lemma renumber_nodes m n1 n2 : 2 <= m -> 2 <= n1 -> 1 <= n2 -> exists nodes num, renumber m n1 n2 = Ok (nodes, free_rows n2 * free_cols m n1 - 1) /\
  numbers_pairs (free_rows n2) (free_cols m n1) num /\ zlen nodes = m /\
  forall e, 0 <= e < m -> exists l, zget nodes e = Some l /\ zlen l = n1 * n2 /\
    forall i1 i2, 0 <= i1 < n1 -> 0 <= i2 < n2 -> zget l (i2 * n1 + i1) = Some (num (row_of n2 i2) (col_of m n1 e i1)).
Proof. exact (renumber_main m n1 n2). Qed.
Lemma numbers_range m n1 n2 num e i1 i2 : 2 <= m -> 2 <= n1 -> 1 <= n2 -> numbers_pairs (free_rows n2) (free_cols m n1) num ->
  0 <= e < m -> 0 <= i1 < n1 -> 0 <= i2 < n2 -> -1 <= num (row_of n2 i2) (col_of m n1 e i1) < free_rows n2 * free_cols m n1 - 1.
Proof.
  intros Hm H1 H2 (_ & _ & R & _) He Hi1 Hi2. apply R.
  - unfold row_of, free_rows. destruct (Z.ltb_spec 2 n2), (Z.eqb_spec i2 (n2 - 1)); cbn [andb]; lia.
  - unfold col_of, free_cols. destruct (Z.eqb_spec e (m - 1)), (Z.ltb_spec 0 i1); cbn [andb]; try nia; lia.
Qed.
Lemma renumber_bounds m n1 n2 : 2 <= m -> 2 <= n1 -> 1 <= n2 -> exists nodes, renumber m n1 n2 = Ok (nodes, free_rows n2 * free_cols m n1 - 1) /\
  zlen nodes = m /\ 0 <= free_rows n2 * free_cols m n1 - 1 /\ forall p ln, zget nodes p = Some ln -> zlen ln = n1 * n2 /\ forall x, In x ln -> -1 <= x < free_rows n2 * free_cols m n1 - 1.
Proof.
  intros Hm H1 H2. destruct (renumber_nodes m n1 n2 Hm H1 H2) as (nodes & num & E & NP & L & V). exists nodes. split; [exact E|]. split; [exact L|]. split.
  - pose proof (numbers_range m n1 n2 num 0 0 0 Hm H1 H2 NP ltac:(lia) ltac:(lia) ltac:(lia)). lia.
  - intros p ln Ep. pose proof (zget_Some_range _ _ _ Ep) as Hp. destruct (V p ltac:(lia)) as (l & El & Ll & Vl). rewrite Ep in El. injection El as <-. split; [exact Ll|].
    intros x Hx. apply In_zget in Hx. destruct Hx as (t & Ht & Et). pose proof (Z_div_mod_eq_full t n1) as D. pose proof (Z.mod_pos_bound t n1 ltac:(lia)) as B.
    assert (B2 : 0 <= t / n1 < n2) by (split; [apply Z.div_pos; lia|apply Z.div_lt_upper_bound; lia]).
    replace t with (t / n1 * n1 + t mod n1) in Et by lia. rewrite (Vl (t mod n1) (t / n1) B B2) in Et. injection Et as <-. apply numbers_range; try lia; assumption.
Qed.

(* ---- the equations of a corner *)
Lemma face_eqs_ok M meqn node d : (forall x, In x (refs_of M node d) -> exists e, zget meqn x = Some e) -> face_eqs M meqn node d = Ok (eqs_of M meqn node d).
Proof.
  unfold face_eqs, eqs_of, refs_of, get_mpc. destruct (mm_find M (node * 3 + d)) as [p|].
  - intros H. rewrite map_map. induction (mp_master p) as [|m l IH]; [reflexivity|]. cbn [map mapM]. destruct (H _ (or_introl eq_refl)) as (e & E).
    rewrite (proj2 (rget_Ok _ _ _) E). cbn [bind]. rewrite IH by (intros x Hx; apply H; right; exact Hx). cbn [bind]. unfold eq_of at 2. rewrite E. reflexivity.
  - intros H. destruct (H _ (or_introl eq_refl)) as (e & E). rewrite (proj2 (rget_Ok _ _ _) E). cbn [bind map]. unfold eq_of. rewrite E. reflexivity.
Qed.
Lemma eqs_below M meqn neq node d : (forall x, In x (refs_of M node d) -> exists e, zget meqn x = Some e /\ e < neq) -> forall e, In e (eqs_of M meqn node d) -> e < neq.
Proof. intros H e He. apply in_map_iff in He. destruct He as (x & <- & Hx). destruct (H x Hx) as (e & E & L). unfold eq_of. rewrite E. exact L. Qed.

(* ---- the places of a face *)
Definition spots (es cs : list Z) : list (Z * Z) := flat_map (fun e => if -1 <? e then map (fun c => (e, c)) cs else []) es.
Definition quad_spots (M : mpcmap) (meqn ln : list Z) (colofs : Z) (q : quad) : list (Z * Z) :=
  flat_map (fun v => flat_map (fun d => spots (eqs_of M meqn (v_i v) d) (mult_cols ln d colofs)) [0; 1; 2]) (q_verts q).
Definition face_spots (M : mpcmap) (meqn : list Z) (lnodes : list (list Z)) (colofs : Z) (cols : list (list quad)) (m : Z) : list (Z * Z) :=
  flat_map (fun p => flat_map (quad_spots M meqn (list_at lnodes p) colofs) (list_at cols p)) (zrange 0 m).
Lemma foldM_map' {A B S} (f : S -> B -> res S) (g : A -> B) l : forall s, foldM (fun s a => f s (g a)) l s = foldM f (map g l) s.
Proof. induction l as [|a l IH]; intros s; cbn [foldM map]; [reflexivity|]. destruct (f s (g a)); cbn [bind]; [apply IH|reflexivity|reflexivity]. Qed.
Lemma list_at_eq {A} (l : list (list A)) p x : zget l p = Some x -> list_at l p = x.
Proof. unfold list_at. intros ->. reflexivity. Qed.

Section Face.
Context (M : mpcmap) (meqn : list Z) (neq m n1 n2 : Z) (f : mface) (Hm : 2 <= m) (H1 : 2 <= n1) (H2 : 1 <= n2)
  (Hf : fits M meqn neq m (n1 * n2) f).
Let refs_ok p col : 0 <= p < m -> zget (fst f) p = Some col -> forall q v d x, In q col -> In v (q_verts q) -> 0 <= d < 3 -> In x (refs_of M (v_i v) d) -> exists e, zget meqn x = Some e /\ e < neq.
Proof.
  intros Hp Ec. destruct Hf as (_ & L2 & H). destruct (zget_in_range (snd f) p ltac:(lia)) as (le & El). destruct (H p col le Hp Ec El) as (_ & _ & R). exact R.
Qed.
Lemma bblock_eq colofs patt lnodes total : renumber m n1 n2 = Ok (lnodes, total) -> zlen lnodes = m ->
  add_bblock M meqn neq (fst f) m (n1 - 1) (n2 - 1) colofs patt =
  let* p := foldM adj_insert (face_spots M meqn lnodes colofs (fst f) m) (match patt with [] => zrepeat [] neq | _ => patt end) in Ok (p, 3 * total).
Proof.
  intros E L. unfold add_bblock. replace (n1 - 1 + 1) with n1 by lia. replace (n2 - 1 + 1) with n2 by lia. rewrite E. cbn [bind].
  set (p0 := match patt with [] => _ | _ => _ end). clearbody p0. unfold face_spots. rewrite <- (foldM_flat_map adj_insert).
  erewrite foldM_ext; [reflexivity|]. intros s p Hp. apply In_zrange in Hp. cbn beta.
  destruct (zget_in_range (fst f) p) as (col & Ec); [destruct Hf; lia|]. destruct (zget_in_range lnodes p) as (ln & El); [lia|].
  rewrite (proj2 (rget_Ok _ _ _) Ec), (proj2 (rget_Ok _ _ _) El). cbn [bind]. rewrite (list_at_eq _ _ _ Ec), (list_at_eq _ _ _ El).
  rewrite <- (foldM_flat_map adj_insert). apply foldM_ext. intros s1 q Hq. unfold quad_spots. rewrite <- (foldM_flat_map adj_insert). apply foldM_ext. intros s2 v Hv.
  rewrite <- (foldM_flat_map adj_insert). apply foldM_ext. intros s3 d Hd. assert (Hd' : 0 <= d < 3) by (cbn in Hd; lia).
  rewrite face_eqs_ok by (intros x Hx; destruct (refs_ok p col Hp Ec q v d x Hq Hv Hd' Hx) as (e & Ee & _); exists e; exact Ee). cbn [bind].
  unfold spots. rewrite <- (foldM_flat_map adj_insert). apply foldM_ext. intros s4 e _. destruct (-1 <? e); [|reflexivity]. apply foldM_map'.
Qed.
Lemma in_spots es cs e c : In (e, c) (spots es cs) <-> 0 <= e /\ In e es /\ In c cs.
Proof.
  unfold spots. rewrite in_flat_map. split.
  - intros (x & Hx & H). destruct (Z.ltb_spec (-1) x); [|destruct H]. apply in_map_iff in H. destruct H as (y & [= -> ->] & Hy). split; [lia|]. split; assumption.
  - intros (He & Hi & Hc). exists e. split; [exact Hi|]. destruct (Z.ltb_spec (-1) e); [|lia]. apply in_map_iff. exists c. split; [reflexivity|exact Hc].
Qed.
Lemma in_cols ln d colofs c : 0 <= d < 3 -> (In c (mult_cols ln d colofs) <-> exists l, In l ln /\ 0 <= l /\ c = 3 * l + d + colofs).
Proof.
  intros Hd. unfold mult_cols. rewrite in_map_iff. split.
  - intros (l & <- & Hl). apply filter_In in Hl. destruct Hl as [Hl Hn]. apply Z.ltb_lt in Hn. exists l. split; [exact Hl|]. split; [lia|reflexivity].
  - intros (l & Hl & H0 & ->). exists l. split; [reflexivity|]. apply filter_In. split; [exact Hl|]. apply Z.ltb_lt. lia.
Qed.
Lemma spots_range lnodes total colofs : (forall p ln, zget lnodes p = Some ln -> forall x, In x ln -> -1 <= x < total) ->
  forall e c, In (e, c) (face_spots M meqn lnodes colofs (fst f) m) -> 0 <= e < neq /\ colofs <= c < colofs + 3 * total.
Proof.
  intros Hl e c H. unfold face_spots in H. apply in_flat_map in H. destruct H as (p & Hp & H). apply In_zrange in Hp. apply in_flat_map in H. destruct H as (q & Hq & H).
  unfold quad_spots in H. apply in_flat_map in H. destruct H as (v & Hv & H). apply in_flat_map in H. destruct H as (d & Hd & H).
  assert (Hd' : 0 <= d < 3) by (cbn in Hd; lia). apply in_spots in H. destruct H as (He & Hi & Hc). apply in_cols in Hc; [|exact Hd'].
  destruct Hc as (l & Hln & H0 & ->). unfold list_at in Hq, Hln. destruct (zget (fst f) p) as [col|] eqn:Ec; [|destruct Hq]. destruct (zget lnodes p) as [ln|] eqn:El; [|destruct Hln].
  pose proof (Hl p ln El l Hln). pose proof (eqs_below M meqn neq (v_i v) d (fun x Hx => refs_ok p col Hp Ec q v d x Hq Hv Hd' Hx) e Hi). lia.
Qed.

(* ---- the entries *)
Definition quad_updates (ln : list Z) (colofs : Z) (alpha : R) (qe : quad * list (list R)) : list ((Z * Z) * (R -> R)) :=
  flat_map (fun d => flat_map (fun i => flat_map (fun e => if -1 <? e then
      flat_map (fun j => if -1 <? eq_of ln j * 3 + d then [((e, eq_of ln j * 3 + d + colofs), fun b => (b + alpha * entry_at (snd qe) i j)%R)] else []) (zrange 0 (zlen ln))
    else []) (match zget (q_verts (fst qe)) i with Some v => eqs_of M meqn (v_i v) d | None => [] end)) (zrange 0 4)) [0; 1; 2].
Definition face_updates (lnodes : list (list Z)) (colofs : Z) (alpha : R) : list ((Z * Z) * (R -> R)) :=
  flat_map (fun p => flat_map (quad_updates (list_at lnodes p) colofs alpha) (combine (list_at (fst f) p) (list_at (snd f) p))) (zrange 0 m).
Lemma combine_in {A B} (l : list A) (r : list B) x y : In (x, y) (combine l r) -> In x l /\ In y r.
Proof. intros H. split; [exact (in_combine_l _ _ _ _ H)|exact (in_combine_r _ _ _ _ H)]. Qed.
Lemma assemble_eq colofs alpha B lnodes total : renumber m n1 n2 = Ok (lnodes, total) -> zlen lnodes = m -> (forall p ln, zget lnodes p = Some ln -> zlen ln = n1 * n2) ->
  assemble_bblock M meqn (fst f) (snd f) m (n1 - 1) (n2 - 1) colofs alpha B =
  foldM (fun m e => sm_upd m (fst (fst e)) (snd (fst e)) (snd e)) (face_updates lnodes colofs alpha) B.
Proof.
  intros E L Ln. unfold assemble_bblock. replace (n1 - 1 + 1) with n1 by lia. replace (n2 - 1 + 1) with n2 by lia. rewrite E. cbn [bind fst].
  set (upd := fun m e => sm_upd m (fst (fst e)) (snd (fst e)) (snd e)). unfold face_updates. rewrite <- (foldM_flat_map upd). apply foldM_ext.
  intros s p Hp. apply In_zrange in Hp. cbn beta.
  destruct (zget_in_range (fst f) p) as (col & Ec); [destruct Hf; lia|]. destruct (zget_in_range lnodes p) as (ln & El); [lia|]. destruct (zget_in_range (snd f) p) as (le & Ee); [destruct Hf; lia|].
  rewrite (proj2 (rget_Ok _ _ _) Ec), (proj2 (rget_Ok _ _ _) El), (proj2 (rget_Ok _ _ _) Ee). cbn [bind]. rewrite (list_at_eq _ _ _ Ec), (list_at_eq _ _ _ El), (list_at_eq _ _ _ Ee).
  pose proof Hf as (_ & _ & H). destruct (H p col le Hp Ec Ee) as (_ & Hle & _). clear H. specialize (Ln p ln El).
  rewrite <- (foldM_flat_map upd). apply foldM_ext. intros s1 [q lE] Hq. apply combine_in in Hq. destruct Hq as [Hq HlE]. destruct (Hle lE HlE) as [L4 Lr]. cbn [fst snd].
  unfold assemble_quad, quad_updates. cbn [fst snd]. rewrite <- (foldM_flat_map upd). apply foldM_ext. intros s2 d Hd. assert (Hd' : 0 <= d < 3) by (cbn in Hd; lia).
  rewrite <- (foldM_flat_map upd). apply foldM_ext. intros s3 i Hi. apply In_zrange in Hi. destruct (zget_in_range (q_verts q) i) as (v & Ev); [exact Hi|].
  rewrite (proj2 (rget_Ok _ _ _) Ev). cbn [bind]. rewrite Ev.
  rewrite face_eqs_ok by (intros x Hx; destruct (refs_ok p col Hp Ec q v d x Hq (zget_In _ _ _ Ev) Hd' Hx) as (e & Eq & _); exists e; exact Eq). cbn [bind].
  rewrite <- (foldM_flat_map upd). apply foldM_ext. intros s4 e _. destruct (-1 <? e); [|reflexivity]. rewrite <- (foldM_flat_map upd). apply foldM_ext. intros s5 j Hj. apply In_zrange in Hj.
  destruct (zget_in_range ln j Hj) as (l & Elj). rewrite (proj2 (rget_Ok _ _ _) Elj). cbn [bind]. unfold eq_of. rewrite Elj. destruct (-1 <? l * 3 + d); [|reflexivity].
  destruct (zget_in_range lE i) as (row & Er); [lia|]. rewrite (proj2 (rget_Ok _ _ _) Er). cbn [bind]. pose proof (Lr row (zget_In _ _ _ Er)) as Lrow.
  destruct (zget_in_range row j) as (x & Ex); [lia|]. rewrite (proj2 (rget_Ok _ _ _) Ex). cbn [bind foldM]. unfold upd. cbn [fst snd].
  assert (Ent : entry_at lE i j = x) by (unfold entry_at; rewrite (list_at_eq _ _ _ Er); unfold nthR; rewrite Ex; reflexivity). rewrite Ent.
  destruct (sm_upd s5 e _ _); reflexivity.
Qed.
Lemma updates_spots lnodes colofs alpha u : zlen lnodes = m -> In u (face_updates lnodes colofs alpha) -> In (fst u) (face_spots M meqn lnodes colofs (fst f) m).
Proof.
  intros L H. unfold face_updates in H. apply in_flat_map in H. destruct H as (p & Hp & H). apply in_flat_map in H. destruct H as ([q lE] & Hq & H). apply combine_in in Hq. destruct Hq as [Hq _].
  unfold quad_updates in H. cbn [fst snd] in H. apply in_flat_map in H. destruct H as (d & Hd & H). apply in_flat_map in H. destruct H as (i & Hi & H). apply in_flat_map in H.
  destruct H as (e & He & H). destruct (Z.ltb_spec (-1) e) as [He0|]; [|destruct H]. apply in_flat_map in H. destruct H as (j & Hj & H). destruct (Z.ltb_spec (-1) (eq_of (list_at lnodes p) j * 3 + d)) as [H0|]; [|destruct H].
  destruct H as [<-|[]]. cbn [fst]. assert (Hd' : 0 <= d < 3) by (cbn in Hd; lia). unfold face_spots. apply in_flat_map. exists p. split; [exact Hp|]. apply in_flat_map. exists q. split; [exact Hq|].
  unfold quad_spots. destruct (zget (q_verts q) i) as [v|] eqn:Ev; [|destruct He]. apply in_flat_map. exists v. split; [exact (zget_In _ _ _ Ev)|]. apply in_flat_map. exists d. split; [exact Hd|].
  apply in_spots. split; [lia|]. split; [exact He|]. apply in_cols; [exact Hd'|]. exists (eq_of (list_at lnodes p) j). apply In_zrange in Hj. destruct (zget_in_range (list_at lnodes p) j Hj) as (l & El).
  unfold eq_of in *. rewrite El in *. split; [exact (zget_In _ _ _ El)|]. split; lia.
Qed.

(* sums of the updates at a place *)
Definition adds (l : list ((Z * Z) * (R -> R))) (a b : Z) : R := Rsum (map (fun u => if at_pos (fst u) a b then snd u 0%R else 0%R) l).
Lemma adds_app l l' a b : adds (l ++ l') a b = (adds l a b + adds l' a b)%R.
Proof. unfold adds. rewrite map_app. apply Rsum_app. Qed.
Lemma adds_flat {A} (g : A -> list ((Z * Z) * (R -> R))) l a b : adds (flat_map g l) a b = Rsum (map (fun x => adds (g x) a b) l).
Proof. induction l as [|x l IH]; cbn [flat_map map]; [reflexivity|]. rewrite adds_app, Rsum_cons, IH. reflexivity. Qed.
Definition additive (l : list ((Z * Z) * (R -> R))) : Prop := forall u, In u l -> forall x, snd u x = (x + snd u 0)%R.
Lemma fold_adds l a b : additive l -> forall x, fold_left (fun x e => if at_pos (fst e) a b then (snd e) x else x) l x = (x + adds l a b)%R.
Proof.
  induction l as [|u l IH]; intros H x; cbn [fold_left]; [unfold adds; cbn [map]; rewrite Rsum_nil; ring|]. rewrite IH by (intros v Hv; apply H; right; exact Hv).
  unfold adds. cbn [map]. rewrite Rsum_cons. destruct (at_pos (fst u) a b); [rewrite (H u (or_introl eq_refl) x); ring|ring].
Qed.
Lemma updates_additive lnodes colofs alpha : additive (face_updates lnodes colofs alpha).
Proof.
  intros u H. unfold face_updates in H. apply in_flat_map in H. destruct H as (p & _ & H). apply in_flat_map in H. destruct H as (qe & _ & H).
  unfold quad_updates in H. apply in_flat_map in H. destruct H as (d & _ & H). apply in_flat_map in H. destruct H as (i & _ & H). apply in_flat_map in H.
  destruct H as (e & _ & H). destruct (-1 <? e); [|destruct H]. apply in_flat_map in H. destruct H as (j & _ & H). destruct (-1 <? _); [|destruct H].
  destruct H as [<-|[]]. cbn [snd]. intros x. ring.
Qed.
Lemma count_sum es e (x : R) : Rsum (map (fun e' => if e' =? e then x else 0%R) es) = (INR (count_occ Z.eq_dec es e) * x)%R.
Proof.
  induction es as [|a es IH]; cbn [map count_occ]; [rewrite Rsum_nil; cbn; ring|]. rewrite Rsum_cons, IH.
  destruct (Z.eqb_spec a e) as [->|N]; [destruct (Z.eq_dec e e); [|congruence]; rewrite S_INR; ring|destruct (Z.eq_dec a e); [congruence|ring]].
Qed.
Lemma quad_adds ln colofs alpha q lE e d k : 0 <= e -> 0 <= d < 3 -> 0 <= k -> adds (quad_updates ln colofs alpha (q, lE)) e (3 * k + d + colofs) =
  (alpha * Rsum (map (fun iv : Z * vertex => INR (count_occ Z.eq_dec (eqs_of M meqn (v_i (snd iv)) d) e) *
      Rsum (map (fun j => if eq_of ln j =? k then entry_at lE (fst iv) j else 0) (zrange 0 (zlen ln)))) (combine (zrange 0 4) (q_verts q))))%R.
Proof.
  intros He Hd Hk. unfold quad_updates. rewrite adds_flat. cbn [fst snd].
  assert (G : forall d', 0 <= d' < 3 -> adds (flat_map (fun i => flat_map (fun e => if -1 <? e then
      flat_map (fun j => if -1 <? eq_of ln j * 3 + d' then [((e, eq_of ln j * 3 + d' + colofs), fun b => (b + alpha * entry_at lE i j)%R)] else []) (zrange 0 (zlen ln))
    else []) (match zget (q_verts q) i with Some v => eqs_of M meqn (v_i v) d' | None => [] end)) (zrange 0 4)) e (3 * k + d + colofs) =
    if d' =? d then (alpha * Rsum (map (fun iv : Z * vertex => INR (count_occ Z.eq_dec (eqs_of M meqn (v_i (snd iv)) d) e) *
      Rsum (map (fun j => if eq_of ln j =? k then entry_at lE (fst iv) j else 0) (zrange 0 (zlen ln)))) (combine (zrange 0 4) (q_verts q))))%R else 0%R).
  { intros d' Hd'. rewrite adds_flat.
    assert (Inner : forall i es, adds (flat_map (fun e => if -1 <? e then
      flat_map (fun j => if -1 <? eq_of ln j * 3 + d' then [((e, eq_of ln j * 3 + d' + colofs), fun b => (b + alpha * entry_at lE i j)%R)] else []) (zrange 0 (zlen ln)) else []) es) e (3 * k + d + colofs)
      = if d' =? d then (INR (count_occ Z.eq_dec es e) * (alpha * Rsum (map (fun j => if (eq_of ln j =? k)%Z then entry_at lE i j else 0) (zrange 0 (zlen ln)))))%R else 0%R).
    { intros i es. rewrite adds_flat. destruct (Z.eqb_spec d' d) as [->|Nd].
      - rewrite <- count_sum. apply Rsum_map_ext. intros e' _. destruct (Z.ltb_spec (-1) e') as [L|L].
        + rewrite adds_flat. destruct (Z.eqb_spec e' e) as [->|Ne].
          * rewrite <- Rsum_map_scale. apply Rsum_map_ext. intros j _. destruct (Z.ltb_spec (-1) (eq_of ln j * 3 + d)) as [L1|L1].
            -- unfold adds, at_pos. cbn [map fst snd]. rewrite Rsum_cons, Rsum_nil, Z.eqb_refl. cbn [andb].
               destruct (Z.eqb_spec (3 * k + d + colofs) (eq_of ln j * 3 + d + colofs)), (Z.eqb_spec (eq_of ln j) k); try lia; ring.
            -- unfold adds. cbn [map]. rewrite Rsum_nil. destruct (Z.eqb_spec (eq_of ln j) k); [lia|ring].
          * apply Rsum_map_zero. intros j _. destruct (-1 <? _); [|reflexivity]. unfold adds, at_pos. cbn [map fst snd]. rewrite (proj2 (Z.eqb_neq e e')) by congruence. cbn [andb]. rewrite Rsum_cons, Rsum_nil. ring.
        + destruct (Z.eqb_spec e' e); [lia|reflexivity].
      - apply Rsum_map_zero. intros e' _. destruct (-1 <? e'); [|reflexivity]. rewrite adds_flat. apply Rsum_map_zero. intros j _. destruct (-1 <? _); [|reflexivity].
        unfold adds, at_pos. cbn [map fst snd]. rewrite (proj2 (Z.eqb_neq (3 * k + d + colofs) _)) by lia. rewrite andb_false_r, Rsum_cons, Rsum_nil. ring. }
    change (zrange 0 4) with [0; 1; 2; 3]. unfold q_verts. cbn [map combine fst snd zget]. change (zget [q_v0 q; q_v1 q; q_v2 q; q_v3 q] 0) with (Some (q_v0 q)).
    change (zget [q_v0 q; q_v1 q; q_v2 q; q_v3 q] 1) with (Some (q_v1 q)). change (zget [q_v0 q; q_v1 q; q_v2 q; q_v3 q] 2) with (Some (q_v2 q)). change (zget [q_v0 q; q_v1 q; q_v2 q; q_v3 q] 3) with (Some (q_v3 q)).
    rewrite !Inner. rewrite !Rsum_cons, !Rsum_nil. destruct (Z.eqb_spec d' d) as [->|]; [|ring]. ring. }
  cbn [map]. rewrite !Rsum_cons, Rsum_nil. rewrite !G by lia. destruct (dir3 d Hd) as [->|[->| ->]]; cbn [Z.eqb Pos.eqb]; ring.
Qed.
Lemma face_adds lnodes colofs alpha e d k : 0 <= e -> 0 <= d < 3 -> 0 <= k ->
  adds (face_updates lnodes colofs alpha) e (3 * k + d + colofs) = (alpha * coupling M meqn lnodes m f e d k)%R.
Proof.
  intros He Hd Hk. unfold face_updates, coupling. rewrite adds_flat, <- Rsum_map_scale. apply Rsum_map_ext. intros p _. rewrite adds_flat, <- Rsum_map_scale.
  apply Rsum_map_ext. intros [q lE] _. rewrite quad_adds by assumption. reflexivity.
Qed.
Lemma face_adds_out lnodes total colofs alpha e c : zlen lnodes = m -> (forall p ln, zget lnodes p = Some ln -> forall x, In x ln -> -1 <= x < total) ->
  c < colofs \/ colofs + 3 * total <= c -> adds (face_updates lnodes colofs alpha) e c = 0%R.
Proof.
  intros L Hl Hc. unfold adds. apply Rsum_map_zero. intros [[a b] u] Hu. destruct (at_pos _ _ _) eqn:E; [|reflexivity]. exfalso. apply at_pos_true in E. cbn [fst] in E. injection E as -> ->.
  pose proof (updates_spots lnodes colofs alpha _ L Hu) as Hs. cbn [fst] in Hs. apply (spots_range lnodes total colofs Hl) in Hs. lia.
Qed.
End Face.
