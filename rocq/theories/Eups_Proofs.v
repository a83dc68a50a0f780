(* Proofs about the numbering of the multiplier nodes. *)
From Verif Require Import BaseFacts RBaseFacts Mim_Proofs Rprop_Proofs2 Impl_Proofs5 Eups_Spec.
Open Scope Z_scope.

Lemma NoDup_pairs a b c d : NoDup (pairs (zrange a b) (zrange c d)).
Proof.
  unfold pairs. apply Hnum_Proofs.NoDup_flat_map.
  - apply zrange_NoDup.
  - intros x _. apply NoDup_map_inj; [apply zrange_NoDup|congruence].
  - intros x y e _ _ H1 H2. apply in_map_iff in H1, H2. destruct H1 as (? & <- & _), H2 as (? & E & _). congruence.
Qed.

Section Renumber.
Context (m n1 n2 : Z) (Hm : 2 <= m) (H1 : 2 <= n1) (H2 : 1 <= n2).
Let rows := free_rows n2.
Let cols := free_cols m n1.
Definition rnum (rows n1 r c : Z) : Z :=
  if c <? n1 then r * n1 + c - 1
  else rows * n1 - 1 + ((c - 1) / (n1 - 1) - 1) * (n1 - 1) * rows + r * (n1 - 1) + (c - 1) mod (n1 - 1).
Let num := rnum rows n1.
Let val (e t : Z) : Z := num (row_of n2 (t / n1)) (col_of m n1 e (t mod n1)).

Let rows_pos : 1 <= rows.
Proof. unfold rows, free_rows. destruct (Z.ltb_spec 2 n2); lia. Qed.

Definition inv (nodes : list (list Z)) (e k : Z) : Prop :=
  zlen nodes = m /\ forall e', 0 <= e' < m -> exists l, zget nodes e' = Some l /\
    zlen l = (if e' <? e then n1 * n2 else if e' =? e then k else 0) /\ forall t, 0 <= t < zlen l -> zget l t = Some (val e' t).
Lemma push_inv nodes e k : inv nodes e k -> 0 <= e < m -> forall v, v = val e k ->
  exists nodes', push_at nodes e v = Ok nodes' /\ inv nodes' e (k + 1).
Proof.
  intros [L I] He v ->. destruct (I e He) as (l & E & Ll & V). rewrite Z.ltb_irrefl, Z.eqb_refl in Ll.
  unfold push_at. rewrite (proj2 (rget_Ok _ _ _) E). cbn [bind].
  destruct (rset_at nodes e (l ++ [val e k]) ltac:(lia)) as (nodes' & E' & L' & G). exists nodes'. split; [exact E'|].
  split; [lia|]. intros e' He'. rewrite G. destruct (Z.eqb_spec e' e) as [->|Hn].
  - exists (l ++ [val e k]). split; [reflexivity|]. rewrite zlen_app. change (zlen [val e k]) with 1. rewrite Z.ltb_irrefl. split; [lia|].
    intros t Ht. destruct (Z.eq_dec t k) as [->|]; [rewrite zget_app_r by lia; replace (k - zlen l) with 0 by lia; reflexivity|].
    rewrite zget_app_l by lia. apply V. lia.
  - destruct (I e' He') as (l' & E1 & L1 & V1). exists l'. split; [exact E1|]. split; [|exact V1].
    rewrite L1. destruct (Z.eqb_spec e' e); [lia|reflexivity].
Qed.
Lemma read_inv nodes e k e' t : inv nodes e k -> 0 <= e' < m -> 0 <= t < (if e' <? e then n1 * n2 else if e' =? e then k else 0) ->
  node_at nodes e' t = Ok (val e' t).
Proof.
  intros [L I] He' Ht. destruct (I e' He') as (l & E & Ll & V). unfold node_at. rewrite (proj2 (rget_Ok _ _ _) E). cbn [bind].
  apply rget_Ok, V. lia.
Qed.
Lemma inv_next nodes e : inv nodes e (n1 * n2) -> inv nodes (e + 1) 0.
Proof.
  intros [L I]. split; [exact L|]. intros e' He'. destruct (I e' He') as (l & E & Ll & V). exists l. split; [exact E|]. split; [|exact V].
  rewrite Ll. destruct (Z.ltb_spec e' e), (Z.eqb_spec e' e), (Z.ltb_spec e' (e + 1)), (Z.eqb_spec e' (e + 1)); lia.
Qed.

Lemma val_eq e i2 i1 : 0 <= i1 < n1 -> val e (i2 * n1 + i1) = num (row_of n2 i2) (col_of m n1 e i1).
Proof.
  intros Hi. unfold val. replace (i2 * n1 + i1) with (i1 + i2 * n1) by lia.
  rewrite Z.div_add, Z.mod_add by lia. rewrite Z.div_small, Z.mod_small by lia. reflexivity.
Qed.

(* numbers used before row i2 of element e *)
Let tot (e i2 : Z) : Z :=
  let r := Z.min i2 rows in
  if e =? 0 then (if i2 =? 0 then 0 else r * n1 - 1)
  else if m - 1 <=? e then rows * n1 - 1 + (m - 2) * (n1 - 1) * rows
  else rows * n1 - 1 + (e - 1) * (n1 - 1) * rows + r * (n1 - 1).

Lemma rows_slave i2 : (i2 =? n2 - 1) && (2 <? n2) = true -> i2 = rows /\ row_of n2 i2 = 0.
Proof.
  intros H. unfold row_of. rewrite H. apply andb_prop in H. destruct H as [Ha Hb]. apply Z.eqb_eq in Ha.
  unfold rows, free_rows. rewrite Hb. auto.
Qed.
Lemma rows_free i2 : 0 <= i2 < n2 -> (i2 =? n2 - 1) && (2 <? n2) = false -> i2 < rows /\ row_of n2 i2 = i2.
Proof.
  intros Hi H. unfold row_of. rewrite H. split; [|reflexivity]. unfold rows, free_rows.
  destruct (Z.ltb_spec 2 n2), (Z.eqb_spec i2 (n2 - 1)); cbn in H; try discriminate; lia.
Qed.
Lemma num_new e r i1 : 1 <= e < m - 1 -> 1 <= i1 < n1 ->
  num r (e * (n1 - 1) + i1) = rows * n1 - 1 + (e - 1) * (n1 - 1) * rows + r * (n1 - 1) + (i1 - 1).
Proof.
  intros He Hi. unfold num, rnum. destruct (Z.ltb_spec (e * (n1 - 1) + i1) n1) as [H|H]; [nia|].
  replace (e * (n1 - 1) + i1 - 1) with (i1 - 1 + e * (n1 - 1)) by lia. rewrite Z.div_add, Z.mod_add by lia.
  rewrite Z.div_small, Z.mod_small by lia. lia.
Qed.

Lemma row_step e i2 nodes : 0 <= e < m -> 0 <= i2 < n2 ->
  inv nodes e (i2 * n1 + (if (e =? 0) && (i2 =? 0) then 1 else 0)) ->
  exists nodes', renumber_row m n1 n2 e i2 (nodes, tot e i2) = Ok (nodes', tot e (i2 + 1)) /\ inv nodes' e ((i2 + 1) * n1).
Proof.
  intros He Hi I. unfold renumber_row.
  (* the shared column *)
  assert (A : exists nodes1, (if negb (e =? 0) then let* v := node_at nodes (e - 1) (i2 * n1 + n1 - 1) in push_at nodes e v else Ok nodes) = Ok nodes1
     /\ inv nodes1 e (i2 * n1 + (if (e =? 0) && negb (i2 =? 0) then 0 else 1))).
  { destruct (Z.eqb_spec e 0) as [->|He0]; cbn [negb andb].
    - exists nodes. split; [reflexivity|]. cbn [Z.eqb andb] in I. destruct (Z.eqb_spec i2 0); exact I.
    - cbn [andb] in I. rewrite (read_inv nodes e _ (e - 1) (i2 * n1 + n1 - 1) I); [|lia|destruct (Z.ltb_spec (e - 1) e); nia].
      cbn [bind]. rewrite Z.add_0_r in I. destruct (push_inv nodes e _ I He (val (e - 1) (i2 * n1 + n1 - 1))) as (nodes' & E & I').
      + replace (i2 * n1 + n1 - 1) with (i2 * n1 + (n1 - 1)) by lia. replace (i2 * n1) with (i2 * n1 + 0) at 2 by lia.
        rewrite !val_eq by lia. f_equal. unfold col_of.
        destruct (Z.eqb_spec (e - 1) (m - 1)); [lia|]. cbn [andb]. rewrite andb_false_r. lia.
      + exists nodes'. split; [exact E|exact I']. }
  destruct A as (nodes1 & -> & I1). cbn [bind]. clear I nodes.
  destruct ((i2 =? n2 - 1) && (2 <? n2)) eqn:Esl.
  - destruct (rows_slave i2 Esl) as [Er Er0].
    assert (Hi0 : i2 <> 0) by lia.
    set (a := if e =? 0 then 0 else 1).
    assert (Ha : (if (e =? 0) && negb (i2 =? 0) then 0 else 1) = a).
    { unfold a. destruct (Z.eqb_spec e 0), (Z.eqb_spec i2 0); try reflexivity. lia. }
    rewrite Ha in I1.
    destruct (zloop (fun nodes i1 => let* v := node_at nodes e i1 in push_at nodes e v) (fun i1 nodes => inv nodes e (i2 * n1 + i1)) a n1 nodes1) as (nodes' & E & I').
    + unfold a; destruct (e =? 0); lia.
    + exact I1.
    + intros i nodes Hia Ii. assert (0 <= i) by (unfold a in Hia; destruct (e =? 0); lia).
      rewrite (read_inv nodes e _ e i Ii He); [|rewrite Z.ltb_irrefl, Z.eqb_refl; nia]. cbn [bind].
      rewrite Z.add_assoc. apply push_inv; [exact Ii|exact He|]. replace i with (0 * n1 + i) at 1 by lia.
      rewrite !val_eq by lia. rewrite Er0. f_equal. unfold row_of.
      destruct (Z.eqb_spec 0 (n2 - 1)); [lia|reflexivity].
    + rewrite E. cbn [bind]. exists nodes'. split; [|replace ((i2 + 1) * n1) with (i2 * n1 + n1) by lia; exact I'].
      f_equal. f_equal. unfold tot. rewrite Er. rewrite Z.min_id. replace (Z.min (rows + 1) rows) with rows by lia.
      destruct (Z.eqb_spec rows 0), (Z.eqb_spec (rows + 1) 0); first [lia|reflexivity].
  - destruct (rows_free i2 Hi Esl) as [Hr Er].
    set (a := if (e =? 0) && negb (i2 =? 0) then 0 else 1) in *.
    assert (Ha : 0 <= a <= 1) by (unfold a; destruct ((e =? 0) && negb (i2 =? 0)); lia).
    destruct (Z.eqb_spec e (m - 1)) as [Hl|Hl].
    + assert (E1 : e <> 0) by lia. assert (Ea : a = 1) by (unfold a; destruct (Z.eqb_spec e 0); [lia|reflexivity]).
      destruct (zloop (fun (st : list (list Z) * Z) (i1 : Z) => let '(nodes, total) := st in
          let* v := node_at nodes 0 (i2 * n1) in let* nodes := push_at nodes e v in Ok (nodes, total))
          (fun i1 st => inv (fst st) e (i2 * n1 + i1) /\ snd st = tot e i2) a n1 (nodes1, tot e i2)) as (st & E & I' & T').
      * lia.
      * split; [exact I1|reflexivity].
      * intros i [nodes total] Hia [Ii Ti]. cbn [fst snd] in *.
        rewrite (read_inv nodes e _ 0 (i2 * n1) Ii); [|lia|destruct (Z.ltb_spec 0 e); [nia|lia]]. cbn [bind].
        destruct (push_inv nodes e _ Ii He (val 0 (i2 * n1))) as (nodes' & E & I').
        -- replace (i2 * n1) with (i2 * n1 + 0) at 1 by lia. rewrite !val_eq by lia. f_equal. unfold col_of.
           destruct (Z.eqb_spec e (m - 1)); [|lia]. destruct (Z.eqb_spec 0 (m - 1)); [lia|].
           destruct (Z.ltb_spec 0 i); [|lia]. cbn. lia.
        -- rewrite E. cbn [bind]. eexists; split; [reflexivity|]. cbn [fst snd]. rewrite Z.add_assoc. split; [exact I'|exact Ti].
      * destruct st as [nodes' total']. cbn [fst snd] in *. exists nodes'. rewrite E. split.
        -- rewrite T'. f_equal. f_equal. unfold tot. destruct (Z.eqb_spec e 0); [lia|]. destruct (Z.leb_spec (m - 1) e); [reflexivity|lia].
        -- replace ((i2 + 1) * n1) with (i2 * n1 + n1) by lia. exact I'.
    + destruct (zloop (fun (st : list (list Z) * Z) (i1 : Z) => let '(nodes, total) := st in
          let* nodes := push_at nodes e total in Ok (nodes, total + 1))
          (fun i1 st => inv (fst st) e (i2 * n1 + i1) /\ snd st = tot e i2 + (i1 - a)) a n1 (nodes1, tot e i2)) as (st & E & I' & T').
      * lia.
      * split; [exact I1|cbn; lia].
      * intros i [nodes total] Hia [Ii Ti]. cbn [fst snd] in *.
        destruct (push_inv nodes e _ Ii He total) as (nodes' & E & I').
        -- rewrite Ti. rewrite val_eq by lia. rewrite Er. unfold tot. rewrite Z.min_l by lia. unfold col_of.
           destruct (Z.leb_spec (m - 1) e); [lia|]. destruct (Z.eqb_spec e (m - 1)); [lia|]. cbn [andb].
           destruct (Z.eqb_spec e 0) as [->|E0].
           ++ unfold num, rnum. destruct (Z.ltb_spec (0 * (n1 - 1) + i) n1); [|lia]. unfold a.
              destruct (Z.eqb_spec i2 0); cbn; lia.
           ++ assert (Ea : a = 1) by (unfold a; destruct (Z.eqb_spec e 0); [lia|reflexivity]).
              rewrite num_new by lia. lia.
        -- rewrite E. cbn [bind]. eexists; split; [reflexivity|]. cbn [fst snd]. rewrite Z.add_assoc. split; [exact I'|lia].
      * destruct st as [nodes' total']. cbn [fst snd] in *. exists nodes'. rewrite E. split.
        -- rewrite T'. f_equal. f_equal. unfold tot. rewrite !Z.min_l by lia. destruct (Z.leb_spec (m - 1) e); [lia|].
           unfold a. destruct (Z.eqb_spec e 0); cbn [andb]; destruct (Z.eqb_spec i2 0); cbn [negb]; destruct (Z.eqb_spec (i2 + 1) 0); lia.
        -- replace ((i2 + 1) * n1) with (i2 * n1 + n1) by lia. exact I'.
Qed.

Lemma renumber_inv : exists nodes, renumber m n1 n2 = Ok (nodes, rows * cols - 1) /\ inv nodes m 0.
Proof.
  unfold renumber. unfold push_at at 1.
  assert (Z0 : zget (zrepeat (@nil Z) m) 0 = Some []) by (apply zget_zrepeat; lia).
  rewrite (proj2 (rget_Ok _ _ _) Z0). cbn [bind].
  destruct (rset_at (zrepeat (@nil Z) m) 0 ([] ++ [-1])) as (nodes0 & E0 & L0 & G0); [rewrite zlen_zrepeat by lia; lia|]. rewrite E0. cbn [bind].
  destruct (zloop (fun st e => foldM (fun st i2 => renumber_row m n1 n2 e i2 st) (zrange 0 n2) st)
     (fun e st => inv (fst st) e (if e =? 0 then 1 else 0) /\ snd st = tot e 0) 0 m (nodes0, 0)) as ((nodes & total) & E & I & T).
  - lia.
  - cbn [fst snd]. split; [|reflexivity]. split; [rewrite L0, zlen_zrepeat by lia; reflexivity|].
    intros e' He'. rewrite G0. destruct (Z.eqb_spec e' 0) as [->|Hn].
    + eexists; split; [reflexivity|]. cbn. split; [reflexivity|]. intros t Ht. assert (t = 0) by (cbn in Ht; lia). subst.
      cbn. f_equal. unfold val. rewrite Z.div_0_l, Z.mod_0_l by lia. unfold row_of, col_of.
      rewrite andb_false_r. assert (Er : (if (0 =? n2 - 1) && (2 <? n2) then 0 else 0) = 0) by (destruct ((0 =? n2 - 1) && (2 <? n2)); reflexivity).
      rewrite Er. unfold num, rnum. destruct (Z.ltb_spec (0 * (n1 - 1) + 0) n1); lia.
    + rewrite zget_zrepeat by lia. eexists; split; [reflexivity|]. destruct (Z.ltb_spec e' 0); [lia|]. split; [reflexivity|]. intros t Ht. cbn in Ht. lia.
  - intros e [nodes total] He [I T]. cbn [fst snd] in *. subst total.
    destruct (zloop (fun st i2 => renumber_row m n1 n2 e i2 st)
       (fun i2 st => inv (fst st) e (i2 * n1 + (if (e =? 0) && (i2 =? 0) then 1 else 0)) /\ snd st = tot e i2) 0 n2 (nodes, tot e 0)) as ((nodes' & total') & E & I' & T').
    + lia.
    + cbn [fst snd]. split; [|reflexivity]. rewrite andb_true_r. exact I.
    + intros i2 [ns tt] Hi [Ii Ti]. cbn [fst snd] in *. subst tt. destruct (row_step e i2 ns He Hi Ii) as (ns' & E & I').
      rewrite E. eexists; split; [reflexivity|]. cbn [fst snd]. split; [|reflexivity].
      destruct (Z.eqb_spec (i2 + 1) 0); [lia|]. rewrite andb_false_r, Z.add_0_r. exact I'.
    + cbn [fst snd] in *. rewrite E. eexists; split; [reflexivity|]. cbn [fst snd]. split.
      * destruct (Z.eqb_spec (e + 1) 0); [lia|]. apply inv_next. destruct (Z.eqb_spec n2 0); [lia|]. rewrite andb_false_r, Z.add_0_r in I'.
        rewrite Z.mul_comm in I'. exact I'.
      * rewrite T'. unfold tot. assert (rows <= n2) by (unfold rows, free_rows; destruct (2 <? n2); lia).
        rewrite (Z.min_r n2) by lia. rewrite Z.min_l by lia.
        destruct (Z.eqb_spec e 0) as [->|].
        -- destruct (Z.eqb_spec n2 0); [lia|]. destruct (Z.leb_spec (m - 1) (0 + 1)); destruct (Z.eqb_spec (0 + 1) 0); try lia. replace (m - 2) with 0 by lia. lia.
        -- destruct (Z.eqb_spec (e + 1) 0); [lia|]. destruct (Z.leb_spec (m - 1) e), (Z.leb_spec (m - 1) (e + 1)); try lia.
           replace (m - 2) with e by lia. lia.
  - exists nodes. rewrite E. cbn [fst snd] in *. split; [|destruct (Z.eqb_spec m 0); [lia|exact I]].
    f_equal. f_equal. rewrite T. unfold tot. destruct (Z.eqb_spec m 0); [lia|]. destruct (Z.leb_spec (m - 1) m); [|lia].
    unfold cols, free_cols. lia.
Qed.

Lemma num_pairs : numbers_pairs rows cols num.
Proof.
  assert (Inj : forall r c r' c', 0 <= r < rows -> 0 <= c < cols -> 0 <= r' < rows -> 0 <= c' < cols -> num r c = num r' c' -> r = r' /\ c = c').
  { intros r c r' c' Hr Hc Hr' Hc'. unfold num, rnum.
    set (d := n1 - 1). assert (Hd : 1 <= d) by (unfold d; lia). replace n1 with (d + 1) by (unfold d; lia). clearbody d.
    pose proof (Z.div_mod (c - 1) d ltac:(lia)) as D. pose proof (Z.mod_pos_bound (c - 1) d ltac:(lia)) as B.
    pose proof (Z.div_mod (c' - 1) d ltac:(lia)) as D'. pose proof (Z.mod_pos_bound (c' - 1) d ltac:(lia)) as B'.
    set (q := (c - 1) / d) in *. set (k := (c - 1) mod d) in *. set (q' := (c' - 1) / d) in *. set (k' := (c' - 1) mod d) in *.
    clearbody q k q' k'. clearbody rows.
    destruct (Z.ltb_spec c (d + 1)) as [C|C], (Z.ltb_spec c' (d + 1)) as [C'|C']; intros E.
    - assert (r = r') by nia. subst. split; lia.
    - exfalso. assert (1 <= q') by nia. assert (0 <= (q' - 1) * d * rows) by (apply Z.mul_nonneg_nonneg; nia). nia.
    - exfalso. assert (1 <= q) by nia. assert (0 <= (q - 1) * d * rows) by (apply Z.mul_nonneg_nonneg; nia). nia.
    - assert (Hq : 1 <= q) by nia. assert (Hq' : 1 <= q') by nia.
      assert (Er : (q - 1) * rows + r = (q' - 1) * rows + r') by nia.
      assert (Eq : q = q') by nia. assert (r = r') by nia. split; [assumption|]. subst q'. nia. }
  assert (Rg : forall r c, 0 <= r < rows -> 0 <= c < cols -> -1 <= num r c < rows * cols - 1).
  { intros r c Hr Hc. unfold num, rnum. unfold cols, free_cols in *.
    set (d := n1 - 1) in *. assert (Hd : 1 <= d) by (unfold d; lia). replace n1 with (d + 1) by (unfold d; lia). clearbody d.
    pose proof (Z.div_mod (c - 1) d ltac:(lia)) as D. pose proof (Z.mod_pos_bound (c - 1) d ltac:(lia)) as B.
    set (q := (c - 1) / d) in *. set (k := (c - 1) mod d) in *. clearbody q k. clearbody rows.
    destruct (Z.ltb_spec c (d + 1)) as [C|C].
    - split; [nia|]. assert (rows * 1 <= rows * (m - 1)) by nia.
      assert (r * (d + 1) + c - 1 < rows * (d + 1) - 1) by nia. nia.
    - assert (Hq : 1 <= q) by nia. assert (q < m - 1) by nia.
      assert (Hz : 0 <= (q - 1) * d * rows) by (apply Z.mul_nonneg_nonneg; nia). split; [nia|].
      assert ((q - 1) * d * rows <= (m - 3) * d * rows) by nia. nia. }
  split; [|split; [exact Inj|split; [exact Rg|]]].
  - unfold num, rnum. destruct (Z.ltb_spec 0 n1); lia.
  - assert (Hc : 1 <= cols) by (unfold cols, free_cols; nia).
    set (l := map (fun rc => num (fst rc) (snd rc)) (pairs (zrange 0 rows) (zrange 0 cols))).
    assert (ND : NoDup l).
    { apply NoDup_map_inj; [apply NoDup_pairs|].
      - intros [a b] [a' b'] Ha Hb E. apply In_pairs in Ha, Hb. rewrite !In_zrange in Ha, Hb. cbn in E.
        destruct (Inj a b a' b' ltac:(lia) ltac:(lia) ltac:(lia) ltac:(lia) E). congruence. }
    assert (Inc : incl l (zrange (-1) (rows * cols - 1))).
    { intros x Hx. apply in_map_iff in Hx. destruct Hx as ([a b] & <- & Ha). apply In_pairs in Ha. rewrite !In_zrange in Ha.
      apply In_zrange. cbn [fst snd]. apply Rg; lia. }
    assert (Len : (length (zrange (-1) (rows * cols - 1)) <= length l)%nat).
    { apply Nat2Z.inj_le. change (zlen (zrange (-1) (rows * cols - 1)) <= zlen l). unfold l. rewrite zlen_map, pairs_len, zlen_zrange by nia. lia. }
    pose proof (NoDup_length_incl ND Len Inc) as Inc'. intros k Hk.
    assert (Hin : In k l) by (apply Inc', In_zrange; lia).
    apply in_map_iff in Hin. destruct Hin as ([a b] & E & Ha). apply In_pairs in Ha. rewrite !In_zrange in Ha. cbn in E.
    exists a, b. repeat split; try lia.
Qed.

Lemma renumber_main : exists nodes num, renumber m n1 n2 = Ok (nodes, free_rows n2 * free_cols m n1 - 1) /\
  numbers_pairs (free_rows n2) (free_cols m n1) num /\ zlen nodes = m /\
  forall e, 0 <= e < m -> exists l, zget nodes e = Some l /\ zlen l = n1 * n2 /\
    forall i1 i2, 0 <= i1 < n1 -> 0 <= i2 < n2 -> zget l (i2 * n1 + i1) = Some (num (row_of n2 i2) (col_of m n1 e i1)).
Proof.
  destruct renumber_inv as (nodes & E & L & I). exists nodes, num. split; [exact E|]. split; [exact num_pairs|]. split; [exact L|].
  intros e He. destruct (I e He) as (l & El & Ll & V). destruct (Z.ltb_spec e m); [|lia]. exists l. split; [exact El|]. split; [exact Ll|].
  intros i1 i2 Hi1 Hi2. rewrite V by nia. f_equal. apply val_eq. exact Hi1.
Qed.
End Renumber.

(* a single element *)
Lemma renumber_single n1 n2 : 1 <= n1 -> 2 <= n2 -> renumber 1 n1 n2 = UB.
Proof.
  intros H1 H2. unfold renumber. change (push_at (zrepeat [] 1) 0 (-1)) with (Ok [[-1]] : res (list (list Z))). cbn [bind].
  change (zrange 0 1) with [0]. cbn [foldM].
  enough (E : foldM (fun st i2 => renumber_row 1 n1 n2 0 i2 st) (zrange 0 n2) ([[-1]], 0) = UB) by (rewrite E; reflexivity).
  rewrite (zrange_cons 0 n2) by lia. cbn [foldM].
  assert (R0 : exists l, renumber_row 1 n1 n2 0 0 ([[-1]], 0) = Ok ([l], 0) /\ zlen l = n1).
  { unfold renumber_row. replace ((0 =? n2 - 1) && (2 <? n2)) with false by (destruct (Z.eqb_spec 0 (n2 - 1)); [lia|reflexivity]).
    cbn [Z.eqb negb andb bind].
    destruct (zloop (fun (st : list (list Z) * Z) (_ : Z) => let '(nodes, total) := st in
       let* v := node_at nodes 0 (0 * n1) in let* nodes := push_at nodes 0 v in Ok (nodes, total))
       (fun i st => exists l, st = ([l], 0) /\ zlen l = i) 1 n1 ([[-1]], 0)) as (st & E & l & -> & L).
    - lia.
    - exists [-1]. split; reflexivity.
    - intros i st Hi (l & -> & L). cbn. destruct l as [|x l]; [cbn in L; lia|]. cbn. eexists; split; [reflexivity|].
      eexists; split; [reflexivity|]. change (x :: l ++ [x]) with ((x :: l) ++ [x]). rewrite zlen_app. change (zlen [x]) with 1. lia.
    - exists l. split; [exact E|exact L]. }
  destruct R0 as (l & -> & L). cbn [bind]. rewrite (zrange_cons (0 + 1) n2) by lia. cbn [foldM].
  assert (R1 : renumber_row 1 n1 n2 0 (0 + 1) ([l], 0) = UB); [|rewrite R1; reflexivity].
  unfold renumber_row. change (0 + 1) with 1. destruct ((1 =? n2 - 1) && (2 <? n2)) eqn:Es.
  - apply andb_prop in Es. destruct Es as [Ea Eb]. apply Z.eqb_eq in Ea. apply Z.ltb_lt in Eb. lia.
  - change (negb (0 =? 0)) with false. change ((0 =? 0) && negb (1 =? 0)) with true. cbn [bind].
    rewrite (zrange_cons 0 n1) by lia. cbn [foldM]. change (0 =? 1 - 1) with true. cbn [bind].
    replace (node_at [l] 0 (1 * n1)) with (@UB Z); [reflexivity|]. unfold node_at.
    change (rget [l] 0) with (Ok l). cbn [bind]. unfold rget.
    destruct (zget l (1 * n1)) eqn:Eg; [|reflexivity]. apply zget_Some_range in Eg. lia.
Qed.
