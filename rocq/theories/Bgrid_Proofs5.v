(* Proofs about uniform boundary grids, bounding boxes and point location. *)
From Verif Require Import BaseFacts RBaseFacts Bgrid_Spec Bgrid_Proofs Bgrid_Proofs3 Bgrid_Proofs4.
Open Scope Z_scope.

(* ---- flags of fixed nodes *)
Definition is_corner (k1 k2 i j : Z) : bool := ((i =? 0) || (i =? k1)) && ((j =? 0) || (j =? k2)).

Lemma idx_inj k1 i j i' j' : 0 <= i <= k1 -> 0 <= i' <= k1 -> j * (k1 + 1) + i = j' * (k1 + 1) + i' -> i = i' /\ j = j'.
Proof. intros H H' E. assert (j = j') by nia. subst. lia. Qed.

Lemma flags_step k1 k2 dc i j fx : 0 <= i < k1 -> 0 <= j < k2 -> zlen fx = (k1 + 1) * (k2 + 1) ->
  exists fx', writes (uniform_flags k1 k2 dc i j) fx = Ok fx' /\ zlen fx' = zlen fx /\
    forall ni nj, 0 <= ni <= k1 -> 0 <= nj <= k2 ->
      zget fx' (nj * (k1 + 1) + ni) =
      if ((ni =? i) || (ni =? i + 1)) && ((nj =? j) || (nj =? j + 1)) then Some (negb dc && is_corner k1 k2 ni nj)
      else zget fx (nj * (k1 + 1) + ni).
Proof.
  intros Hi Hj Hl. unfold uniform_flags. cbv zeta. set (k := j * (k1 + 1) + i).
  assert (Hk : 0 <= k /\ k + k1 + 2 < (k1 + 1) * (k2 + 1)) by (unfold k; nia).
  unfold writes. rewrite foldM_app.
  match goal with |- context [foldM _ ?l fx] => set (falses := l) end.
  destruct (writes_Ok falses fx) as (f1 & E1 & L1 & U1 & W1).
  { intros w. cbn. intros [<-|[<-|[<-|[<-|[]]]]]; cbn; lia. }
  unfold writes in E1. rewrite E1. cbn [bind].
  match goal with |- context [foldM _ ?l f1] => set (trues := l) end.
  assert (Ht : forall w, In w trues -> snd w = true /\ dc = false /\ exists a b, 0 <= a <= 1 /\ 0 <= b <= 1 /\
             fst w = (j + b) * (k1 + 1) + (i + a) /\ is_corner k1 k2 (i + a) (j + b) = true).
  { intros w Hw. unfold trues in Hw. destruct dc; [destruct Hw|].
    repeat (apply in_app_iff in Hw; destruct Hw as [Hw|Hw]);
      match type of Hw with In _ (if ?c then _ else _) => destruct c eqn:E; [|destruct Hw] end; destruct Hw as [<-|[]]; cbn;
      (split; [reflexivity|]); (split; [reflexivity|]); unfold k, is_corner.
    - exists 0, 0. lia.
    - exists 1, 0. lia.
    - exists 0, 1. lia.
    - exists 1, 1. lia. }
  assert (Ht' : forall a b, 0 <= a <= 1 -> 0 <= b <= 1 -> dc = false -> is_corner k1 k2 (i + a) (j + b) = true ->
             In ((j + b) * (k1 + 1) + (i + a), true) trues).
  { intros a b Ha Hb -> Hc. unfold trues, is_corner in *. rewrite !in_app_iff.
    assert (Hab : (a = 0 \/ a = 1) /\ (b = 0 \/ b = 1)) by lia.
    destruct Hab as [[-> | ->] [-> | ->]].
    - left. replace ((i =? 0) && (j =? 0)) with true by lia. left. unfold k. f_equal. lia.
    - right; right; left. replace ((i =? 0) && (j =? k2 - 1)) with true by lia. left. unfold k. f_equal. lia.
    - right; left. replace ((i =? k1 - 1) && (j =? 0)) with true by lia. left. unfold k. f_equal. lia.
    - right; right; right. replace ((i =? k1 - 1) && (j =? k2 - 1)) with true by lia. left. unfold k. f_equal. lia. }
  destruct (writes_Ok trues f1) as (f2 & E2 & L2 & U2 & W2).
  { intros w Hw. destruct (Ht w Hw) as (_ & _ & a & b & Ha & Hb & -> & _). rewrite L1, Hl. nia. }
  exists f2. split; [exact E2|]. split; [lia|]. intros ni nj Hni Hnj.
  destruct (((ni =? i) || (ni =? i + 1)) && ((nj =? j) || (nj =? j + 1))) eqn:Et.
  - assert (Hab : exists a b, 0 <= a <= 1 /\ 0 <= b <= 1 /\ ni = i + a /\ nj = j + b) by (exists (ni - i), (nj - j); lia).
    destruct Hab as (a & b & Ha & Hb & -> & ->). set (n := (j + b) * (k1 + 1) + (i + a)).
    destruct (negb dc && is_corner k1 k2 (i + a) (j + b)) eqn:Ec.
    + apply andb_true_iff in Ec. destruct Ec as [Ed Ec]. destruct dc; [discriminate|].
      apply W2; [eexists; split; [apply (Ht' a b); auto | reflexivity]|]. intros w Hw _. apply Ht, Hw.
    + rewrite U2.
      * apply W1.
        -- unfold falses. assert (Hv : (a = 0 \/ a = 1) /\ (b = 0 \/ b = 1)) by lia. destruct Hv as [[-> | ->] [-> | ->]].
           ++ exists (k, false). split; [cbn; tauto | cbn; unfold n, k; lia].
           ++ exists (k + k1 + 1, false). split; [cbn; tauto | cbn; unfold n, k; lia].
           ++ exists (k + 1, false). split; [cbn; tauto | cbn; unfold n, k; lia].
           ++ exists (k + k1 + 2, false). split; [cbn; tauto | cbn; unfold n, k; lia].
        -- intros w. cbn. intros [<-|[<-|[<-|[<-|[]]]]] _; reflexivity.
      * intros w Hw En. destruct (Ht w Hw) as (_ & -> & a' & b' & Ha' & Hb' & Ew & Hc). rewrite Ew in En. unfold n in En.
        apply idx_inj in En; [|lia|lia]. destruct En as [En1 En2]. rewrite En1, En2 in Hc. rewrite Hc in Ec. discriminate.
  - rewrite U2, U1; [reflexivity | |].
    + intros w Hw En.
      assert (Hab : exists a b, 0 <= a <= 1 /\ 0 <= b <= 1 /\ fst w = (j + b) * (k1 + 1) + (i + a)).
      { unfold falses in Hw. cbn in Hw. destruct Hw as [<-|[<-|[<-|[<-|[]]]]]; cbn; unfold k;
          [exists 0, 0 | exists 1, 0 | exists 1, 1 | exists 0, 1]; lia. }
      destruct Hab as (a & b & Ha & Hb & Ew). rewrite Ew in En. apply idx_inj in En; lia.
    + intros w Hw En. destruct (Ht w Hw) as (_ & _ & a & b & Ha & Hb & Ew & _). rewrite Ew in En.
      apply idx_inj in En; lia.
Qed.

(* ---- bounding boxes *)
Lemma extent_4 f (a b c d : vertex) (lo hi : R) :
  lo = (fold_left (fun m v => if Rltb (f v) m then f v else m) [b; c; d] (f a)) ->
  hi = (fold_left (fun m v => if Rltb m (f v) then f v else m) [b; c; d] (f a)) ->
  extent f [a; b; c; d] lo hi.
Proof.
  cbn [fold_left]. intros -> ->.
  set (m1 := if Rltb (f b) (f a) then f b else f a). set (m2 := if Rltb (f c) m1 then f c else m1).
  set (h1 := if Rltb (f a) (f b) then f b else f a). set (h2 := if Rltb h1 (f c) then f c else h1).
  assert (M1 : (m1 = f a \/ m1 = f b) /\ (m1 <= f a)%R /\ (m1 <= f b)%R).
  { unfold m1. destruct (Rltb (f b) (f a)) eqn:E; rb; split; try tauto; lra. }
  assert (M2 : (m2 = m1 \/ m2 = f c) /\ (m2 <= m1)%R /\ (m2 <= f c)%R).
  { unfold m2. destruct (Rltb (f c) m1) eqn:E; rb; split; try tauto; lra. }
  assert (H1 : (h1 = f a \/ h1 = f b) /\ (f a <= h1)%R /\ (f b <= h1)%R).
  { unfold h1. destruct (Rltb (f a) (f b)) eqn:E; rb; split; try tauto; lra. }
  assert (H2 : (h2 = h1 \/ h2 = f c) /\ (h1 <= h2)%R /\ (f c <= h2)%R).
  { unfold h2. destruct (Rltb h1 (f c)) eqn:E; rb; split; try tauto; lra. }
  clearbody m1 m2 h1 h2.
  assert (M3 : let m := if Rltb (f d) m2 then f d else m2 in (m = m2 \/ m = f d) /\ (m <= m2)%R /\ (m <= f d)%R).
  { cbv zeta. destruct (Rltb (f d) m2) eqn:E; rb; split; try tauto; lra. }
  assert (H3 : let m := if Rltb h2 (f d) then f d else h2 in (m = h2 \/ m = f d) /\ (h2 <= m)%R /\ (f d <= m)%R).
  { cbv zeta. destruct (Rltb h2 (f d)) eqn:E; rb; split; try tauto; lra. }
  cbv zeta in *. set (m3 := if Rltb (f d) m2 then _ else _) in *. set (h3 := if Rltb h2 (f d) then _ else _) in *. clearbody m3 h3.
  split; [|split].
  - destruct M3 as [[-> | ->] _]; [|exists d; cbn; tauto]. destruct M2 as [[-> | ->] _]; [|exists c; cbn; tauto].
    destruct M1 as [[-> | ->] _]; [exists a | exists b]; cbn; tauto.
  - destruct H3 as [[-> | ->] _]; [|exists d; cbn; tauto]. destruct H2 as [[-> | ->] _]; [|exists c; cbn; tauto].
    destruct H1 as [[-> | ->] _]; [exists a | exists b]; cbn; tauto.
  - intros v. cbn. intros [<-|[<-|[<-|[<-|[]]]]]; lra.
Qed.

Lemma bbox_extent q : let b := bbox q in
  extent v_x (q_verts q) (fst (fst b)) (fst (snd b)) /\ extent v_y (q_verts q) (snd (fst b)) (snd (snd b)).
Proof. unfold bbox, q_verts. cbn [fold_left fst snd]. split; apply extent_4; reflexivity. Qed.

Lemma extent_unique {A} (f : A -> R) l a b a' b' : extent f l a b -> extent f l a' b' -> a = a' /\ b = b'.
Proof.
  intros ((x & Hx & Ex) & (y & Hy & Ey) & H) ((x' & Hx' & Ex') & (y' & Hy' & Ey') & H').
  pose proof (H x' Hx'). pose proof (H y' Hy'). pose proof (H' x Hx). pose proof (H' y Hy). lra.
Qed.

Definition with_box (q : quad) : quad := mkQuad (q_v0 q) (q_v1 q) (q_v2 q) (q_v3 q) (fst (bbox q)) (snd (bbox q)).
Definition area_ok (q : quad) : bool :=
  negb (Rltb ((fst (snd (bbox q)) - fst (fst (bbox q))) * (snd (snd (bbox q)) - snd (fst (bbox q))))%R (1 / 10000000)%R).
Lemma bg_add_eq grid q : bg_add grid q = grid ++ if area_ok q then [with_box q] else [].
Proof.
  unfold bg_add, area_ok, with_box. destruct (bbox q) as [lo hi]. cbn [fst snd].
  destruct (Rltb _ _); cbn [negb]; [now rewrite app_nil_r | reflexivity].
Qed.
Lemma with_box_boxed q : boxed (with_box q).
Proof. apply bbox_extent. Qed.
Lemma area_roomy q : area_ok q = true <-> roomy (q_verts q).
Proof.
  pose proof (bbox_extent q) as [Hx Hy]. unfold area_ok. split.
  - intros H xl xh yl yh Ex Ey. apply negb_true_iff in H. rb.
    destruct (extent_unique _ _ _ _ _ _ Ex Hx) as [-> ->]. destruct (extent_unique _ _ _ _ _ _ Ey Hy) as [-> ->]. lra.
  - intro H. specialize (H _ _ _ _ Hx Hy). apply negb_true_iff. apply Rltb_f. lra.
Qed.

Lemma add_spec grid q :
  (roomy (q_verts q) -> exists q', bg_add grid q = grid ++ [q'] /\ q_verts q' = q_verts q /\ boxed q') /\
  (~ roomy (q_verts q) -> bg_add grid q = grid).
Proof.
  rewrite bg_add_eq. split; intro H.
  - apply area_roomy in H. rewrite H. exists (with_box q). split; [reflexivity|]. split; [reflexivity | apply with_box_boxed].
  - destruct (area_ok q) eqn:E; [apply area_roomy in E; tauto | apply app_nil_r].
Qed.

(* ---- uniform *)
Lemma uniform_verts mn mx k1 k2 dc i j :
  q_verts (uniform_quad mn ((fst mx - fst mn) / IZR k1) ((snd mx - snd mn) / IZR k2) k1 dc i j) = cell_corners mn mx k1 k2 dc i j.
Proof.
  unfold q_verts, uniform_quad, cell_corners, node, grid_x, grid_y. cbv zeta. rewrite !plus_IZR.
  destruct dc; cbn [q_v0 q_v1 q_v2 q_v3]; repeat (apply f_equal2; [f_equal; try lia; try ring|]); reflexivity.
Qed.

Section Uniform.
Context (mn mx : R * R) (k1 k2 : Z) (dc : bool).
Let dx := ((fst mx - fst mn) / IZR k1)%R.
Let dy := ((snd mx - snd mn) / IZR k2)%R.
Let uq (c : Z * Z) := uniform_quad mn dx dy k1 dc (fst c) (snd c).
Let step := (fun (st : list quad * list bool) (ij : Z * Z) =>
    let '(grid, fx) := st in let '(i, j) := ij in
    let* fx := writes (uniform_flags k1 k2 dc i j) fx in
    Ok (bg_add grid (uniform_quad mn dx dy k1 dc i j), fx)).

Lemma uniform_fold cs : (forall c, In c cs -> 0 <= fst c < k1 /\ 0 <= snd c < k2) -> forall grid fx, zlen fx = (k1 + 1) * (k2 + 1) ->
  exists fx', foldM step cs (grid, fx) = Ok (grid ++ map with_box (filter area_ok (map uq cs)), fx') /\ zlen fx' = zlen fx /\
    forall ni nj, 0 <= ni <= k1 -> 0 <= nj <= k2 ->
      (zget fx' (nj * (k1 + 1) + ni) = Some (negb dc && is_corner k1 k2 ni nj) \/
       zget fx' (nj * (k1 + 1) + ni) = zget fx (nj * (k1 + 1) + ni)) /\
      ((exists c, In c cs /\ (ni = fst c \/ ni = fst c + 1) /\ (nj = snd c \/ nj = snd c + 1)) ->
       zget fx' (nj * (k1 + 1) + ni) = Some (negb dc && is_corner k1 k2 ni nj)).
Proof.
  induction cs as [|[i j] cs IH]; intros Hc grid fx Hl.
  - exists fx. cbn. rewrite app_nil_r. split; [reflexivity|]. split; [reflexivity|]. intros. split; [tauto|]. intros (c & [] & _).
  - destruct (Hc (i, j) (or_introl eq_refl)) as [Hi Hj]. cbn [fst snd] in *.
    destruct (flags_step k1 k2 dc i j fx Hi Hj Hl) as (f1 & E1 & L1 & G1).
    cbn [foldM]. unfold step at 1. rewrite E1. cbn [bind].
    destruct (IH ltac:(intros; apply Hc; now right) (bg_add grid (uniform_quad mn dx dy k1 dc i j)) f1 ltac:(lia)) as (f2 & E2 & L2 & G2).
    exists f2. fold step. rewrite E2. split.
    { f_equal. f_equal. rewrite bg_add_eq. cbn [map filter]. change (uq (i, j)) with (uniform_quad mn dx dy k1 dc i j).
      destruct (area_ok _); cbn [map]; rewrite <- app_assoc; reflexivity. }
    split; [lia|]. intros ni nj Hni Hnj. destruct (G2 ni nj Hni Hnj) as [G3 G4]. specialize (G1 ni nj Hni Hnj).
    split.
    + destruct G3 as [G3|G3]; [tauto|]. rewrite G3, G1. destruct (_ && _); tauto.
    + intros (c & [<-|Hin] & H1 & H2); cbn [fst snd] in *.
      * destruct G3 as [G3|G3]; [assumption|]. rewrite G3, G1.
        replace (((ni =? i) || (ni =? i + 1)) && ((nj =? j) || (nj =? j + 1))) with true by lia. reflexivity.
      * apply G4. exists c. auto.
Qed.

Lemma uniform_main : 0 < k1 -> 0 < k2 ->
  exists g keep, bg_uniform mn mx k1 k2 dc = Ok g /\ bg_nodes g = (k1 + 1) * (k2 + 1) /\
    map q_verts (bg_quads g) =
      map (fun c => cell_corners mn mx k1 k2 dc (fst c) (snd c)) (filter keep (pairs (zrange 0 k1) (zrange 0 k2))) /\
    (forall i j, keep (i, j) = true <-> roomy (cell_corners mn mx k1 k2 dc i j)) /\
    Forall boxed (bg_quads g) /\
    zlen (bg_fix g) = (k1 + 1) * (k2 + 1) /\
    forall i j, 0 <= i <= k1 -> 0 <= j <= k2 ->
      zget (bg_fix g) (j * (k1 + 1) + i) = Some (negb dc && (((i =? 0) || (i =? k1)) && ((j =? 0) || (j =? k2)))).
Proof.
  intros H1 H2. unfold bg_uniform, vresize. cbv zeta. fold dx dy.
  destruct (Z.ltb_spec ((k1 + 1) * (k2 + 1)) 0); [nia|]. cbn [bind]. fold step.
  destruct (uniform_fold (pairs (zrange 0 k1) (zrange 0 k2))) with (grid := @nil quad) (fx := zrepeat false ((k1 + 1) * (k2 + 1)))
    as (fx & E & L & G).
  { intros [i j] Hin. apply In_pairs in Hin. rewrite !In_zrange in Hin. cbn. lia. }
  { apply zlen_zrepeat. lia. }
  rewrite E. cbn [bind app]. eexists. exists (fun c => area_ok (uq c)). split; [reflexivity|]. cbn [bg_nodes bg_quads bg_fix].
  split; [reflexivity|]. split; [|split; [|split; [|split]]].
  - rewrite map_map. generalize (pairs (zrange 0 k1) (zrange 0 k2)). intro l. induction l as [|c l IH]; [reflexivity|].
    cbn [map filter]. destruct (area_ok (uq c)); cbn [map]; [|exact IH]. rewrite IH. f_equal.
    destruct c as [i j]. unfold uq. cbn [fst snd]. rewrite <- uniform_verts. reflexivity.
  - intros i j. rewrite area_roomy. unfold uq. cbn [fst snd]. unfold dx, dy. rewrite uniform_verts. tauto.
  - apply Forall_forall. intros q Hq. apply in_map_iff in Hq. destruct Hq as (q' & <- & _). apply with_box_boxed.
  - rewrite L. apply zlen_zrepeat. lia.
  - intros i j Hi Hj. destruct (G i j Hi Hj) as [_ G2]. apply G2.
    exists ((if i =? k1 then i - 1 else i), (if j =? k2 then j - 1 else j)). cbn [fst snd]. rewrite In_pairs, !In_zrange.
    destruct (Z.eqb_spec i k1), (Z.eqb_spec j k2); lia.
Qed.
End Uniform.
