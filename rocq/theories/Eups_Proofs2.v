(* Proofs about the bounding box, faces and fixed corners. *)
From Verif Require Import BaseFacts RBaseFacts Mim_Proofs Rprop_Proofs2 Asm_Proofs Asm_Proofs6 Bgrid_Proofs Bgrid_Proofs5 Bgrid_Proofs6 Eups_Spec.
Open Scope Z_scope.

Lemma increasing_app_one l x : increasing l -> (forall y, In y l -> y < x) -> increasing (l ++ [x]).
Proof.
  induction l as [|a l IH]; cbn; [intros _ _; split; [intros y []|exact I]|]. intros [A B] H. split.
  - intros y Hy. apply in_app_iff in Hy. destruct Hy as [Hy|[<-|[]]]; [apply A; exact Hy|apply H; left; reflexivity].
  - apply IH; [exact B|]. intros y Hy. apply H. right. exact Hy.
Qed.

(* ---- bounding box *)
Lemma boundaries_fold verts : forall mn mx, let r := fold_left (fun st c => let '(mn, mx) := st in
    (fun i => smin (mn i) (pc c i), fun i => smax (mx i) (pc c i))) verts (mn, mx) in
  forall p, (fst r p <= mn p /\ mx p <= snd r p /\ (forall v, In v verts -> fst r p <= pc v p <= snd r p) /\
    (fst r p = mn p \/ exists v, In v verts /\ pc v p = fst r p) /\ (snd r p = mx p \/ exists v, In v verts /\ pc v p = snd r p))%R.
Proof.
  induction verts as [|c t IH]; intros mn mx; cbn [fold_left].
  - cbn. intros p. repeat split; try lra; try (intros v []); left; reflexivity.
  - intros p. destruct (IH (fun i => smin (mn i) (pc c i)) (fun i => smax (mx i) (pc c i)) p) as (A & B & C & D & E).
    cbn beta in A, B, D, E. set (r := fold_left _ t _) in *. clearbody r. rewrite smin_Rmin in A, D. rewrite smax_Rmax in B, E.
    pose proof (Rmin_l (mn p) (pc c p)). pose proof (Rmin_r (mn p) (pc c p)). pose proof (Rmax_l (mx p) (pc c p)). pose proof (Rmax_r (mx p) (pc c p)).
    repeat split; try lra.
    + destruct H3 as [<-|Hv]; [lra|apply C; exact Hv].
    + destruct H3 as [<-|Hv]; [lra|apply C; exact Hv].
    + destruct D as [D|(v & Hv & D)]; [|right; exists v; split; [right; exact Hv|exact D]].
      destruct (Rle_dec (mn p) (pc c p)) as [L|L]; [left; rewrite Rmin_left in D by exact L; exact D|].
      right. exists c. split; [left; reflexivity|]. rewrite Rmin_right in D by lra. lra.
    + destruct E as [E|(v & Hv & E)]; [|right; exists v; split; [right; exact Hv|exact E]].
      destruct (Rle_dec (pc c p) (mx p)) as [L|L]; [left; rewrite Rmax_left in E by exact L; exact E|].
      right. exists c. split; [left; reflexivity|]. rewrite Rmax_right in E by lra. lra.
Qed.
Lemma boundaries verts p : let mn := fst (find_boundaries verts) in let mx := snd (find_boundaries verts) in
  (exists v, In v verts /\ pc v p <= 100000)%R -> (exists v, In v verts /\ -100000 <= pc v p)%R ->
  extent (fun c => pc c p) verts (mn p) (mx p).
Proof.
  intros mn mx (v & Hv & Lv) (w & Hw & Lw).
  destruct (boundaries_fold verts (fun _ => 100000%R) (fun _ => (-100000)%R) p) as (A & B & C & D & E).
  fold (find_boundaries verts) in A, B, C, D, E. fold mn mx in A, B, C, D, E. cbn beta in *. split; [|split].
  - destruct D as [D|D]; [|exact D]. exists v. split; [exact Hv|]. specialize (C v Hv). lra.
  - destruct E as [E|E]; [|exact E]. exists w. split; [exact Hw|]. specialize (C w Hw). lra.
  - exact C.
Qed.
Lemma boundaries_far verts p : let mn := fst (find_boundaries verts) in let mx := snd (find_boundaries verts) in
  ((forall v, In v verts -> 100000 < pc v p) -> mn p = 100000)%R /\ ((forall v, In v verts -> pc v p < -100000) -> mx p = -100000)%R.
Proof.
  intros mn mx.
  destruct (boundaries_fold verts (fun _ => 100000%R) (fun _ => (-100000)%R) p) as (A & B & C & D & E).
  fold (find_boundaries verts) in A, B, C, D, E. fold mn mx in A, B, C, D, E. cbn beta in *. split; intros H.
  - destruct D as [D|(v & Hv & D)]; [exact D|]. specialize (H v Hv). lra.
  - destruct E as [E|(v & Hv & E)]; [exact E|]. specialize (H v Hv). lra.
Qed.

(* ---- planes, lines and points *)
Lemma dir_pow d : 0 <= d -> dir_index (2 ^ d) = d.
Proof. intros H. unfold dir_index. apply Z.log2_pow2. exact H. Qed.
Lemma dir3 d : 0 <= d < 3 -> d = 0 \/ d = 1 \/ d = 2.
Proof. lia. Qed.
Lemma plane_ok tol d c v : 0 <= d < 3 -> is_on_plane tol (2 ^ d) c v = Rltb (Rabs (v - pc c d)) tol.
Proof. intros H. destruct (dir3 d H) as [->|[->| ->]]; reflexivity. Qed.
Lemma plane_iff tol d c v : 0 <= d < 3 -> (is_on_plane tol (2 ^ d) c v = true <-> (Rabs (v - pc c d) < tol)%R).
Proof. intros H. rewrite plane_ok by exact H. apply Rltb_true. Qed.
Lemma plane_none tol dir c v : dir < 1 \/ 4 < dir -> is_on_plane tol dir c v = false.
Proof. intros H. unfold is_on_plane. destruct (Z.ltb_spec dir 1), (Z.ltb_spec 4 dir); try reflexivity; lia. Qed.
Lemma line_iff tol d c x y : 0 <= d < 3 ->
  (is_on_line tol (2 ^ d) c x y = true <-> (Rabs (x - pc c ((d + 1) mod 3)) <= tol /\ Rabs (y - pc c ((d + 2) mod 3)) <= tol)%R).
Proof.
  intros H. unfold is_on_line. rewrite dir_pow by lia.
  assert (E : ((2 ^ d <? 1) || (4 <? 2 ^ d) = false)%Z) by (destruct (dir3 d H) as [->|[->| ->]]; reflexivity). rewrite E.
  set (a := (x - _)%R). set (b := (y - _)%R). clearbody a b.
  assert (R1 : forall a : R, (Rltb tol a || Rltb a (- tol) = false <-> Rabs a <= tol)%R).
  { intros u. rewrite orb_false_iff, !Rltb_false. unfold Rabs. destruct (Rcase_abs u); lra. }
  destruct (Rltb tol a || Rltb a (- tol)) eqn:E1.
  - split; [discriminate|]. intros [Ha _]. apply R1 in Ha. congruence.
  - apply R1 in E1. destruct (Rltb tol b || Rltb b (- tol)) eqn:E2.
    + split; [discriminate|]. intros [_ Hb]. apply R1 in Hb. congruence.
    + apply R1 in E2. tauto.
Qed.
Lemma point_iff tol c p : is_on_point tol c p = true <-> (dist1 p c < tol)%R.
Proof. unfold is_on_point, dist1. apply Rltb_true. Qed.

Lemma extract_ok c d : 0 <= d < 3 -> bg_extract c d = Ok (others d c).
Proof. intros H. destruct c as [[x y] z]. destruct (dir3 d H) as [->|[->| ->]]; reflexivity. Qed.

(* loops that append the vertices of some positions *)
Lemma face_ok tol verts d coord : 0 <= d < 3 -> exists l, extract_face tol verts (2 ^ d) coord = Ok l /\ increasing (map v_i l) /\
  forall v, In v l <-> on_plane tol verts d coord v.
Proof.
  intros Hd. unfold extract_face. pose proof (zlen_nonneg verts) as H0.
  destruct (zloop (fun l n => let* c := rget verts n in
    if is_on_plane tol (2 ^ d) c coord then let* xy := bg_extract c (dir_index (2 ^ d)) in Ok (l ++ [mkVertex n (fst xy) (snd xy)]) else Ok l)
    (fun n l => increasing (map v_i l) /\ (forall v, In v l <-> on_plane tol verts d coord v /\ v_i v < n)) 0 (zlen verts) []) as (l & E & I & V).
  - lia.
  - split; [exact I|]. intros v. split; [intros []|]. intros [(c & E & _) Hn]. apply zget_Some_range in E. lia.
  - intros n l Hn [I V]. destruct (zget_in_range verts n Hn) as (c & E). rewrite (proj2 (rget_Ok _ _ _) E). cbn [bind].
    destruct (is_on_plane tol (2 ^ d) c coord) eqn:P.
    + rewrite dir_pow, extract_ok by lia. cbn [bind]. eexists; split; [reflexivity|]. split.
      * rewrite map_app. cbn [map v_i]. apply increasing_app_one; [exact I|]. intros y Hy. apply in_map_iff in Hy.
        destruct Hy as (v & <- & Hv). apply V in Hv. lia.
      * intros v. rewrite in_app_iff, V. cbn [In]. split.
        -- intros [[Hv Hl]|[<-|[]]]; [split; [exact Hv|lia]|]. cbn [v_i]. split; [|lia]. exists c. cbn [v_i v_x v_y].
           split; [exact E|]. split; [apply (plane_iff tol d) in P; assumption|]. symmetry; apply surjective_pairing.
        -- intros [Hv Hl]. destruct (Z.eq_dec (v_i v) n) as [En|En]; [|left; split; [exact Hv|lia]].
           right. left. destruct Hv as (c' & E' & _ & Ev). rewrite En, E in E'. injection E' as <-. destruct v as [i x y]. cbn in *.
           subst i. f_equal; rewrite <- Ev; reflexivity.
    + exists l. split; [reflexivity|]. split; [exact I|]. intros v. rewrite V. split; [intros [Hv Hl]; split; [exact Hv|lia]|].
      intros [Hv Hl]. split; [exact Hv|]. destruct (Z.eq_dec (v_i v) n) as [En|En]; [|lia]. exfalso.
      destruct Hv as (c' & E' & P' & _). rewrite En, E in E'. injection E' as <-. apply (plane_iff tol d) in P'; [congruence|exact Hd].
  - exists l. split; [exact E|]. split; [exact I|]. intros v. rewrite V. split; [tauto|]. intros H. split; [exact H|].
    destruct H as (c & Ec & _). apply zget_Some_range in Ec. lia.
Qed.

(* ---- fixed corners *)
Lemma fx_set_keys F n e x : In x (map fst (fx_set F n e)) <-> x = n \/ In x (map fst F).
Proof.
  induction F as [|[k v] t IH]; cbn; [intuition congruence|]. destruct (Z.ltb_spec n k); cbn; [intuition congruence|].
  destruct (Z.eqb_spec k n) as [->|]; cbn; [intuition congruence|]. rewrite IH. intuition congruence.
Qed.
Lemma fx_set_increasing F n e : increasing (map fst F) -> increasing (map fst (fx_set F n e)).
Proof.
  induction F as [|[k v] t IH]; cbn; [tauto|]. intros [A I]. destruct (Z.ltb_spec n k); cbn.
  - split; [|split; [exact A|exact I]]. intros y [<-|Hy]; [lia|]. specialize (A y Hy). lia.
  - destruct (Z.eqb_spec k n) as [->|]; cbn; [split; [exact A|exact I]|]. split; [|apply IH; exact I].
    intros y Hy. apply fx_set_keys in Hy. destruct Hy as [->|Hy]; [lia|apply A; exact Hy].
Qed.
Lemma fix_zero F n : wf_fixed F -> exists F', update_fixed 3 F n (7, [0; 0; 0]%R) = Ok F' /\ wf_fixed F' /\
  forall x, fx_find F' x = if x =? n then Some (7, [0; 0; 0]%R) else fx_find F x.
Proof.
  intros [I W]. assert (G : exists F', update_fixed 3 F n (7, [0; 0; 0]%R) = Ok F' /\ F' = fx_set F n (7, [0; 0; 0]%R)).
  { unfold update_fixed. destruct (fx_find F n) as [[d v]|] eqn:E; [|eexists; split; reflexivity].
    cbn [fst]. destruct (Z.eqb_spec d 7) as [->|Hd]; [eexists; split; reflexivity|].
    destruct (W n d v E) as [Hr Hl]. destruct v as [|a [|b [|c [|x v]]]]; try (cbn in Hl; unfold zlen in Hl; cbn in Hl; lia).
    change (zrange 0 3) with [0; 1; 2]. cbn. eexists; split; [reflexivity|].
    assert (Hc : d = 0 \/ d = 1 \/ d = 2 \/ d = 3 \/ d = 4 \/ d = 5 \/ d = 6) by lia.
    assert (L7 : Z.lor d 7 = 7) by (repeat (destruct Hc as [->|Hc]; [reflexivity|]); subst; reflexivity). rewrite L7. reflexivity. }
  destruct G as (F' & E & ->). eexists; split; [exact E|]. split.
  - split; [apply fx_set_increasing; exact I|]. intros m d v. rewrite fx_find_set. destruct (m =? n); [|apply W].
    intros [= <- <-]. split; [lia|reflexivity].
  - intros x. apply fx_find_set.
Qed.
Lemma fix_point_ok tol verts F c : wf_fixed F -> exists F', fix_point tol verts F 7 c [0; 0; 0]%R = Ok F' /\ wf_fixed F' /\
  (forall n p, zget verts n = Some p -> (dist1 c p < tol)%R -> fx_find F' n = Some (7, [0; 0; 0]%R)) /\
  (forall n, (forall p, zget verts n = Some p -> ~ (dist1 c p < tol)%R) -> fx_find F' n = fx_find F n).
Proof.
  intros W. unfold fix_point. pose proof (zlen_nonneg verts) as H0.
  destruct (zloop (fun F n => let* p := rget verts n in if is_on_point tol p c then update_fixed 3 F n (7, [0; 0; 0]%R) else Ok F)
    (fun i F' => wf_fixed F' /\ (forall n p, n < i -> zget verts n = Some p -> (dist1 c p < tol)%R -> fx_find F' n = Some (7, [0; 0; 0]%R)) /\
      (forall n, i <= n \/ (forall p, zget verts n = Some p -> ~ (dist1 c p < tol)%R) -> fx_find F' n = fx_find F n)) 0 (zlen verts) F) as (F' & E & W' & A & B).
  - lia.
  - split; [exact W|]. split; [|reflexivity]. intros n p Hn E. apply zget_Some_range in E. lia.
  - intros i F1 Hi (W1 & A & B). destruct (zget_in_range verts i Hi) as (p & E). rewrite (proj2 (rget_Ok _ _ _) E). cbn [bind].
    destruct (is_on_point tol p c) eqn:P.
    + apply point_iff in P. destruct (fix_zero F1 i W1) as (F2 & E2 & W2 & G). exists F2. split; [exact E2|]. split; [exact W2|]. split.
      * intros n q Hn Eq Dq. rewrite G. destruct (Z.eqb_spec n i); [reflexivity|]. apply (A n q); [lia|exact Eq|exact Dq].
      * intros n Hn. rewrite G. destruct (Z.eqb_spec n i) as [->|]; [exfalso; destruct Hn as [Hn|Hn]; [lia|exact (Hn p E P)]|]. apply B.
        destruct Hn as [Hn|Hn]; [left; lia|right; exact Hn].
    + exists F1. split; [reflexivity|]. split; [exact W1|]. split.
      * intros n q Hn Eq Dq. destruct (Z.eq_dec n i) as [->|]; [|apply (A n q); [lia|exact Eq|exact Dq]].
        rewrite E in Eq. injection Eq as <-. apply (point_iff tol) in Dq. congruence.
      * intros n Hn. apply B. destruct Hn as [Hn|Hn]; [left; lia|right; exact Hn].
  - exists F'. split; [exact E|]. split; [exact W'|]. split.
    + intros n p En Dn. apply (A n p); [apply zget_Some_range in En; lia|exact En|exact Dn].
    + intros n Hn. apply B. right. exact Hn.
Qed.
Lemma fix_all F n vals : zlen vals = 3 -> wf_fixed F -> exists F', update_fixed 3 F n (7, vals) = Ok F' /\ wf_fixed F' /\
  forall x, fx_find F' x = if x =? n then Some (7, vals) else fx_find F x.
Proof.
  intros L3 [I W]. assert (G : exists F', update_fixed 3 F n (7, vals) = Ok F' /\ F' = fx_set F n (7, vals)).
  { unfold update_fixed. destruct (fx_find F n) as [[d v]|] eqn:E; [|eexists; split; reflexivity].
    cbn [fst]. destruct (Z.eqb_spec d 7) as [->|Hd]; [eexists; split; reflexivity|].
    destruct (W n d v E) as [Hr Hl]. destruct v as [|a [|b [|c [|x v]]]]; try (cbn in Hl; unfold zlen in Hl; cbn in Hl; lia).
    destruct vals as [|va [|vb [|vc [|vx vals]]]]; try (unfold zlen in L3; cbn in L3; lia). change (zrange 0 3) with [0; 1; 2]. cbn. eexists; split; [reflexivity|].
    assert (Hc : d = 0 \/ d = 1 \/ d = 2 \/ d = 3 \/ d = 4 \/ d = 5 \/ d = 6) by lia.
    assert (L7 : Z.lor d 7 = 7) by (repeat (destruct Hc as [->|Hc]; [reflexivity|]); subst; reflexivity). rewrite L7. reflexivity. }
  destruct G as (F' & E & ->). eexists; split; [exact E|]. split.
  - split; [apply fx_set_increasing; exact I|]. intros m d v. rewrite fx_find_set. destruct (m =? n); [|apply W].
    intros [= <- <-]. split; [lia|exact L3].
  - intros x. apply fx_find_set.
Qed.
Lemma fix_line_ok tol verts F e x y vals : 0 <= e < 3 -> zlen vals = 3 -> wf_fixed F -> exists F', fix_line tol verts F (2 ^ e) x y vals = Ok F' /\ wf_fixed F' /\
  (forall n p, zget verts n = Some p -> (Rabs (x - pc p ((e + 1) mod 3)) <= tol /\ Rabs (y - pc p ((e + 2) mod 3)) <= tol)%R -> fx_find F' n = Some (7, vals)) /\
  (forall n, (forall p, zget verts n = Some p -> ~ (Rabs (x - pc p ((e + 1) mod 3)) <= tol /\ Rabs (y - pc p ((e + 2) mod 3)) <= tol)%R) -> fx_find F' n = fx_find F n).
Proof.
  intros He L3 W. unfold fix_line. pose proof (zlen_nonneg verts) as H0.
  destruct (zloop (fun F n => let* p := rget verts n in if is_on_line tol (2 ^ e) p x y then update_fixed 3 F n (7, vals) else Ok F)
    (fun i F' => wf_fixed F' /\ (forall n p, n < i -> zget verts n = Some p -> (Rabs (x - pc p ((e + 1) mod 3)) <= tol /\ Rabs (y - pc p ((e + 2) mod 3)) <= tol)%R -> fx_find F' n = Some (7, vals)) /\
      (forall n, i <= n \/ (forall p, zget verts n = Some p -> ~ (Rabs (x - pc p ((e + 1) mod 3)) <= tol /\ Rabs (y - pc p ((e + 2) mod 3)) <= tol)%R) -> fx_find F' n = fx_find F n)) 0 (zlen verts) F) as (F' & E & W' & A & B).
  - lia.
  - split; [exact W|]. split; [|reflexivity]. intros n p Hn E. apply zget_Some_range in E. lia.
  - intros i F1 Hi (W1 & A & B). destruct (zget_in_range verts i Hi) as (p & E). rewrite (proj2 (rget_Ok _ _ _) E). cbn [bind].
    destruct (is_on_line tol (2 ^ e) p x y) eqn:P.
    + apply (line_iff tol e p x y He) in P. destruct (fix_all F1 i vals L3 W1) as (F2 & E2 & W2 & G). exists F2. split; [exact E2|]. split; [exact W2|]. split.
      * intros n q Hn Eq Dq. rewrite G. destruct (Z.eqb_spec n i); [reflexivity|]. apply (A n q); [lia|exact Eq|exact Dq].
      * intros n Hn. rewrite G. destruct (Z.eqb_spec n i) as [->|]; [exfalso; destruct Hn as [Hn|Hn]; [lia|exact (Hn p E P)]|]. apply B.
        destruct Hn as [Hn|Hn]; [left; lia|right; exact Hn].
    + exists F1. split; [reflexivity|]. split; [exact W1|]. split.
      * intros n q Hn Eq Dq. destruct (Z.eq_dec n i) as [->|]; [|apply (A n q); [lia|exact Eq|exact Dq]].
        rewrite E in Eq. injection Eq as <-. apply (line_iff tol e p x y He) in Dq. congruence.
      * intros n Hn. apply B. destruct Hn as [Hn|Hn]; [left; lia|right; exact Hn].
  - exists F'. split; [exact E|]. split; [exact W'|]. split.
    + intros n p En Dn. apply (A n p); [apply zget_Some_range in En; lia|exact En|exact Dn].
    + intros n Hn. apply B. right. exact Hn.
Qed.
Lemma corners_in mn mx c : In c (box_corners mn mx) -> at_corner mn mx c.
Proof.
  intros H p Hp. unfold box_corners in H. cbn in H. destruct (dir3 p Hp) as [->|[->| ->]];
    repeat (destruct H as [<-|H]; [cbn; auto|]); destruct H.
Qed.
Lemma in_corners mn mx c : at_corner mn mx c -> In c (box_corners mn mx).
Proof.
  intros H. destruct c as [[x y] z]. destruct (H 0 ltac:(lia)) as [A|A], (H 1 ltac:(lia)) as [B|B], (H 2 ltac:(lia)) as [C|C]; cbn in A, B, C; subst; cbn; tauto.
Qed.
Lemma fix_corners_ok tol verts F mn mx : wf_fixed F -> exists F', fix_corners tol verts F mn mx = Ok F' /\ wf_fixed F' /\
  (forall n p c, zget verts n = Some p -> at_corner mn mx c -> (dist1 c p < tol)%R -> fx_find F' n = Some (7, [0; 0; 0]%R)) /\
  (forall n, (forall p c, zget verts n = Some p -> at_corner mn mx c -> ~ (dist1 c p < tol)%R) -> fx_find F' n = fx_find F n).
Proof.
  intros W.
  assert (G : forall l F, wf_fixed F -> exists F', foldM (fun F c => fix_point tol verts F 7 c [0; 0; 0]%R) l F = Ok F' /\ wf_fixed F' /\
    (forall n, (fx_find F n = Some (7, [0; 0; 0]%R) \/ exists p c, zget verts n = Some p /\ In c l /\ (dist1 c p < tol)%R) -> fx_find F' n = Some (7, [0; 0; 0]%R)) /\
    (forall n, (forall p c, zget verts n = Some p -> In c l -> ~ (dist1 c p < tol)%R) -> fx_find F' n = fx_find F n)).
  { clear F W. induction l as [|c l IH]; intros F W; cbn [foldM].
    - exists F. split; [reflexivity|]. split; [exact W|]. split; [|reflexivity]. intros n [H|(p & c & _ & [] & _)]. exact H.
    - destruct (fix_point_ok tol verts F c W) as (F1 & E1 & W1 & A1 & B1). rewrite E1. cbn [bind].
      destruct (IH F1 W1) as (F2 & E2 & W2 & A2 & B2). exists F2. split; [exact E2|]. split; [exact W2|]. split.
      + intros n [H|(p & c' & Ep & [<-|Hc] & D)].
        * apply A2. left. destruct (zget verts n) as [p|] eqn:Ep.
          -- destruct (Rlt_dec (dist1 c p) tol) as [D|D]; [apply (A1 n p); assumption|]. rewrite B1; [exact H|]. intros q Eq. rewrite Ep in Eq. injection Eq as <-. exact D.
          -- rewrite B1; [exact H|]. intros q Eq. congruence.
        * apply A2. left. apply (A1 n p); assumption.
        * apply A2. right. exists p, c'. auto.
      + intros n H. rewrite B2 by (intros p c' Ep Hc; apply (H p c' Ep); right; exact Hc). apply B1. intros p Ep. apply (H p c Ep). left. reflexivity. }
  destruct (G (box_corners mn mx) F W) as (F' & E & W' & A & B). exists F'. split; [exact E|]. split; [exact W'|]. split.
  - intros n p c Ep Hc D. apply A. right. exists p, c. split; [exact Ep|]. split; [apply in_corners; exact Hc|exact D].
  - intros n H. apply B. intros p c Ep Hc. apply (H p c Ep). apply corners_in. exact Hc.
Qed.
