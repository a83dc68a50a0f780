(* Proofs about periodic boundary conditions. *)
From Verif Require Import BaseFacts RBaseFacts Mim_Proofs Asm_Proofs Asm_Proofs6 Bgrid_Proofs Bgrid_Proofs5 Bgrid_Proofs6 Eups_Proofs2 Eups_Proofs3 Eups_Spec.
Open Scope Z_scope.

Lemma mpc_tie d n loc : 0 <= d < 3 -> periodic_mpc (2 ^ d) n loc = tie d n loc.
Proof.
  intros Hd. unfold periodic_mpc, tie. rewrite dir_pow by lia. destruct loc as [i q|xi eta q]; cbn [weights].
  - pose proof (add_masters_ok [(i, d + 1, 1%R)] (mpc_new n (d + 1) 0)) as H. cbn [fold_left fst snd] in H. rewrite H. unfold mpc_new. cbn [mp_slave mp_master app filter fst snd map].
    unfold mpc_tol. destruct (Rlt_dec (/ 10 ^ 8) (Rabs 1)); reflexivity.
  - pose proof (add_masters_ok [(v_i (q_v0 q), d + 1, ((1 - xi) * (1 - eta))%R); (v_i (q_v1 q), d + 1, (xi * (1 - eta))%R); (v_i (q_v2 q), d + 1, (xi * eta)%R); (v_i (q_v3 q), d + 1, ((1 - xi) * eta)%R)]
      (mpc_new n (d + 1) 0)) as H. cbn [fold_left fst snd] in H. unfold eval_basis, q_verts. cbn [combine fold_left fst snd]. rewrite H. unfold mpc_new, mpc_tol. cbn [mp_slave mp_master app filter fst snd].
    f_equal. repeat (destruct (Rlt_dec _ _)); reflexivity.
Qed.
Lemma tie_key d n loc : dof_key 3 (mp_slave (tie d n loc)) = n * 3 + d.
Proof. unfold tie, dof_key. cbn. lia. Qed.
Lemma tie_masters d n loc : 0 <= d < 3 -> forall m, In m (mp_master (tie d n loc)) -> 1 <= md_dof m <= 3 /\ (mpc_tol < Rabs (md_coeff m))%R.
Proof.
  intros Hd m Hm. unfold tie in Hm. cbn [mp_master] in Hm. apply in_map_iff in Hm. destruct Hm as (w & <- & Hw). apply filter_In in Hw.
  destruct Hw as [_ Hw]. cbn. split; [lia|]. unfold mpc_tol. destruct (Rlt_dec _ _) as [L|]; [exact L|discriminate].
Qed.
Lemma tie3 F M n loc : wf_mpcs 3 M ->
  let M' := fold_left (fun M dir => add_mpc 3 F M (periodic_mpc dir n loc)) [1; 2; 4] M in
  wf_mpcs 3 M' /\
  forall m d, 0 <= d < 3 -> get_mpc 3 M' m d = first_of (get_mpc 3 M m d) (if (m =? n) && negb (fx_flag F n d) then Some (tie d n loc) else None).
Proof.
  intros I M'. assert (EM : M' = add_mpc 3 F (add_mpc 3 F (add_mpc 3 F M (tie 0 n loc)) (tie 1 n loc)) (tie 2 n loc)).
  { subst M'. cbn [fold_left]. rewrite <- !mpc_tie by lia. reflexivity. }
  rewrite EM. clear EM M'.
  destruct (add_mpc_ok 3 F M (tie 0 n loc) I (tie_masters 0 n loc ltac:(lia))) as [I1 A1]. set (M1 := add_mpc 3 F M _) in *.
  destruct (add_mpc_ok 3 F M1 (tie 1 n loc) I1 (tie_masters 1 n loc ltac:(lia))) as [I2 A2]. set (M2 := add_mpc 3 F M1 _) in *.
  destruct (add_mpc_ok 3 F M2 (tie 2 n loc) I2 (tie_masters 2 n loc ltac:(lia))) as [I3 A3]. set (M3 := add_mpc 3 F M2 _) in *.
  split; [exact I3|]. intros m d Hd. unfold get_mpc. rewrite A3, A2, A1. rewrite !tie_key. unfold tie. cbn [mp_slave md_node md_dof].
  destruct (mm_find M (m * 3 + d)); cbn [first_of]; [reflexivity|].
  replace (0 + 1 - 1) with 0 by lia. replace (1 + 1 - 1) with 1 by lia. replace (2 + 1 - 1) with 2 by lia.
  destruct (Z.eqb_spec m n) as [->|Hn].
  - destruct (dir3 d Hd) as [->|[->| ->]].
    + rewrite (proj2 (Z.eqb_eq (n * 3 + 0) (n * 3 + 0)) eq_refl), (proj2 (Z.eqb_neq (n * 3 + 0) (n * 3 + 1))), (proj2 (Z.eqb_neq (n * 3 + 0) (n * 3 + 2))) by lia. cbn [andb]. destruct (fx_flag F n 0); reflexivity.
    + rewrite (proj2 (Z.eqb_eq (n * 3 + 1) (n * 3 + 1)) eq_refl), (proj2 (Z.eqb_neq (n * 3 + 1) (n * 3 + 0))), (proj2 (Z.eqb_neq (n * 3 + 1) (n * 3 + 2))) by lia. cbn [andb]. destruct (fx_flag F n 1); reflexivity.
    + rewrite (proj2 (Z.eqb_eq (n * 3 + 2) (n * 3 + 2)) eq_refl), (proj2 (Z.eqb_neq (n * 3 + 2) (n * 3 + 0))), (proj2 (Z.eqb_neq (n * 3 + 2) (n * 3 + 1))) by lia. cbn [andb]. destruct (fx_flag F n 2); reflexivity.
  - rewrite (proj2 (Z.eqb_neq (m * 3 + d) (n * 3 + 0))), (proj2 (Z.eqb_neq (m * 3 + d) (n * 3 + 1))), (proj2 (Z.eqb_neq (m * 3 + d) (n * 3 + 2))) by lia. reflexivity.
Qed.

(* what a plane adds; slaves have different numbers *)
Definition slave_loc (slaves : list vertex) (grid : list quad) (n : Z) : option located :=
  match find (fun v => v_i v =? n) slaves with Some v => bg_find grid (v_x v, v_y v) (0, 0)%R | None => None end.
Lemma find_none_notin (l : list vertex) n : ~ In n (map v_i l) -> find (fun v => v_i v =? n) l = None.
Proof.
  intros H. destruct (find _ l) as [v|] eqn:E; [|reflexivity]. apply find_some in E. destruct E as [E1 E2]. apply Z.eqb_eq in E2. exfalso. apply H. rewrite <- E2. apply in_map. exact E1.
Qed.
Lemma plane_ties nd F grid slaves : NoDup (map v_i slaves) -> (nd = true \/ forall v, In v slaves -> bg_find grid (v_x v, v_y v) (0, 0)%R <> None) ->
  forall M, wf_mpcs 3 M -> exists M', periodic_plane nd F slaves grid M = Ok M' /\ wf_mpcs 3 M' /\
    forall m d, 0 <= d < 3 -> get_mpc 3 M' m d = first_of (get_mpc 3 M m d)
      (if fx_flag F m d then None else match slave_loc slaves grid m with Some loc => Some (tie d m loc) | None => None end).
Proof.
  unfold periodic_plane. induction slaves as [|v slaves IH]; intros ND H M I; cbn [foldM].
  - exists M. split; [reflexivity|]. split; [exact I|]. intros m d Hd. unfold slave_loc. cbn. destruct (fx_flag F m d); destruct (get_mpc 3 M m d); reflexivity.
  - cbn [map] in ND. inversion ND as [|x l Nv ND' Ex]. subst x l.
    assert (H' : nd = true \/ forall v, In v slaves -> bg_find grid (v_x v, v_y v) (0, 0)%R <> None) by (destruct H as [H|H]; [left; exact H|right; intros u Hu; apply H; right; exact Hu]).
    destruct (bg_find grid (v_x v, v_y v) (0, 0)%R) as [loc|] eqn:E.
    + cbn [bind]. destruct (tie3 F M (v_i v) loc I) as [I1 A1]. set (M1 := fold_left _ _ M) in *.
      destruct (IH ND' H' M1 I1) as (M' & EM & I' & A). exists M'. split; [exact EM|]. split; [exact I'|].
      intros m d Hd. rewrite A, A1 by exact Hd. destruct (get_mpc 3 M m d); cbn [first_of]; [reflexivity|].
      unfold slave_loc. cbn [find]. rewrite (Z.eqb_sym (v_i v) m). destruct (Z.eqb_spec m (v_i v)) as [->|Hn]; cbn [andb].
      * rewrite E. destruct (fx_flag F (v_i v) d); cbn [negb first_of]; reflexivity.
      * reflexivity.
    + destruct nd; [|exfalso; destruct H as [H|H]; [discriminate|exact (H v (or_introl eq_refl) E)]]. cbn [bind].
      destruct (IH ND' H' M I) as (M' & EM & I' & A). exists M'. split; [exact EM|]. split; [exact I'|].
      intros m d Hd. rewrite A by exact Hd. f_equal. unfold slave_loc. cbn [find]. rewrite (Z.eqb_sym (v_i v) m).
      destruct (Z.eqb_spec m (v_i v)) as [->|Hn]; [|reflexivity]. rewrite find_none_notin by exact Nv. rewrite E. reflexivity.
Qed.
Lemma plane_missing F grid slaves M v : In v slaves -> bg_find grid (v_x v, v_y v) (0, 0)%R = None -> periodic_plane false F slaves grid M = Throw.
Proof.
  unfold periodic_plane. intros Hv E. revert M. induction slaves as [|w slaves IH]; intros M; [destruct Hv|]. cbn [foldM].
  destruct Hv as [<-|Hv]; [rewrite E; reflexivity|]. destruct (bg_find grid (v_x w, v_y w) (0, 0)%R); [|reflexivity]. cbn [bind]. apply IH. exact Hv.
Qed.
Lemma increasing_nodup l : increasing l -> NoDup l.
Proof. induction l as [|x l IH]; cbn; intros H; constructor; [intros Hi; destruct H as [H _]; specialize (H x Hi); lia|apply IH; tauto]. Qed.
Lemma slave_found tol verts d coord l grid : increasing (map v_i l) -> (forall v, In v l <-> on_plane tol verts d coord v) ->
  forall n, slave_loc l grid n = found_on tol verts d coord grid n.
Proof.
  intros I V n. unfold slave_loc, found_on. destruct (find (fun v => v_i v =? n) l) as [v|] eqn:E.
  - apply find_some in E. destruct E as [E1 E2]. apply Z.eqb_eq in E2. apply V in E1. destruct E1 as (c & Ec & D & X). rewrite E2 in Ec. rewrite Ec.
    apply Rltb_true in D. rewrite D, X. reflexivity.
  - destruct (zget verts n) as [c|] eqn:Ec; [|reflexivity]. destruct (Rltb _ _) eqn:D; [|reflexivity]. exfalso. apply Rltb_true in D.
    assert (Hv : In (mkVertex n (fst (others d c)) (snd (others d c))) l).
    { apply V. exists c. cbn. split; [exact Ec|]. split; [exact D|]. symmetry. apply surjective_pairing. }
    pose proof (find_none _ _ E _ Hv) as Q. cbn in Q. rewrite Z.eqb_refl in Q. discriminate.
Qed.

Lemma periodic_ok nd tol verts cells srt mn mx F M : wf_cells verts cells -> sorts srt -> wf_fixed F -> wf_mpcs 3 M ->
  exists grids F', fix_corners tol verts F mn mx = Ok F' /\
    (forall d, 0 <= d < 3 -> exists cols, extract_master_face tol verts cells srt (2 ^ d) (mn d) false false = Ok (grids d, cols)) /\
    ((nd = true \/ forall d n c, 0 <= d < 3 -> zget verts n = Some c -> (Rabs (mx d - pc c d) < tol)%R -> bg_find (grids d) (others d c) (0, 0)%R <> None) ->
     exists M', periodic_bcs nd tol verts cells srt mn mx F M = Ok (F', M') /\ wf_mpcs 3 M' /\
       forall n d, 0 <= d < 3 -> get_mpc 3 M' n d = first_of (get_mpc 3 M n d)
         (if fx_flag F' n d then None else
          match first_of (found_on tol verts 0 (mx 0) (grids 0) n) (first_of (found_on tol verts 1 (mx 1) (grids 1) n) (found_on tol verts 2 (mx 2) (grids 2) n)) with
          | Some loc => Some (tie d n loc) | None => None end)) /\
    (nd = false -> (exists d n c, 0 <= d < 3 /\ zget verts n = Some c /\ (Rabs (mx d - pc c d) < tol)%R /\ bg_find (grids d) (others d c) (0, 0)%R = None) ->
     periodic_bcs nd tol verts cells srt mn mx F M = Throw).
Proof.
  intros W Hs WF I. destruct (fix_corners_ok tol verts F mn mx WF) as (F' & EF & _).
  destruct (master_face tol verts cells srt 0 (mn 0) false false ltac:(lia) W Hs) as (g0 & cols0 & _ & _ & _ & E0 & _).
  destruct (master_face tol verts cells srt 1 (mn 1) false false ltac:(lia) W Hs) as (g1 & cols1 & _ & _ & _ & E1 & _).
  destruct (master_face tol verts cells srt 2 (mn 2) false false ltac:(lia) W Hs) as (g2 & cols2 & _ & _ & _ & E2 & _).
  destruct (face_ok tol verts 0 (mx 0) ltac:(lia)) as (l0 & L0 & I0 & V0).
  destruct (face_ok tol verts 1 (mx 1) ltac:(lia)) as (l1 & L1 & I1 & V1).
  destruct (face_ok tol verts 2 (mx 2) ltac:(lia)) as (l2 & L2 & I2 & V2).
  exists (fun d => if d =? 0 then g0 else if d =? 1 then g1 else g2), F'. split; [exact EF|]. split; [|].
  { intros d Hd. destruct (dir3 d Hd) as [->|[->| ->]]; cbn [Z.eqb Pos.eqb]; eexists; eassumption. }
  assert (Eq : periodic_bcs nd tol verts cells srt mn mx F M =
    let* M := periodic_plane nd F' l0 g0 M in let* M := periodic_plane nd F' l1 g1 M in let* M := periodic_plane nd F' l2 g2 M in Ok (F', M)).
  { unfold periodic_bcs. rewrite EF. cbn [bind mapM]. rewrite E0, E1, E2, L0, L1, L2. cbn [bind foldM]. cbn [rget zget fst snd].
    change (rget [l0; l1; l2] 0) with (Ok l0). change (rget [l0; l1; l2] 1) with (Ok l1). change (rget [l0; l1; l2] 2) with (Ok l2).
    change (rget [(g0, cols0); (g1, cols1); (g2, cols2)] 0) with (Ok (g0, cols0)). change (rget [(g0, cols0); (g1, cols1); (g2, cols2)] 1) with (Ok (g1, cols1)).
    change (rget [(g0, cols0); (g1, cols1); (g2, cols2)] 2) with (Ok (g2, cols2)). cbn [bind fst].
    destruct (periodic_plane nd F' l0 g0 M) as [M0| |]; cbn [bind]; try reflexivity. destruct (periodic_plane nd F' l1 g1 M0) as [M1| |]; cbn [bind]; try reflexivity.
    destruct (periodic_plane nd F' l2 g2 M1) as [M2| |]; cbn [bind]; reflexivity. }
  rewrite Eq. clear Eq.
  assert (Pl : forall l g d, 0 <= d < 3 -> increasing (map v_i l) -> (forall v, In v l <-> on_plane tol verts d (mx d) v) ->
    (nd = true \/ forall n c, zget verts n = Some c -> (Rabs (mx d - pc c d) < tol)%R -> bg_find g (others d c) (0, 0)%R <> None) -> forall M, wf_mpcs 3 M ->
    exists M', periodic_plane nd F' l g M = Ok M' /\ wf_mpcs 3 M' /\ forall m e, 0 <= e < 3 -> get_mpc 3 M' m e = first_of (get_mpc 3 M m e)
      (if fx_flag F' m e then None else match found_on tol verts d (mx d) g m with Some loc => Some (tie e m loc) | None => None end)).
  { intros l g d Hd Il Vl H M0 IM. destruct (plane_ties nd F' g l (increasing_nodup _ Il)) with (M := M0) as (M' & EM & IM' & A); [|exact IM|].
    - destruct H as [H|H]; [left; exact H|right]. intros v Hv. apply Vl in Hv. destruct Hv as (c & Ec & D & X). rewrite X. exact (H _ _ Ec D).
    - exists M'. split; [exact EM|]. split; [exact IM'|]. intros m e He. rewrite A by exact He. rewrite (slave_found tol verts d (mx d) l g Il Vl m). reflexivity. }
  split.
  - intros H.
    destruct (Pl l0 g0 0 ltac:(lia) I0 V0) with (M := M) as (M0 & A0 & J0 & B0); [|exact I|].
    { destruct H as [H|H]; [left; exact H|right]. intros n c. apply (H 0 n c). lia. }
    destruct (Pl l1 g1 1 ltac:(lia) I1 V1) with (M := M0) as (M1 & A1 & J1 & B1); [|exact J0|].
    { destruct H as [H|H]; [left; exact H|right]. intros n c. apply (H 1 n c). lia. }
    destruct (Pl l2 g2 2 ltac:(lia) I2 V2) with (M := M1) as (M2 & A2 & J2 & B2); [|exact J1|].
    { destruct H as [H|H]; [left; exact H|right]. intros n c. apply (H 2 n c). lia. }
    rewrite A0. cbn [bind]. rewrite A1. cbn [bind]. rewrite A2. cbn [bind]. exists M2. split; [reflexivity|]. split; [exact J2|].
    intros n d Hd. rewrite B2, B1, B0 by exact Hd. cbn [Z.eqb Pos.eqb]. destruct (get_mpc 3 M n d); cbn [first_of]; [reflexivity|].
    destruct (fx_flag F' n d); cbn [first_of]; [reflexivity|].
    destruct (found_on tol verts 0 (mx 0) g0 n); cbn [first_of]; [reflexivity|]. destruct (found_on tol verts 1 (mx 1) g1 n); cbn [first_of]; reflexivity.
  - intros -> (d & n & c & Hd & Ec & D & Nf).
    assert (Total : forall l g M, (exists M', periodic_plane false F' l g M = Ok M') \/ periodic_plane false F' l g M = Throw).
    { intros l g. unfold periodic_plane. induction l as [|v l IH]; intros M0; cbn [foldM]; [left; eexists; reflexivity|].
      destruct (bg_find g (v_x v, v_y v) (0, 0)%R); [cbn [bind]; apply IH|right; reflexivity]. }
    assert (Miss : forall l g, (forall v, In v l <-> on_plane tol verts d (mx d) v) -> bg_find g (others d c) (0, 0)%R = None -> forall M, periodic_plane false F' l g M = Throw).
    { intros l g Vl Ng M0. apply (plane_missing F' g l M0 (mkVertex n (fst (others d c)) (snd (others d c)))).
      - apply Vl. exists c. cbn. split; [exact Ec|]. split; [exact D|]. symmetry. apply surjective_pairing.
      - cbn. rewrite <- surjective_pairing. exact Ng. }
    destruct (dir3 d Hd) as [->|[->| ->]]; cbn [Z.eqb Pos.eqb] in Nf.
    + rewrite (Miss l0 g0 V0 Nf). reflexivity.
    + destruct (Total l0 g0 M) as [(M0 & ->)| ->]; [|reflexivity]. cbn [bind]. rewrite (Miss l1 g1 V1 Nf). reflexivity.
    + destruct (Total l0 g0 M) as [(M0 & ->)| ->]; [|reflexivity]. cbn [bind]. destruct (Total l1 g1 M0) as [(M1 & ->)| ->]; [|reflexivity]. cbn [bind].
      rewrite (Miss l2 g2 V2 Nf). reflexivity.
Qed.

(* ---- the weights *)
Lemma weights_sum loc : Rsum (map snd (weights loc)) = 1%R.
Proof. destruct loc as [i q|xi eta q]; cbn [weights map snd]; rewrite ?Rsum_cons, Rsum_nil; ring. Qed.
Lemma weights_position grid coord init xi eta q : bg_find grid coord init = Some (Within xi eta q) ->
  clear_system (1 / 100000000) (x_eq q coord) (y_eq q coord) ->
  forall a b c : R, (Rsum (map (fun wv => snd (fst wv) * (a + b * v_x (snd wv) + c * v_y (snd wv))) (combine (weights (Within xi eta q)) (q_verts q))) = a + b * fst coord + c * snd coord)%R.
Proof.
  intros E C a b c. destruct (find_sound grid coord init _ E) as (_ & _ & _ & P). rewrite <- (P C). unfold q_pos, eval_basis, q_verts, weights.
  cbn [combine map fst snd nth]. rewrite !Rsum_cons, Rsum_nil. ring.
Qed.

(* ---- the strong part of the mortar conditions *)
Lemma mortar_strong_ok nd tol verts cells srt mn mx F M : wf_cells verts cells -> sorts srt -> wf_fixed F -> wf_mpcs 3 M ->
  exists grid cols F', fix_corners tol verts F mn mx = Ok F' /\ extract_master_face tol verts cells srt (2 ^ 2) (mn 2) false false = Ok (grid, cols) /\
    ((nd = true \/ forall n c, zget verts n = Some c -> (Rabs (mx 2%Z - pc c 2) < tol)%R -> bg_find grid (others 2 c) (0, 0)%R <> None) ->
     exists M', mortar_strong nd tol verts cells srt mn mx F M = Ok (F', M') /\ wf_mpcs 3 M' /\
       forall n d, 0 <= d < 3 -> get_mpc 3 M' n d = first_of (get_mpc 3 M n d)
         (if fx_flag F' n d then None else match found_on tol verts 2 (mx 2) grid n with Some loc => Some (tie d n loc) | None => None end)) /\
    (nd = false -> (exists n c, zget verts n = Some c /\ (Rabs (mx 2%Z - pc c 2) < tol)%R /\ bg_find grid (others 2 c) (0, 0)%R = None) ->
     mortar_strong nd tol verts cells srt mn mx F M = Throw).
Proof.
  intros W Hs WF I. destruct (fix_corners_ok tol verts F mn mx WF) as (F' & EF & _).
  destruct (master_face tol verts cells srt 2 (mn 2) false false ltac:(lia) W Hs) as (g & cols & _ & _ & _ & E & _).
  destruct (face_ok tol verts 2 (mx 2) ltac:(lia)) as (l & L & Il & Vl). exists g, cols, F'. split; [exact EF|]. split; [exact E|].
  assert (Eq : mortar_strong nd tol verts cells srt mn mx F M = let* M := periodic_plane nd F' l g M in Ok (F', M)).
  { unfold mortar_strong. rewrite EF. change (2 ^ 2) with 4 in E, L. cbn [bind]. rewrite L. cbn [bind]. rewrite E. reflexivity. }
  rewrite Eq. split.
  - intros H. destruct (plane_ties nd F' g l (increasing_nodup _ Il)) with (M := M) as (M' & EM & IM' & A); [|exact I|].
    + destruct H as [H|H]; [left; exact H|right]. intros v Hv. apply Vl in Hv. destruct Hv as (c & Ec & D & X). rewrite X. exact (H _ _ Ec D).
    + rewrite EM. exists M'. split; [reflexivity|]. split; [exact IM'|]. intros m e He. rewrite A by exact He. rewrite (slave_found tol verts 2 (mx 2) l g Il Vl m). reflexivity.
  - intros -> (n & c & Ec & D & Nf). rewrite (plane_missing F' g l M (mkVertex n (fst (others 2 c)) (snd (others 2 c)))); [reflexivity| |].
    + apply Vl. exists c. cbn [v_i v_x v_y]. split; [exact Ec|]. split; [exact D|]. symmetry. apply surjective_pairing.
    + cbn [v_x v_y]. rewrite <- surjective_pairing. exact Nf.
Qed.
