From Coq Require Import Lra.
From Verif Require Import BaseFacts RBaseFacts Steady_Proofs Impl_Proofs Impl_Proofs5 Shape_Proofs2 Mload_Proofs3 Ieul_Spec.
Open Scope Z_scope.

Lemma Forall2_points {A B} (R : A -> B -> Prop) : forall l l', zlen l = zlen l' ->
  (forall i a b, zget l i = Some a -> zget l' i = Some b -> R a b) -> Forall2 R l l'.
Proof.
  induction l as [|a l IH]; intros [|b l'] L H; try (unfold zlen in L; cbn in L; lia); constructor.
  - apply (H 0); reflexivity.
  - apply IH; [unfold zlen in *; cbn in L; lia|]. intros i x y Ex Ey. pose proof (zget_Some_range _ _ _ Ex). apply (H (i + 1)).
    + rewrite zget_nth in * by lia. replace (Z.to_nat (i + 1)) with (S (Z.to_nat i)) by lia. exact Ex.
    + rewrite zget_nth in * by lia. replace (Z.to_nat (i + 1)) with (S (Z.to_nat i)) by lia. exact Ey.
Qed.
Lemma Forall2_flat {A B C D} (R : C -> D -> Prop) (f : A -> list C) (h : B -> list D) l l' : Forall2 (fun a b => Forall2 R (f a) (h b)) l l' -> Forall2 R (flat_map f l) (flat_map h l').
Proof. induction 1; cbn [flat_map]; [constructor|]. apply Forall2_app; auto. Qed.

Lemma zget_snoc_cases {A} (l : list A) x k y : zget (l ++ [x]) k = Some y -> zget l k = Some y \/ (k = zlen l /\ y = x).
Proof.
  intros E. pose proof (zget_Some_range _ _ _ E) as Rg. rewrite zlen_app in Rg. change (zlen [x]) with 1 in Rg.
  destruct (Z_lt_dec k (zlen l)) as [H|H]; [left; rewrite zget_app_l in E by lia; exact E|]. right. assert (k = zlen l) as -> by lia.
  rewrite zget_app_r, Z.sub_diag in E by lia. cbn in E. split; congruence.
Qed.
Lemma zget_last {A} (l : list A) x : zget (l ++ [x]) (zlen l) = Some x.
Proof. rewrite zget_app_r, Z.sub_diag by lia. reflexivity. Qed.
Lemma zget_more {A} (l m : list A) k y : zget l k = Some y -> zget (l ++ m) k = Some y.
Proof. intros E. pose proof (zget_Some_range _ _ _ E). now rewrite zget_app_l by lia. Qed.

Section setup.
Context (g : tgrid) (cells : icells) (number : Z -> Z) (W : wf_grid g) (SG : same_grid g cells number).
Definition vrel (h : Z * (Z * Z)) (v : Z * iface) : Prop :=
  fst v = fst (snd h) /\ if_cell (snd v) = fst (snd h) /\ 0 <= if_index (snd v) < t_nf g /\ snd (snd h) = number (if_index (snd v)) /\
  if_bnd (snd v) = negb (interior g (number (if_index (snd v)))).
Lemma visits_halves : Forall2 vrel (halves g) (visits cells).
Proof.
  destruct SG as [L S]. pose proof W as (W0 & _). unfold halves, visits. apply Forall2_flat. apply Forall2_points.
  - rewrite zlen_zrange by lia. lia.
  - intros c c' [idx fs] E E'. pose proof (zget_Some_range _ _ _ E') as Rg. rewrite zget_zrange in E by lia. injection E as <-.
    destruct (S c idx fs E') as (-> & Lf & F). cbn [fst snd Z.add]. unfold hcell. pose proof (pos_range g W c ltac:(lia)) as Pr. apply Forall2_points.
    + rewrite !zlen_map, zlen_zrange by lia. lia.
    + intros k h v Eh Ev. rewrite zget_map in Eh. rewrite zget_map in Ev. pose proof (zget_in_range fs k) as Hk.
      destruct (zget fs k) as [f|] eqn:Ef; [|discriminate]. cbn [option_map] in Ev. injection Ev as <-. destruct (F k f Ef) as (C1 & C2 & C3 & C4).
      pose proof (zget_Some_range _ _ _ Ef). rewrite zget_zrange in Eh by lia. cbn [option_map] in Eh. injection Eh as <-. unfold vrel. cbn [fst snd]. auto.
Qed.
Lemma visits_len : zlen (visits cells) = zlen (t_cf g).
Proof.
  pose proof (Forall2_length' _ _ _ visits_halves) as E. pose proof (f_equal (@zlen Z) (halves_idx g W)) as H. rewrite zlen_map, zlen_zrange in H by apply zlen_nonneg. unfold zlen in *. lia.
Qed.
Lemma visit_at i v : zget (visits cells) i = Some v -> 0 <= fst v < t_nc g /\ half_of g (fst v) (nthZ (t_cf g) i) i /\ if_cell (snd v) = fst v /\
  0 <= if_index (snd v) < t_nf g /\ nthZ (t_cf g) i = number (if_index (snd v)) /\ if_bnd (snd v) = negb (interior g (nthZ (t_cf g) i)) /\ 0 <= nthZ (t_cf g) i < t_nf g /\ 0 <= i < zlen (t_cf g).
Proof.
  intros E. pose proof (zget_Some_range _ _ _ E) as Rg. rewrite visits_len in Rg.
  pose proof (f_equal (fun l => zget l i) (halves_idx g W)) as Hi. cbn beta in Hi. rewrite zget_map, zget_zrange in Hi by lia.
  destruct (zget (halves g) i) as [h|] eqn:Eh; [|discriminate]. cbn [option_map Z.add] in Hi. injection Hi as Hi.
  destruct (Forall2_zget _ _ _ visits_halves i h Eh) as (v' & Ev' & Rv). rewrite E in Ev'. injection Ev' as <-.
  destruct (halves_face g W h (zget_In _ _ _ Eh)) as (Hf & Hr & _ & Hc). destruct Rv as (A1 & A2 & A3 & A4 & A5).
  destruct h as (i' & c & f). cbn [fst snd] in *. subst i'. pose proof (zget_In _ _ _ Eh) as Hin. apply In_halves in Hin. destruct Hin as (_ & Hh). subst f.
  rewrite A1, A2. repeat split; try tauto; try lia; try apply Hh; congruence.
Qed.
Lemma cell_visit c f i : 0 <= c < t_nc g -> half_of g c f i -> exists v, zget (visits cells) i = Some v /\ fst v = c.
Proof.
  intros Hc Hh. pose proof (pos_range g W c Hc) as Pr. destruct Hh as (Hi & Hf).
  destruct (zget_in_range (visits cells) i ltac:(rewrite visits_len; lia)) as (v & E). exists v. split; [exact E|].
  destruct (visit_at i v E) as (Hv & (Hiv & _) & _). 
  pose proof W as (_ & _ & _ & _ & Mono & _).
  assert (M : forall a b, 0 <= a -> a <= b -> b <= t_nc g -> nthZ (t_pos g) a <= nthZ (t_pos g) b).
  { intros a b Ha Hab Hb. replace b with (a + Z.of_nat (Z.to_nat (b - a))) in * by lia. induction (Z.to_nat (b - a)) as [|n IH]; [rewrite Z.add_0_r; lia|].
    specialize (Mono (a + Z.of_nat n) ltac:(lia)). replace (a + Z.of_nat (S n)) with (a + Z.of_nat n + 1) in * by lia. specialize (IH ltac:(lia) ltac:(lia)). lia. }
  destruct (Z_lt_dec (fst v) c) as [H|H]; [specialize (M (fst v + 1) c ltac:(lia) ltac:(lia) ltac:(lia)); lia|].
  destruct (Z_lt_dec c (fst v)) as [H'|H']; [specialize (M (c + 1) (fst v) ltac:(lia) ltac:(lia) ltac:(lia)); lia|]. lia.
Qed.

(* bid_to_face *)
Lemma maxbid_ge : forall v, In v (visits cells) -> if_bid (snd v) <= ie_maxbid cells.
Proof.
  unfold ie_maxbid. generalize 0. induction (visits cells) as [|a l IH]; intros m v H; [destruct H|]. cbn [fold_left]. destruct H as [->|H]; [|apply IH; auto].
  clear IH. assert (G : forall (l : list (Z * iface)) m, m <= fold_left (fun m v => Z.max m (if_bid (snd v))) l m).
  { clear. induction l as [|a l IH]; intros m; cbn [fold_left]; [lia|]. specialize (IH (Z.max m (if_bid (snd a)))). lia. }
  specialize (G l (Z.max m (if_bid (snd v)))). lia.
Qed.
Lemma maxbid_nonneg : 0 <= ie_maxbid cells.
Proof.
  unfold ie_maxbid. assert (G : forall (l : list (Z * iface)) m, m <= fold_left (fun m v => Z.max m (if_bid (snd v))) l m).
  { induction l as [|a l IH]; intros m; cbn [fold_left]; [lia|]. specialize (IH (Z.max m (if_bid (snd a)))). lia. }
  apply G.
Qed.
Lemma bids_ok b : paired b cells -> exists t, bid_to_face b cells = Ok t /\ zlen t = ie_maxbid cells + 1 /\
  forall i f, is_periodic b cells i = true -> face_at cells i = Some f -> zget t (if_bid f) = Some (Some f).
Proof.
  intros (Pn & Pu & _). unfold bid_to_face. pose proof maxbid_nonneg as M0.
  destruct (foldM_split_inv (fun t v => if on_periodic b (snd v) then rset t (if_bid (snd v)) (Some (snd v)) else Ok t)
    (fun done t => zlen t = ie_maxbid cells + 1 /\ forall i v, zget done i = Some v -> on_periodic b (snd v) = true -> zget t (if_bid (snd v)) = Some (Some (snd v)))
    (visits cells) (zrepeat None (ie_maxbid cells + 1))) as (t & E & L & H).
  - split; [now rewrite zlen_zrepeat by lia|]. intros i v Ei. apply zget_In in Ei. destruct Ei.
  - intros done v rest t Hv (L & H). destruct (on_periodic b (snd v)) eqn:Ep.
    + assert (Iv : zget (visits cells) (zlen done) = Some v) by (rewrite Hv, zget_app_r, Z.sub_diag by lia; reflexivity).
      assert (Pv : is_periodic b cells (zlen done) = true) by (unfold is_periodic, face_at; rewrite Iv; exact Ep).
      assert (Bv : bid_at cells (zlen done) = if_bid (snd v)) by (unfold bid_at, face_at; rewrite Iv; reflexivity).
      pose proof (Pn _ Pv) as Nn. rewrite Bv in Nn. pose proof (maxbid_ge v ltac:(eapply zget_In; eauto)).
      destruct (rset_exists t (if_bid (snd v)) (Some (snd v)) ltac:(lia)) as (t' & E & L' & G & O). exists t'. split; [exact E|]. split; [lia|].
      intros i w Ew Pw. apply zget_snoc_cases in Ew. destruct Ew as [Ew|[-> ->]]; [|exact G].
      destruct (Z.eq_dec (if_bid (snd w)) (if_bid (snd v))) as [Eq|Ne]; [|rewrite O by auto; eauto].
      assert (Iw : zget (visits cells) i = Some w) by (rewrite Hv; apply zget_more; exact Ew).
      exfalso. pose proof (zget_Some_range _ _ _ Ew). assert (i = zlen done); [|lia]. apply Pu; auto.
      * unfold is_periodic, face_at. rewrite Iw. exact Pw.
      * rewrite Bv. unfold bid_at, face_at. rewrite Iw. exact Eq.
    + exists t. split; [reflexivity|]. split; [exact L|]. intros i w Ew Pw. apply zget_snoc_cases in Ew. destruct Ew as [Ew|[-> ->]]; [eauto|congruence].
  - exists t. split; [exact E|]. split; [exact L|]. intros i f Hp Hf. unfold is_periodic, face_at in *. destruct (zget (visits cells) i) as [v|] eqn:Ev; [|discriminate].
    cbn [option_map] in Hf, Hp. injection Hf as <-. eauto.
Qed.

(* egf_cf *)
Lemma face_map_ok : exists t, face_map g cells = Ok t /\ zlen t = t_nf g /\ forall i f, face_at cells i = Some f -> zget t (if_index f) = Some (nthZ (t_cf g) i).
Proof.
  pose proof SG as [L S]. pose proof W as (W0 & W1 & _). unfold face_map.
  set (Q := fun (l : list iface) (t : list Z) => zlen t = t_nf g /\ forall f, In f l -> zget t (if_index f) = Some (number (if_index f))).
  destruct (foldM_inv (fun t ic => foldM (fun t lf => let* p := rget (t_pos g) (fst ic) in let* cf := rget (t_cf g) (p + fst lf) in rset t (if_index (snd lf)) cf) (combine (zrange 0 (zlen (snd ic))) (snd ic)) t)
    (fun done t => Q (flat_map snd done) t) (combine (zrange 0 (zlen cells)) (map snd cells)) (zrepeat 0 (t_nf g))) as (t & E & Lt & H).
  - split; [now rewrite zlen_zrepeat by lia|]. intros f [].
  - intros done [c fs] t Hin (Lt & Ht). apply In_zget in Hin. destruct Hin as (k & Hk & Ek). apply zget_combine_inv in Ek. destruct Ek as [Ek Ef].
    rewrite zget_map in Ef. destruct (zget cells k) as [[idx fs']|] eqn:Ec; [|discriminate]. cbn [option_map snd] in Ef. injection Ef as ->.
    pose proof (zget_Some_range _ _ _ Ec). rewrite zget_zrange in Ek by lia. injection Ek as <-. cbn [Z.add] in *. destruct (S k idx fs Ec) as (_ & Lf & F).
    cbn [fst snd]. pose proof (pos_range g W k ltac:(lia)) as Pr.
    destruct (foldM_inv (fun t lf => let* p := rget (t_pos g) k in let* cf := rget (t_cf g) (p + fst lf) in rset t (if_index (snd lf)) cf)
      (fun d t => Q (flat_map snd done ++ map snd d) t) (combine (zrange 0 (zlen fs)) fs) t) as (t' & E' & Q').
    + cbn [map]. rewrite app_nil_r. split; auto.
    + intros d [l f] t1 Hin (L1 & H1). apply In_zget in Hin. destruct Hin as (q & Hq & Eq). apply zget_combine_inv in Eq. destruct Eq as [Eq Ef].
      pose proof (zget_Some_range _ _ _ Ef). rewrite zget_zrange in Eq by lia. injection Eq as <-. cbn [Z.add fst snd]. destruct (F q f Ef) as (_ & Fi & Fn & _).
      rewrite (nthZ_get (t_pos g)) by (destruct W as (_ & _ & -> & _); lia). cbn [bind]. rewrite (nthZ_get (t_cf g)) by lia. cbn [bind].
      destruct (rset_exists t1 (if_index f) (nthZ (t_cf g) (nthZ (t_pos g) k + q)) ltac:(lia)) as (t2 & E2 & L2 & G2 & O2). exists t2. split; [exact E2|]. split; [lia|].
      intros f' Hf'. rewrite map_app, app_assoc in Hf'. cbn [map snd] in Hf'. destruct (Z.eq_dec (if_index f') (if_index f)) as [Ei|Ni]; [rewrite Ei, G2, Fn; reflexivity|].
      rewrite O2 by auto. apply H1. apply in_app_or in Hf'. destruct Hf' as [Hf'|[<-|[]]]; [exact Hf'|congruence].
    + exists t'. split; [exact E'|]. rewrite flat_map_app. cbn [flat_map snd]. rewrite app_nil_r.
      assert (Ms : map snd (combine (zrange 0 (zlen fs)) fs) = fs).
      { pose proof (zlen_zrange 0 (zlen fs) (zlen_nonneg fs)) as Lz. apply Mload_Proofs3.combine_snd. unfold zlen in Lz |- *. lia. }
      rewrite Ms in Q'. exact Q'.
  - exists t. split; [exact E|]. split; [exact Lt|]. intros i f Hf. unfold face_at in Hf. destruct (zget (visits cells) i) as [v|] eqn:Ev; [|discriminate]. cbn [option_map] in Hf. injection Hf as <-.
    destruct (visit_at i v Ev) as (_ & _ & _ & _ & -> & _). apply H.
    apply zget_In in Ev. unfold visits in Ev. apply in_flat_map in Ev. destruct Ev as ([idx fs] & Hc & Hv). apply in_map_iff in Hv. destruct Hv as (f & <- & Hf). cbn [snd] in *.
    apply In_zget in Hc. destruct Hc as (c & Hcr & Ec). apply in_flat_map. exists (c, fs). split; [|exact Hf]. eapply zget_In. apply zget_combine with (i := c).
    + rewrite zget_zrange by lia. reflexivity.
    + rewrite zget_map, Ec. reflexivity.
Qed.
End setup.
