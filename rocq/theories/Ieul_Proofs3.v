From Coq Require Import Lra.
From Verif Require Import BaseFacts RBaseFacts Steady_Proofs Euler_Proofs2 Impl_Proofs Impl_Proofs3 Impl_Proofs5 Shape_Proofs2 Ieul_Proofs Ieul_Proofs2 Ieul_Spec.
Open Scope Z_scope.

Lemma slot_eq g i c f : slot g (i, (c, f)) = 2 * f + own_slot g c f.
Proof. unfold slot, own_slot. cbn [fst snd]. destruct (_ =? _); lia. Qed.
Lemma half_in_faces g c f i : half_of g c f i -> In f (faces g c).
Proof. intros (Hi & Hf). unfold faces. apply in_map_iff. exists i. split; [exact Hf|]. now apply In_zrange. Qed.
Lemma half_unique g i c f c' : wf_grid g -> simple_grid g -> interior g f = false -> forall i', 0 <= c < t_nc g -> 0 <= c' < t_nc g -> half_of g c f i -> half_of g c' f i' -> i = i' /\ c = c'.
Proof.
  intros W ND Hb i' Hc Hc' H H'. pose proof W as (_ & _ & _ & _ & _ & _ & _ & _ & _ & Wc).
  pose proof (Wc c f Hc (half_in_faces _ _ _ _ H)) as A. pose proof (Wc c' f Hc' (half_in_faces _ _ _ _ H')) as A'.
  assert (c = c') as <-. { unfold interior in Hb. apply andb_false_iff in Hb. destruct Hb as [Hb|Hb]; apply Z.leb_gt in Hb; lia. }
  split; [|reflexivity]. assert (E : (i, (c, f)) = (i', (c, f))) by (apply (slots_inj g W ND); [now apply In_halves|now apply In_halves|now rewrite !slot_eq]). congruence.
Qed.

(* fluxes *)
Lemma faceflux_ok g out : wf_grid g -> simple_grid g -> zlen out = zlen (t_cf g) -> t_nf g <= zlen (t_cf g) -> opposite_fluxes g out ->
  exists ff, ie_faceflux g out = Ok ff /\ (forall c f i, 0 <= c < t_nc g -> half_of g c f i -> (outward g c f * nthR ff f = nthR out i)%R) /\
    forall c, 0 <= c < t_nc g -> Rsum (map (fun f => outward g c f * nthR ff f)%R (faces g c)) = Rsum (map (nthR out) (cell_halves g c)).
Proof.
  intros W ND Lo Ln Op. pose proof W as (W0 & W1 & Lp & _ & _ & Pn & _ & Lf & _). unfold ie_faceflux. rewrite (nthZ_get (t_pos g)) by lia. cbn [bind]. rewrite Pn, (half_faces_ok g W). cbn [bind].
  assert (H : exists ff, foldM (fun ff h => let f := snd (snd h) in let* o := rget out (fst h) in let* n0 := rget (t_fc g) (2 * f) in
      let sgn := (2 * (if Z.eqb n0 (fst (snd h)) then 1 else 0) - 1)%R in rset ff f (sgn * o)%R) (halves g) (zrepeat 0%R (zlen (t_cf g))) = Ok ff /\
    zlen ff = zlen (t_cf g) /\ forall h, In h (halves g) -> nthR ff (snd (snd h)) = (outward g (fst (snd h)) (snd (snd h)) * nthR out (fst h))%R).
  { apply (foldM_split_inv _ (fun done ff => zlen ff = zlen (t_cf g) /\ forall h, In h done -> nthR ff (snd (snd h)) = (outward g (fst (snd h)) (snd (snd h)) * nthR out (fst h))%R)).
    - split; [rewrite zlen_zrepeat; [reflexivity|apply zlen_nonneg]|]. intros h [].
    - intros done h rest ff Hl (L & Hd). assert (Hh : In h (halves g)) by (rewrite Hl; apply in_or_app; right; left; auto).
      destruct (halves_face g W h Hh) as (Ef & Rf & Ri & Rc). cbv zeta. rewrite (rget_at out) by lia. cbn [bind]. rewrite (nthZ_get (t_fc g)) by lia. cbn [bind]. fold (first_cell g (snd (snd h))).
      assert (Sg : (2 * (if first_cell g (snd (snd h)) =? fst (snd h) then 1 else 0) - 1)%R = outward g (fst (snd h)) (snd (snd h))) by (unfold outward; destruct (_ =? _); lra). rewrite Sg.
      destruct (rset_exists ff (snd (snd h)) (outward g (fst (snd h)) (snd (snd h)) * nthR out (fst h))%R ltac:(lia)) as (ff' & E & _). exists ff'. split; [exact E|].
      destruct (rset_nthR _ _ _ _ E) as (L' & _ & N' & _). split; [lia|]. intros h' Hin. rewrite N'. destruct (Z.eqb_spec (snd (snd h')) (snd (snd h))) as [Eq|Ne].
      2:{ apply in_app_or in Hin. destruct Hin as [Hin|[<-|[]]]; [auto|congruence]. }
      assert (Hh' : In h' (halves g)) by (apply in_app_or in Hin; destruct Hin as [Hin|[<-|[]]]; [rewrite Hl; apply in_or_app; left; auto|exact Hh]).
      destruct (halves_face g W h' Hh') as (Ef' & Rf' & Ri' & Rc').
      destruct h as (i & c & f), h' as (i' & c' & f'). cbn [fst snd] in *. assert (f' = f) as -> by exact Eq. unfold outward.
      destruct (Bool.bool_dec (first_cell g f =? c) (first_cell g f =? c')) as [Es|Ns].
      + assert (Eh : (i, (c, f)) = (i', (c', f))) by (apply (slots_inj g W ND); auto; rewrite !slot_eq; unfold own_slot; now rewrite Es). injection Eh as <- <-. reflexivity.
      + assert (i <> i'). { intros <-. apply Ns. apply In_halves in Hh, Hh'. destruct Hh as (Hc & Hhc), Hh' as (Hc' & Hhc').
          assert (Ew : forall c c', 0 <= c < t_nc g -> 0 <= c' < t_nc g -> half_of g c f i -> half_of g c' f i -> c <= c').
          { intros a a' Ha Ha' (Q & _) (Q' & _). destruct (Z_le_dec a a') as [|Gt]; [lia|exfalso].
            pose proof W as (_ & _ & _ & _ & Mono & _). assert (M : forall n, a' + 1 + Z.of_nat n <= t_nc g -> nthZ (t_pos g) (a' + 1) <= nthZ (t_pos g) (a' + 1 + Z.of_nat n)).
            { induction n as [|n IH]; intros Hn; [rewrite Z.add_0_r; lia|]. specialize (Mono (a' + 1 + Z.of_nat n) ltac:(lia)). replace (a' + 1 + Z.of_nat (S n)) with (a' + 1 + Z.of_nat n + 1) by lia. specialize (IH ltac:(lia)). lia. }
            specialize (M (Z.to_nat (a - a' - 1)) ltac:(lia)). replace (a' + 1 + Z.of_nat (Z.to_nat (a - a' - 1))) with a in M by lia. lia. }
          pose proof (Ew c c' Hc Hc' Hhc Hhc'). pose proof (Ew c' c Hc' Hc Hhc' Hhc). assert (c = c') as -> by lia. reflexivity. }
        pose proof (Op i i' Ri Ri' ltac:(auto) ltac:(congruence)) as O. destruct (first_cell g f =? c), (first_cell g f =? c'); try (exfalso; now apply Ns); lra. }
  destruct H as (ff & E & L & H). exists ff. split; [exact E|].
  assert (Hv : forall c f i, 0 <= c < t_nc g -> half_of g c f i -> (outward g c f * nthR ff f = nthR out i)%R).
  { intros c f i Hc Hi. specialize (H (i, (c, f)) ltac:(apply In_halves; auto)). cbn [fst snd] in H. rewrite H. unfold outward. destruct (_ =? _); ring. }
  split; [exact Hv|]. intros c Hc. unfold faces, cell_halves. rewrite map_map. apply Rsum_map_ext. intros i Hi. apply In_zrange in Hi. apply Hv; [exact Hc|]. split; auto.
Qed.

(* the grid after gluing *)
Section glue.
Context (g : tgrid) (cells : icells) (number : Z -> Z) (b : ibc) (g' : tgrid) (W : wf_grid g) (SG : same_grid g cells number) (Pd : paired b cells) (GL : glued g b cells g').
Lemma glued_faces c : faces g' c = faces g c.
Proof. destruct GL as (_ & _ & E1 & E2 & _). unfold faces. now rewrite E1, E2. Qed.
Lemma glued_half c f i : half_of g' c f i <-> half_of g c f i.
Proof. destruct GL as (_ & _ & E1 & E2 & _). unfold half_of. now rewrite E1, E2. Qed.
Lemma periodic_visit i : is_periodic b cells i = true -> exists v, zget (visits cells) i = Some v /\ if_bnd (snd v) = true /\ cell_at cells i = fst v /\ 0 <= fst v < t_nc g /\
  half_of g (fst v) (nthZ (t_cf g) i) i /\ interior g (nthZ (t_cf g) i) = false /\ 0 <= nthZ (t_cf g) i < t_nf g.
Proof.
  intros Hp. unfold is_periodic, face_at in Hp. destruct (zget (visits cells) i) as [v|] eqn:Ev; [|discriminate]. cbn in Hp. apply andb_prop in Hp. destruct Hp as [Hb _].
  destruct (visit_at g cells number W SG i v Ev) as (Hc & Hh & _ & _ & _ & Hi & Hf & _). exists v. rewrite Hb in Hi. symmetry in Hi. apply negb_true_iff in Hi. unfold cell_at. rewrite Ev. auto 8.
Qed.
Lemma periodic_dec f : (exists i, is_periodic b cells i = true /\ nthZ (t_cf g) i = f) \/ (forall i, is_periodic b cells i = true -> nthZ (t_cf g) i <> f).
Proof.
  destruct (in_dec Z.eq_dec f (map (nthZ (t_cf g)) (the_halves cells (is_periodic b cells)))) as [H|H].
  - left. apply in_map_iff in H. destruct H as (i & E & H). apply filter_In in H. exists i. tauto.
  - right. intros i Hp E. apply H. apply in_map_iff. exists i. split; [exact E|]. apply filter_In. split; [|exact Hp]. apply In_zrange. destruct (periodic_visit i Hp) as (v & Ev & _). eapply zget_Some_range; eauto.
Qed.
Lemma glued_cells i j : is_periodic b cells i = true -> partner_half b cells i j -> let f := nthZ (t_cf g) i in
  0 <= cell_at cells i < t_nc g /\ 0 <= cell_at cells j < t_nc g /\
  (first_cell g' f = cell_at cells i /\ second_cell g' f = cell_at cells j \/ first_cell g' f = cell_at cells j /\ second_cell g' f = cell_at cells i).
Proof.
  intros Hp Hj f. destruct (periodic_visit i Hp) as (v & _ & _ & Ev & Hv & _). destruct (periodic_visit j (proj1 Hj)) as (w & _ & _ & Ew & Hw & _).
  rewrite <- Ev in Hv. rewrite <- Ew in Hw.
  split; [exact Hv|]. split; [exact Hw|]. destruct GL as (_ & _ & _ & _ & _ & G & _). destruct (G i j Hp Hj) as [G1 G2]. fold f in G1, G2.
  destruct (Z.eq_dec (first_cell g f) (cell_at cells i)) as [E|N]; [left; apply G1 in E|right; apply G2 in N]; auto.
Qed.
Lemma glued_wf : wf_grid g'.
Proof.
  pose proof W as (W0 & W1 & W2 & W3 & W4 & W5 & W6 & W7 & W8 & W9). destruct GL as (E1 & E2 & E3 & E4 & E5 & G & O). unfold wf_grid. rewrite E1, E2, E3, E4, E5.
  repeat (split; [assumption|]). split.
  - intros f Hf. destruct (periodic_dec f) as [(i & Hp & <-)|Hn].
    + destruct Pd as (_ & _ & Px & _). destruct (Px i Hp) as (j & Hj). destruct (glued_cells i j Hp Hj) as (A & B & [[-> ->]|[-> ->]]); lia.
    + destruct (O f Hf Hn) as [-> ->]. auto.
  - intros c f Hc. rewrite glued_faces. intros Hf. destruct (periodic_dec f) as [(i & Hp & Ef)|Hn].
    + pose proof Pd as (_ & _ & Px & _). destruct (Px i Hp) as (j & Hj).
      destruct (periodic_visit i Hp) as (v & _ & _ & Ec & Hv & Hh & Hb & Hr). rewrite Ef in *.
      pose proof (W9 c f Hc Hf) as S1. pose proof (W9 (fst v) f Hv (half_in_faces _ _ _ _ Hh)) as S2.
      assert (c = fst v) as ->. { unfold interior in Hb. apply andb_false_iff in Hb. destruct Hb as [Hb|Hb]; apply Z.leb_gt in Hb; lia. }
      pose proof (glued_cells i j Hp Hj) as (_ & _ & D). rewrite Ef, Ec in D. destruct D as [[-> _]|[_ ->]]; auto.
    + assert (Hr : 0 <= f < t_nf g). { apply W6. unfold faces in Hf. apply in_map_iff in Hf. destruct Hf as (k & <- & Hk). apply In_zrange in Hk. pose proof (pos_range g W c Hc). destruct (zget_in_range (t_cf g) k ltac:(lia)) as (x & Ex). unfold nthZ. rewrite Ex. eapply zget_In; eauto. }
      destruct (O f Hr Hn) as [-> ->]. auto.
Qed.
Lemma glued_interior (ND : simple_grid g) i v : zget (visits cells) i = Some v -> interior g' (nthZ (t_cf g) i) = negb (if_bnd (snd v)) || is_periodic b cells i.
Proof.
  intros Ev. destruct (visit_at g cells number W SG i v Ev) as (Hc & Hh & _ & _ & _ & Hi & Hf & _). pose proof Pd as (_ & _ & Px & _). pose proof GL as (_ & _ & _ & _ & _ & _ & O).
  destruct (is_periodic b cells i) eqn:Hp.
  - rewrite orb_true_r. destruct (Px i Hp) as (j & Hj). unfold interior. destruct (glued_cells i j Hp Hj) as (A & B & [[-> ->]|[-> ->]]); apply andb_true_intro; split; apply Z.leb_le; lia.
  - rewrite orb_false_r, Hi, negb_involutive. destruct (periodic_dec (nthZ (t_cf g) i)) as [(k & Hk & Ek)|Hn].
    + exfalso. destruct (periodic_visit k Hk) as (w & _ & _ & _ & Hw & Hhw & Hb & _). rewrite Ek in Hhw, Hb.
      destruct (half_unique g i (fst v) _ (fst w) W ND Hb k Hc Hw Hh Hhw) as [-> _]. congruence.
    + unfold interior. destruct (O _ Hf Hn) as [-> ->]. reflexivity.
Qed.
End glue.
