From Coq Require Import Lra Ranalysis1 Permutation.
From Verif Require Import BaseFacts RBaseFacts Steady_Proofs Euler_Proofs2 Euler_Spec Impl_Model Impl_Spec Impl_Proofs Impl_Proofs2 Impl_Proofs3.
Open Scope Z_scope.

Lemma jacobian_ok g l0 l1 pc d0 d1 dpc pv trans gflux dflux sold s dt src s0 sys c j :
  let u := store_of l0 l1 pc d0 d1 dpc pv trans gflux dflux sold s in
  wf_grid g -> (forall q, In q src -> 0 <= q_cell q < t_nc g) ->
  (forall i, 0 <= i < t_nc g -> derivable_pt_lim (l0 i) (s i) (d0 i (s i)) /\ derivable_pt_lim (l1 i) (s i) (d1 i (s i)) /\ derivable_pt_lim (pc i) (s i) (dpc i (s i))) ->
  (forall f, In f (conns g c) -> total_mobility g u (chosen g u) f <> 0%R) ->
  (forall q, In q src -> (u_m0 u (q_cell q) + u_m1 u (q_cell q) <> 0)%R) ->
  create_system g = Ok s0 -> assemble g u dt src s0 = Ok sys -> 0 <= c < t_nc g ->
  derivable_pt_lim (fun t => balance g (store_of l0 l1 pc d0 d1 dpc pv trans gflux dflux sold (change s j t)) (chosen g u) dt src c) (s j) (entry (y_mat sys) c j).
Proof.
  intros u W Hq HD HM HS E A Hc.
  destruct (assemble_ok g u dt src s0 W E Hq) as (s2 & A2 & _ & _ & EN & _). rewrite A in A2. injection A2 as <-. rewrite EN by auto. clear EN.
  set (ut := fun t => store_of l0 l1 pc d0 d1 dpc pv trans gflux dflux sold (change s j t)).
  (* accumulation *)
  assert (D1 : derivable_pt_lim (fun t => pv c * (change s j t c - sold c))%R (s j) (pv c * ((if c =? j then 1 else 0) - 0))%R).
  { apply (derivable_pt_lim_scal (fun t => change s j t c - sold c)%R). apply (derivable_pt_lim_minus (fun t => change s j t c) (fct_cte (sold c))).
    - apply (D_change s j (fun t => t)). apply derivable_pt_lim_id.
    - apply derivable_pt_lim_const. }
  (* faces *)
  pose proof (D_sum (fun f t => dt * (outward g c f * face_flux g (ut t) (chosen g u) f))%R
    (fun f => (if j =? c then cJ1 g u dt c f else 0) + (if j =? across g c f then cJ2 g u dt c f else 0))%R (s j) (conns g c)
    (fun f Hf => D_face g W l0 l1 pc d0 d1 dpc pv trans gflux dflux sold s dt j HD c f Hc Hf (HM f Hf))) as D2.
  (* sources *)
  assert (D3 : derivable_pt_lim (fun t => Rsum (map (fun q => dt * source_out (ut t) q)%R (filter (fun q => Z.eqb (q_cell q) c) src))) (s j)
     (Rsum (map (fun q => if j =? c then fst (source_terms u dt q) else 0%R) (filter (fun q => Z.eqb (q_cell q) c) src)))).
  { apply (D_sum (fun q t => dt * source_out (ut t) q)%R (fun q => if j =? c then fst (source_terms u dt q) else 0%R)).
    intros q Hin. apply filter_In in Hin. destruct Hin as (Hin & Eq). apply Z.eqb_eq in Eq.
    unfold source_out, source_terms. destruct (Rltb_spec (- q_flux q) 0), (Rltb_spec 0 (q_flux q)); cbn [fst]; try lra.
    - replace (if j =? c then 0%R else 0%R) with 0%R by now destruct (j =? c). apply derivable_pt_lim_const.
    - destruct (HD c Hc) as (DA & DB & _). apply (D_change s j) in DA. apply (D_change s j) in DB.
      assert (N : (l0 c (change s j (s j) c) + l1 c (change s j (s j) c) <> 0)%R) by (rewrite change_same; rewrite <- Eq; apply (HS q Hin)).
      pose proof (D_frac _ _ _ _ _ DA DB N) as D. apply (derivable_pt_lim_scal _ (- q_flux q)) in D. apply (derivable_pt_lim_scal _ dt) in D.
      rewrite Eq. match type of D with derivable_pt_lim _ _ ?l => replace (if j =? c then _ else _) with l; [exact D|] end.
      rewrite change_same in *. cbn [u u_m0 u_m1 u_d0 u_d1 store_of]. rewrite (Z.eqb_sym c j). destruct (j =? c); field; auto. }
  pose proof (derivable_pt_lim_plus _ _ _ _ _ (derivable_pt_lim_plus _ _ _ _ _ D1 D2) D3) as D.
  eapply derivable_pt_lim_ext with (f := _) in D.
  - match type of D with derivable_pt_lim _ _ ?l => replace (_ + _)%R with l; [exact D|] end. clear D D1 D2 D3.
    unfold cell_entry. rewrite Rsum_map_plus.
    replace (Rsum (map (fun q => if (c =? q_cell q) && (j =? q_cell q) then fst (source_terms u dt q) else 0%R) src))
      with (Rsum (map (fun q => if j =? c then fst (source_terms u dt q) else 0%R) (filter (fun q => q_cell q =? c) src))).
    2:{ rewrite <- Rsum_if. apply Rsum_map_ext. intros q _. rewrite (Z.eqb_sym c (q_cell q)). destruct (Z.eqb_spec (q_cell q) c) as [->|]; auto. }
    change (u_pv u c) with (pv c). rewrite (Z.eqb_sym c j). destruct (j =? c).
    + change (fun x : Z => cJ1 g u dt c x) with (cJ1 g u dt c). ring.
    + rewrite (Rsum_map_zero (fun _ : Z => 0%R)) by auto. ring.
  - intros z. unfold plus_fct, balance. fold (ut z). change (u_pv (ut z) c) with (pv c). change (u_ds (ut z) c) with (change s j z c - sold c)%R.
    rewrite (Rsum_map_scale (fun f => outward g c f * face_flux g (ut z) (chosen g u) f)%R). rewrite (Rsum_map_scale (source_out (ut z))). reflexivity.
Qed.

(* ---- C60 *)
Lemma upwind_ok u dflux gflux n : (forall c, 0 <= u_m0 u c)%R -> (forall c, 0 <= u_m1 u c)%R ->
  let p := upwind u dflux gflux n in
  (fst p = 0 \/ fst p = 1) /\ (snd p = 0 \/ snd p = 1) /\
  agrees (fst p) (dflux + u_m1 u (if snd p =? 0 then fst n else snd n) * gflux) /\
  agrees (snd p) (dflux - u_m0 u (if fst p =? 0 then fst n else snd n) * gflux).
Proof.
  intros H0 H1 p. subst p. unfold upwind, agrees, pick.
  pose proof (H0 (fst n)). pose proof (H0 (snd n)). pose proof (H1 (fst n)). pose proof (H1 (snd n)).
  destruct (Rltb_spec dflux 0), (Rltb_spec gflux 0), (Rltb_spec 0 dflux), (Rltb_spec 0 gflux); cbn [negb andb orb]; try lra;
  cbn [Z.eqb Pos.eqb fst snd];
  repeat (match goal with |- context [Rltb ?a ?b] => destruct (Rltb_spec a b) end; cbn [negb fst snd Z.eqb Pos.eqb]);
  repeat split; try lia; (left; split; [reflexivity|nra]) || (right; split; [reflexivity|nra]).
Qed.

(* ---- C61 *)
Lemma clamp_range a b x : (a <= b)%R -> (a <= smin b (smax a x) <= b)%R.
Proof. intros H. rewrite smin_Rmin, smax_Rmax. unfold Rmin, Rmax. destruct (Rle_dec a x), (Rle_dec b _); lra. Qed.
Lemma clamp_id a b x : (a <= x <= b)%R -> smin b (smax a x) = x.
Proof. intros H. rewrite smin_Rmin, smax_Rmax. unfold Rmin, Rmax. destruct (Rle_dec a x), (Rle_dec b _); lra. Qed.

Lemma finish_fold fl : forall x sat k, 0 <= k -> zlen sat = 2 * (k + zlen x) ->
  exists s', foldM (fun s cx =>
      let c := fst cx in
      let* s0 := rget s (2 * c) in
      let v := smin (l_max fl c) (smax (l_min fl c) (s0 + snd cx)%R) in
      let* s := rset s (2 * c) v in
      rset s (2 * c + 1) (1 - v)%R) (combine (zrange k (k + zlen x)) x) sat = Ok s' /\ zlen s' = zlen sat /\
    (forall i, i < 2 * k -> nthR s' i = nthR sat i) /\
    (forall c, 0 <= c < zlen x -> nthR s' (2 * (k + c)) = smin (l_max fl (k + c)) (smax (l_min fl (k + c)) (nthR sat (2 * (k + c)) + nthR x c)) /\
       nthR s' (2 * (k + c) + 1) = (1 - nthR s' (2 * (k + c)))%R).
Proof.
  induction x as [|y x IH]; intros sat k Hk Hl.
  - exists sat. change (zlen (@nil R)) with 0 in *. rewrite Z.add_0_r, zrange_empty by lia. cbn [combine foldM]. split; auto. split; auto. split; auto. intros; lia.
  - rewrite zlen_cons in *. pose proof (zlen_nonneg x). rewrite zrange_cons by lia. cbn [combine foldM fst snd].
    destruct (rget_range sat (2 * k) ltac:(lia)) as (z & Ez & Gz). rewrite Ez. cbn [bind].
    set (v := smin (l_max fl k) (smax (l_min fl k) (z + y))).
    destruct (rset_exists sat (2 * k) v ltac:(lia)) as (s1 & E1 & _). rewrite E1. cbn [bind]. destruct (rset_nthR _ _ _ _ E1) as (L1 & _ & N1 & _).
    destruct (rset_exists s1 (2 * k + 1) (1 - v)%R ltac:(lia)) as (s2 & E2 & _). rewrite E2. cbn [bind]. destruct (rset_nthR _ _ _ _ E2) as (L2 & _ & N2 & _).
    destruct (IH s2 (k + 1)) as (s3 & E3 & L3 & O3 & N3); [lia|lia|]. replace (k + 1 + zlen x) with (k + (1 + zlen x)) in E3 by lia. cbn zeta in E3. rewrite E3.
    exists s3. split; auto. split; [lia|]. split.
    + intros i Hi. rewrite O3 by lia. rewrite N2, N1. destruct (Z.eqb_spec i (2 * k + 1)), (Z.eqb_spec i (2 * k)); lia || auto.
    + intros c Hc. destruct (Z.eq_dec c 0) as [->|Nc].
      * rewrite Z.add_0_r. rewrite !O3 by lia. rewrite !N2, !N1, Z.eqb_refl. destruct (Z.eqb_spec (2 * k) (2 * k + 1)); [lia|]. rewrite !Z.eqb_refl.
        apply nthR_get in Gz. rewrite Gz. split; reflexivity.
      * destruct (N3 (c - 1) ltac:(lia)) as (A & B). replace (k + 1 + (c - 1)) with (k + c) in * by lia. rewrite A in *. split; [|rewrite B; auto].
        rewrite N2, N1. destruct (Z.eqb_spec (2 * (k + c)) (2 * k + 1)), (Z.eqb_spec (2 * (k + c)) (2 * k)); try lia.
        replace (nthR (y :: x) c) with (nthR x (c - 1)); auto. unfold nthR. rewrite !zget_nth by lia. replace (Z.to_nat c) with (S (Z.to_nat (c - 1))) by lia. reflexivity.
Qed.
Lemma finish_ok fl x sat : zlen sat = 2 * zlen x ->
  exists s', finish_step fl x sat = Ok s' /\ zlen s' = zlen sat /\
    forall c, 0 <= c < zlen x ->
      nthR s' (2 * c) = Rmin (l_max fl c) (Rmax (l_min fl c) (nthR sat (2 * c) + nthR x c)) /\
      (nthR s' (2 * c) + nthR s' (2 * c + 1) = 1)%R /\
      ((l_min fl c <= l_max fl c)%R -> (l_min fl c <= nthR s' (2 * c) <= l_max fl c)%R).
Proof.
  intros H. destruct (finish_fold fl x sat 0 ltac:(lia) H) as (s' & E & L & _ & N). exists s'. split; [exact E|]. split; auto.
  intros c Hc. destruct (N c Hc) as (A & B). cbn [Z.add] in A, B. rewrite B, A. split; [now rewrite smin_Rmin, smax_Rmax|]. split; [ring|]. apply clamp_range.
Qed.

Lemma init_fold fl sat : forall x k acc ok, 0 <= k -> zlen sat = 2 * (k + zlen x) -> zlen acc = k ->
  exists vs ok', foldM (fun st cx =>
      let* s := rget sat (fst cx * 2) in
      let '(v, ok) := init_cell fl (fst cx) s (snd cx) in
      Ok (fst st ++ [v], snd st && ok)) (combine (zrange k (k + zlen x)) x) (acc, ok) = Ok (acc ++ vs, ok') /\ zlen vs = zlen x /\
    (forall c, 0 <= c < zlen x -> zget vs c = Some (fst (init_cell fl (k + c) (nthR sat (2 * (k + c))) (nthR x c)))) /\
    (ok' = true <-> ok = true /\ forall c, 0 <= c < zlen x -> snd (init_cell fl (k + c) (nthR sat (2 * (k + c))) (nthR x c)) = true).
Proof.
  induction x as [|y x IH]; intros k acc ok Hk Hl Ha.
  - exists [], ok. change (zlen (@nil R)) with 0 in *. rewrite Z.add_0_r, zrange_empty by lia. cbn [combine foldM]. rewrite app_nil_r. split; auto. split; auto. split; [intros; lia|].
    split; [intros ->; split; auto; intros; lia|tauto].
  - rewrite zlen_cons in *. pose proof (zlen_nonneg x). rewrite zrange_cons by lia. cbn [combine foldM fst snd].
    destruct (rget_range sat (k * 2) ltac:(lia)) as (z & Ez & Gz). rewrite Ez. cbn [bind]. apply nthR_get in Gz. replace (k * 2) with (2 * k) in Gz by lia.
    destruct (init_cell fl k z y) as [v b] eqn:Ei. cbn [bind fst snd].
    destruct (IH (k + 1) (acc ++ [v]) (ok && b)) as (vs & ok' & E & L & V & O); [lia|lia|rewrite zlen_app, zlen_cons; change (zlen (@nil ((R*R)*(R*R)*(R*R)))) with 0; lia|].
    replace (k + 1 + zlen x) with (k + (1 + zlen x)) in E by lia. rewrite E. exists (v :: vs), ok'. rewrite <- app_assoc. split; auto. split; [rewrite zlen_cons; lia|].
    assert (X : forall c, 0 < c -> nthR (y :: x) c = nthR x (c - 1)).
    { intros c Hc. unfold nthR. rewrite !zget_nth by lia. replace (Z.to_nat c) with (S (Z.to_nat (c - 1))) by lia. reflexivity. }
    split.
    + intros c Hc. destruct (Z.eq_dec c 0) as [->|N].
      * rewrite Z.add_0_r, Gz. change (nthR (y :: x) 0) with y. rewrite Ei. reflexivity.
      * rewrite zget_nth by lia. replace (Z.to_nat c) with (S (Z.to_nat (c - 1))) by lia. cbn [nth_error]. rewrite <- zget_nth by lia. rewrite V by lia.
        replace (k + 1 + (c - 1)) with (k + c) by lia. now rewrite X by lia.
    + rewrite O, andb_true_iff. split.
      * intros ((A & B) & C). split; auto. intros c Hc. destruct (Z.eq_dec c 0) as [->|N].
        -- rewrite Z.add_0_r, Gz. change (nthR (y :: x) 0) with y. now rewrite Ei.
        -- specialize (C (c - 1) ltac:(lia)). replace (k + 1 + (c - 1)) with (k + c) in C by lia. now rewrite X by lia.
      * intros (A & B). split; [split; auto|].
        -- specialize (B 0 ltac:(lia)). rewrite Z.add_0_r, Gz in B. change (nthR (y :: x) 0) with y in B. now rewrite Ei in B.
        -- intros c Hc. specialize (B (c + 1) ltac:(lia)). rewrite X in B by lia. replace (c + 1 - 1) with c in B by lia. now replace (k + 1 + c) with (k + (c + 1)) by lia.
Qed.
Lemma init_ok fl sat x : zlen sat = 2 * zlen x ->
  exists vs ok, init_iteration fl sat x = Ok (vs, ok) /\ zlen vs = zlen x /\
    (ok = true <-> forall c, 0 <= c < zlen x -> (l_min fl c - / 100000 <= nthR sat (2 * c) + nthR x c <= l_max fl c + / 100000)%R) /\
    (forall c, 0 <= c < zlen x ->
       let s := Rmin (l_max fl c) (Rmax (l_min fl c) (nthR sat (2 * c) + nthR x c)) in
       zget vs c = Some (l_mob fl c s (1 - s), (fst (l_dmob fl c s (1 - s)), - snd (l_dmob fl c s (1 - s))), l_pc fl c s (1 - s))%R /\
       ((l_min fl c <= l_max fl c)%R -> (l_min fl c <= s <= l_max fl c)%R) /\
       ((l_min fl c <= nthR sat (2 * c) + nthR x c <= l_max fl c)%R -> s = (nthR sat (2 * c) + nthR x c)%R)).
Proof.
  intros H. destruct (init_fold fl sat x 0 [] true ltac:(lia) H eq_refl) as (vs & ok & E & L & V & O). exists vs, ok. split; [exact E|]. split; auto. split.
  - rewrite O. cbn [Z.add]. unfold init_cell. cbn [snd]. unfold sat_tol. split.
    + intros (_ & A) c Hc. specialize (A c Hc). apply negb_true_iff, orb_false_iff in A. destruct A as (A & B). apply Rltb_false in A. apply Rltb_false in B. lra.
    + intros A. split; auto. intros c Hc. apply negb_true_iff, orb_false_iff. split; apply Rltb_false; apply A; auto.
  - intros c Hc s. specialize (V c Hc). cbn [Z.add] in V. rewrite V. unfold init_cell. cbn [fst]. rewrite smin_Rmin, smax_Rmax. split; auto.
    subst s. rewrite <- smax_Rmax, <- smin_Rmin. split; [apply clamp_range|apply clamp_id].
Qed.
(* the stored derivative of the second mobility is with respect to the first saturation *)
Lemma stored_derivatives fl c s x A B : let s0 := (s + x)%R in (l_min fl c <= s0 <= l_max fl c)%R ->
  (forall a b, l_mob fl c a b = (A a, B b)) -> derivable_pt_lim A s0 (fst (l_dmob fl c s0 (1 - s0))) -> derivable_pt_lim B (1 - s0) (snd (l_dmob fl c s0 (1 - s0))) ->
  let v := fst (init_cell fl c s x) in
  fst (fst v) = (A s0, B (1 - s0)%R) /\
  derivable_pt_lim (fun t => fst (l_mob fl c t (1 - t))) s0 (fst (snd (fst v))) /\ derivable_pt_lim (fun t => snd (l_mob fl c t (1 - t))) s0 (snd (snd (fst v))).
Proof.
  intros s0 H M DA DB v. subst v. unfold init_cell. cbn [fst]. fold s0. rewrite clamp_id by auto. split; [apply M|]. cbn [snd]. split.
  - apply (derivable_pt_lim_ext A); auto. intros z. rewrite M. reflexivity.
  - apply (derivable_pt_lim_ext (fun t => B (1 - t)%R)); [intros z; rewrite M; reflexivity|].
    pose proof (derivable_pt_lim_minus _ _ _ _ _ (derivable_pt_lim_const 1 s0) (derivable_pt_lim_id s0)) as D1.
    pose proof (derivable_pt_lim_comp (fct_cte 1 - id)%F B s0 _ _ D1 DB) as D2. unfold comp, minus_fct, fct_cte, id in D2.
    replace (- snd (l_dmob fl c s0 (1 - s0)))%R with (snd (l_dmob fl c s0 (1 - s0)) * (0 - 1))%R by ring. exact D2.
Qed.

(* ---- C62 *)
Lemma storage_ok nc nf totconn s i k s' i' k' : 0 <= nc -> 0 <= nf <= totconn ->
  valid_index nc nf totconn s i k -> valid_index nc nf totconn s' i' k' ->
  0 <= address nc totconn s i k < storage_size nc totconn /\
  (address nc totconn s i k = address nc totconn s' i' k' -> s = s' /\ i = i' /\ k = k').
Proof.
  intros Hn Hf V V'. unfold address, storage_size.
  destruct s, s'; cbn [valid_index seg_start] in *; (split; [lia|]); intros E; first [exfalso; lia | split; [reflexivity|lia]].
Qed.
Lemma storage_refuted : exists nc nf totconn, 0 <= nc /\ 0 <= totconn < nf /\ exists i, 0 <= i < nf /\ ~ address nc totconn STrans i 0 < storage_size nc totconn.
Proof. exists 1, 3, 2. repeat split; try lia. exists 2. split; [lia|]. cbn. lia. Qed.

Lemma init_step_ok nc sat : 0 <= nc -> zlen sat = 2 * nc ->
  (exists x, init_step true nc sat = Ok x /\ zlen x = nc /\ forall c, 0 <= c < nc -> (nthR sat (2 * c) + nthR x c = nthR sat (2 * c))%R) /\
  (exists x, init_step false nc sat = Ok x /\ zlen x = nc /\ forall c, 0 <= c < nc -> (nthR sat (2 * c) + nthR x c = / 2)%R).
Proof.
  intros Hn L. split.
  - eexists. split; [reflexivity|]. split; [apply zlen_zrepeat; auto|]. intros c Hc. rewrite nthR_zrepeat0. ring.
  - unfold init_step. rewrite (mapM_all_Ok _ (fun c => / 2 - nthR sat (2 * c))%R).
    + eexists. split; [reflexivity|]. split; [rewrite zlen_map, zlen_zrange; lia|]. intros c Hc. unfold nthR at 2. rewrite zget_map, zget_zrange by lia. cbn [option_map]. rewrite Z.add_0_l. lra.
    + intros c Hc. apply In_zrange in Hc. destruct (zget_in_range sat (2 * c) ltac:(lia)) as (y & E). unfold rget. rewrite E. cbn [bind]. now rewrite (nthR_get _ _ _ E).
Qed.
