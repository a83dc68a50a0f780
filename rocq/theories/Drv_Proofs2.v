(* The table of results of cpchop: what a subsample adds. *)
From Verif Require Import BaseFacts RBaseFacts Shape_Proofs2 Steady_Proofs Euler_Proofs2 Mload_Proofs Mload_Proofs2 Mload_Proofs3 Avg_Proofs Avg_Proofs2 Drv_Spec.
Open Scope Z_scope.

(* ---- end points *)
Lemma end_sums_from rocks cells : (forall c, In c cells -> e_sat c <= zlen rocks) -> forall a b p,
  foldM (fun s c => let '(a, b, p) := s in
    if 0 <? e_sat c then let* r := rget rocks (e_sat c - 1) in let pv := (e_vol c * e_phi c)%R in Ok (a + fst r * pv, b + snd r * pv, p + pv)%R else Ok s) cells (a, b, p) =
  Ok (a + Rsum (map (fun c => rock_end rocks fst c * pore c) cells), b + Rsum (map (fun c => rock_end rocks snd c * pore c) cells), p + Rsum (map pore cells))%R.
Proof.
  induction cells as [|c t IH]; intros H a b p; cbn [foldM map]; [rewrite !Rsum_nil, !Rplus_0_r; reflexivity|]. rewrite !Rsum_cons.
  assert (Ht : forall c, In c t -> e_sat c <= zlen rocks) by (intros; apply H; right; assumption). destruct (Z.ltb_spec 0 (e_sat c)) as [L|L].
  - pose proof (H c (or_introl eq_refl)). destruct (zget_in_range rocks (e_sat c - 1) ltac:(lia)) as (r & E). rewrite (proj2 (rget_Ok _ _ _) E). cbn [bind]. rewrite IH by exact Ht.
    assert (E1 : forall w, rock_end rocks w c = w r) by (intros w; unfold rock_end; rewrite E; reflexivity). assert (E2 : pore c = (e_vol c * e_phi c)%R) by (unfold pore; rewrite (proj2 (Z.ltb_lt _ _) L); reflexivity).
    rewrite !E1, E2. f_equal. f_equal; [f_equal|]; ring.
  - cbn [bind]. rewrite IH by exact Ht. assert (E2 : pore c = 0%R) by (unfold pore; rewrite (proj2 (Z.ltb_ge _ _) L); reflexivity). rewrite E2. f_equal. f_equal; [f_equal|]; ring.
Qed.
Lemma end_points_ok rocks cells : (forall c, In c cells -> e_sat c <= zlen rocks) -> Rsum (map pore cells) <> 0%R ->
  end_points rocks cells = Ok (end_mean rocks fst cells, end_mean rocks snd cells).
Proof.
  intros H N. unfold end_points, end_sums. rewrite end_sums_from by exact H. cbn [bind]. rewrite !Rplus_0_l, !mdiv_ok by exact N. reflexivity.
Qed.
Lemma foldM_UB_or_Ok {S A} (f : S -> A -> res S) : (forall s a, f s a <> Throw) -> forall l s, foldM f l s <> Throw.
Proof.
  intros H. induction l as [|a l IH]; intros s; cbn [foldM]; [discriminate|]. specialize (H s a). destruct (f s a); cbn [bind]; [apply IH|congruence|discriminate].
Qed.
Lemma rget_nothrow {A} (l : list A) i : rget l i <> Throw.
Proof. unfold rget. destruct (zget l i); discriminate. Qed.
Lemma mdiv_nothrow x y : mdiv x y <> Throw.
Proof.
  destruct (Req_dec y 0) as [->|N]; [rewrite mdiv_0; discriminate|rewrite mdiv_ok by exact N; discriminate].
Qed.
Lemma mdiv_inv x y r : mdiv x y = Ok r -> y <> 0%R /\ r = (x / y)%R.
Proof.
  intros E. destruct (Req_dec y 0) as [->|N]; [rewrite mdiv_0 in E; discriminate|]. rewrite mdiv_ok in E by exact N. injection E as <-. auto.
Qed.
Lemma end_points_inv rocks cells r : end_points rocks cells = Ok r -> r = (end_mean rocks fst cells, end_mean rocks snd cells).
Proof.
  intros E. assert (H : forall c, In c cells -> e_sat c <= zlen rocks).
  { unfold end_points, end_sums in E. destruct (foldM _ cells _) as [s| |] eqn:F; try discriminate. clear E. revert F. generalize (0, 0, 0)%R. induction cells as [|c t IH]; intros [[a b] p] F d Hd; [destruct Hd|].
    cbn [foldM] in F. destruct Hd as [->|Hd].
    - destruct (Z.ltb_spec 0 (e_sat d)) as [L|L]; [|pose proof (zlen_nonneg rocks); lia]. destruct (rget rocks (e_sat d - 1)) eqn:G; try discriminate. apply rget_Ok in G. apply zget_Some_range in G. lia.
    - destruct (0 <? e_sat c); [destruct (rget rocks (e_sat c - 1)); try discriminate|]; cbn [bind] in F; exact (IH _ F d Hd). }
  destruct (Req_dec (Rsum (map pore cells)) 0) as [Z0|N].
  - unfold end_points, end_sums in E. rewrite end_sums_from in E by exact H. cbn [bind] in E. rewrite Rplus_0_l, Z0, Rplus_0_l, mdiv_0 in E. discriminate.
  - rewrite end_points_ok in E by assumption. injection E as <-. reflexivity.
Qed.
Lemma end_points_nothrow rocks cells : end_points rocks cells <> Throw.
Proof.
  unfold end_points. destruct (end_sums rocks cells) as [[[a b] p]| |] eqn:E; cbn [bind].
  - pose proof (mdiv_nothrow a p). destruct (mdiv a p); cbn [bind]; try congruence. pose proof (mdiv_nothrow b p). destruct (mdiv b p); cbn [bind]; congruence.
  - exfalso. revert E. apply foldM_UB_or_Ok. intros [[a b] p] c. destruct (0 <? e_sat c); [|discriminate]. pose proof (rget_nothrow rocks (e_sat c - 1)). destruct (rget rocks (e_sat c - 1)); cbn [bind]; congruence.
  - discriminate.
Qed.
(* ---- dips *)
Lemma dips_inv o l r : (let* xy := dip_averages l in dip_azimuth (o_azim o) (fst xy) (snd xy)) = Ok r ->
  r = (acos (1 / sqrt (mean_dip fst l * mean_dip fst l + mean_dip snd l * mean_dip snd l + 1)), (atan (mean_dip fst l / mean_dip snd l) + o_azim o)%R).
Proof.
  unfold dip_averages, dip_azimuth. intros E. destruct (mdiv (racc (fun c => fst (snd (fst c))) l) (IZR (zlen l))) as [x| |] eqn:E1; cbn [bind] in E; try discriminate.
  destruct (mdiv (racc (fun c => snd (snd (fst c))) l) (IZR (zlen l))) as [y| |] eqn:E2; cbn [bind fst snd] in E; try discriminate. destruct (mdiv x y) as [q| |] eqn:E3; cbn [bind] in E; try discriminate.
  apply mdiv_inv in E1, E2, E3. destruct E1 as [_ ->], E2 as [_ ->], E3 as [_ ->]. rewrite !racc_sum in E. injection E as <-. reflexivity.
Qed.
Lemma dips_nothrow o l : (let* xy := dip_averages l in dip_azimuth (o_azim o) (fst xy) (snd xy)) <> Throw.
Proof.
  unfold dip_averages, dip_azimuth. repeat (match goal with |- context[mdiv ?x ?y] => pose proof (mdiv_nothrow x y); destruct (mdiv x y); cbn [bind fst snd]; try congruence end).
Qed.
Lemma dips_proper o l : l <> [] -> mean_dip snd l <> 0%R -> (let* xy := dip_averages l in dip_azimuth (o_azim o) (fst xy) (snd xy)) <> UB.
Proof.
  intros N Y. unfold dip_averages, dip_azimuth. assert (IZR (zlen l) <> 0)%R by (apply not_0_IZR; destruct l; [congruence|unfold zlen; cbn [List.length]; lia]). rewrite !mdiv_ok by assumption. cbn [bind fst snd]. rewrite !racc_sum.
  rewrite mdiv_ok by exact Y. discriminate.
Qed.
(* ---- volumes of the rock types *)
Definition vinv (cells : list (Z * R)) (s : Z * list R) : Prop :=
  (forall t, nthR (snd s) (t - 1) = sat_volume t cells) /\ Rsum (snd s) = Rsum (map snd cells) /\ zlen (snd s) <= fst s /\ (cells <> [] -> zlen (snd s) = fst s).
Lemma sat_volume_app t l c : sat_volume t (l ++ [c]) = (sat_volume t l + (if fst c =? t then snd c else 0))%R.
Proof. unfold sat_volume. rewrite map_app, Rsum_app. cbn [map]. rewrite Rsum_cons, Rsum_nil. ring. Qed.
Lemma Rsum_zeros l n : Rsum (l ++ zrepeat 0%R n) = Rsum l.
Proof. rewrite Rsum_app. unfold zrepeat. induction (Z.to_nat n) as [|m IH]; [cbn [repeat]; rewrite Rsum_nil; ring|]. cbn [repeat]. rewrite Rsum_cons, Rplus_0_l. exact IH. Qed.
Lemma sat_volumes_step done s c s' : vinv done s ->
  (let m := Z.max (fst s) (fst c) in let row := snd s ++ zrepeat 0%R (m - zlen (snd s)) in let* row' := add_vol row (fst c - 1) (snd c) in Ok (m, row')) = Ok s' ->
  vinv (done ++ [c]) s' /\ fst s' = Z.max (fst s) (fst c) /\ 1 <= fst c.
Proof.
  intros (V & Sm & Le & Eq) E. cbv zeta in E. set (row := snd s ++ zrepeat 0%R (Z.max (fst s) (fst c) - zlen (snd s))) in *.
  assert (Lr : zlen row = Z.max (fst s) (fst c)) by (unfold row; rewrite zlen_app, zlen_zrepeat by lia; lia).
  destruct (Z_le_dec 1 (fst c)) as [G|G].
  - destruct (add_vol_ok row (fst c - 1) (snd c)) as (row' & A & L & Nth & S'); [lia|]. rewrite A in E. cbn [bind] in E. injection E as <-. cbn [fst snd]. split; [|auto]. split; [|split; [|split]]; cbn [fst snd].
    + intros t. rewrite Nth. unfold row. rewrite nthR_zeros, V, sat_volume_app. f_equal. destruct (Z.eqb_spec (fst c - 1) (t - 1)), (Z.eqb_spec (fst c) t); try reflexivity; lia.
    + rewrite S'. unfold row. rewrite Rsum_zeros, Sm, map_app, Rsum_app. cbn [map]. rewrite Rsum_cons, Rsum_nil. ring.
    + lia.
    + intros _. lia.
  - exfalso. unfold add_vol, rget in E. destruct (zget row (fst c - 1)) eqn:Z1; [apply zget_Some_range in Z1; lia|discriminate].
Qed.
Lemma sat_volumes_from cells : forall done s s', vinv done s ->
  foldM (fun s c => let m := Z.max (fst s) (fst c) in let row := snd s ++ zrepeat 0%R (m - zlen (snd s)) in let* row' := add_vol row (fst c - 1) (snd c) in Ok (m, row')) cells s = Ok s' ->
  vinv (done ++ cells) s' /\ fst s <= fst s' /\ (forall c, In c cells -> 1 <= fst c <= fst s').
Proof.
  induction cells as [|c t IH]; intros done s s' V E; cbn [foldM] in E.
  - injection E as <-. rewrite app_nil_r. split; [exact V|]. split; [lia|intros c []].
  - destruct (let m := Z.max (fst s) (fst c) in let row := snd s ++ zrepeat 0%R (m - zlen (snd s)) in let* row' := add_vol row (fst c - 1) (snd c) in Ok (m, row')) as [s1| |] eqn:F; cbn [bind] in E; try discriminate.
    destruct (sat_volumes_step done s c s1 V F) as (V1 & M1 & G). destruct (IH (done ++ [c]) s1 s' V1 E) as (V2 & M2 & B). rewrite <- app_assoc in V2. split; [exact V2|]. split; [lia|]. intros d [->|Hd]; [lia|exact (B d Hd)].
Qed.
Lemma vinv0 m : 0 <= m -> vinv [] (m, []).
Proof.
  intros H. split; [|split; [|split]]; cbn [fst snd].
  - intros t. apply nthR_out. change (zlen (@nil R)) with 0. lia.
  - reflexivity.
  - exact H.
  - congruence.
Qed.
Lemma sat_volumes_exists cells : (forall c, In c cells -> 1 <= fst c) -> forall s, zlen (snd s) <= fst s -> exists s',
  foldM (fun s c => let m := Z.max (fst s) (fst c) in let row := snd s ++ zrepeat 0%R (m - zlen (snd s)) in let* row' := add_vol row (fst c - 1) (snd c) in Ok (m, row')) cells s = Ok s'.
Proof.
  induction cells as [|c t IH]; intros H s L; cbn [foldM]; [eexists; reflexivity|]. pose proof (H c (or_introl eq_refl)) as Hc.
  set (row := snd s ++ zrepeat 0%R (Z.max (fst s) (fst c) - zlen (snd s))). assert (Lr : zlen row = Z.max (fst s) (fst c)) by (unfold row; rewrite zlen_app, zlen_zrepeat by lia; lia).
  destruct (add_vol_ok row (fst c - 1) (snd c)) as (row' & A & L' & _ & _); [lia|]. rewrite A. cbn [bind]. apply IH; [intros; apply H; right; assumption|]. cbn [fst snd]. lia.
Qed.
Lemma normalised_inv row out : normalised row = Ok out -> zlen out = zlen row /\ (Rsum row <> 0%R -> (forall i, nthR out i = (nthR row i / Rsum row)%R) /\ Rsum out = 1%R).
Proof.
  unfold normalised. intros E. assert (L : zlen out = zlen row) by (unfold zlen; rewrite (mapM_len _ _ _ E); reflexivity). split; [exact L|]. intros N.
  assert (Sr : racc (fun x => x) row = Rsum row) by (rewrite racc_sum, map_id; reflexivity). rewrite Sr in E. rewrite (mapM_all_Ok _ (fun v => v / Rsum row)%R) in E by (intros; apply mdiv_ok; exact N). injection E as <-.
  split; [|unfold Rdiv; rewrite (Rsum_map_scale_r (fun v => v)), map_id; apply Rinv_r; exact N]. intros i. destruct (Z_le_dec 0 i) as [G|G]; [|rewrite !nthR_out by lia; unfold Rdiv; ring]. destruct (Z_lt_dec i (zlen row)) as [G2|G2]; [|rewrite !nthR_out by (rewrite ?zlen_map; lia); unfold Rdiv; ring].
  unfold nthR at 1. rewrite zget_map, (zget_nthR row i) by lia. reflexivity.
Qed.
Lemma normalised_nothrow row : normalised row <> Throw.
Proof.
  unfold normalised. generalize (racc (fun x => x) row) as q. intros q. induction row as [|x t IH]; cbn [mapM]; [discriminate|]. pose proof (mdiv_nothrow x q). destruct (mdiv x q); cbn [bind]; try congruence. destruct (mapM (fun v => mdiv v q) t); cbn [bind]; congruence.
Qed.
Lemma sat_volumes_nothrow m cells : sat_volumes m cells <> Throw.
Proof.
  unfold sat_volumes. apply foldM_UB_or_Ok. intros s c. cbv zeta. unfold add_vol. pose proof (rget_nothrow (snd s ++ zrepeat 0%R (Z.max (fst s) (fst c) - zlen (snd s))) (fst c - 1)). destruct (rget _ _) as [rr| |] eqn:G; cbn [bind]; try congruence.
  apply rget_Ok in G. apply zget_Some_range in G. destruct (rset_exists (snd s ++ zrepeat 0%R (Z.max (fst s) (fst c) - zlen (snd s))) (fst c - 1) (rr + snd c)%R G) as (v & E & _). rewrite E. cbn [bind]. discriminate.
Qed.
