(* Constraint chains. *)
From Verif Require Import RBaseFacts BaseFacts Lin_Facts Smat_Proofs Asm_Spec.
From Coq Require Import Wellfounded.
Open Scope Z_scope.

(* ---- the map *)
Lemma mm_find_In M : increasing (map fst M) -> forall k p, mm_find M k = Some p <-> In (k, p) M.
Proof.
  induction M as [|[k' q] M IH]; cbn; intros I k p; [split; [discriminate|tauto]|]. destruct I as [I1 I2]. destruct (Z.eqb_spec k' k) as [->|N].
  - split; [intros [= ->]; now left|intros [[= ->]|Hi]; [reflexivity|]]. specialize (I1 k (in_map fst _ _ Hi)). lia.
  - rewrite IH by exact I2. split; [tauto|]. intros [[= -> _]|Hi]; [congruence|exact Hi].
Qed.
Lemma mm_find_keys M k : slaveof M k <-> In k (map fst M).
Proof.
  unfold slaveof. induction M as [|[k' q] M IH]; cbn; [tauto|]. destruct (Z.eqb_spec k' k) as [->|N]; [split; [now left|discriminate]|]. rewrite IH. split; [now right|intros [E|Hi]; [congruence|exact Hi]].
Qed.
Lemma mm_find_replace M k p x : slaveof M k -> mm_find (mm_replace M k p) x = if x =? k then Some p else mm_find M x.
Proof.
  unfold slaveof. induction M as [|[k' q] M IH]; cbn; [congruence|]. destruct (Z.eqb_spec k' k) as [->|N]; cbn.
  - intros _. destruct (Z.eqb_spec k x) as [->|N]; [rewrite Z.eqb_refl; reflexivity|]. destruct (Z.eqb_spec x k); [congruence|reflexivity].
  - intros H. destruct (Z.eqb_spec k' x) as [->|N2]; [destruct (Z.eqb_spec x k); [congruence|reflexivity]|]. apply IH. exact H.
Qed.
Lemma mm_replace_keys M k p : map fst (mm_replace M k p) = map fst M.
Proof. induction M as [|[k' q] M IH]; cbn; [reflexivity|]. destruct (k' =? k); cbn; [reflexivity|]. now rewrite IH. Qed.
Lemma mm_find_insert M k p : increasing (map fst M) -> forall x, mm_find (mm_insert M k p) x = match mm_find M x with Some q => Some q | None => if x =? k then Some p else None end.
Proof.
  induction M as [|[k' q] M IH]; cbn; intros I x; [rewrite Z.eqb_sym; reflexivity|]. destruct I as [I1 I2]. destruct (Z.ltb_spec k k') as [L|L]; cbn.
  - destruct (Z.eqb_spec k x) as [->|N].
    + rewrite Z.eqb_refl. destruct (Z.eqb_spec k' x); [lia|]. destruct (mm_find M x) eqn:E; [|reflexivity]. exfalso. assert (slaveof M x) as Hs by (unfold slaveof; congruence).
      apply mm_find_keys in Hs. specialize (I1 x Hs). lia.
    + destruct (Z.eqb_spec x k); [congruence|]. destruct (k' =? x); [reflexivity|]. now destruct (mm_find M x).
  - destruct (Z.ltb_spec k' k) as [L2|L2]; cbn.
    + destruct (Z.eqb_spec k' x) as [->|N]; [reflexivity|]. apply IH. exact I2.
    + assert (k = k') by lia. subst. destruct (Z.eqb_spec k' x) as [->|N]; [reflexivity|]. destruct (Z.eqb_spec x k'); [congruence|]. now destruct (mm_find M x).
Qed.
Lemma mm_insert_keys M k p x : In x (map fst (mm_insert M k p)) <-> x = k \/ In x (map fst M).
Proof.
  induction M as [|[k' q] M IH]; cbn; [intuition|]. destruct (Z.ltb_spec k k') as [L|L]; cbn; [intuition|]. destruct (Z.ltb_spec k' k) as [L2|L2]; cbn; [rewrite IH; intuition|].
  assert (k = k') by lia. subst. intuition.
Qed.
Lemma mm_insert_increasing M k p : increasing (map fst M) -> increasing (map fst (mm_insert M k p)).
Proof.
  induction M as [|[k' q] M IH]; cbn; intros I; [split; [intros ? []|exact Logic.I]|]. destruct I as [I1 I2]. destruct (Z.ltb_spec k k') as [L|L]; cbn.
  - split; [|split; assumption]. intros y [<-|Hy]; [exact L|]. specialize (I1 y Hy). lia.
  - destruct (Z.ltb_spec k' k) as [L2|L2]; cbn; [|split; assumption]. split; [|apply IH; exact I2]. intros y Hy. apply mm_insert_keys in Hy. destruct Hy as [->|Hy]; [exact L2|apply I1; exact Hy].
Qed.

(* adding constraints keeps the map well formed *)
Lemma add_mpc_wf dim F M p : wf_mpcs dim M -> (forall m, In m (mp_master p) -> 1 <= md_dof m <= dim /\ (mpc_tol < Rabs (md_coeff m))%R) -> wf_mpcs dim (add_mpc dim F M p).
Proof.
  intros [I W] Hp. unfold add_mpc. destruct (fx_flag _ _ _); [split; assumption|]. split; [apply mm_insert_increasing; exact I|]. intros k q. rewrite mm_find_insert by exact I.
  destruct (mm_find M k) eqn:E; [intros [= <-]; now apply W|]. destruct (Z.eqb_spec k (dof_key dim (mp_slave p))) as [->|N]; [|discriminate]. intros [= <-]. split; [reflexivity|exact Hp].
Qed.
Lemma tol_pos : (0 < mpc_tol)%R.
Proof. unfold mpc_tol. apply Rinv_0_lt_compat, pow_lt. lra. Qed.
Lemma big_coeff c : Rltb c (- mpc_tol) || Rltb mpc_tol c = true <-> (mpc_tol < Rabs c)%R.
Proof.
  pose proof tol_pos as T. rewrite orb_true_iff, !Rltb_true. unfold Rabs. destruct (Rcase_abs c); lra.
Qed.
Lemma add_master_In p n d c m : In m (mp_master (add_master p n d c)) <-> In m (mp_master p) \/ (m = mkMdof n d c /\ (mpc_tol < Rabs c)%R).
Proof.
  unfold add_master. destruct (Rltb c (- mpc_tol) || Rltb mpc_tol c) eqn:E.
  - cbn. rewrite in_app_iff. cbn. apply big_coeff in E. intuition.
  - split; [tauto|]. intros [Hm|[_ H]]; [exact Hm|]. apply big_coeff in H. congruence.
Qed.

(* ---- chains *)
Lemma chain_trans dim M a b c x d : chain dim M a b c -> chain dim M b x d -> chain dim M a x (c * d).
Proof.
  induction 1 as [k y c H|k z y c e H H2 IH]; intros H3; [eapply chain_more; eassumption|]. rewrite Rmult_assoc. eapply chain_more; [exact H|]. apply IH. exact H3.
Qed.
Lemma chain_start dim M a b c : chain dim M a b c -> slaveof M a.
Proof. intros H. destruct H as [k x c (p & m & Hf & _)|k y x c d (p & m & Hf & _) _]; unfold slaveof; congruence. Qed.
Lemma chain_sub dim M M' : (forall k x c, couples dim M' k x c -> chain dim M k x c) -> forall k x c, chain dim M' k x c -> chain dim M k x c.
Proof. intros H k x c Hc. induction Hc as [k x c Hc|k y x c d Hc _ IH]; [apply H; exact Hc|]. eapply chain_trans; [apply H; exact Hc|exact IH]. Qed.
(* the masters of a dof *)
Definition under (dim : Z) (M : mpcmap) (x k : Z) : Prop := exists c, couples dim M k x c.
Definition reach (dim : Z) (M : mpcmap) (k x : Z) : Prop := x = k \/ exists c, chain dim M k x c.
Lemma reach_trans dim M a b x : reach dim M a b -> reach dim M b x -> reach dim M a x.
Proof. intros [->|[c H]] [->|[d H2]]; [now left|right; eauto|right; eauto|right; exists (c * d)%R; eapply chain_trans; eauto]. Qed.
Lemma reach_sub dim M M' : (forall k x c, couples dim M' k x c -> chain dim M k x c) -> forall k x, reach dim M' k x -> reach dim M k x.
Proof. intros H k x [->|[c Hc]]; [now left|]. right. exists c. eapply chain_sub; eauto. Qed.
Lemma chain_last dim M a b c : chain dim M a b c -> exists y, reach dim M a y /\ under dim M b y.
Proof.
  induction 1 as [k x c H|k y x c d H H2 (z & Hz & Hu)]; [exists k; split; [now left|exists c; exact H]|]. exists z. split; [|exact Hu].
  eapply reach_trans; [right; exists c; apply chain_one; exact H|exact Hz].
Qed.
Lemma Acc_no_cycle dim M k : Acc (under dim M) k -> forall c, ~ chain dim M k k c.
Proof.
  intros H. induction H as [k _ IH]. intros c0 Hc. inversion Hc as [k' x c H E1 E2 E3|k' y x c d H H2 E1 E2 E3]; subst.
  - apply (IH k (ex_intro _ c0 H) c0). apply chain_one. exact H.
  - apply (IH y (ex_intro _ c H) (d * c)%R). eapply chain_trans; [exact H2|apply chain_one; exact H].
Qed.
Lemma Acc_reach dim M k x : Acc (under dim M) k -> reach dim M k x -> Acc (under dim M) x.
Proof.
  intros H [->|[c Hc]]; [exact H|]. induction Hc as [k x c Hc|k y x c d Hc _ IH]; [apply H; exists c; exact Hc|]. apply IH. apply H. exists c. exact Hc.
Qed.

(* ---- one constraint *)
Definition bigb (c : R) : bool := Rltb c (- mpc_tol) || Rltb mpc_tol c.
Definition scaled (c : R) (m : mdof) : mdof := mkMdof (md_node m) (md_dof m) (md_coeff m * c).
Lemma fold_add c l : forall p, fold_left (fun p m2 => add_master p (md_node m2) (md_dof m2) (md_coeff m2 * c)) l p =
  mkMpc (mp_slave p) (mp_master p ++ filter (fun m => bigb (md_coeff m)) (map (scaled c) l)).
Proof.
  induction l as [|m l IH]; intros p; cbn [fold_left map filter]; [rewrite app_nil_r; now destruct p|]. rewrite IH. unfold add_master. cbn [md_coeff scaled]. unfold bigb at 2.
  destruct (Rltb (md_coeff m * c) (- mpc_tol) || Rltb mpc_tol (md_coeff m * c)); cbn [mp_slave mp_master]; [|reflexivity]. rewrite <- app_assoc. reflexivity.
Qed.
Lemma remove_mid sl kept m rest : remove_master (mkMpc sl (kept ++ m :: rest)) (zlen kept) = mkMpc sl (kept ++ rest).
Proof.
  unfold remove_master. cbn [mp_master mp_slave]. assert (0 <= zlen kept < zlen (kept ++ m :: rest)) as H by (rewrite zlen_app; unfold zlen; cbn [length]; lia).
  destruct (Z.leb_spec 0 (zlen kept)); [|lia]. destruct (Z.ltb_spec (zlen kept) (zlen (kept ++ m :: rest))); [|lia]. cbn [andb]. f_equal. unfold zlen. rewrite Nat2Z.id.
  rewrite firstn_app, Nat.sub_diag, firstn_all. cbn [firstn]. rewrite app_nil_r. f_equal. rewrite skipn_app. replace (Datatypes.S (length kept) - length kept)%nat with 1%nat by lia.
  rewrite skipn_all2 by lia. reflexivity.
Qed.
Lemma zget_mid {A} (kept : list A) m rest : zget (kept ++ m :: rest) (zlen kept) = Some m.
Proof. rewrite zget_app_r by lia. replace (zlen kept - zlen kept) with 0 by lia. reflexivity. Qed.
Lemma no_successor dim M k : ~ slaveof M k -> Acc (under dim M) k.
Proof. intros H. constructor. intros y (c & p & m & Hf & _). exfalso. apply H. unfold slaveof. congruence. Qed.
Lemma keys_slave M M' x : map fst M' = map fst M -> (slaveof M' x <-> slaveof M x).
Proof. intros H. rewrite !mm_find_keys, H. tauto. Qed.
Definition done_at (dim : Z) (M : mpcmap) (x : Z) : Prop := forall y c, couples dim M x y c -> ~ slaveof M y.
(* what resolving k does *)
Definition post (dim : Z) (M : mpcmap) (k : Z) (M' : mpcmap) : Prop :=
  map fst M' = map fst M /\ wf_mpcs dim M' /\ (forall a x c, couples dim M' a x c -> chain dim M a x c) /\ Acc (under dim M) k /\
  (forall x, mm_find M' x = mm_find M x \/ reach dim M k x) /\ done_at dim M' k /\ (forall x, done_at dim M x -> mm_find M' x = mm_find M x) /\
  (no_loss dim M -> forall u, obeys dim M' u <-> obeys dim M u).
(* the accessibility of a dof is not affected by resolved entries *)
Lemma Acc_back dim M Mi k : map fst Mi = map fst M -> (forall x, x <> k -> mm_find Mi x = mm_find M x \/ Acc (under dim M) x) ->
  forall y, Acc (under dim Mi) y -> ~ reach dim Mi y k -> Acc (under dim M) y.
Proof.
  intros K H y Hy. induction Hy as [y _ IH]. intros Nr. destruct (Z.eq_dec y k) as [->|Ny]; [exfalso; apply Nr; now left|]. destruct (H y Ny) as [E|A]; [|exact A].
  constructor. intros z (c & p & m & Hf & Hm & Hk & Hc). rewrite <- E in Hf. assert (couples dim Mi y z c) as C by (exists p, m; tauto).
  apply IH; [exists c; exact C|]. intros Hr. apply Nr. eapply reach_trans; [right; exists c; apply chain_one; exact C|exact Hr].
Qed.

Section Loop.
Variables (dim : Z) (M : mpcmap) (k : Z) (rec : mpcmap -> Z -> option (res mpcmap)).
Hypothesis WF : wf_mpcs dim M.
Hypothesis REC : forall Mi x r, wf_mpcs dim Mi -> rec Mi x = Some r -> slaveof Mi x -> exists M', r = Ok M' /\ post dim Mi x M'.
Definition inv (Mi : mpcmap) (kept rest added : list mdof) : Prop :=
  map fst Mi = map fst M /\ wf_mpcs dim Mi /\ (forall a x c, couples dim Mi a x c -> chain dim M a x c) /\
  (exists sl, mm_find Mi k = Some (mkMpc sl (kept ++ rest ++ added))) /\
  (forall m, In m kept \/ In m added -> ~ slaveof M (dof_key dim m)) /\
  (forall x, under dim M x k -> Acc (under dim M) x \/ exists m, In m rest /\ dof_key dim m = x) /\
  (forall x, x <> k -> mm_find Mi x = mm_find M x \/ (reach dim M k x /\ Acc (under dim M) x)) /\
  (forall x, done_at dim M x -> mm_find Mi x = mm_find M x) /\
  (no_loss dim M -> forall u, obeys dim Mi u <-> obeys dim M u) /\
  (forall m, In m rest -> couples dim M k (dof_key dim m) (md_coeff m)).
Lemma obeys_except Ma Mb u : (forall x, x <> k -> mm_find Ma x = mm_find Mb x) ->
  (obeys dim Ma u -> forall p, mm_find Mb k = Some p -> u k = mpc_value dim u p) -> obeys dim Ma u -> obeys dim Mb u.
Proof. intros E H Ho x p Hf. destruct (Z.eq_dec x k) as [->|N]; [apply H; assumption|]. apply Ho. rewrite E by exact N. exact Hf. Qed.
Lemma step_inv Mi kept m rest added M2 p p2 : inv Mi kept (m :: rest) added -> slaveof Mi (dof_key dim m) -> post dim Mi (dof_key dim m) M2 ->
  mm_find M2 k = Some p -> mm_find M2 (dof_key dim m) = Some p2 ->
  exists added', inv (mm_replace M2 k (remove_master (fold_left (fun p m2 => add_master p (md_node m2) (md_dof m2) (md_coeff m2 * md_coeff m))
      (mp_master p2) (add_offset p (md_coeff (mp_slave p2) * md_coeff m))) (zlen kept))) kept rest added'.
Proof.
  intros (K & W & Hch & (sl & Hk) & Hfree & HA & Hun & Hdone & Hob & Hrest) Hs (K2 & W2 & Hch2 & A2 & Hun2 & D2 & Hdone2 & Hob2) Hp Hp2.
  assert (couples dim Mi k (dof_key dim m) (md_coeff m)) as Ckm by (exists (mkMpc sl (kept ++ (m :: rest) ++ added)), m; cbn; rewrite in_app_iff; cbn; tauto).
  assert (~ reach dim Mi (dof_key dim m) k) as NR.
  { intros [E|[c Hc]].
    - rewrite <- E in *. eapply Acc_no_cycle; [exact A2|apply chain_one; exact Ckm].
    - eapply Acc_no_cycle; [exact A2|]. eapply chain_trans; [exact Hc|apply chain_one; exact Ckm]. }
  assert (dof_key dim m <> k) as Nk by (intros E; apply NR; left; congruence).
  assert (mm_find M2 k = mm_find Mi k) as Ek by (destruct (Hun2 k) as [E|E]; [exact E|contradiction]). rewrite Hp, Hk in Ek. injection Ek as ->.
  assert (Acc (under dim M) (dof_key dim m)) as AM.
  { apply (Acc_back dim M Mi k K); [|exact A2|exact NR]. intros x Nx. destruct (Hun x Nx) as [E|[_ E]]; [now left|now right]. }
  set (new := filter (fun m => bigb (md_coeff m)) (map (scaled (md_coeff m)) (mp_master p2))).
  assert (forall x, In x new -> exists m2, In m2 (mp_master p2) /\ x = scaled (md_coeff m) m2 /\ (mpc_tol < Rabs (md_coeff x))%R) as Hnew.
  { intros x Hx. apply filter_In in Hx. destruct Hx as [Hx Hb]. apply in_map_iff in Hx. destruct Hx as (m2 & <- & Hm2). exists m2. split; [exact Hm2|]. split; [reflexivity|]. apply big_coeff. exact Hb. }
  rewrite fold_add. unfold add_offset. cbn [mp_slave mp_master]. fold new.
  replace ((kept ++ m :: rest ++ added) ++ new) with (kept ++ m :: (rest ++ (added ++ new))) by (rewrite <- !app_assoc; cbn; rewrite <- !app_assoc; reflexivity).
  rewrite remove_mid. set (sl' := mkMdof _ _ _).
  assert (slaveof M2 k) as Sk by (unfold slaveof; congruence).
  set (M3 := mm_replace M2 k _).
  assert (forall x, x <> k -> mm_find M3 x = mm_find M2 x) as E3 by (intros x Nx; unfold M3; rewrite mm_find_replace by exact Sk; destruct (Z.eqb_spec x k); [contradiction|reflexivity]).
  assert (mm_find M3 k = Some (mkMpc sl' (kept ++ rest ++ added ++ new))) as Ek3 by (unfold M3; rewrite mm_find_replace by exact Sk; rewrite Z.eqb_refl; reflexivity).
  assert (wf_mpc dim k (mkMpc sl (kept ++ (m :: rest) ++ added))) as Wk by (apply W; exact Hk). destruct Wk as [Wk1 Wk2]. cbn [mp_slave mp_master] in Wk1, Wk2.
  assert (wf_mpc dim (dof_key dim m) p2) as [Wp1 Wp2] by (apply W2; exact Hp2).
  assert (forall m2, In m2 (mp_master p2) -> couples dim M2 (dof_key dim m) (dof_key dim m2) (md_coeff m2)) as C2 by (intros m2 Hm2; exists p2, m2; tauto).
  assert (forall m2, In m2 (mp_master p2) -> chain dim M k (dof_key dim m2) (md_coeff m2 * md_coeff m)) as CH2.
  { intros m2 Hm2. rewrite Rmult_comm. eapply chain_trans; [apply Hch; exact Ckm|]. eapply chain_sub; [exact Hch|]. apply Hch2. apply C2. exact Hm2. }
  exists (added ++ new). unfold inv. split; [unfold M3; rewrite mm_replace_keys, K2; exact K|]. split.
  { split; [unfold M3; rewrite mm_replace_keys; apply W2|]. intros x q Hq. destruct (Z.eq_dec x k) as [->|Nx].
    - rewrite Ek3 in Hq. injection Hq as <-. split; [exact Wk1|]. cbn [mp_master]. intros m' Hm'. rewrite !in_app_iff in Hm'. destruct Hm' as [Hm'|[Hm'|[Hm'|Hm']]]; [apply Wk2; rewrite !in_app_iff; cbn; tauto..|].
      destruct (Hnew _ Hm') as (m2 & Hm2 & -> & Hb). split; [exact (proj1 (Wp2 m2 Hm2))|exact Hb].
    - rewrite E3 in Hq by exact Nx. apply W2. exact Hq. }
  split.
  { intros a x c (q & m' & Hq & Hm' & Hx & Hc). destruct (Z.eq_dec a k) as [->|Na].
    - rewrite Ek3 in Hq. injection Hq as <-. cbn [mp_master] in Hm'. rewrite !in_app_iff in Hm'. destruct Hm' as [Hm'|[Hm'|[Hm'|Hm']]].
      1-3: apply Hch; exists (mkMpc sl (kept ++ (m :: rest) ++ added)), m'; cbn; rewrite !in_app_iff; cbn; rewrite ?in_app_iff; tauto.
      destruct (Hnew _ Hm') as (m2 & Hm2 & -> & Hb). cbn in Hx, Hc. subst. apply (CH2 m2 Hm2).
    - rewrite E3 in Hq by exact Na. eapply chain_sub; [exact Hch|]. apply Hch2. exists q, m'. tauto. }
  split; [exists sl'; exact Ek3|]. split.
  { intros m' [Hm'|Hm']; [apply Hfree; now left|]. apply in_app_iff in Hm'. destruct Hm' as [Hm'|Hm']; [apply Hfree; now right|]. destruct (Hnew _ Hm') as (m2 & Hm2 & -> & Hb).
    change (dof_key dim (scaled (md_coeff m) m2)) with (dof_key dim m2). rewrite <- (keys_slave _ _ _ K), <- (keys_slave _ _ _ K2). apply (D2 _ _ (C2 m2 Hm2)). }
  split.
  { intros x Hx. destruct (HA x Hx) as [E|(m' & [<-|Hm'] & <-)]; [now left|now left|right; exists m'; tauto]. }
  split.
  { intros x Nx. rewrite E3 by exact Nx. destruct (Hun2 x) as [E|E]; [rewrite E; apply Hun; exact Nx|]. right. pose proof (reach_sub _ _ _ Hch _ _ E) as RM. split; [|eapply Acc_reach; eassumption].
    eapply reach_trans; [right; exists (md_coeff m); apply Hch; exact Ckm|exact RM]. }
  split.
  { intros x Dx. destruct (Z.eq_dec x k) as [->|Nx].
    - exfalso. apply (Dx _ _ (Hrest m (or_introl eq_refl))). apply (keys_slave _ _ _ K). exact Hs.
    - rewrite E3 by exact Nx. rewrite <- (Hdone x Dx). apply Hdone2. intros y c (q & m' & Hq & Hm' & Hy & Hc) Sy. rewrite (Hdone x Dx) in Hq. apply (Dx y c); [exists q, m'; tauto|]. apply (keys_slave _ _ _ K). exact Sy. }
  split; [|intros m' Hm'; apply Hrest; now right].
  intros NL u. rewrite <- Hob by exact NL. rewrite <- Hob2 by (intros a x c Hc; eapply NL; eapply chain_sub; eassumption).
  assert (u (dof_key dim m) = mpc_value dim u p2 -> mpc_value dim u (mkMpc sl' (kept ++ rest ++ added ++ new)) = mpc_value dim u (mkMpc sl (kept ++ (m :: rest) ++ added))) as HV.
  { intros Hu. unfold mpc_value in *. cbn [mp_slave mp_master]. replace new with (map (scaled (md_coeff m)) (mp_master p2)).
    - cbn [app]. rewrite !map_app. cbn [map]. rewrite !map_app. rewrite !Rsum_app. unfold sl'. cbn [md_coeff]. rewrite Rsum_cons, !Rsum_app. rewrite Hu. rewrite map_map.
      replace (Rsum (map (fun x => md_coeff (scaled (md_coeff m) x) * u (dof_key dim (scaled (md_coeff m) x)))%R (mp_master p2))) with (md_coeff m * Rsum (map (fun m1 => md_coeff m1 * u (dof_key dim m1)) (mp_master p2)))%R; [ring|].
      clear. induction (mp_master p2) as [|h t IH]; cbn [map]; [rewrite Rsum_nil; ring|]. rewrite !Rsum_cons, <- IH. change (dof_key dim (scaled (md_coeff m) h)) with (dof_key dim h). cbn [scaled md_coeff]. ring.
    - unfold new. symmetry. assert (forall m2, In m2 (mp_master p2) -> bigb (md_coeff (scaled (md_coeff m) m2)) = true) as Hb by (intros m2 Hm2; apply big_coeff; eapply NL; apply CH2; exact Hm2).
      clear -Hb. induction (mp_master p2) as [|h t IH]; cbn [map filter]; [reflexivity|]. rewrite (Hb h (or_introl eq_refl)). f_equal. apply IH. intros m2 Hm2. apply Hb. now right. }
  split; apply obeys_except; try (intros x Nx; rewrite E3 by exact Nx; reflexivity).
  - intros Ho q Hq. rewrite Hp in Hq. apply (f_equal (fun o => match o with Some q => q | None => q end)) in Hq. cbv beta iota in Hq. rewrite <- Hq. refine (eq_trans _ (HV _)); [apply Ho; exact Ek3|]. apply Ho. rewrite E3 by exact Nk. exact Hp2.
  - intros Ho q Hq. rewrite Ek3 in Hq. apply (f_equal (fun o => match o with Some q => q | None => q end)) in Hq. cbv beta iota in Hq. rewrite <- Hq. refine (eq_trans _ (eq_sym (HV _))); [apply Ho; exact Hp|]. apply Ho. exact Hp2.
Qed.
Lemma loop_inv todo : forall Mi kept rest added r, length rest = todo -> inv Mi kept rest added -> master_loop rec dim k todo (zlen kept) Mi = Some r ->
  exists M' kept' added', r = Ok M' /\ inv M' kept' [] added'.
Proof.
  induction todo as [|todo IH]; intros Mi kept rest added r HL I Hr; cbn [master_loop] in Hr.
  - injection Hr as <-. destruct rest; [|discriminate]. exists Mi, kept, added. split; [reflexivity|exact I].
  - destruct rest as [|m rest]; [discriminate|]. injection HL as HL. pose proof I as I0. destruct I as (K & W & Hch & (sl & Hk) & Hfree & HA & Hun & Hdone & Hob & Hrest). rewrite Hk in Hr. cbn [mp_master] in Hr. rewrite <- app_comm_cons in Hr. rewrite zget_mid in Hr.
    destruct (proj2 W k _ Hk) as [_ Wk]. specialize (Wk m). cbn [mp_master] in Wk. rewrite !in_app_iff in Wk. destruct Wk as [Wd Wc]; [right; left; now left|].
    destruct (Z.leb_spec 1 (md_dof m)); [|lia]. destruct (Z.leb_spec (md_dof m) dim); [|lia]. cbn [andb negb] in Hr. rewrite (proj2 (Rltb_true _ _) Wc) in Hr.
    unfold get_mpc in Hr. replace (md_node m * dim + (md_dof m - 1)) with (dof_key dim m) in Hr by (unfold dof_key; lia).
    destruct (mm_find Mi (dof_key dim m)) as [q|] eqn:Eq.
    + destruct (rec Mi (dof_key dim m)) as [r2|] eqn:Er; [|discriminate]. assert (slaveof Mi (dof_key dim m)) as Hs by (unfold slaveof; congruence).
      destruct (REC _ _ _ W Er Hs) as (M2 & -> & HP). assert (slaveof M2 k) as S1 by (apply (keys_slave Mi); [apply HP|]; unfold slaveof; congruence).
      assert (slaveof M2 (dof_key dim m)) as S2 by (apply (keys_slave Mi); [apply HP|exact Hs]). unfold slaveof in S1, S2. destruct (mm_find M2 k) as [p|] eqn:E1; [|congruence]. destruct (mm_find M2 (dof_key dim m)) as [p2|] eqn:E2; [|congruence].
      destruct (step_inv Mi kept m rest added M2 p p2 I0 Hs HP E1 E2) as (added' & I2). exact (IH _ _ _ _ _ HL I2 Hr).
    + replace (zlen kept + 1) with (zlen (kept ++ [m])) in Hr by (rewrite zlen_app; reflexivity). apply (IH Mi (kept ++ [m]) rest added r HL); [|exact Hr].
      assert (~ slaveof M (dof_key dim m)) as Ns by (rewrite <- (keys_slave _ _ _ K); unfold slaveof; tauto).
      unfold inv. split; [exact K|]. split; [exact W|]. split; [exact Hch|]. split; [exists sl; rewrite Hk; rewrite <- app_assoc; reflexivity|]. split.
      { intros m' [Hm'|Hm']; [|apply Hfree; now right]. apply in_app_iff in Hm'. destruct Hm' as [Hm'|[<-|[]]]; [apply Hfree; now left|exact Ns]. }
      split. { intros x Hx. destruct (HA x Hx) as [E|(m' & [<-|Hm'] & <-)]; [now left|left; apply no_successor; exact Ns|right; exists m'; tauto]. }
      split; [exact Hun|]. split; [exact Hdone|]. split; [exact Hob|]. intros m' Hm'. apply Hrest. now right.
Qed.
Lemma start_inv p : mm_find M k = Some p -> inv M [] (mp_master p) [].
Proof.
  intros Hp. unfold inv. split; [reflexivity|]. split; [exact WF|]. split; [intros a x c; apply chain_one|]. split; [exists (mp_slave p); rewrite Hp; cbn; rewrite app_nil_r; now destruct p|]. split; [intros m [[]|[]]|]. split.
  { intros x (c & q & m & Hq & Hm & Hx & _). rewrite Hp in Hq. injection Hq as <-. right. exists m. tauto. }
  split; [intros; now left|]. split; [intros; reflexivity|]. split; [intros; tauto|]. intros m Hm. exists p, m. tauto.
Qed.
Lemma end_post M' kept added : inv M' kept [] added -> slaveof M k -> post dim M k M'.
Proof.
  intros (K & W & Hch & (sl & Hk) & Hfree & HA & Hun & Hdone & Hob & Hrest) Hs. unfold post. split; [exact K|]. split; [exact W|]. split; [exact Hch|]. split.
  { constructor. intros x Hx. destruct (HA x Hx) as [E|(m & [] & _)]. exact E. }
  split. { intros x. destruct (Z.eq_dec x k) as [->|Nx]; [right; now left|]. destruct (Hun x Nx) as [E|[E _]]; [now left|now right]. }
  split. { intros y c (q & m & Hq & Hm & Hy & _). rewrite Hk in Hq. injection Hq as <-. cbn [mp_master app] in Hm. apply in_app_iff in Hm. rewrite (keys_slave _ _ _ K), <- Hy. apply Hfree. exact Hm. }
  split; [exact Hdone|exact Hob].
Qed.
End Loop.
Lemma resolve_post dim n : forall M k r, wf_mpcs dim M -> resolve n dim M k = Some r -> slaveof M k -> exists M', r = Ok M' /\ post dim M k M'.
Proof.
  induction n as [|n IH]; intros M k r W Hr Hs; [discriminate|]. cbn [resolve] in Hr. pose proof Hs as Hs0. unfold slaveof in Hs0. destruct (mm_find M k) as [p|] eqn:Ep; [|congruence].
  destruct (loop_inv dim M k (resolve n dim) IH _ M [] (mp_master p) [] r eq_refl (start_inv dim M k W p Ep) Hr) as (M' & kept & added & -> & I). exists M'. split; [reflexivity|]. eapply end_post; eassumption.
Qed.
