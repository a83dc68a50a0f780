From Verif Require Import BaseFacts RBaseFacts Bgrid_Proofs Steady_Proofs Shape_Proofs2 Relp_Spec Relp_Proofs3 Drv_Proofs2 Cap_Proofs3 Cap_Proofs4 Cap_Proofs5 Cap_Proofs7 Cap_Spec.
Open Scope Z_scope.

Lemma cond_sat x cells tol l p : proper x cells -> cap_limits x tol cells = Ok l ->
  exists s, cond_values x l (map fst cells) p = Ok (s, tt) /\
    (s * sum_cells (pore_of x) (rocky x cells) = sum_cells (fun cv => water_sat x p (fst cv) * pore_of x cv) (rocky x cells))%R.
Proof.
  intros Pr H. destruct (limits_inv x cells tol l Pr H) as (Po & P0 & _ & _ & _ & Lp & Gc & _). unfold cond_values.
  match goal with |- context [foldM ?f _ _] => set (F := f) end.
  assert (G : forall todo done, cells = done ++ todo -> forall w, foldM F (map fst todo) w = Ok (w + sum_cells (fun cv => water_sat x p (fst cv) * pore_of x cv) (rocky x todo))%R).
  { induction todo as [|[c v] todo IH]; intros done Hall w.
    - cbn. unfold sum_cells. cbn. rewrite Rsum_nil, Rplus_0_r. reflexivity.
    - cbn [map foldM fst]. assert (I : In (c, v) cells) by (rewrite Hall; apply in_or_app; right; now left).
      assert (Hc : 0 <= c < zlen (ci_sat x)) by (destruct Pr as (_ & _ & _ & _ & Q & _); now apply (Q (c, v))). destruct (sat_get x cells Pr c Hc) as [Es Hs].
      assert (St : F w c = Ok (w + if 0 <? sat_of x c then water_sat x p c * pore_of x (c, v) else 0)%R).
      { unfold F. rewrite Es. cbn [bind]. destruct (0 <? sat_of x c) eqn:E0.
        - apply Z.ltb_lt in E0. rewrite (j_sat_ok x cells p Pr c Hc E0). cbn [bind].
          assert (Ir : In (c, v) (rocky x cells)) by (apply filter_In; split; [exact I|now apply Z.ltb_lt]). destruct (Gc _ Ir) as [_ G2]. cbn [fst] in G2. rewrite (proj2 (rget_Ok _ _ _) G2). reflexivity.
        - cbn [bind]. destruct (rget_range (li_pv l) c) as (q & -> & _); [lia|]. cbn [bind]. f_equal. lra. }
      rewrite St. cbn [bind]. rewrite (IH (done ++ [(c, v)])) by (rewrite <- app_assoc; exact Hall). f_equal.
      change (rocky x ((c, v) :: todo)) with (if 0 <? sat_of x c then (c, v) :: rocky x todo else rocky x todo). destruct (0 <? sat_of x c); unfold sum_cells; cbn [map]; rewrite ?Rsum_cons; cbn [fst]; lra. }
  rewrite (G cells [] eq_refl). cbn [bind]. assert (N : li_pore l <> 0%R) by lra. rewrite mdiv_ok by exact N. cbn [bind]. eexists. split; [reflexivity|].
  rewrite <- Po. field. exact N.
Qed.
Lemma cond_sat_balance x cells tol l p : proper x cells -> cap_limits x tol cells = Ok l ->
  (forall cv, In cv (rocky x cells) -> (/ 10000000000 < snd cv)%R) ->
  exists s rs, cond_values x l (map fst cells) p = Ok (s, tt) /\ cap_values x l p = Ok (s, rs).
Proof.
  intros Pr H B. destruct (cond_sat x cells tol l p Pr H) as (s & Es & S1). destruct (cap_values_spec x cells tol l p Pr H) as (s' & rs & Ec & S2 & _). exists s, rs. split; [exact Es|].
  rewrite Ec. f_equal. f_equal. rewrite all_big in S2 by exact B. destruct (limits_inv x cells tol l Pr H) as (Po & P0 & _). rewrite <- Po in S1, S2. apply Rmult_eq_reg_r with (li_pore l); lra.
Qed.
Lemma helper_table h pv pore fuel swir swor pcmin pcmax t : (pcmin < pcmax)%R -> (swir < swor)%R ->
  tabulate fuel (helper_sat h pv pore) swir swor pcmin pcmax 500 = Ok (Some t) ->
  ordered t /\ forall p s u, In (p, (s, u)) t -> (pcmin <= p <= pcmax)%R /\ sweep_sat h pv pore p = Ok (Some s).
Proof.
  intros P Sw H. assert (L : (1 < 500)%R) by lra. destruct (tab_values _ _ _ _ _ _ _ _ P Sw L H) as (O & V & _). split; [exact O|]. intros p s u I. destruct (V _ I) as [R E]. split; [exact R|]. cbn [fst snd] in E.
  unfold helper_sat in E. destruct (sweep_sat h pv pore p) as [[s'|]| |]; cbn [bind] in E; try discriminate. injection E as E _. now subst.
Qed.
Lemma elements s n : element_count s = Ok n <-> (exists t, s = String "f" t /\ n = 3) \/ (exists t, (s = String "l" t \/ s = String "p" t) /\ n = 9).
Proof.
  split.
  - intros H. destruct s as [|c t]; [discriminate|]. destruct c as [[] [] [] [] [] [] [] []]; try discriminate; cbn in H; injection H as <-; eauto 6.
  - intros [(t & -> & ->)|(t & [-> | ->] & ->)]; reflexivity.
Qed.
