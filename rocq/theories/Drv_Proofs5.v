(* Printing the table; capillary pressure limits. *)
From Verif Require Import BaseFacts RBaseFacts Shape_Proofs2 Steady_Proofs Euler_Proofs2 Mload_Proofs Mload_Proofs2 Mload_Proofs3 Rprop_Proofs3 Hyb_Proofs8 Avg_Proofs Avg_Proofs2 Drv_Proofs2 Drv_Proofs3 Drv_Proofs4 Drv_Spec.
Open Scope Z_scope.

Lemma mapM_rget l n : 0 <= n <= zlen l -> exists out, mapM (rget l) (zrange 0 n) = Ok out /\ zlen out = n /\ forall i, 0 <= i < n -> nthR out i = nthR l i.
Proof.
  intros H. exists (map (nthR l) (zrange 0 n)). split; [|split].
  - apply mapM_all_Ok. intros i Hi. apply In_zrange in Hi. apply rget_Ok. apply zget_nthR. lia.
  - rewrite zlen_map, zlen_zrange by lia. lia.
  - intros i Hi. unfold nthR at 1. rewrite zget_map, zget_zrange by lia. reflexivity.
Qed.
Lemma print_row_ok o rocks s t maxsat r : 0 <= maxsat -> (o_end o = true -> o_ntg o = true -> o_upscale o = true) -> completes o s = true -> printable o s ->
  (forall c, In c (columns_of o) -> exists row, rget (t c) r = Ok row /\ entry_of o rocks c s row /\ (c = Rock -> zlen row <= maxsat)) ->
  exists row, print_row o t maxsat r = Ok row /\ row_of o rocks maxsat s row.
Proof.
  intros Hm Hn Cs (P1 & P2) H. set (d := datum o rocks s).
  assert (G : forall c, In c (columns_of o) -> c <> Pc -> c <> Rock -> cell_at t c r = Ok (d c)).
  { intros c Hc N1 N2. destruct (H c Hc) as (row & E & En & _). unfold cell_at. rewrite E. cbn [bind]. assert (row = [d c]) as -> by (destruct c; try exact En; congruence). reflexivity. }
  assert (GM : forall l, (forall c, In c l -> In c (columns_of o) /\ c <> Pc /\ c <> Rock) -> mapM (fun c => cell_at t c r) l = Ok (map d l)).
  { intros l Hl. apply mapM_all_Ok. intros c Hc. destruct (Hl c Hc) as (A & B & C). exact (G c A B C). }
  unfold print_row. cbv zeta.
  assert (A : exists a, (if o_upscale o then
      let* p := mapM (fun c => cell_at t c r) ([Poro] ++ if o_ntg o then [NetPoro; Ntg] else []) in
      let* k := mapM (fun c => cell_at t c r) ([Kx; Ky; Kz] ++ if o_periodic o then [Kyz; Kxz; Kxy] else []) in
      let* h := if o_ntg o then let* x := cell_at t Kx r in let* y := cell_at t Ky r in let* n := cell_at t Ntg r in let* q := mdiv (x + y) (2 * n) in Ok [q] else Ok [] in
      let* w := mapM (fun c => cell_at t c r) ((if o_swcr o then [Swcr] else []) ++ (if o_sowcr o then [Sowcr] else [])) in
      Ok (p ++ k ++ h ++ w) else Ok []) = Ok a /\
    a = (if o_upscale o then [d Poro] ++ (if o_ntg o then [d NetPoro; d Ntg] else []) ++ [d Kx; d Ky; d Kz] ++ (if o_periodic o then [d Kyz; d Kxz; d Kxy] else []) ++
     (if o_ntg o then [((d Kx + d Ky) / (2 * d Ntg))%R] else []) ++ (if o_swcr o then [d Swcr] else []) ++ (if o_sowcr o then [d Sowcr] else []) else [])).
  { eexists. split; [|reflexivity]. destruct (o_upscale o) eqn:U; [|reflexivity].
    assert (In_up : forall c, In c ([Poro] ++ (if o_ntg o then [NetPoro; Ntg] else []) ++ (if o_swcr o then [Swcr] else []) ++ (if o_sowcr o then [Sowcr] else []) ++ [Kx; Ky; Kz; Kyz; Kxz; Kxy]) -> In c (columns_of o)).
    { intros c Hc. unfold columns_of. rewrite U. apply in_app_iff. left. exact Hc. }
    assert (Hntg : o_ntg o = true -> d Ntg <> 0%R).
    { intros Nt. unfold d, datum. cbn. assert (S' : is_some (s_ntg s) = true).
      { unfold completes in Cs. rewrite forallb_forall in Cs. apply (Cs ([Ntg], is_some (s_ntg s))). unfold stages, up_stages. rewrite U, Nt. apply in_app_iff. left. right. right. right. left. reflexivity. }
      destruct (s_ntg s) as [x|]; [|discriminate]. cbn. intros ->. exact (P1 eq_refl Nt eq_refl). }
    rewrite GM, GM, GM.
    - rewrite (G Kx), (G Ky) by (try discriminate; apply In_up; rewrite !in_app_iff; cbn; auto 10). cbn [bind]. destruct (o_ntg o) eqn:Nt.
      + rewrite (G Ntg) by (try discriminate; apply In_up; cbn; auto 10). cbn [bind]. rewrite mdiv_ok by (specialize (Hntg eq_refl); lra). cbn [bind]. destruct (o_periodic o), (o_swcr o), (o_sowcr o); reflexivity.
      + cbn [bind]. destruct (o_periodic o), (o_swcr o), (o_sowcr o); reflexivity.
    - intros c Hc. split; [|destruct (o_swcr o), (o_sowcr o); cbn in Hc; intuition (subst; discriminate)]. apply In_up. rewrite !in_app_iff in *. tauto.
    - intros c Hc. split; [|destruct (o_periodic o); cbn in Hc; intuition (subst; discriminate)]. apply In_up. rewrite !in_app_iff. destruct (o_periodic o); cbn in Hc |- *; intuition.
    - intros c Hc. split; [|destruct (o_ntg o); cbn in Hc; intuition (subst; discriminate)]. apply In_up. rewrite !in_app_iff in *. tauto. }
  destruct A as (a & -> & Ea). cbn [bind].
  assert (B : exists pc, (if o_end o then
      let* p := if o_upscale o then Ok [] else mapM (fun c => cell_at t c r) ([Poro] ++ if o_ntg o then [NetPoro; Ntg] else []) in
      let* e := mapM (fun c => cell_at t c r) [Swir; Swor] in
      let* pc := if o_cappres o then let* l := rget (t Pc) r in mapM (rget l) (zrange 0 5) else Ok [] in
      Ok (p ++ e ++ pc) else Ok []) = Ok (if o_end o then (if o_upscale o then [] else [d Poro]) ++ [d Swir; d Swor] ++ (if o_cappres o then pc else []) else []) /\
    (o_end o = true -> o_cappres o = true -> zlen pc = 5 /\ exists f x y, s_pc s = Some f /\ forall i, 0 <= i < 5 -> nthR pc i = nthR (f x y (d Swir) (d Swor)) i)).
  { destruct (o_end o) eqn:En; [|exists []; split; [reflexivity|discriminate]].
    assert (In_end : forall c, In c ((if o_upscale o then [] else [Poro]) ++ [Swir; Swor] ++ (if o_cappres o then [Pc] else [])) -> In c (columns_of o)).
    { intros c Hc. unfold columns_of. rewrite En. apply in_app_iff. right. apply in_app_iff. left. exact Hc. }
    rewrite (GM [Swir; Swor]) by (intros c Hc; split; [apply In_end; rewrite !in_app_iff; tauto|cbn in Hc; intuition (subst; discriminate)]).
    assert (Pq : (if o_upscale o then Ok [] else mapM (fun c => cell_at t c r) ([Poro] ++ if o_ntg o then [NetPoro; Ntg] else [])) = Ok (if o_upscale o then [] else [d Poro])).
    { destruct (o_upscale o) eqn:U; [reflexivity|]. destruct (o_ntg o) eqn:Nt; [specialize (Hn eq_refl eq_refl); discriminate|]. cbn [app]. rewrite GM; [reflexivity|]. intros c [<-|[]]. split; [apply In_end; cbn; auto|split; discriminate]. }
    rewrite Pq. cbn [bind]. destruct (o_cappres o) eqn:Cp; [|exists []; split; [reflexivity|discriminate]].
    destruct (H Pc) as (row & E & (f & x & y & F1 & F2) & _); [apply In_end; rewrite !in_app_iff; cbn; auto|]. rewrite E. cbn [bind].
    destruct (mapM_rget row 5) as (out & Eo & Lo & No); [subst row; specialize (P2 f x y (datum o rocks s Swir) (datum o rocks s Swor) F1); lia|]. rewrite Eo. cbn [bind]. exists out. split; [reflexivity|]. intros _ _. split; [exact Lo|]. exists f, x, y. split; [exact F1|]. subst row. exact No. }
  destruct B as (pc & -> & Epc). cbn [bind].
  assert (C : (if o_dips o then mapM (fun c => cell_at t c r) [Dip; Azim] else Ok []) = Ok (if o_dips o then [d Dip; d Azim] else [])).
  { destruct (o_dips o) eqn:Dp; [|reflexivity]. rewrite GM; [reflexivity|]. intros c Hc. split; [|cbn in Hc; intuition (subst; discriminate)]. unfold columns_of. rewrite Dp, !in_app_iff. tauto. }
  rewrite C. cbn [bind].
  assert (Dq : exists rock, (if o_satvol o then let* l := rget (t Rock) r in mapM (rget (l ++ zrepeat 0%R (maxsat - zlen l))) (zrange 0 maxsat) else Ok []) = Ok (if o_satvol o then rock else []) /\
    (o_satvol o = true -> zlen rock = maxsat /\ exists cells, s_sat s = Some cells /\ (Rsum (map snd cells) <> 0%R -> fractions cells rock))).
  { destruct (o_satvol o) eqn:Sv; [|exists []; split; [reflexivity|discriminate]].
    destruct (H Rock) as (row & E & (cells & S1 & S2) & Lr); [unfold columns_of; rewrite Sv, !in_app_iff; cbn; auto|]. specialize (Lr eq_refl). rewrite E. cbn [bind]. set (l := row ++ zrepeat 0%R (maxsat - zlen row)).
    assert (Ll : zlen l = maxsat) by (unfold l; rewrite zlen_app, zlen_zrepeat by lia; lia). destruct (mapM_rget l maxsat) as (out & Eo & Lo & No); [lia|]. rewrite Eo. exists out. split; [reflexivity|]. intros _. split; [exact Lo|]. exists cells. split; [exact S1|].
    intros N. destruct (S2 N) as [F1 F2]. assert (out = l) as -> by (apply nthR_ext; [lia|intros i Hi; apply No; lia]). split; [|unfold l; rewrite Rsum_zeros; exact F2]. intros tt Ht. rewrite <- (F1 tt Ht). apply nthR_zeros. }
  destruct Dq as (rock & -> & Er). cbn [bind]. eexists. split; [reflexivity|]. exists pc, rock. split; [|split; [exact Epc|exact Er]]. rewrite Ea. reflexivity.
Qed.
Lemma filter_tidy o c ss : (forall s, In s ss -> tidy o s) -> In c (columns_of o) -> filter (reaches o c) ss = filter (completes o) ss.
Proof.
  intros H Hc. apply filter_ext_in. intros s Hs. destruct (H s Hs) as [C|C].
  - rewrite (completes_reaches o s c C), C. apply col_in_In. exact Hc.
  - rewrite C. destruct (completes o s) eqn:Q; [|reflexivity]. rewrite <- (C c), (completes_reaches o s c Q). apply col_in_In. exact Hc.
Qed.
Lemma table_printed o rocks ss t : subsamples o rocks ss = Ok t -> (o_end o = true -> o_ntg o = true -> o_upscale o = true) ->
  (forall s, In s ss -> tidy o s) -> (forall s, In s ss -> completes o s = true -> printable o s) ->
  exists rows, print_rows o t = Ok rows /\ Forall2 (row_of o rocks (t_max t)) (filter (completes o) ss) rows.
Proof.
  intros E Hn T P. destruct (subsamples_inv _ _ _ _ E) as (D & (F1 & F2) & C). unfold print_rows.
  assert (Row : forall r s, zget (filter (completes o) ss) r = Some s -> exists row, print_row o (t_cols t) (t_max t) r = Ok row /\ row_of o rocks (t_max t) s row).
  { intros r s Hs. pose proof (zget_In _ _ _ Hs) as Hin. apply filter_In in Hin. destruct Hin as [Hin Cs]. apply print_row_ok; try assumption; [exact (P s Hin Cs)|].
    intros c Hc. specialize (C c). rewrite (filter_tidy o c ss T Hc) in C. destruct (Forall2_zget _ _ _ C r s Hs) as (row & Er & Qr). exists row. split; [apply rget_Ok; exact Er|]. split; [exact Qr|]. intros ->. apply F2. exact (zget_In _ _ _ Er). }
  rewrite D. clear -Row. revert Row. generalize (filter (completes o) ss) as l. generalize (print_row o (t_cols t) (t_max t)) as f. generalize (row_of o rocks (t_max t)) as Q. clear. intros Q f l Row.
  assert (G : forall (m : list sample) off, (forall r s, zget m r = Some s -> exists row, f (off + r) = Ok row /\ Q s row) -> exists rows, mapM f (zrange off (off + zlen m)) = Ok rows /\ Forall2 Q m rows).
  { induction m as [|x m IH]; intros off Hm.
    - exists []. change (zlen (@nil sample)) with 0. rewrite zrange_empty by lia. split; [reflexivity|constructor].
    - assert (Lx : zlen (x :: m) = 1 + zlen m) by (unfold zlen; cbn [List.length]; lia). rewrite Lx, zrange_cons by (pose proof (zlen_nonneg m); lia). cbn [mapM]. destruct (Hm 0 x eq_refl) as (row & E1 & Q1). rewrite Z.add_0_r in E1. rewrite E1. cbn [bind].
      destruct (IH (off + 1)) as (rows & E2 & Q2). { intros r s Hr. destruct (Hm (r + 1) s) as (row' & E3 & Q3); [pose proof (zget_Some_range _ _ _ Hr); change (x :: m) with ([x] ++ m); rewrite zget_app_r by (change (zlen [x]) with 1; lia); change (zlen [x]) with 1; replace (r + 1 - 1) with r by lia; exact Hr|]. exists row'. replace (off + 1 + r) with (off + (r + 1)) by lia. auto. }
      replace (off + (1 + zlen m)) with (off + 1 + zlen m) by lia. rewrite E2. cbn [bind]. exists (row :: rows). split; [reflexivity|constructor; assumption]. }
  destruct (G l 0) as (rows & E1 & Q1); [intros r s Hr; rewrite Z.add_0_l; exact (Row r s Hr)|]. rewrite Z.add_0_l in E1. exists rows. auto.
Qed.
