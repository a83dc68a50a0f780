From Verif Require Import BaseFacts RBaseFacts Bgrid_Proofs Steady_Proofs Shape_Proofs2 Relp_Spec Relp_Proofs3 Drv_Proofs2 Mpi_Spec Mpi_Proofs Cap_Proofs4 Cap_Proofs5 Cap_Proofs6 Cap_Spec.
Open Scope Z_scope.

(* ---- Archie *)
Lemma cpow_pos b e : (0 < b)%R -> cpow b e = Ok (Rpower b e).
Proof. intros H. unfold cpow. rewrite Rltb_f by lra. destruct (Req_EM_T b 0); [lra|reflexivity]. Qed.
Lemma Rpower_pos b e : (0 < Rpower b e)%R.
Proof. apply exp_pos. Qed.
Lemma exponents_get given global m i : 1 <= i <= m -> zget (exponents given global m) i = Some (if Rltb 0 (given i) then given i else global).
Proof.
  intros H. unfold exponents. change (?a :: ?l) with ([a] ++ l). rewrite zget_app_r by (unfold zlen; cbn; lia). change (zlen [0%R]) with 1. rewrite zget_map, zget_zrange by lia. cbn [option_map]. replace (1 + (i - 1)) with i by lia. reflexivity.
Qed.
Lemma mud a s po sw : s = ar_m1 a \/ s = ar_m2 a -> cell_resistivity a s po sw = Ok (ar_mud a).
Proof. intros H. unfold cell_resistivity. assert (E : (s =? ar_m1 a) || (s =? ar_m2 a) = true) by (apply Bool.orb_true_iff; rewrite !Z.eqb_eq; exact H). now rewrite E. Qed.
Lemma resistivity_ok a s po sw : s <> ar_m1 a -> s <> ar_m2 a -> 0 <= s < zlen (ar_cem a) -> s < zlen (ar_sexp a) -> (0 < po)%R -> (0 < sw)%R ->
  cell_resistivity a s po sw = Ok (archie_law (ar_a a) (ar_rw a) po (nthR (ar_cem a) s) sw (nthR (ar_sexp a) s) (ar_cut a)).
Proof.
  intros H1 H2 L1 L2 P S. unfold cell_resistivity. assert (E : (s =? ar_m1 a) || (s =? ar_m2 a) = false) by (apply Bool.orb_false_iff; rewrite !Z.eqb_neq; now split). rewrite E.
  rewrite (proj2 (rget_Ok _ _ _) (zget_nthR (ar_cem a) s ltac:(lia))), (proj2 (rget_Ok _ _ _) (zget_nthR (ar_sexp a) s ltac:(lia))). cbn [bind]. rewrite (cpow_pos po) by exact P. cbn [bind].
  pose proof (Rpower_pos po (nthR (ar_cem a) s)) as Q1. pose proof (Rpower_pos sw (nthR (ar_sexp a) s)) as Q2. rewrite mdiv_ok by lra. cbn [bind]. rewrite (cpow_pos sw) by exact S. cbn [bind].
  destruct (Req_EM_T (Rpower sw (nthR (ar_sexp a) s)) 0); [lra|]. rewrite smin_Rmin. unfold archie_law. rewrite !Rpower_Ropp. reflexivity.
Qed.
Lemma resistivity_dry a s po : s <> ar_m1 a -> s <> ar_m2 a -> 0 <= s < zlen (ar_cem a) -> s < zlen (ar_sexp a) -> (0 < po)%R -> (0 < ar_a a * ar_rw a)%R -> (0 < nthR (ar_sexp a) s)%R ->
  cell_resistivity a s po 0 = Ok (ar_cut a).
Proof.
  intros H1 H2 L1 L2 P A N. unfold cell_resistivity. assert (E : (s =? ar_m1 a) || (s =? ar_m2 a) = false) by (apply Bool.orb_false_iff; rewrite !Z.eqb_neq; now split). rewrite E.
  rewrite (proj2 (rget_Ok _ _ _) (zget_nthR (ar_cem a) s ltac:(lia))), (proj2 (rget_Ok _ _ _) (zget_nthR (ar_sexp a) s ltac:(lia))). cbn [bind]. rewrite (cpow_pos po) by exact P. cbn [bind].
  pose proof (Rpower_pos po (nthR (ar_cem a) s)) as Q1. rewrite mdiv_ok by lra. cbn [bind].
  assert (Z : cpow 0 (nthR (ar_sexp a) s) = Ok 0%R).
  { unfold cpow. rewrite Rltb_f by lra. destruct (Req_EM_T 0 0) as [_|Ne]; [|now contradiction Ne]. rewrite Rltb_f by lra. destruct (Req_EM_T (nthR (ar_sexp a) s) 0); [lra|reflexivity]. }
  rewrite Z. cbn [bind]. destruct (Req_EM_T 0 0) as [_|Ne]; [|now contradiction Ne]. rewrite Rltb_t; [reflexivity|]. apply Rdiv_lt_0_compat; [exact A|exact Q1].
Qed.
Lemma archie_bounds a rw po m sw n cut : (0 < a * rw)%R -> (0 < cut)%R -> (0 < archie_law a rw po m sw n cut <= cut)%R.
Proof.
  intros A C. unfold archie_law. split; [|apply Rmin_r]. apply Rmin_glb_lt; [|exact C]. apply Rmult_lt_0_compat; [apply Rmult_lt_0_compat; [exact A|apply exp_pos]|apply exp_pos].
Qed.
Lemma archie_wetter a rw po m sw sw' n cut : (0 <= a * rw)%R -> (0 <= n)%R -> (0 < sw <= sw')%R -> (archie_law a rw po m sw' n cut <= archie_law a rw po m sw n cut)%R.
Proof.
  intros A N H. unfold archie_law. apply Rle_min_compat_r. apply Rmult_le_compat_l; [apply Rmult_le_pos; [exact A|apply Rlt_le, exp_pos]|]. rewrite !Rpower_Ropp. apply Rinv_le_contravar; [apply exp_pos|]. now apply Rle_Rpower_l.
Qed.
(* conductivities and water volume *)
Lemma cond_cells_ok x cells tol l a p : proper x cells -> cap_limits x tol cells = Ok l -> archie_fit x a ->
  (forall cv, In cv (rocky x cells) -> forall j, (0 <= cv_eval (curve_at x (fst cv)) j)%R) ->
  cond_cells x l a (map fst cells) p =
    Ok (sum_cells (fun cv => water_sat x p (fst cv) * pore_of x cv)%R (rocky x cells), map (fun cv => (1 / cell_ohm x a p (fst cv))%R) cells).
Proof.
  intros Pr H (A & C & M & L1 & L2 & N) W. destruct (limits_inv x cells tol l Pr H) as (_ & _ & _ & _ & _ & Lp & Gc & _). unfold cond_cells.
  match goal with |- foldM ?f _ _ = _ => set (F := f) end.
  assert (G : forall todo done, cells = done ++ todo -> forall w gs, foldM F (map fst todo) (w, gs) = Ok ((w + sum_cells (fun cv => water_sat x p (fst cv) * pore_of x cv) (rocky x todo))%R, gs ++ map (fun cv => (1 / cell_ohm x a p (fst cv))%R) todo)).
  { induction todo as [|[c v] todo IH]; intros done Hall w gs.
    - cbn. rewrite app_nil_r. unfold sum_cells. cbn. rewrite Rsum_nil, Rplus_0_r. reflexivity.
    - cbn [map foldM fst]. assert (I : In (c, v) cells) by (rewrite Hall; apply in_or_app; right; now left).
      assert (Hc : 0 <= c < zlen (ci_sat x)) by (destruct Pr as (_ & _ & _ & _ & Q & _); now apply (Q (c, v))). destruct (sat_get x cells Pr c Hc) as [Es Hs].
      assert (St : F (w, gs) c = Ok ((w + if 0 <? sat_of x c then water_sat x p c * pore_of x (c, v) else 0)%R, gs ++ [(1 / cell_ohm x a p c)%R])).
      { unfold F. rewrite Es. cbn [bind]. unfold cell_ohm. destruct (0 <? sat_of x c) eqn:E0.
        - apply Z.ltb_lt in E0. rewrite (j_sat_ok x cells p Pr c Hc E0). cbn [bind].
          assert (Ir : In (c, v) (rocky x cells)) by (apply filter_In; split; [exact I|now apply Z.ltb_lt]). destruct (Gc _ Ir) as [_ G2]. cbn [fst] in G2. rewrite (proj2 (rget_Ok _ _ _) G2). cbn [bind].
          destruct (lev_get x cells Pr c Hc E0) as (Ep & _). rewrite Ep. cbn [bind]. destruct (rocky_in x cells Pr _ Ir) as (_ & _ & _ & _ & Po & _). cbn [fst] in Po.
          pose proof (W _ Ir (j_of_pc x c p)) as Wp. cbn [fst] in Wp. change (cv_eval (curve_at x c) (j_of_pc x c p)) with (water_sat x p c) in Wp.
          destruct ((sat_of x c =? ar_m1 a) || (sat_of x c =? ar_m2 a)) eqn:Em.
          + rewrite mud by (apply Bool.orb_true_iff in Em; rewrite !Z.eqb_eq in Em; exact Em). cbn [bind]. rewrite mdiv_ok by lra. reflexivity.
          + apply Bool.orb_false_iff in Em. rewrite !Z.eqb_neq in Em. destruct Em as [Em1 Em2]. destruct (Req_EM_T (water_sat x p c) 0) as [D|D].
            * rewrite D. rewrite resistivity_dry; try assumption; try lia; [|apply N; lia]. cbn [bind]. rewrite mdiv_ok by lra. reflexivity.
            * rewrite resistivity_ok; try assumption; try lia; [|lra]. cbn [bind]. rewrite mdiv_ok; [reflexivity|].
              pose proof (archie_bounds (ar_a a) (ar_rw a) (nthR (ci_poro x) c) (nthR (ar_cem a) (sat_of x c)) (water_sat x p c) (nthR (ar_sexp a) (sat_of x c)) (ar_cut a) A C). lra.
        - rewrite mdiv_ok by lra. cbn [bind fst snd]. now rewrite Rplus_0_r. }
      rewrite St. cbn [bind]. rewrite (IH (done ++ [(c, v)])) by (rewrite <- app_assoc; exact Hall). f_equal. f_equal.
      + change (rocky x ((c, v) :: todo)) with (if 0 <? sat_of x c then (c, v) :: rocky x todo else rocky x todo). destruct (0 <? sat_of x c); unfold sum_cells; cbn [map]; rewrite ?Rsum_cons; cbn [fst]; lra.
      + rewrite <- app_assoc. reflexivity. }
  rewrite (G cells [] eq_refl). now rewrite Rplus_0_l.
Qed.
Lemma cell_ohm_bounds x a p c : archie_fit x a -> (ar_mud a <= ar_cut a)%R -> (0 < cell_ohm x a p c <= ar_cut a)%R.
Proof.
  intros (A & C & M & _) Mc. unfold cell_ohm. destruct (0 <? _); [|lra]. destruct (_ || _); [lra|]. destruct (Req_EM_T _ 0); [lra|]. now apply archie_bounds.
Qed.
Lemma archie_init_ok cut mudr m1 m2 a rw cem sexp gcem gsat maxsat : (0 < rw)%R -> exists ar, archie_init cut mudr m1 m2 a rw cem sexp gcem gsat maxsat = Ok ar /\
  ar_cut ar = cut /\ ar_mud ar = mudr /\ ar_m1 ar = m1 /\ ar_m2 ar = m2 /\ ar_a ar = a /\ ar_rw ar = rw /\
  forall i, 1 <= i <= maxsat -> nthR (ar_cem ar) i = (if Rltb 0 (gcem i) then gcem i else cem) /\ nthR (ar_sexp ar) i = (if Rltb 0 (gsat i) then gsat i else sexp).
Proof.
  intros H. unfold archie_init. rewrite Rltb_t by exact H. eexists. split; [reflexivity|]. cbn [ar_cut ar_mud ar_m1 ar_m2 ar_a ar_rw ar_cem ar_sexp]. do 6 (split; [reflexivity|]).
  intros i Hi. split; apply nthR_get, exponents_get, Hi.
Qed.
Lemma archie_init_rejects cut mudr m1 m2 a rw cem sexp gcem gsat maxsat : (rw <= 0)%R -> archie_init cut mudr m1 m2 a rw cem sexp gcem gsat maxsat = Throw.
Proof. intros H. unfold archie_init. now rewrite Rltb_f by lra. Qed.

(* ---- pressure points *)
Lemma points_ok pc swir swor n : 2 <= n -> exists ps, pressure_points pc swir swor n = Ok ps /\ zlen ps = n /\
  forall i, 0 <= i < n -> nthR ps i = pc (swir + (swor - swir) * IZR i / IZR (n - 1))%R.
Proof.
  intros Hn. assert (N0 : (IZR (n - 1) <> 0)%R) by (apply not_0_IZR; lia). unfold pressure_points.
  rewrite (mapM_all_Ok _ (fun i => pc (swir + (swor - swir) / IZR (n - 1) * IZR (i - 1))%R)) by (intros i _; rewrite mdiv_ok by exact N0; reflexivity).
  eexists. split; [reflexivity|]. split; [rewrite zlen_map, zlen_zrange; lia|]. intros i Hi. apply nthR_get. rewrite zget_map, zget_zrange by lia. cbn [option_map]. do 2 f_equal. replace (1 + i - 1) with i by lia. field. exact N0.
Qed.
Lemma points_one pc swir swor : pressure_points pc swir swor 1 = UB.
Proof. unfold pressure_points. change (zrange 1 (1 + 1)) with [1]. cbn [mapM]. change (1 - 1) with 0. now rewrite mdiv_0. Qed.

(* ---- processes *)
Lemma foldM_Ok_inv {A S} (f : S -> A -> res S) (P : list A -> S -> Prop) l s s' : P [] s ->
  (forall done a rest s s', l = done ++ a :: rest -> P done s -> f s a = Ok s' -> P (done ++ [a]) s') -> foldM f l s = Ok s' -> P l s'.
Proof.
  intros H0 St. assert (G : forall todo done s, l = done ++ todo -> P done s -> foldM f todo s = Ok s' -> P (done ++ todo) s').
  { induction todo as [|a t IH]; intros done s1 Hin HP E; cbn in E.
    - injection E as <-. now rewrite app_nil_r.
    - destruct (f s1 a) as [s2| |] eqn:E1; try discriminate. cbn in E. replace (done ++ a :: t) with ((done ++ [a]) ++ t) by (rewrite <- app_assoc; reflexivity).
      eapply IH; [rewrite <- app_assoc; exact Hin|eapply St; eauto|exact E]. }
  intros E. exact (G l [] s eq_refl H0 E).
Qed.
Lemma rset_zget {A} (l l' : list A) i v : rset l i v = Ok l' -> zlen l' = zlen l /\ zget l' i = Some v /\ forall j, j <> i -> zget l' j = zget l j.
Proof.
  intros E. apply rset_inv in E. tauto.
Qed.
Lemma rank_own x l a ecl up inv tec n rank ps g0 ar : 0 <= tec -> rank_arrays x l a ecl up inv tec n rank ps g0 = Ok ar ->
  arrays_ok false tec (zlen ps) ar /\
  forall i p, zget ps i = Some p -> mpi_node n i = rank -> exists s row, point_result x l a ecl up inv tec p = Ok (s, row) /\ zget (ar_ws ar) i = Some s /\ zget (ar_p0 ar) i = Some row.
Proof.
  intros Ht H. unfold rank_arrays in H. destruct (foldM _ _ _) as [st| |] eqn:E; try discriminate. cbn [bind] in H. injection H as <-. pose proof (zlen_nonneg ps) as Hp.
  pose (P := fun (done : list Z) (st : (list R * list (list R)) * (R * list R)) => zlen (fst (fst st)) = zlen ps /\ zlen (snd (fst st)) = zlen ps /\ (forall r, In r (snd (fst st)) -> zlen r = tec) /\
     forall i p, In i done -> zget ps i = Some p -> mpi_node n i = rank -> exists s row, point_result x l a ecl up inv tec p = Ok (s, row) /\ zget (fst (fst st)) i = Some s /\ zget (snd (fst st)) i = Some row).
  assert (Q : P (zrange 0 (zlen ps)) st).
  { eapply (foldM_Ok_inv _ P); [| |exact E]; unfold P; cbn [fst snd].
    - split; [now rewrite zlen_zrepeat|]. split; [now rewrite zlen_zrepeat|]. split; [|intros i p []]. intros r I. apply repeat_spec in I. subst r. now rewrite zlen_zrepeat.
    - intros done idx rest [[ws rows] wg] s' Hall (P1 & P2 & P3 & P4) St. cbn [fst snd] in *. unfold rank_step in St. cbn [fst snd] in St.
      assert (Hi : 0 <= idx < zlen ps) by (apply In_zrange; rewrite Hall; apply in_or_app; right; now left).
      assert (Fresh : ~ In idx done). { pose proof (zrange_NoDup 0 (zlen ps)) as Nd. rewrite Hall in Nd. apply NoDup_remove_2 in Nd. intros I. apply Nd. apply in_or_app. now left. }
      destruct (if mpi_node n idx =? rank then let* p := rget ps idx in cond_cells x l a ecl p else Ok wg) as [wg'| |] eqn:Ew; try discriminate. cbn [bind] in St.
      destruct (up (snd wg')) as [k| |] eqn:Eu; try discriminate. cbn [bind] in St. destruct (mdiv (fst wg') (li_pore l)) as [s| |] eqn:Es; try discriminate. cbn [bind] in St.
      destruct (rset ws idx s) as [ws'| |] eqn:E1; try discriminate. cbn [bind] in St. destruct (inv k) as [r| |] eqn:Ei; try discriminate. cbn [bind] in St.
      destruct (mapM (get_voigt r) (zrange 0 tec)) as [row| |] eqn:Er; try discriminate. cbn [bind] in St. destruct (rset rows idx row) as [rows'| |] eqn:E2; try discriminate. cbn [bind] in St.
      injection St as <-. cbn [fst snd]. destruct (rset_zget _ _ _ _ E1) as (L1 & G1 & O1). destruct (rset_zget _ _ _ _ E2) as (L2 & G2 & O2).
      split; [lia|]. split; [lia|]. split.
      + intros q I. apply In_zget in I. destruct I as (j & Rj & Ej). destruct (Z.eq_dec j idx) as [-> | Nj].
        * rewrite G2 in Ej. injection Ej as <-. apply mapM_Ok in Er. unfold zlen. rewrite <- (Forall2_length' _ _ _ Er), zrange_length. lia.
        * rewrite O2 in Ej by exact Nj. apply P3. eapply zget_In. exact Ej.
      + intros i p I Ep Nd. apply in_app_or in I. destruct I as [I|[<-|[]]].
        * assert (i <> idx) by (intros ->; contradiction). rewrite O1, O2 by assumption. now apply P4.
        * rewrite Nd, Z.eqb_refl in Ew. rewrite (proj2 (rget_Ok _ _ _) Ep) in Ew. cbn [bind] in Ew. exists s, row. split; [|split; assumption].
          unfold point_result. rewrite Ew. cbn [bind]. rewrite Eu. cbn [bind]. rewrite Es. cbn [bind]. rewrite Ei. cbn [bind]. rewrite Er. reflexivity. }
  destruct Q as (P1 & P2 & P3 & P4). split.
  - split; [exact P1|]. split; [exact P2|]. split; [exact P3|discriminate].
  - cbn [ar_ws ar_p0]. intros i p Ep Nd. apply P4; [|exact Ep|exact Nd]. apply In_zrange. exact (zget_Some_range _ _ _ Ep).
Qed.
Lemma cond_mpi x l a ecl up inv tec n ps g0 (ars : Z -> arrays) k st : 0 <= tec -> 0 < n ->
  (forall r, 0 <= r < n -> rank_arrays x l a ecl up inv tec n r ps g0 = Ok (ars r)) ->
  mpi_run false tec ars k (mpi_init n (zlen ps) ars) st ->
  Z.of_nat k <= 2 * zlen ps /\ (~ all_done st -> exists st', guaranteed false tec ars st st') /\
  (all_done st -> forall i p, zget ps i = Some p -> exists s row, point_result x l a ecl up inv tec p = Ok (s, row) /\
     zget (ar_ws (mp_master st)) i = Some s /\ zget (ar_p0 (mp_master st)) i = Some row).
Proof.
  intros Ht Hn Ha Hr. pose proof (zlen_nonneg ps) as Hp.
  assert (Ok : forall r, 0 <= r < n -> arrays_ok false tec (zlen ps) (ars r)) by (intros r Rr; exact (proj1 (rank_own _ _ _ _ _ _ _ _ _ _ _ _ Ht (Ha r Rr)))).
  destruct (collect_prop false tec (zlen ps) n ars Hn Hp Ok) as (B & Pg & D). split; [exact (B k st Hr)|]. split; [exact (Pg k st Hr)|].
  intros Dn i p Ei. pose proof (zget_Some_range _ _ _ Ei) as Ri. destruct (D k st Hr Dn i Ri) as (D1 & D2 & _).
  assert (Rn : 0 <= mpi_node n i < n) by (unfold mpi_node; pose proof (Z.rem_bound_pos i n ltac:(lia) Hn); lia).
  destruct (rank_own _ _ _ _ _ _ _ _ _ _ _ _ Ht (Ha _ Rn)) as [_ Q]. destruct (Q i p Ei eq_refl) as (s & row & E & E1 & E2). exists s, row. rewrite D1, D2. now repeat split.
Qed.
(* the printed table *)
Lemma len3 {A} (l : list A) : zlen l = 3 -> exists a b c, l = [a; b; c].
Proof. unfold zlen. destruct l as [|a [|b [|c [|d l]]]]; cbn [length]; try lia. eauto. Qed.
Lemma len9 {A} (l : list A) : zlen l = 9 -> exists a b c d e f g h i, l = [a; b; c; d; e; f; g; h; i].
Proof. unfold zlen. destruct l as [|a [|b [|c [|d [|e [|f [|g [|h [|i [|j l]]]]]]]]]]; cbn [length]; try lia. intros _. now exists a, b, c, d, e, f, g, h, i. Qed.
Lemma revoigt_id tec row : tec = 3 \/ tec = 9 -> zlen row = tec -> revoigt tec row = Ok row.
Proof.
  intros [-> | ->] H.
  - apply len3 in H. destruct H as (a & b & c & ->). reflexivity.
  - apply len9 in H. destruct H as (a & b & c & d & e & f & g & h & i & ->). reflexivity.
Qed.
Lemma cond_rows interp ipoints tec ps ar : ipoints <= 1 -> tec = 3 \/ tec = 9 -> zlen (ar_ws ar) = zlen ps -> zlen (ar_p0 ar) = zlen ps -> (forall r, In r (ar_p0 ar) -> zlen r = tec) ->
  exists rows, cond_report interp ipoints tec ps ar = Ok rows /\ zlen rows = zlen ps /\
  forall i p s row, zget ps i = Some p -> zget (ar_ws ar) i = Some s -> zget (ar_p0 ar) i = Some row -> zget rows i = Some (p :: s :: row).
Proof.
  intros Hi Ht L1 L2 L3. pose proof (zlen_nonneg ps) as Hp. unfold cond_report.
  assert (E1 : mapM (fun i => let* r := rget (ar_p0 ar) i in revoigt tec r) (zrange 0 (zlen ps)) = Ok (ar_p0 ar)).
  { apply mapM_Ok. rewrite <- L2. clear L2. assert (G : forall l1 l2, (forall r, In r l2 -> zlen r = tec) -> Forall2 (fun i b => (let* r := rget (l1 ++ l2) i in revoigt tec r) = Ok b) (zrange (zlen l1) (zlen l1 + zlen l2)) l2).
    { intros l1 l2. revert l1. induction l2 as [|r l2 IH]; intros l1 H2.
      - change (zlen []) with 0. rewrite zrange_empty by lia. constructor.
      - assert (Z : zlen (r :: l2) = 1 + zlen l2) by (unfold zlen; cbn [length]; lia). pose proof (zlen_nonneg l2). rewrite Z. rewrite zrange_cons by lia. constructor.
        + rewrite (proj2 (rget_Ok _ _ r)) by (rewrite zget_app_r by lia; now rewrite Z.sub_diag). cbn [bind]. apply revoigt_id; [exact Ht|apply H2; now left].
        + specialize (IH (l1 ++ [r]) (fun q I => H2 q (or_intror I))). rewrite zlen_app in IH. change (zlen [r]) with 1 in IH. rewrite <- app_assoc in IH. cbn [app] in IH.
          replace (zlen l1 + (1 + zlen l2)) with (zlen l1 + 1 + zlen l2) by lia. exact IH. }
    exact (G [] (ar_p0 ar) L3). }
  rewrite E1. cbn [bind]. assert (Tp : 0 <= tec) by lia.
  rewrite (mapM_all_Ok _ (fun v => map (fun r => nthR r v) (ar_p0 ar))).
  - cbn [bind]. unfold out_columns. rewrite (proj2 (Z.ltb_ge 1 ipoints)) by lia. cbn [bind].
    destruct (rows_ok ps (ar_ws ar) (map (fun v => map (fun r => nthR r v) (ar_p0 ar)) (zrange 0 tec))) as (rows & Er & Lr & Gr).
    + lia.
    + intros c I. apply in_map_iff in I. destruct I as (v & <- & _). rewrite zlen_map. lia.
    + rewrite Er. exists rows. split; [reflexivity|]. split; [lia|]. intros i p s row Ep Es Erow. pose proof (zget_Some_range _ _ _ Ep). rewrite Gr by lia. rewrite (nthR_get _ _ _ Ep), (nthR_get _ _ _ Es). do 3 f_equal.
      rewrite map_map. specialize (L3 row (zget_In _ _ _ Erow)). apply zlist_ext; [rewrite zlen_map, zlen_zrange; lia|]. intros v Hv. rewrite zlen_map, zlen_zrange in Hv by lia. rewrite zget_map, zget_zrange by lia. cbn [option_map].
      rewrite (nthR_get _ i (nthR row (0 + v))) by (rewrite zget_map, Erow; reflexivity). rewrite Z.add_0_l. symmetry. apply zget_nthR. lia.
  - intros v Hv. apply In_zrange in Hv. apply mapM_all_Ok. intros r Ir. apply rget_Ok, zget_nthR. rewrite (L3 r Ir). lia.
Qed.
