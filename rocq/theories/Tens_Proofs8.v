From Verif Require Import BaseFacts RBaseFacts Lin_Facts Steady_Proofs Euler_Proofs2 Impl_Proofs Matx_Proofs Hnum_Proofs Hyb_Proofs Hyb_Proofs2 Hyb_Proofs3 Hyb_Proofs4 Hyb_Proofs5 Hyb_Proofs6 Hyb_Proofs7 Hyb_Proofs8 Hyb_Proofs9 Eld_Proofs2 Bound_Proofs Bound_Proofs3 Mim_Proofs Mim_Proofs2 Lsv_Proofs Lsv_Proofs2 Lsv_Proofs3 Lsv_Proofs4 Lsv_Proofs5 Upb_Proofs Tens_Proofs Tens_Proofs2 Tens_Proofs3 Tens_Spec.
Open Scope Z_scope.

(* ---- a solve succeeds unless the iterative solver fails ---- *)
Lemma solve_total K sv g bc ip src st s d c : problem g bc ip src -> discretised g bc ip src st s d -> ip_spd g ip -> 0 < zlen g ->
  sv_grid sv = Some (g, st) -> call_for c bc ip src -> 0 <= sc_type c <= 3 ->
  (sc_type c = 0 \/ sc_same c = false \/ exists q, sv_prec sv = Some q /\ lp_type q = sc_type c) ->
  (forall ty A M b x n, zlen (fst (K ty A M b x n)) = zlen b) ->
  exists sv' lc s', (s' = s \/ regularise s d = Ok s') /\ lc_type lc = sc_type c /\ lc_op lc = matrix_of s' /\ lc_rhs lc = sy_rhs s' /\ let answer := K (lc_type lc) (lc_op lc) (lc_prec lc) (lc_rhs lc) (lc_start lc) (lc_maxit lc) in
    sv_solve K sv c = (sv', [lc], if snd answer then Ok tt else Throw) /\
    (snd answer = true -> (exists ps vs, sv_sol sv' = (ps, vs) /\ half_table g vs) /\ sv_grid sv' = Some (g, st) /\ (sc_type c <> 0 -> exists q, sv_prec sv' = Some q /\ lp_type q = sc_type c)).
Proof.
  intros P D Sp Hg Eg (Eb & Ei & Es) Ht Hu HK. pose proof D as (Di & Da). pose proof (nonempty _ _ _ _ _ _ _ P D Sp Hg) as T0. destruct (pat_len _ _ _ _ _ _ _ P D) as (Lp & Lr & _).
  destruct (reg_ok _ _ _ _ P _ _ _ D T0) as (sr & Rg & _). pose proof (nearly_reg _ _ _ Rg) as Nr. pose proof (proj1 (proj2 Nr)) as Rr.
  assert (X : exists p lc s', lin_call (sc_type c) (sc_same c) s d (sc_maxit c) (sv_prec sv) = (p, Ok lc) /\ (s' = s \/ regularise s d = Ok s') /\ lc_type lc = sc_type c /\ lc_op lc = matrix_of s' /\ lc_rhs lc = sy_rhs s' /\ (sc_type c <> 0 -> exists q, p = Some q /\ lp_type q = sc_type c)).
  { unfold lin_call. destruct (Z.eqb_spec (sc_type c) 0) as [T|T].
    - unfold ilu_call. rewrite Rg. cbn [bind]. eexists _, _, sr. split; [reflexivity|]. split; [right; reflexivity|]. rewrite T. repeat split. intros; contradiction.
    - replace ((1 <=? sc_type c) && (sc_type c <=? 3)) with true by (symmetry; apply andb_true_intro; lia). unfold amg_call. destruct (sc_same c) eqn:Esm.
      + destruct Hu as [U|[U|(q & Ep & Eq)]]; [contradiction|discriminate|]. rewrite Ep.
        cbn [use_precond]. rewrite Eq, Z.eqb_refl. destruct (guess_ok g bc ip src P Sp st s d D s (nearly_refl s)) as (x & -> & _). cbn [bind]. eexists _, _, s. split; [reflexivity|]. split; [left; reflexivity|]. repeat split. intros _. exists q. auto.
      + rewrite Rg. cbn [use_precond lp_type]. rewrite Z.eqb_refl. destruct (guess_ok g bc ip src P Sp st s d D sr Nr) as (x & -> & _). cbn [bind]. eexists _, _, sr. split; [reflexivity|]. split; [right; reflexivity|]. repeat split. intros _. eexists. split; [reflexivity|reflexivity]. }
  destruct X as (p & lc & s' & El & Hs & Tl & Ol & Rl & Pl).
  assert (Ll : zlen (lc_rhs lc) = unknowns st) by (rewrite Rl; destruct Hs as [-> |Hs]; [exact Lr|rewrite Rg in Hs; injection Hs as <-; congruence]).
  unfold sv_solve. rewrite Eg, Eb, Ei, Es, Da, El. unfold apply_solver. pose proof (HK (lc_type lc) (lc_op lc) (lc_prec lc) (lc_rhs lc) (lc_start lc) (lc_maxit lc)) as Lx.
  destruct (K (lc_type lc) (lc_op lc) (lc_prec lc) (lc_rhs lc) (lc_start lc) (lc_maxit lc)) as (x & cv) eqn:EK. destruct cv.
  - destruct (conserve_ok _ _ _ _ P _ _ _ D x ltac:(cbn [fst] in Lx; lia)) as (ps & vs & Er & _ & Hv & _). rewrite Er. eexists _, lc, s'. split; [exact Hs|]. split; [exact Tl|]. split; [exact Ol|]. split; [exact Rl|]. rewrite EK. cbn [fst snd]. split; [reflexivity|]. intros _. cbn [sv_sol sv_grid sv_prec]. split; [exists ps, vs; auto|]. split; [congruence|exact Pl].
  - eexists _, lc, s'. split; [exact Hs|]. split; [exact Tl|]. split; [exact Ol|]. split; [exact Rl|]. rewrite EK. cbn [fst snd]. split; [reflexivity|]. intros; discriminate.
Qed.
Section Total.
Variables (srt : list bface -> list bface) (g : list hcell) (geo : Z -> mcell) (ip : hip) (bct : Z) (twodim : bool) (low hi : Z -> R).
Hypothesis BK : block srt g geo ip bct twodim low hi.
Hypothesis Hbct : bct = 0 \/ (bct = 1 /\ linear_ready g geo low hi) \/ bct = 2.
Hypothesis FM : flow_matrices g ip.
Variables (K : krylov) (ty maxit nf : Z).
Hypothesis EF : enough_faces g nf.
Hypothesis HK : forall ty A M b x n, zlen (fst (K ty A M b x n)) = zlen b.
Hypothesis Hty : 0 <= ty <= 3.
Notation gf := (map uf_g (grid_faces g geo)).
Notation src := (zrepeat 0%R (zlen g)).
Notation setup := (fun d b => setup_upscaling srt gf bct d 1 1 twodim b).
Lemma setup_total d b : 0 <= d < 3 -> (exists b', setup d b = Ok b') \/ (bct <> 0 /\ setup d b = Throw).
Proof.
  intros Hd. destruct Hbct as [-> |[(-> & U & _)| ->]].
  - destruct (fixed_setup srt gf d 1 1 twodim b Hd) as (b' & E & _). left. exists b'. exact E.
  - unfold setup_upscaling. cbn [Z.ltb Z.compare orb Z.eqb Pos.eqb Pos.compare Pos.compare_cont]. destruct (linear_setup b gf 1 d 1 twodim tol6 U) as [(E & _)|(b' & E & _)]; [right; split; [discriminate|exact E]|left; exists b'; exact E].
  - pose proof BK as (_ & _ & _ & _ & _ & Q & _). destruct (Q eq_refl) as (Ps & U). destruct (periodic_setup srt gf d 1 1 twodim b Ps Hd U) as [(E & _)|(l & a & b' & _ & E & _)]; [right; split; [discriminate|exact E]|left; exists b'; exact E].
Qed.
Notation failure := (run_fails K srt g geo ip bct twodim ty).
Lemma mean_total b d faces flux : 0 <= d < 3 -> (forall f, In f faces -> on_boundary f = true -> exists c, zget (t_canon b) (gf_bid (uf_g f)) = Some c) -> exists q, mean_velocities b bct d faces flux = Ok q.
Proof.
  intros Hd C. unfold mean_velocities. destruct Hbct as [-> |[(-> & _)| ->]]; cbn [Z.eqb Pos.eqb orb].
  - rewrite (velocity_prop b faces flux d Hd C). cbn [bind]. destruct (rset_exists [Some 0%R; Some 0%R; Some 0%R] d (match fdiv (sum (fun x => snd x * vget (uf_n (fst x)) d)%R (filter (fun x => on_boundary (fst x) && (canon_of b (fst x) =? 2 * d + 1)) (combine faces flux))) (sum (fun x => gf_area (uf_g (fst x))) (filter (fun x => on_boundary (fst x) && (canon_of b (fst x) =? 2 * d + 1)) (combine faces flux))), fdiv (sum (fun x => snd x * vget (uf_n (fst x)) d)%R (filter (fun x => on_boundary (fst x) && ((canon_of b (fst x) =? 2 * d + 2) || ((d =? 0) && (canon_of b (fst x) =? 0)))) (combine faces flux))) (sum (fun x => gf_area (uf_g (fst x))) (filter (fun x => on_boundary (fst x) && ((canon_of b (fst x) =? 2 * d + 2) || ((d =? 0) && (canon_of b (fst x) =? 0)))) (combine faces flux))) with Some x, Some y => Some ((x + y) / 2)%R | _, _ => None end)) as (q & E & _); [cbn; lia|]. exists q. exact E.
  - destruct (mapM_exists (average_velocity b faces flux) (zrange 0 3)) as (q & E); [|exists q; exact E]. intros a Ha. apply In_zrange in Ha. eexists. apply velocity_prop; [lia|exact C].
  - destruct (mapM_exists (average_velocity b faces flux) (zrange 0 3)) as (q & E); [|exists q; exact E]. intros a Ha. apply In_zrange in Ha. eexists. apply velocity_prop; [lia|exact C].
Qed.
Lemma direction_total s d : 0 <= d < 3 -> (d <> 0 -> exists st, sv_grid (ts_solver s) = Some (g, st) /\ (forall b', setup d (ts_bcs s) = Ok b' -> init_structure g (hbc_of b') = Ok st) /\ (ty <> 0 -> exists q, sv_prec (ts_solver s) = Some q /\ lp_type q = ty)) ->
  (exists s' st, tensor_direction K srt g geo ip bct twodim ty maxit nf s d = Ok s' /\ setup d (ts_bcs s) = Ok (ts_bcs s') /\ sv_grid (ts_solver s') = Some (g, st) /\ init_structure g (hbc_of (ts_bcs s')) = Ok st /\ (ty <> 0 -> exists q, sv_prec (ts_solver s') = Some q /\ lp_type q = ty)) \/
  (tensor_direction K srt g geo ip bct twodim ty maxit nf s d = Throw /\ failure).
Proof.
  intros Hd Hst. assert (Hg : 0 < zlen g) by apply BK. unfold tensor_direction, perm_direction. destruct (setup_total d (ts_bcs s) Hd) as [(b' & S)|(H2 & S)].
  2:{ right. rewrite S. split; [reflexivity|]. left. split; [exact H2|]. exists d, (ts_bcs s). auto. }
  rewrite S. cbn [bind]. pose proof (bk_problem srt g geo ip bct twodim low hi BK d _ _ Hd S) as P. destruct (disc_ex _ _ _ _ P) as (st & sy & dy & D).
  assert (X : exists sv0, (if d =? 0 then sv_init g (hbc_of b') (ts_solver s) else Ok (ts_solver s)) = Ok sv0 /\ sv_grid sv0 = Some (g, st) /\ (d <> 0 -> ty <> 0 -> exists q, sv_prec sv0 = Some q /\ lp_type q = ty)).
  { destruct (Z.eqb_spec d 0) as [E|E].
    - unfold sv_init. destruct (Z.eqb_spec (zlen g) 0); [lia|]. destruct D as (D1 & _). rewrite D1. cbn [bind]. eexists. split; [reflexivity|]. split; [reflexivity|]. intros; contradiction.
    - destruct (Hst E) as (st' & G & I & Q). exists (ts_solver s). split; [reflexivity|]. destruct D as (D1 & _). rewrite (I b' S) in D1. injection D1 as ->. auto. }
  destruct X as (sv0 & E0 & G0 & P0). rewrite E0. cbn [bind].
  set (c := Lsv_Model.mkCall (hbc_of b') ip src ty (negb (bct =? 0) && negb (d =? 0)) maxit).
  destruct (solve_total K sv0 g (hbc_of b') ip src st sy dy c P D (proj1 FM) Hg G0 ltac:(repeat split) Hty) as (sv' & lc & s' & Hs & Tl & Ol & Rl & E & A); [|exact HK|].
  { cbn [sc_type sc_same c]. destruct (Z.eq_dec ty 0) as [|T]; [left; assumption|right]. destruct (Z.eqb_spec d 0) as [->|Nd]; [left; rewrite andb_comm; reflexivity|right; apply P0; assumption]. }
  cbv zeta in E, A. rewrite E. cbn [bind]. destruct (snd (K (lc_type lc) (lc_op lc) (lc_prec lc) (lc_rhs lc) (lc_start lc) (lc_maxit lc))) eqn:EK; cbn [bind].
  2:{ right. split; [reflexivity|]. right. exists d, (ts_bcs s), b'. split; [exact Hd|]. split; [exact S|]. exists st, sy, dy, s', (lc_prec lc), (lc_start lc), (lc_maxit lc). split; [exact D|]. split; [exact Hs|]. rewrite Tl, Ol, Rl in EK. exact EK. }
  left. destruct (A eq_refl) as ((ps & vs & Esol & Hv) & G' & P'). rewrite G', Esol. cbn [fst snd]. pose proof P as (W & C & PO & _). pose proof D as (D1 & _).
  assert (Hu : unknowns st <= nf). { pose proof D1 as Is. unfold init_structure in Is. apply bind_Ok in Is. destruct Is as (nm & En & Is). repeat (apply bind_Ok in Is; destruct Is as (? & _ & Is)). injection Is as <-. apply EF. exact En. }
  destruct (post_main g (hbc_of b') st nf vs W C PO D1 Hu Hv) as (t & m & Ep & _). rewrite Ep. cbn [bind fst snd sv_sol].
  pose proof (bk_box srt g geo ip bct twodim low hi BK d _ _ Hd S) as Bx. destruct (mean_total b' d (grid_faces g geo) (List.concat t) Hd (canon_ex _ _ _ _ Bx)) as (q & Eq). rewrite Eq. cbn [bind]. rewrite (box_delta b' (grid_faces g geo) low hi d Hd Bx). cbn [bind].
  eexists _, st. split; [reflexivity|]. cbn [ts_bcs ts_solver sv_grid sv_prec]. auto.
Qed.
Lemma same_total p1 p2 b b1 b2 : 0 <= p1 < 3 -> 0 <= p2 < 3 -> setup p1 b = Ok b1 -> setup p2 b1 = Ok b2 -> init_structure g (hbc_of b1) = init_structure g (hbc_of b2).
Proof.
  intros H1 H2 S1 S2. destruct Hbct as [E|[(E & U & _)|E]].
  - exact (proj1 (same_structure srt g geo ip bct twodim low hi BK (or_introl E) p1 p2 _ _ _ _ H1 H2 S1 S2)).
  - cbv beta in S1, S2. rewrite E in S1, S2. apply kinds_structure, rel_kinds. eapply linear_rel; eassumption.
  - exact (proj1 (same_structure srt g geo ip bct twodim low hi BK (or_intror E) p1 p2 _ _ _ _ H1 H2 S1 S2)).
Qed.
Lemma tensor_total b sv : (exists s, flow_tensor K srt g geo ip bct twodim ty maxit nf b sv = Ok s) \/ (flow_tensor K srt g geo ip bct twodim ty maxit nf b sv = Throw /\ failure).
Proof.
  unfold flow_tensor. rewrite three. cbn [foldM]. destruct (direction_total (mkTs b sv [] []) 0 ltac:(lia)) as [(s0 & st & E0 & S0 & G0 & I0 & P0)|(E0 & F)]; [intros X; destruct (X eq_refl)| |right; rewrite E0; auto]. rewrite E0. cbn [bind].
  destruct (direction_total s0 1 ltac:(lia)) as [(s1 & st1 & E1 & S1 & G1 & I1 & P1)|(E1 & F)]; [intros _; exists st; split; [exact G0|]; split; [|exact P0]; intros b' S; rewrite <- (same_total 0 1 _ _ _ ltac:(lia) ltac:(lia) S0 S); exact I0| |right; rewrite E1; auto]. rewrite E1. cbn [bind].
  destruct (direction_total s1 2 ltac:(lia)) as [(s2 & st2 & E2 & S2 & G2 & I2 & P2)|(E2 & F)]; [intros _; exists st1; split; [exact G1|]; split; [|exact P1]; intros b' S; rewrite <- (same_total 1 2 _ _ _ ltac:(lia) ltac:(lia) S1 S); exact I1| |right; rewrite E2; auto]. rewrite E2. cbn [bind].
  left. exists s2. reflexivity.
Qed.
End Total.
