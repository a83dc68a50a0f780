From Verif Require Import BaseFacts RBaseFacts Visc_Proofs7 Visc_Proofs8 Visc_Proofs9 Tbl_Proofs Tbl_Spec.
Open Scope string_scope.
Open Scope list_scope.
Open Scope Z_scope.

Lemma kept_row tec row k : tec = 3 \/ tec = 9 -> (forall v, 0 <= v < tec -> nthR row v = tensor_of k (element_row v) (element_col v)) -> row_tensor tec row (kept tec k).
Proof.
  intros T H. split.
  - intros v Hv. rewrite (H v Hv). unfold kept. destruct T as [-> | ->]; [|reflexivity].
    assert (v = 0 \/ v = 1 \/ v = 2) as [-> |[-> | ->]] by lia; reflexivity.
  - intros -> r c _ _ N. unfold kept. cbn [Z.eqb orb Pos.eqb]. destruct (Z.eqb_spec r c); [contradiction|reflexivity].
Qed.
(* upscale_relpermvisc on a single process *)
Lemma visc_single interp sat_of_ratio ipoints bc tec kinv x cells tol l inv up ps ph : element_count bc = Ok tec -> zlen kinv = 9 -> ps <> [] -> ipoints <= 1 -> ph = 0 \/ ph = 1 ->
  vproper x (map fst cells) -> (exists cv, In cv (vrocky x cells) /\ (0 < vpore x cv)%R) ->
    (forall cv, In cv (vrocky x cells) -> (0 <= vpore x cv)%R /\ (0 <= cv_minx (water_curve x (fst cv)) <= cv_maxx (water_curve x (fst cv)))%R /\ (cv_maxx (water_curve x (fst cv)) <= 1)%R) ->
  visc_limits x tol cells = Ok l -> curves_shaped (vi_aniso x) inv -> zlen inv = zlen (vi_rocks x) ->
  (forall ts, exists k, up ts = Ok k /\ zlen k = 9) ->
  exists a rows, visc_rank (visc_point x inv l (map fst cells) up tec) tec 1 0 ps = Ok a /\
    visc_report interp sat_of_ratio ipoints tec kinv ps a ph = Ok (cut_rows (ar_ws a) rows) /\ zlen rows = zlen ps /\
    forall i q, zget ps i = Some q -> exists s ts k row,
      (s * sum_cells (vpore x) (vrocky x cells) = sum_cells (fun cv => cell_sat x inv q (fst cv) * vpore x cv) (vrocky x cells))%R /\
      visc_perms x ph (stone_sats (vi_aniso x) inv q) (map fst cells) = Ok ts /\ up ts = Ok k /\ zget rows i = Some row /\
      Forall2 (announced "v_w/v_o" (phase_symbol ph) q s (mmul 3 (kept tec k) (tensor_of kinv))) (visc_header bc ph) row.
Proof.
  intros Eb Lk Np Hi Hp Pr Ex Cu E Sh Li Up. pose proof (tec_two _ _ Eb) as T. assert (Ht : 0 <= tec <= 9) by lia.
  set (pt := visc_point x inv l (map fst cells) up tec) in *.
  set (sat := fun q => match pt 0 q with Ok v => fst v | _ => 0%R end). set (row := fun ph q => match pt ph q with Ok v => snd v | _ => [] end).
  assert (Hpt : forall ph q, In q ps -> ph = 0 \/ ph = 1 -> pt ph q = Ok (sat q, row ph q) /\ zlen (row ph q) = tec).
  { intros ph' q _ Hph. destruct (point_spec x cells tol l inv up tec ph' q Pr Ex Cu E Sh Li Ht Up) as (s & rw & ts & k0 & Ep & _ & _ & _ & Lr & _). fold pt in Ep.
    destruct (point_spec x cells tol l inv up tec 0 q Pr Ex Cu E Sh Li Ht Up) as (s0 & rw0 & ts0 & k1 & Ep0 & _). fold pt in Ep0.
    assert (s = s0) as <-. { destruct Hph as [-> | ->]; [congruence|]. symmetry. exact (point_same _ _ _ _ _ _ _ _ _ _ _ Ep0 Ep). }
    unfold sat, row. rewrite Ep, Ep0. auto. }
  destruct (rank_spec pt tec 1 0 ps sat row ltac:(lia) Hpt) as (a & Ea & Oa & Q).
  destruct (visc_table interp sat_of_ratio ipoints bc tec kinv ps a ph Eb Lk Oa Np Hi) as (rows & Er & Lr & R).
  exists a, rows. split; [exact Ea|]. split; [exact Er|]. split; [exact Lr|]. intros i q Eq.
  destruct (Q i q Eq) as (E1 & E2 & E3). { unfold mpi_node. rewrite Z.rem_1_r. reflexivity. }
  destruct (point_spec x cells tol l inv up tec ph q Pr Ex Cu E Sh Li Ht Up) as (s & rw & ts & k & Ep & Es & Et & Ek & _ & Fr). fold pt in Ep.
  destruct (Hpt ph q (zget_In _ _ _ Eq) Hp) as [Ep' _]. rewrite Ep' in Ep. injection Ep as <- <-.
  destruct (R i q (sat q) (row ph q) (kept tec k) Eq E1) as (out & Ei & F).
  { destruct Hp as [-> | ->]; [exact E2|exact E3]. }
  { exact (kept_row tec _ k T Fr). }
  exists (sat q), ts, k, out. repeat split; assumption.
Qed.
Lemma ex_single : exists l, element_count "linear" = Ok 9 /\ vproper exv (map fst exvc) /\ (exists cv, In cv (vrocky exv exvc) /\ (0 < vpore exv cv)%R) /\
    (forall cv, In cv (vrocky exv exvc) -> (0 <= vpore exv cv)%R /\ (0 <= cv_minx (water_curve exv (fst cv)) <= cv_maxx (water_curve exv (fst cv)))%R /\ (cv_maxx (water_curve exv (fst cv)) <= 1)%R) /\
  visc_limits exv (/ 1000000) exvc = Ok l /\ curves_shaped (vi_aniso exv) [[vratio_curve]] /\ zlen [[vratio_curve]] = zlen (vi_rocks exv).
Proof.
  destruct ex_visc_ranks as (l & _ & E & _). destruct exv_rock as [R1 R2]. destruct ex_curves_monotone as (S & Z & _). exists l.
  split; [reflexivity|]. split; [exact exv_proper|]. split; [exact R1|]. split; [exact R2|]. split; [exact E|]. split; [exact S|exact Z].
Qed.
