(* The report per rock type; dips. *)
From Coq Require Import Sorted.
From Verif Require Import BaseFacts RBaseFacts Shape_Proofs2 Steady_Proofs Euler_Proofs2 Mload_Proofs Mload_Proofs2 Mload_Proofs3 Avg_Proofs Avg_Proofs2 Avg_Proofs3 Avg_Proofs4 Avg_Spec.
Open Scope Z_scope.

Lemma sorted_zrange n : forall a, StronglySorted Z.lt (zrange a (a + Z.of_nat n)).
Proof.
  induction n as [|n IH]; intros a; [rewrite zrange_empty by lia; constructor|]. rewrite zrange_cons by lia. constructor; [replace (a + Z.of_nat (S n)) with (a + 1 + Z.of_nat n) by lia; apply IH|].
  apply Forall_forall. intros x Hx. apply In_zrange in Hx. lia.
Qed.
Lemma sorted_filter {A} (R : A -> A -> Prop) P l : StronglySorted R l -> StronglySorted R (filter P l).
Proof.
  induction 1 as [|a t Hs IH Hf]; [constructor|]. cbn [filter]. destruct (P a); [|exact IH]. constructor; [exact IH|]. apply Forall_forall. intros x Hx. apply filter_In in Hx. rewrite Forall_forall in Hf. apply Hf, Hx.
Qed.
Lemma sorted_nodup l : StronglySorted Z.lt l -> NoDup l.
Proof.
  induction 1 as [|a t Hs IH Hf]; constructor; [|exact IH]. intros H. rewrite Forall_forall in Hf. specialize (Hf a H). lia.
Qed.
Lemma total_one' l : total (fun _ => 1%R) l = IZR (zlen l).
Proof.
  exact (total_one l).
Qed.
Lemma total_scale_eq f g c l : (forall i, In i l -> f i = (c * g i)%R) -> total f l = (c * total g l)%R.
Proof.
  intros H. rewrite <- total_scale. apply total_ext, H.
Qed.
Lemma rock_report_ok nc volume satnums vols perms poros : zlen vols = nc -> nc <= zlen satnums -> (forall s, In s satnums -> 0 <= s <= 1000) -> volume <> 0%R ->
  match perms with None => True | Some p => forall i, In i (actives vols) -> i < zlen p /\ (0 < nthR p i)%R end ->
  match poros with None => True | Some p => forall i, In i (actives vols) -> i < zlen p end ->
  exists rs, rock_report nc volume satnums vols perms poros = Ok rs /\ StronglySorted Z.lt (map k_type rs) /\
    (forall t, In t (map k_type rs) <-> exists i, In i (actives vols) /\ type_at satnums i = t) /\
    (forall r, In r rs -> rock_figures nc volume satnums vols perms poros r).
Proof.
  intros Lv Ls Ts NV Hk Hp. destruct (check_ok satnums 0 ltac:(lia) Ts) as (m & E & Hm & Bm & _).
  assert (Tr : forall s, In s satnums -> 0 <= s <= m) by (intros s Hs; split; [apply Ts, Hs|apply Bm, Hs]).
  assert (Hk' : match perms with None => True | Some p => forall i, In i (actives vols) -> i < zlen p /\ (nthR p i <> 0)%R end) by (destruct perms; [intros i Hi; destruct (Hk i Hi); split; [assumption|lra]|exact I]).
  destruct (rock_fold satnums m vols perms poros nc Lv Ls Tr Hm Hk' Hp) as (s & Es & RI).
  assert (VAR : exists var, match poros with None => Ok (zrepeat 0%R (m + 1)) | Some p => foldM (var_cell satnums vols p s) (zrange 0 nc) (zrepeat 0%R (m + 1)) end = Ok var /\
    match poros with None => True | Some p => tal satnums m var (fun i => nthR vols i * ((nthR p i - arithmetic (nthR vols) (nthR p) (cells_of satnums vols (type_at satnums i))) * (nthR p i - arithmetic (nthR vols) (nthR p) (cells_of satnums vols (type_at satnums i)))))%R (actives vols) end).
  { destruct poros as [p|] eqn:Ep; [|eexists; split; [reflexivity|exact I]]. exact (var_fold satnums m vols perms (Some p) nc Lv Ls Tr Hm Hp p s eq_refl RI). }
  destruct VAR as (var & Ev & TV). destruct RI as (T & A & V & K & P). cbv zeta in *.
  rewrite <- Lv in A, V, K, P. fold (actives vols) in A, V, K, P.
  unfold rock_report, check_satnums. rewrite E. cbn [bind]. rewrite Es. cbn [bind]. rewrite Ev. cbn [bind].
  rewrite (mapM_all_Ok _ (fun t => (t, Rltb 0 (total one (cells_of satnums vols t))))).
  2: { intros t Ht. apply In_zrange in Ht. rewrite (tal_get _ _ _ _ _ t A) by lia. reflexivity. }
  cbn [bind]. set (types := map fst _).
  assert (ET : types = filter (fun t => Rltb 0 (total one (cells_of satnums vols t))) (zrange 0 (m + 1))).
  { unfold types. clear. induction (zrange 0 (m + 1)) as [|a t IH]; [reflexivity|]. cbn [map filter snd]. destruct (Rltb 0 (total one (cells_of satnums vols a))); cbn [map fst]; rewrite IH; reflexivity. }
  assert (Nonempty : forall t, In t types -> 0 <= t <= m /\ cells_of satnums vols t <> []).
  { intros t Ht. rewrite ET in Ht. apply filter_In in Ht. destruct Ht as [Ht Hb]. apply In_zrange in Ht. split; [lia|]. intros Z0. rewrite Z0 in Hb. apply Rltb_true in Hb. unfold total in Hb. cbn [map] in Hb. rewrite Rsum_nil in Hb. lra. }
  set (g := fun t => let cells := cells_of satnums vols t in let all := of_type satnums t (zrange 0 nc) in let w := nthR vols in
     mkRstats t (total w cells) (total w cells / volume) (IZR (zlen all)) (IZR (zlen all) / IZR nc) (IZR (zlen cells)) (IZR (zlen cells) / IZR (zlen all))
       (match poros with None => None | Some p => Some (total (fun i => w i * nthR p i)%R cells, arithmetic w (nthR p) cells, variance w (nthR p) cells) end)
       (match perms with None => None | Some p => Some (arithmetic w (nthR p) cells, harmonic w (nthR p) cells, arithmetic one (nthR p) cells, harmonic one (nthR p) cells) end)).
  assert (G : forall t, In t types -> rock_statistics nc volume s var match poros with Some _ => true | None => false end match perms with Some _ => true | None => false end t = Ok (g t)).
  { intros t Ht. destruct (Nonempty t Ht) as [B Ne]. unfold rock_statistics. rewrite (tal_get _ _ _ _ _ t V B), (tal_get _ _ _ _ _ t T B), (tal_get _ _ _ _ _ t A B). cbn [bind]. fold (cells_of satnums vols t). rewrite !total_one.
    assert (PW : (0 < total (nthR vols) (cells_of satnums vols t))%R) by (apply total_pos; [exact Ne|intros i Hi; exact (cells_w _ _ _ _ Hi)]).
    assert (N1 : 0 < zlen (cells_of satnums vols t)) by (destruct (cells_of satnums vols t); [congruence|unfold zlen; cbn [List.length]; lia]).
    assert (N2 : 0 < zlen (of_type satnums t (zrange 0 nc))).
    { destruct (cells_of satnums vols t) as [|i u] eqn:Ec; [congruence|]. assert (Hi : In i (cells_of satnums vols t)) by (rewrite Ec; left; reflexivity). apply of_type_In in Hi. destruct Hi as [Hi Ti].
      assert (J : In i (of_type satnums t (zrange 0 nc))) by (apply of_type_In; split; [apply actives_In in Hi; apply In_zrange; lia|exact Ti]). destruct (of_type satnums t (zrange 0 nc)); [destruct J|unfold zlen; cbn [List.length]; lia]. }
    assert (N3 : nc <> 0). { destruct (cells_of satnums vols t) as [|i u] eqn:Ec; [congruence|]. assert (Hi : In i (cells_of satnums vols t)) by (rewrite Ec; left; reflexivity). apply of_type_In in Hi. destruct Hi as [Hi _]. apply actives_In in Hi. lia. }
    pose proof (IZR_lt _ _ N1) as N1'. pose proof (IZR_lt _ _ N2) as N2'. rewrite (mdiv_ok _ volume NV). cbn [bind]. rewrite (mdiv_ok _ (IZR nc)) by (apply not_0_IZR; exact N3). cbn [bind]. rewrite (mdiv_ok _ (IZR (zlen (of_type satnums t (zrange 0 nc))))) by lra. cbn [bind].
    assert (PO : (if match poros with Some _ => true | None => false end then let* pv := rget (r_pv s) t in let* x := rget var t in let* p := mdiv pv (total (nthR vols) (cells_of satnums vols t)) in let* y := mdiv x (total (nthR vols) (cells_of satnums vols t)) in Ok (Some (pv, p, y)) else Ok None)
      = Ok (k_poro (g t))).
    { unfold g. cbn [k_poro]. destruct poros as [p|]; [|reflexivity]. rewrite (tal_get _ _ _ _ _ t P B). cbn [bind]. rewrite (tal_get _ _ _ _ _ t TV B). cbn [bind]. fold (cells_of satnums vols t). rewrite !mdiv_ok by lra. cbn [bind].
      match goal with |- Ok (Some (_, _, (?X / _)%R)) = _ => set (x := X) end. replace (variance (nthR vols) (nthR p) (cells_of satnums vols t)) with (x / total (nthR vols) (cells_of satnums vols t))%R; [reflexivity|].
      unfold x, variance, arithmetic. f_equal. apply total_ext. intros i Hi. apply of_type_In in Hi. rewrite (proj2 Hi). reflexivity. }
    rewrite PO. cbn [bind].
    destruct perms as [p|]; [|reflexivity].
    destruct K as (K1 & K2 & K3 & K4). rewrite (tal_get _ _ _ _ _ t K1 B), (tal_get _ _ _ _ _ t K2 B), (tal_get _ _ _ _ _ t K3 B), (tal_get _ _ _ _ _ t K4 B). fold (cells_of satnums vols t).
    assert (Kp : forall i, In i (cells_of satnums vols t) -> (0 < nthR p i)%R) by (intros i Hi; apply of_type_In in Hi; apply Hk, Hi).
    assert (Q1 : (0 < total (fun i => nthR vols i / nthR p i) (cells_of satnums vols t))%R) by (apply total_pos; [exact Ne|]; intros i Hi; apply Rdiv_lt_0_compat; [exact (cells_w _ _ _ _ Hi)|apply Kp, Hi]).
    assert (Q2 : (0 < total (fun i => 1 / nthR p i) (cells_of satnums vols t))%R) by (apply total_pos; [exact Ne|]; intros i Hi; apply Rdiv_lt_0_compat; [lra|apply Kp, Hi]).
    cbn [bind]. rewrite !mdiv_ok by lra. cbn [bind]. unfold g. cbn [k_poro]. do 2 f_equal. unfold arithmetic, harmonic. rewrite !total_one.
    rewrite (total_ext (fun i => one i * nthR p i)%R (nthR p)) by (intros; unfold one; ring). reflexivity. }
  rewrite (mapM_all_Ok _ g) by exact G. exists (map g types). split; [reflexivity|].
  assert (EK : map k_type (map g types) = types) by (rewrite map_map; unfold g; cbn [k_type]; apply map_id).
  split; [rewrite EK, ET; apply sorted_filter; pose proof (sorted_zrange (Z.to_nat (m + 1)) 0) as S0; rewrite Z2Nat.id, Z.add_0_l in S0 by lia; exact S0|]. split.
  - intros t. rewrite EK. split.
    + intros Ht. destruct (Nonempty t Ht) as [_ Ne]. destruct (cells_of satnums vols t) as [|i u] eqn:Ec; [congruence|]. exists i. apply of_type_In. fold (cells_of satnums vols t). rewrite Ec. left. reflexivity.
    + intros (i & Hi & Ti). rewrite ET. apply filter_In. assert (Ri : 0 <= i < nc) by (apply actives_In in Hi; lia). destruct (sat_get satnums m nc Ls Tr i Ri) as [_ B]. split; [apply In_zrange; lia|].
      apply Rltb_true. apply total_pos; [|intros; unfold one; lra]. intros Z0. assert (J : In i (cells_of satnums vols t)) by (apply of_type_In; auto). rewrite Z0 in J. destruct J.
  - intros r Hr. apply in_map_iff in Hr. destruct Hr as (t & <- & Ht). unfold rock_figures, g, cells_of. cbn [k_type k_vol k_frac k_total k_totfrac k_active k_actfrac k_poro k_perm]. repeat (split; [reflexivity|]). reflexivity.
Qed.
(* ---- the parts add up *)
Lemma total_types satnums f types : NoDup types -> forall cells, (forall i, In i cells -> In (type_at satnums i) types) ->
  Rsum (map (fun t => total f (of_type satnums t cells)) types) = total f cells.
Proof.
  intros ND. induction cells as [|a l IH]; intros H.
  - unfold of_type, total. cbn [filter map]. rewrite Rsum_nil. apply Rsum_map_zero. intros; reflexivity.
  - assert (E : forall t, total f (of_type satnums t (a :: l)) = ((if type_at satnums a =? t then f a else 0) + total f (of_type satnums t l))%R).
    { intros t. unfold of_type. cbn [filter]. destruct (type_at satnums a =? t); unfold total; cbn [map]; [rewrite Rsum_cons|]; ring. }
    rewrite (Rsum_map_ext _ (fun t => (if type_at satnums a =? t then f a else 0) + total f (of_type satnums t l))%R) by (intros; apply E). rewrite Rsum_map_plus, IH by (intros; apply H; right; assumption).
    unfold total at 2. cbn [map]. rewrite Rsum_cons. f_equal. specialize (H a (or_introl eq_refl)). clear -ND H. induction types as [|t u IH]; [destruct H|]. inversion ND as [|? ? N1 N2]; subst. cbn [map]. rewrite Rsum_cons. destruct (Z.eqb_spec (type_at satnums a) t) as [E|E].
    + rewrite (Rsum_map_zero (fun t0 => if type_at satnums a =? t0 then f a else 0%R)); [ring|]. intros x Hx. destruct (Z.eqb_spec (type_at satnums a) x) as [F|F]; [|reflexivity]. elim N1. rewrite <- E, F. exact Hx.
    + rewrite IH; [ring|exact N2|]. destruct H as [H|H]; [congruence|exact H].
Qed.
Lemma rock_sums nc volume satnums vols perms poros rs : zlen vols = nc -> nc <= zlen satnums -> (forall s, In s satnums -> 0 <= s <= 1000) -> volume <> 0%R ->
  match perms with None => True | Some p => forall i, In i (actives vols) -> i < zlen p /\ (0 < nthR p i)%R end ->
  match poros with None => True | Some p => forall i, In i (actives vols) -> i < zlen p end ->
  rock_report nc volume satnums vols perms poros = Ok rs ->
  Rsum (map k_vol rs) = total (nthR vols) (actives vols) /\ Rsum (map k_active rs) = IZR (zlen (actives vols)) /\
  (clean vols -> volume = Rsum vols -> actives vols <> [] -> Rsum (map k_frac rs) = 1%R /\ forall r, In r rs -> (0 < k_frac r <= 1)%R).
Proof.
  intros Lv Ls Ts NV Hk Hp E. destruct (rock_report_ok nc volume satnums vols perms poros Lv Ls Ts NV Hk Hp) as (rs' & E' & S0 & Ty & F). rewrite E in E'. injection E' as <-.
  apply sorted_nodup in S0.
  assert (C : forall i, In i (actives vols) -> In (type_at satnums i) (map k_type rs)) by (intros i Hi; apply Ty; exists i; auto).
  assert (V : Rsum (map k_vol rs) = total (nthR vols) (actives vols)).
  { rewrite <- (total_types satnums (nthR vols) (map k_type rs) S0 (actives vols) C). rewrite map_map. apply Rsum_map_ext. intros r Hr. apply (F r Hr). }
  split; [exact V|]. split.
  - rewrite <- total_one, <- (total_types satnums one (map k_type rs) S0 (actives vols) C). rewrite map_map. apply Rsum_map_ext. intros r Hr. rewrite total_one. apply (F r Hr).
  - intros Cl Ev Ne. assert (FR : forall r, In r rs -> k_frac r = (/ volume * k_vol r)%R) by (intros r Hr; destruct (F r Hr) as (A & B & _); rewrite A, B; unfold Rdiv; ring).
    assert (PV : (0 < volume)%R) by (rewrite Ev, sum_clean by exact Cl; apply total_pos; [exact Ne|apply actives_w]).
    assert (Vol : Rsum (map k_vol rs) = volume) by (rewrite V, Ev, sum_clean by exact Cl; reflexivity).
    assert (P : forall r, In r rs -> (0 < k_vol r)%R).
    { intros r Hr. destruct (F r Hr) as (A & _). rewrite A. assert (T : In (k_type r) (map k_type rs)) by (apply in_map; exact Hr). apply Ty in T. destruct T as (i & Hi & Ti).
      apply total_pos; [|intros j Hj; exact (cells_w _ _ _ _ Hj)]. intros Z0. assert (J : In i (of_type satnums (k_type r) (actives vols))) by (apply of_type_In; auto). rewrite Z0 in J. destruct J. }
    split.
    + rewrite (Rsum_map_ext _ (fun r => / volume * k_vol r)%R) by exact FR. rewrite Rsum_map_scale, Vol. field. lra.
    + intros r Hr. rewrite (FR r Hr). pose proof (P r Hr) as Pr. assert (Iv : (0 < / volume)%R) by (apply Rinv_0_lt_compat; exact PV). split; [apply Rmult_lt_0_compat; assumption|].
      assert (Le : (k_vol r <= volume)%R).
      { rewrite <- Vol. clear -Hr P. induction rs as [|a t IH]; [destruct Hr|]. cbn [map]. rewrite Rsum_cons. assert (0 <= Rsum (map k_vol t))%R by (apply Rsum_map_nonneg; intros x Hx; apply Rlt_le, P; right; exact Hx).
        destruct Hr as [->|Hr]; [lra|]. pose proof (P a (or_introl eq_refl)). specialize (IH (fun x Hx => P x (or_intror Hx)) Hr). lra. }
      apply (Rmult_le_reg_l volume); [exact PV|]. rewrite <- Rmult_assoc, Rinv_r, Rmult_1_l, Rmult_1_r by lra. exact Le.
Qed.
(* ---- dips *)
Lemma dip_fold vol dips minvol l : forall acc k,
  fold_left (fun (s : list (Z * (Z * Z) * (R * R) * R) * Z) kji => let v := vol kji in if Rltb minvol v then (fst s ++ [(kji, dips kji, v)], snd s) else (fst s, snd s + 1)) l (acc, k) =
  (acc ++ map (fun c => (c, dips c, vol c)) (filter (fun c => Rltb minvol (vol c)) l), k + zlen (filter (fun c => negb (Rltb minvol (vol c))) l)).
Proof.
  induction l as [|c t IH]; intros acc k; cbn [fold_left filter map]; [rewrite app_nil_r; f_equal; change (zlen (@nil (Z * (Z * Z)))) with 0; lia|]. destruct (Rltb minvol (vol c)); cbn [negb fst snd map].
  - rewrite IH, <- app_assoc. reflexivity.
  - rewrite IH. f_equal. unfold zlen. cbn [List.length]. lia.
Qed.
Lemma dips_ok nx ny nz vol dips minvol l ignored : 0 <= nx -> 0 <= ny -> 0 <= nz -> dip_cells nx ny nz vol dips minvol = (l, ignored) ->
  (forall c d v, In (c, d, v) l <-> let '(k, (j, i)) := c in 0 <= k < nz /\ 0 <= j < ny /\ 0 <= i < nx /\ d = dips c /\ v = vol c /\ (minvol < v)%R) /\
  zlen l + ignored = nx * ny * nz /\
  (l <> [] -> exists x y, dip_averages l = Ok (x, y) /\ x = (Rsum (map (fun c => fst (snd (fst c))) l) / IZR (zlen l))%R /\ y = (Rsum (map (fun c => snd (snd (fst c))) l) / IZR (zlen l))%R /\
     forall a b, (forall c, In c l -> a <= fst (snd (fst c)) <= b)%R -> (a <= x <= b)%R) /\
  (l = [] -> dip_averages l = UB).
Proof.
  intros Hx Hy Hz E. unfold dip_cells in E. rewrite dip_fold in E. cbn [app] in E. rewrite Z.add_0_l in E. inversion E as [[E1 E2]]. split; [|split; [|split]].
  - intros c d v. rewrite in_map_iff. destruct c as [k [j i]]. split.
    + intros (c & Ec & Hc). inversion Ec; subst. apply filter_In in Hc. destruct Hc as [Hc T]. apply Rltb_true in T. apply In_triples in Hc. rewrite !In_zrange in Hc. intuition.
    + intros (A & B & C & -> & -> & T). exists (k, (j, i)). split; [reflexivity|]. apply filter_In. split; [|apply Rltb_true; exact T]. apply In_triples. rewrite !In_zrange. auto.
  - rewrite zlen_map. assert (Q : forall (P : Z * (Z * Z) -> bool) m, zlen (filter P m) + zlen (filter (fun c => negb (P c)) m) = zlen m).
    { intros P m. induction m as [|a t IH]; [reflexivity|]. cbn [filter]. unfold zlen in *. destruct (P a); cbn [negb List.length]; lia. }
    rewrite Q, triples_len by lia. ring.
  - intros Ne. assert (N1 : (0 < IZR (zlen l))%R) by (apply IZR_lt; destruct l; [congruence|unfold zlen; cbn [List.length]; lia]). rewrite E1 in *. unfold dip_averages. rewrite !mdiv_ok by lra. cbn [bind]. rewrite !racc_sum.
    do 2 eexists. split; [reflexivity|]. split; [reflexivity|]. split; [reflexivity|]. intros a b B.
    assert (Lb : (IZR (zlen l) * a <= Rsum (map (fun c => fst (snd (fst c))) l) <= IZR (zlen l) * b)%R).
    { clear -B. induction l as [|c t IH]; [cbn [map]; rewrite Rsum_nil; unfold zlen; cbn [List.length]; simpl; lra|]. cbn [map]. rewrite Rsum_cons. unfold zlen in *. cbn [List.length]. rewrite Nat2Z.inj_succ, succ_IZR. specialize (IH (fun x Hx => B x (or_intror Hx))). pose proof (B c (or_introl eq_refl)). lra. }
    split; apply (Rmult_le_reg_r (IZR (zlen l))); try exact N1; unfold Rdiv; rewrite Rmult_assoc, Rinv_l by lra; lra.
  - intros ->. unfold dip_averages. change (IZR (zlen (@nil (Z * (Z * Z) * (R * R) * R)))) with 0%R. rewrite mdiv_0. reflexivity.
Qed.
(* ---- cells that are too small to count spoil the averages *)
Lemma thin_cells vols perms k : actives vols <> [] -> (0 < k)%R -> (forall i, In i (actives vols) -> i < zlen perms /\ nthR perms i = k) ->
  (total (nthR vols) (actives vols) < Rsum vols)%R ->
  exists a, perm_averages (Rsum vols) (zlen (actives vols)) vols perms = Ok a /\ (a_arith a < k < a_harm a)%R /\ u_arith a = k /\ u_harm a = k.
Proof.
  intros Ne Hk K T. assert (PW : (0 < total (nthR vols) (actives vols))%R) by (apply total_pos; [exact Ne|apply actives_w]).
  pose proof (perm_general vols perms (Rsum vols) Ne ltac:(lra)) as G. cbv zeta in G. rewrite G; [|intros i Hi; destruct (K i Hi) as [A ->]; split; [exact A|exact Hk]]. clear G.
  eexists. split; [reflexivity|]. cbn [a_arith a_harm u_arith u_harm].
  set (A := total (nthR vols) (actives vols)) in *. set (V := Rsum vols) in *.
  rewrite (total_scale_eq (fun i => nthR vols i * nthR perms i)%R (nthR vols) k) by (intros i Hi; destruct (K i Hi) as [_ ->]; ring).
  rewrite (total_scale_eq (fun i => nthR vols i / nthR perms i)%R (nthR vols) (/ k)) by (intros i Hi; destruct (K i Hi) as [_ ->]; unfold Rdiv; ring). fold A.
  assert (N0 : (0 < IZR (zlen (actives vols)))%R) by (rewrite <- total_one; apply total_pos; [exact Ne|intros; unfold one; lra]).
  split; [split|split].
  - apply (Rmult_lt_reg_r V); [lra|]. unfold Rdiv. rewrite Rmult_assoc, Rinv_l, Rmult_1_r by lra. apply Rmult_lt_compat_l; lra.
  - assert (Q : (0 < / k * A)%R) by (apply Rmult_lt_0_compat; [apply Rinv_0_lt_compat; exact Hk|exact PW]). apply (Rmult_lt_reg_r (/ k * A)); [exact Q|]. unfold Rdiv. rewrite Rmult_assoc, Rinv_l, Rmult_1_r by lra. rewrite <- Rmult_assoc, Rinv_r, Rmult_1_l by lra. exact T.
  - unfold arithmetic. rewrite (total_scale_eq (fun i => one i * nthR perms i)%R one k) by (intros i Hi; destruct (K i Hi) as [_ ->]; unfold one; ring). rewrite total_one. field. lra.
  - unfold harmonic. rewrite (total_scale_eq (fun i => one i / nthR perms i)%R one (/ k)) by (intros i Hi; destruct (K i Hi) as [_ ->]; unfold one, Rdiv; ring). rewrite total_one. field. lra.
Qed.
(* ---- the figures of a rock type are averages *)
Lemma rock_means nc volume satnums vols p q r lo hi : (0 < lo)%R -> of_type satnums (k_type r) (actives vols) <> [] ->
  rock_figures nc volume satnums vols (Some p) (Some q) r ->
  (forall i, In i (of_type satnums (k_type r) (actives vols)) -> lo <= nthR p i <= hi)%R ->
  exists pv phi var a h ua uh, k_poro r = Some (pv, phi, var) /\ k_perm r = Some (a, h, ua, uh) /\
    (0 <= var)%R /\ var = (arithmetic (nthR vols) (fun i => nthR q i * nthR q i) (of_type satnums (k_type r) (actives vols)) - phi * phi)%R /\
    pv = (phi * k_vol r)%R /\ (lo <= h <= a)%R /\ (a <= hi)%R /\ (lo <= uh <= ua)%R /\ (ua <= hi)%R.
Proof.
  intros Hlo Ne F B. destruct F as (F1 & _ & _ & _ & _ & _ & F2 & F3). cbv zeta in *. set (cells := of_type satnums (k_type r) (actives vols)) in *. do 7 eexists. split; [exact F2|]. split; [exact F3|].
  assert (W : forall i, In i cells -> (0 < nthR vols i)%R) by (intros i Hi; exact (cells_w _ _ _ _ Hi)).
  split; [apply variance_nonneg; assumption|]. split; [apply variance_moments; assumption|]. pose proof (total_pos (nthR vols) cells Ne W) as P. split; [rewrite F1; unfold arithmetic; field; lra|].
  destruct (means_order (nthR vols) (nthR p) cells lo hi Ne Hlo W B) as [A1 A2]. destruct (means_order one (nthR p) cells lo hi Ne Hlo ltac:(intros; unfold one; lra) B) as [A3 A4]. lra.
Qed.
(* ---- a grid of three cells, one of them inactive *)
Definition sample_vols : list R := [4; 0; 2]%R.
Lemma sample_active : actives sample_vols = [0; 2].
Proof.
  unfold actives. change (zrange 0 (zlen sample_vols)) with [0; 1; 2]. unfold active, cutoff. cbn [filter].
  change (nthR sample_vols 0) with 4%R. change (nthR sample_vols 1) with 0%R. change (nthR sample_vols 2) with 2%R.
  rewrite (proj2 (Rltb_true _ _)) by lra. rewrite (proj2 (Rltb_false _ _)) by lra. rewrite (proj2 (Rltb_true _ _)) by lra. reflexivity.
Qed.
Lemma sample_clean : clean sample_vols.
Proof.
  intros v [<-|[<-|[<-|[]]]]; unfold cutoff; lra.
Qed.
Lemma sample_leaf : let leaf := [(2, 1%R); (0, 4%R); (1, 7%R)] in let actnum := Some [1; 0; 2] in
  covers 3 actnum /\ NoDup (map fst leaf) /\ (forall c, In c leaf -> 0 <= fst c < 3) /\ (forall c, In c leaf -> weight actnum c = nthR sample_vols (fst c)).
Proof.
  cbv zeta. split; [cbn; lia|]. split; [cbn [map fst]; repeat constructor; cbn; intuition lia|]. split; [intros c [<-|[<-|[<-|[]]]]; cbn; lia|]. intros c [<-|[<-|[<-|[]]]].
  - change (1 * 2 = 2)%R. ring.
  - change (4 * 1 = 4)%R. ring.
  - change (7 * 0 = 0)%R. ring.
Qed.
Lemma sample_perms i : In i (actives sample_vols) -> i < zlen [3; 0; 5]%R /\ (3 <= nthR [3; 0; 5] i <= 5)%R.
Proof.
  rewrite sample_active. intros [<-|[<-|[]]]; (split; [reflexivity|]); [change (nthR [3; 0; 5]%R 0) with 3%R|change (nthR [3; 0; 5]%R 2) with 5%R]; lra.
Qed.
Lemma sample_thin : let vols := [4; cutoff / 2]%R in actives vols = [0] /\ (total (nthR vols) (actives vols) < Rsum vols)%R.
Proof.
  cbv zeta. assert (E : actives [4; cutoff / 2]%R = [0]).
  { unfold actives. change (zrange 0 (zlen [4; cutoff / 2]%R)) with [0; 1]. unfold active. cbn [filter]. change (nthR [4; cutoff / 2]%R 0) with 4%R. change (nthR [4; cutoff / 2]%R 1) with (cutoff / 2)%R.
    rewrite (proj2 (Rltb_true _ _)) by (unfold cutoff; lra). rewrite (proj2 (Rltb_false _ _)) by (unfold cutoff; lra). reflexivity. }
  split; [exact E|]. rewrite E. unfold total. cbn [map]. change (nthR [4; cutoff / 2]%R 0) with 4%R. rewrite !Rsum_cons, !Rsum_nil. unfold cutoff. lra.
Qed.
Lemma sample_volumes : exists s, cell_volumes 3 [(2, 1%R); (0, 4%R); (1, 7%R)] (Some [1; 0; 2]) None None = Ok s /\ v_cell s = sample_vols /\ clean sample_vols /\ actives sample_vols = [0; 2].
Proof.
  destruct sample_leaf as (H1 & H2 & H3 & H4). destruct (cell_volumes_ok 3 _ _ None None ltac:(lia) H1 I I H2 H3) as (s & E & L & V & _). exists s. split; [exact E|]. split; [|split; [exact sample_clean|exact sample_active]].
  apply zlist_ext; [exact L|]. rewrite L. intros i Hi. rewrite !zget_nthR by (try rewrite L; exact Hi). f_equal.
  assert (D : i = 0 \/ i = 1 \/ i = 2) by lia. destruct D as [-> | [-> | ->]]; [specialize (V (0, 4%R)); pose proof (H4 (0, 4%R)) as H|specialize (V (1, 7%R)); pose proof (H4 (1, 7%R)) as H|specialize (V (2, 1%R)); pose proof (H4 (2, 1%R)) as H]; cbn [fst] in *; (rewrite V by (cbn; auto)); apply H; cbn; auto.
Qed.
Lemma sample_volume : (Rsum sample_vols <> 0)%R.
Proof.
  unfold sample_vols. rewrite !Rsum_cons, Rsum_nil. lra.
Qed.
