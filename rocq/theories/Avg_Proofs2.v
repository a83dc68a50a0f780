(* The volumes of the cells and their sums. *)
From Verif Require Import BaseFacts RBaseFacts Shape_Proofs2 Steady_Proofs Euler_Proofs2 Mload_Proofs Mload_Proofs2 Avg_Proofs Avg_Spec.
Open Scope Z_scope.

Lemma rset_do l i y : 0 <= i < zlen l -> exists l', rset l i y = Ok l' /\ zlen l' = zlen l /\ (forall c, nthR l' c = if c =? i then y else nthR l c).
Proof.
  intros H. destruct (rset_exists l i y H) as (l' & E & _). exists l'. destruct (rset_nthR _ _ _ _ E) as (A & _ & B & _). auto.
Qed.
Lemma filter_one {A} (P Q : A -> bool) x l : NoDup l -> In x l -> P x = false -> Q x = true -> (forall y, y <> x -> P y = Q y) ->
  zlen (filter Q l) = zlen (filter P l) + 1.
Proof.
  intros N I Px Qx O. induction l as [|a t IH]; [destruct I|]. inversion N as [|? ? Na Nt]; subst. cbn [filter]. destruct I as [->|I].
  - rewrite Px, Qx. assert (E : filter Q t = filter P t). { apply filter_ext_in. intros y Hy. symmetry. apply O. intros ->. exact (Na Hy). } rewrite E. unfold zlen. cbn [List.length]. lia.
  - assert (Nx : a <> x) by (intros ->; exact (Na I)). rewrite (O a Nx). specialize (IH Nt I). destruct (Q a); [|exact IH]. unfold zlen in *. cbn [List.length]. lia.
Qed.
Definition net_of (poros ntgs : option (list R)) := match poros with Some _ => ntgs | None => None end.
Definition vinv (nc : Z) actnum (poros ntgs : option (list R)) (done : list (Z * R)) (s : volumes) : Prop :=
  zlen (v_cell s) = nc /\ zlen (v_pore s) = nc /\ zlen (v_net s) = nc /\ zlen (v_netpore s) = nc /\
  (forall c, In c done -> nthR (v_cell s) (fst c) = weight actnum c) /\
  (forall i, ~ In i (map fst done) -> nthR (v_cell s) i = 0%R) /\
  (forall i, nthR (v_pore s) i = if active (v_cell s) i then (nthR (v_cell s) i * opt_nth poros i)%R else 0%R) /\
  (forall i, nthR (v_net s) i = if active (v_cell s) i then (nthR (v_cell s) i * opt_nth (net_of poros ntgs) i)%R else 0%R) /\
  (forall i, nthR (v_netpore s) i = if active (v_cell s) i then (nthR (v_cell s) i * opt_nth poros i * opt_nth (net_of poros ntgs) i)%R else 0%R) /\
  v_count s = zlen (actives (v_cell s)).
Lemma cutoff_pos : (0 < cutoff)%R.
Proof.
  unfold cutoff. lra.
Qed.
Lemma visit_cell_ok nc actnum poros ntgs done s c : covers nc actnum -> covers nc poros -> covers nc ntgs -> 0 <= fst c < nc -> ~ In (fst c) (map fst done) ->
  vinv nc actnum poros ntgs done s -> exists s', visit_cell actnum poros ntgs s c = Ok s' /\ vinv nc actnum poros ntgs (done ++ [c]) s'.
Proof.
  intros Ca Cp Cn Hi Ni (L1 & L2 & L3 & L4 & V & ZR & P & NT0 & Q & K). destruct c as [i vol]. cbn [fst] in *.
  assert (W : (match actnum with None => Ok vol | Some a => let* x := rget a i in Ok (vol * IZR x)%R end) = Ok (weight actnum (i, vol))).
  { destruct actnum as [a|]; [|reflexivity]. cbn [covers] in Ca. destruct (zget_in_range a i ltac:(lia)) as (x & E). rewrite (proj2 (rget_Ok _ _ _) E). cbn [bind weight snd fst]. rewrite E. reflexivity. }
  unfold visit_cell. rewrite W. cbn [bind]. set (v := weight actnum (i, vol)) in *.
  destruct (rset_do (v_cell s) i v ltac:(lia)) as (cell & E1 & LC & NC). rewrite E1. cbn [bind].
  assert (A0 : active (v_cell s) i = false). { unfold active. rewrite (ZR i Ni). apply Rltb_false. pose proof cutoff_pos. lra. }
  assert (A1 : active cell i = Rltb cutoff v). { unfold active. rewrite NC, Z.eqb_refl. reflexivity. }
  assert (AO : forall j, j <> i -> active (v_cell s) j = active cell j). { intros j Hj. unfold active. rewrite NC. destruct (Z.eqb_spec j i); [contradiction|reflexivity]. }
  assert (VC : forall c, In c (done ++ [(i, vol)]) -> nthR cell (fst c) = weight actnum c).
  { intros c Hc. apply in_app_or in Hc. destruct Hc as [Hc|[<-|[]]]; [|cbn [fst]; rewrite NC, Z.eqb_refl; reflexivity]. rewrite NC. destruct (Z.eqb_spec (fst c) i) as [E|E]; [|apply V, Hc]. elim Ni. rewrite <- E. apply in_map, Hc. }
  assert (ZC : forall j, ~ In j (map fst (done ++ [(i, vol)])) -> nthR cell j = 0%R).
  { intros j Hj. rewrite map_app in Hj. cbn [map fst] in Hj. rewrite NC. destruct (Z.eqb_spec j i) as [E|E]; [elim Hj; apply in_or_app; right; left; symmetry; exact E|apply ZR; intros H; apply Hj, in_or_app; left; exact H]. }
  assert (OLD : forall (arr : list R) (f : Z -> R), (forall j, nthR arr j = if active (v_cell s) j then f j else 0%R) -> forall j, j <> i -> nthR arr j = if active cell j then f j else 0%R).
  { intros arr f H j Hj. rewrite H, (AO j Hj). reflexivity. }
  assert (CELL : forall j, j <> i -> nthR cell j = nthR (v_cell s) j) by (intros j Hj; rewrite NC; destruct (Z.eqb_spec j i); [contradiction|reflexivity]).
  assert (KEEP : forall (arr : list R) (g : Z -> R), (forall j, nthR arr j = if active (v_cell s) j then (nthR (v_cell s) j * g j)%R else 0%R) ->
     (active cell i = false \/ g i = 0%R) -> forall j, nthR arr j = if active cell j then (nthR cell j * g j)%R else 0%R).
  { intros arr g H D j. destruct (Z.eq_dec j i) as [->|Hj]; [|rewrite (CELL j Hj); exact (OLD arr _ H j Hj)]. rewrite H, A0. destruct D as [-> | ->]; [reflexivity|]. destruct (active cell i); ring. }
  assert (SET : forall (arr arr' : list R) (g : Z -> R), (forall j, nthR arr j = if active (v_cell s) j then (nthR (v_cell s) j * g j)%R else 0%R) -> Rltb cutoff v = true ->
     (forall j, nthR arr' j = if j =? i then (v * g i)%R else nthR arr j) -> forall j, nthR arr' j = if active cell j then (nthR cell j * g j)%R else 0%R).
  { intros arr arr' g H T B j. rewrite B. destruct (Z.eqb_spec j i) as [->|Hj]; [rewrite A1, T, NC, Z.eqb_refl; reflexivity|]. rewrite (CELL j Hj). exact (OLD arr _ H j Hj). }
  assert (QS : forall j, nthR (v_netpore s) j = if active (v_cell s) j then (nthR (v_cell s) j * (opt_nth poros j * opt_nth (net_of poros ntgs) j))%R else 0%R) by (intros j; rewrite Q; destruct (active (v_cell s) j); ring).
  assert (QF : forall (arr : list R), (forall j, nthR arr j = if active cell j then (nthR cell j * (opt_nth poros j * opt_nth (net_of poros ntgs) j))%R else 0%R) ->
     forall j, nthR arr j = if active cell j then (nthR cell j * opt_nth poros j * opt_nth (net_of poros ntgs) j)%R else 0%R) by (intros arr H j; rewrite H; destruct (active cell j); ring).
  destruct (Rltb cutoff v) eqn:T.
  - assert (CNT : v_count s + 1 = zlen (actives cell)).
    { rewrite K. unfold actives. rewrite LC. symmetry. apply (filter_one _ _ i); [apply zrange_NoDup|apply In_zrange; lia|exact A0|exact A1|exact AO]. }
    destruct poros as [p|]; cbn [net_of] in *.
    + cbn [covers] in Cp. rewrite (rget_nth p i) by lia. cbn [bind]. destruct (rset_do (v_pore s) i (v * nthR p i)%R ltac:(lia)) as (pore & E2 & LP & NP). rewrite E2. cbn [bind].
      destruct ntgs as [n|].
      * cbn [covers] in Cn. rewrite (rget_nth n i) by lia. cbn [bind]. destruct (rset_do (v_netpore s) i (v * nthR p i * nthR n i)%R ltac:(lia)) as (np & E3 & LN & NN). rewrite E3. cbn [bind].
        destruct (rset_do (v_net s) i (v * nthR n i)%R ltac:(lia)) as (net & E4 & LT & NT). rewrite E4. cbn [bind]. eexists. split; [reflexivity|]. unfold vinv. cbn [v_cell v_pore v_net v_netpore v_count net_of].
        repeat (split; [first [lia|assumption]|]). split; [exact (SET (v_pore s) pore (opt_nth (Some p)) P eq_refl NP)|]. split; [exact (SET (v_net s) net (opt_nth (Some n)) NT0 eq_refl NT)|]. split; [|exact CNT].
        apply QF. apply (SET (v_netpore s) np _ QS eq_refl). intros j. rewrite NN. destruct (j =? i); [|reflexivity]. cbn [opt_nth net_of]. ring.
      * eexists. split; [reflexivity|]. unfold vinv. cbn [v_cell v_pore v_net v_netpore v_count net_of]. repeat (split; [first [lia|assumption]|]). split; [exact (SET (v_pore s) pore (opt_nth (Some p)) P eq_refl NP)|].
        split; [apply KEEP; [exact NT0|right; reflexivity]|]. split; [|exact CNT]. apply QF. apply KEEP; [exact QS|right; cbn [opt_nth net_of]; ring].
    + eexists. split; [reflexivity|]. unfold vinv. cbn [v_cell v_pore v_net v_netpore v_count net_of]. repeat (split; [first [lia|assumption]|]). split; [apply KEEP; [exact P|right; reflexivity]|].
      split; [apply KEEP; [exact NT0|right; reflexivity]|]. split; [|exact CNT]. apply QF. apply KEEP; [exact QS|right; cbn [opt_nth net_of]; ring].
  - eexists. split; [reflexivity|]. unfold vinv. cbn [v_cell v_pore v_net v_netpore v_count]. repeat (split; [first [lia|assumption]|]). split; [apply KEEP; [exact P|left; exact A1]|].
    split; [apply KEEP; [exact NT0|left; exact A1]|]. split; [apply QF, KEEP; [exact QS|left; exact A1]|]. rewrite K. unfold actives. rewrite LC. f_equal. apply filter_ext. intros j.
    destruct (Z.eq_dec j i) as [->|Hj]; [rewrite A0, A1; reflexivity|apply AO, Hj].
Qed.
Lemma nthR_zrepeat0 n i : nthR (zrepeat 0%R n) i = 0%R.
Proof.
  pose proof (nthR_zeros [] n i) as H. cbn [app] in H. rewrite H. apply nthR_out. change (zlen (@nil R)) with 0. lia.
Qed.
Lemma cell_volumes_inv nc leaf actnum poros ntgs : 0 <= nc -> covers nc actnum -> covers nc poros -> covers nc ntgs -> NoDup (map fst leaf) -> (forall c, In c leaf -> 0 <= fst c < nc) ->
  exists s, cell_volumes nc leaf actnum poros ntgs = Ok s /\ vinv nc actnum poros ntgs leaf s.
Proof.
  intros Hn Ca Cp Cn ND R. unfold cell_volumes.
  assert (I0 : vinv nc actnum poros ntgs [] (mkVolumes (zrepeat 0%R nc) (zrepeat 0%R nc) (zrepeat 0%R nc) (zrepeat 0%R nc) 0)).
  { assert (F : forall i, active (zrepeat 0%R nc) i = false) by (intros i; unfold active; rewrite nthR_zrepeat0; apply Rltb_false; pose proof cutoff_pos; lra).
    unfold vinv. cbn [v_cell v_pore v_net v_netpore v_count]. rewrite !zlen_zrepeat by exact Hn. repeat (split; [reflexivity|]). split; [intros c []|]. split; [intros; apply nthR_zrepeat0|].
    repeat (split; [intros i; rewrite F; apply nthR_zrepeat0|]). unfold actives. rewrite (filter_ext _ (fun _ => false)) by exact F. induction (zrange 0 _); [reflexivity|assumption]. }
  assert (G : forall todo done s, done ++ todo = leaf -> vinv nc actnum poros ntgs done s -> exists s', foldM (visit_cell actnum poros ntgs) todo s = Ok s' /\ vinv nc actnum poros ntgs leaf s').
  { induction todo as [|c t IH]; intros done s E I; [rewrite app_nil_r in E; subst done; exists s; split; [reflexivity|exact I]|]. cbn [foldM].
    destruct (visit_cell_ok nc actnum poros ntgs done s c Ca Cp Cn) as (s' & Es & I'); [apply R; rewrite <- E; apply in_or_app; right; left; reflexivity| |exact I|].
    - rewrite <- E in ND. rewrite map_app in ND. cbn [map] in ND. apply NoDup_remove_2 in ND. intros H. apply ND, in_or_app. left. exact H.
    - rewrite Es. cbn [bind]. apply (IH (done ++ [c])); [rewrite <- app_assoc; exact E|exact I']. }
  exact (G leaf [] _ eq_refl I0).
Qed.
