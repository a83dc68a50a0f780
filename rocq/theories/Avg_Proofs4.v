(* Statistics per rock type. *)
From Verif Require Import BaseFacts RBaseFacts Shape_Proofs2 Steady_Proofs Euler_Proofs2 Mload_Proofs Mload_Proofs2 Mload_Proofs3 Avg_Proofs Avg_Proofs2 Avg_Proofs3 Avg_Spec.
Open Scope Z_scope.

Lemma check_ok satnums : forall m, 0 <= m -> (forall s, In s satnums -> 0 <= s <= 1000) -> exists M, foldM (fun m s => if (s <? 0) || (1000 <? s) then Throw else Ok (Z.max m s)) satnums m = Ok M /\ m <= M /\ (forall s, In s satnums -> s <= M) /\ (M = m \/ In M satnums).
Proof.
  induction satnums as [|a t IH]; intros m Hm H; [exists m; split; [reflexivity|]; split; [lia|]; split; [intros s []|left; reflexivity]|].
  cbn [foldM]. pose proof (H a (or_introl eq_refl)) as Ha. destruct (Z.ltb_spec a 0); [lia|]. destruct (Z.ltb_spec 1000 a); [lia|]. cbn [orb bind].
  destruct (IH (Z.max m a)) as (M & E & L & B & D); [lia|intros; apply H; right; assumption|]. exists M. split; [exact E|]. split; [lia|]. split; [intros s [<-|Hs]; [lia|apply B, Hs]|].
  destruct D as [D|D]; [|right; right; exact D]. destruct (Z.max_spec m a) as [[? R]|[? R]]; rewrite R in D; [right; left; symmetry; exact D|left; exact D].
Qed.
Lemma check_throw satnums : forall m, (exists s, In s satnums /\ (s < 0 \/ 1000 < s)) -> foldM (fun m s => if (s <? 0) || (1000 <? s) then Throw else Ok (Z.max m s)) satnums m = Throw.
Proof.
  induction satnums as [|a t IH]; intros m (s & Hs & B); [destruct Hs|]. cbn [foldM]. destruct (Z.ltb_spec a 0); [reflexivity|]. destruct (Z.ltb_spec 1000 a); [reflexivity|]. cbn [orb bind]. apply IH. destruct Hs as [->|Hs]; [lia|]. eauto.
Qed.
Lemma rock_report_throw nc volume satnums vols perms poros : (exists s, In s satnums /\ (s < 0 \/ 1000 < s)) -> rock_report nc volume satnums vols perms poros = Throw.
Proof.
  intros H. unfold rock_report, check_satnums. rewrite check_throw by exact H. reflexivity.
Qed.
Section Rock.
Variables (satnums : list Z) (m : Z).
Definition tal (arr : list R) (f : Z -> R) (cells : list Z) : Prop := zlen arr = m + 1 /\ forall t, nthR arr t = total f (of_type satnums t cells).
Lemma of_type_app t a b : of_type satnums t (a ++ b) = of_type satnums t a ++ of_type satnums t b.
Proof.
  unfold of_type. apply filter_app.
Qed.
Lemma total_app f a b : total f (a ++ b) = (total f a + total f b)%R.
Proof.
  unfold total. rewrite map_app. apply Rsum_app.
Qed.
Lemma tal_step arr f cells i x : tal arr f cells -> 0 <= type_at satnums i <= m -> x = f i -> exists arr', add_vol arr (type_at satnums i) x = Ok arr' /\ tal arr' f (cells ++ [i]).
Proof.
  intros [L T] H ->. destruct (add_vol_ok arr (type_at satnums i) (f i) ltac:(lia)) as (arr' & E & L' & N & _). exists arr'. split; [exact E|]. split; [lia|]. intros t. rewrite N, of_type_app, total_app, T. f_equal.
  unfold of_type. cbn [filter]. destruct (type_at satnums i =? t); unfold total; cbn [map]; [rewrite Rsum_cons, Rsum_nil; ring|reflexivity].
Qed.
Lemma tal_0 f : 0 <= m -> tal (zrepeat 0%R (m + 1)) f [].
Proof.
  intros H. split; [apply zlen_zrepeat; lia|]. intros t. apply nthR_zrepeat0.
Qed.
Lemma tal_get arr f cells t : tal arr f cells -> 0 <= t <= m -> rget arr t = Ok (total f (of_type satnums t cells)).
Proof.
  intros [L T] H. rewrite rget_nth by lia. rewrite T. reflexivity.
Qed.
Variables (vols : list R) (perms poros : option (list R)).
Definition rinv (l : list Z) (s : rsums) : Prop :=
  let act := filter (active vols) l in let w := nthR vols in
  tal (r_total s) one l /\ tal (r_active s) one act /\ tal (r_vol s) w act /\
  match perms with None => True | Some p => let k := nthR p in
    tal (r_k s) k act /\ tal (r_inv s) (fun i => 1 / k i)%R act /\ tal (r_vk s) (fun i => w i * k i)%R act /\ tal (r_vinv s) (fun i => w i / k i)%R act end /\
  match poros with None => True | Some p => tal (r_pv s) (fun i => w i * nthR p i)%R act end.
Variable nc : Z.
Hypothesis Lv : zlen vols = nc.
Hypothesis Ls : nc <= zlen satnums.
Hypothesis Tr : forall s, In s satnums -> 0 <= s <= m.
Hypothesis Hm : 0 <= m.
Hypothesis Hk : match perms with None => True | Some p => forall i, In i (actives vols) -> i < zlen p /\ (nthR p i <> 0)%R end.
Hypothesis Hp : match poros with None => True | Some p => forall i, In i (actives vols) -> i < zlen p end.
Lemma sat_get i : 0 <= i < nc -> rget satnums i = Ok (type_at satnums i) /\ 0 <= type_at satnums i <= m.
Proof.
  intros H. destruct (zget_in_range satnums i ltac:(lia)) as (t & E). unfold type_at. rewrite (proj2 (rget_Ok _ _ _) E), E. split; [reflexivity|]. apply Tr. eapply zget_In; exact E.
Qed.
Lemma rock_step l s i : rinv l s -> 0 <= i < nc -> exists s', rock_cell satnums vols perms poros s i = Ok s' /\ rinv (l ++ [i]) s'.
Proof.
  intros (T & A & V & K & P) H. destruct (sat_get i H) as [G B]. unfold rock_cell. rewrite G. cbn [bind].
  destruct (tal_step _ _ _ i 1%R T B eq_refl) as (tot & E0 & T'). rewrite E0. cbn [bind]. rewrite (rget_nth vols i) by lia. cbn [bind]. fold (active vols i).
  unfold rinv. rewrite !filter_app. cbn [filter]. destruct (active vols i) eqn:AC.
  - assert (IA : In i (actives vols)) by (unfold actives; apply filter_In; split; [apply In_zrange; lia|exact AC]).
    destruct (tal_step _ _ _ i 1%R A B eq_refl) as (ac & E1 & A'). rewrite E1. cbn [bind]. destruct (tal_step _ _ _ i (nthR vols i) V B eq_refl) as (vo & E2 & V'). rewrite E2. cbn [bind].
    assert (PV : exists pv, match poros with None => Ok (r_pv s) | Some p => let* phi := rget p i in add_vol (r_pv s) (type_at satnums i) (nthR vols i * phi)%R end = Ok pv /\
      match poros with None => True | Some p => tal pv (fun i => nthR vols i * nthR p i)%R (filter (active vols) l ++ [i]) end).
    { destruct poros as [p|]; [|eexists; split; [reflexivity|exact I]]. rewrite (rget_nth p i) by (specialize (Hp i IA); lia). cbn [bind]. destruct (tal_step _ _ _ i (nthR vols i * nthR p i)%R P B eq_refl) as (pv & E & P'). exists pv. split; [exact E|exact P']. }
    destruct PV as (pv & EP & P'). destruct perms as [p|].
    + destruct K as (K1 & K2 & K3 & K4). destruct (Hk i IA) as [Hr Hz]. rewrite (rget_nth p i) by lia. cbn [bind]. rewrite !mdiv_ok by exact Hz. cbn [bind].
      destruct (tal_step _ _ _ i (nthR p i) K1 B eq_refl) as (a1 & F1 & G1). rewrite F1. cbn [bind]. destruct (tal_step _ _ _ i (1 / nthR p i)%R K2 B eq_refl) as (a2 & F2 & G2). rewrite F2. cbn [bind].
      destruct (tal_step _ _ _ i (nthR p i * nthR vols i)%R K3 B (Rmult_comm _ _)) as (a3 & F3 & G3). rewrite F3. cbn [bind]. destruct (tal_step _ _ _ i (nthR vols i / nthR p i)%R K4 B eq_refl) as (a4 & F4 & G4). rewrite F4. cbn [bind].
      rewrite EP. cbn [bind]. eexists. split; [reflexivity|]. cbn [r_total r_active r_vol r_k r_inv r_vk r_vinv r_pv]. auto 10.
    + cbn [bind]. rewrite EP. cbn [bind]. eexists. split; [reflexivity|]. cbn [r_total r_active r_vol r_k r_inv r_vk r_vinv r_pv]. auto 10.
  - eexists. split; [reflexivity|]. cbn [r_total r_active r_vol r_k r_inv r_vk r_vinv r_pv]. rewrite app_nil_r. auto 10.
Qed.
Lemma rock_fold : exists s, foldM (rock_cell satnums vols perms poros) (zrange 0 nc) (let z := zrepeat 0%R (m + 1) in mkRsums z z z z z z z z) = Ok s /\ rinv (zrange 0 nc) s.
Proof.
  apply foldM_inv.
  - unfold rinv. cbn [filter r_total r_active r_vol r_k r_inv r_vk r_vinv r_pv]. split; [apply tal_0, Hm|]. split; [apply tal_0, Hm|]. split; [apply tal_0, Hm|]. split; [destruct perms; [split; [apply tal_0, Hm|split; [apply tal_0, Hm|split; apply tal_0, Hm]]|exact I]|destruct poros; [apply tal_0, Hm|exact I]].
  - intros done i s Hi I. apply In_zrange in Hi. exact (rock_step done s i I Hi).
Qed.
Definition cells_of (t : Z) := of_type satnums t (actives vols).
Lemma of_type_In t i l : In i (of_type satnums t l) <-> In i l /\ type_at satnums i = t.
Proof.
  unfold of_type. rewrite filter_In, Z.eqb_eq. tauto.
Qed.
Lemma cells_w t i : In i (cells_of t) -> (0 < nthR vols i)%R.
Proof.
  intros H. apply of_type_In in H. apply actives_w, H.
Qed.
Lemma var_fold p s : poros = Some p -> rinv (zrange 0 nc) s -> exists var, foldM (var_cell satnums vols p s) (zrange 0 nc) (zrepeat 0%R (m + 1)) = Ok var /\
  tal var (fun i => nthR vols i * ((nthR p i - arithmetic (nthR vols) (nthR p) (cells_of (type_at satnums i))) * (nthR p i - arithmetic (nthR vols) (nthR p) (cells_of (type_at satnums i)))))%R (actives vols).
Proof.
  intros Ep (_ & _ & V & _ & P). rewrite Ep in P. set (f := fun i : Z => _).
  destruct (foldM_inv (var_cell satnums vols p s) (fun l arr => tal arr f (filter (active vols) l)) (zrange 0 nc) (zrepeat 0%R (m + 1))) as (var & E & T).
  - cbn [filter]. apply tal_0, Hm.
  - intros done i arr Hi T. apply In_zrange in Hi. unfold var_cell. rewrite (rget_nth vols i) by lia. cbn [bind]. fold (active vols i). rewrite filter_app. cbn [filter]. destruct (active vols i) eqn:AC; [|exists arr; rewrite app_nil_r; auto].
    assert (IA : In i (actives vols)) by (unfold actives; apply filter_In; split; [apply In_zrange; lia|exact AC]).
    destruct (sat_get i Hi) as [G B]. rewrite G. cbn [bind]. rewrite Ep in Hp. rewrite (rget_nth p i) by (specialize (Hp i IA); lia). cbn [bind].
    rewrite (tal_get _ _ _ _ P B). cbn [bind]. rewrite (tal_get _ _ _ _ V B). cbn [bind].
    rewrite <- Lv. fold (actives vols). fold (cells_of (type_at satnums i)).
    assert (IC : In i (cells_of (type_at satnums i))) by (apply of_type_In; auto).
    assert (PV : (0 < total (nthR vols) (cells_of (type_at satnums i)))%R) by (apply total_pos; [intros E; rewrite E in IC; destruct IC|intros j Hj; exact (cells_w _ _ Hj)]).
    rewrite mdiv_ok by lra. cbn [bind]. apply (tal_step _ f); [exact T|exact B|reflexivity].
  - exists var. split; [exact E|]. unfold actives. rewrite Lv. exact T.
Qed.
End Rock.
