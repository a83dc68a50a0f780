(* Termination of the resolution and its result. *)
From Verif Require Import RBaseFacts BaseFacts Lin_Facts Smat_Proofs Asm_Proofs Asm_Spec.
Open Scope Z_scope.

Definition ranked (dim : Z) (rank : Z -> nat) (M : mpcmap) : Prop := forall a x c, couples dim M a x c -> (rank x < rank a)%nat.
Lemma ranked_chain dim rank M : ranked dim rank M -> forall a x c, chain dim M a x c -> (rank x < rank a)%nat.
Proof. intros H a x c Hc. induction Hc as [k x c Hc|k y x c d Hc _ IH]; [eapply H; exact Hc|]. specialize (H _ _ _ Hc). lia. Qed.
Lemma loop_ends dim M k rec rank n : ranked dim rank M -> (forall Mi x r, wf_mpcs dim Mi -> rec Mi x = Some r -> slaveof Mi x -> exists M', r = Ok M' /\ post dim Mi x M') ->
  (forall Mi x, wf_mpcs dim Mi -> ranked dim rank Mi -> slaveof Mi x -> (rank x < n)%nat -> exists r, rec Mi x = Some r) -> (rank k <= n)%nat ->
  forall todo Mi kept rest added, length rest = todo -> inv dim M k Mi kept rest added -> exists r, master_loop rec dim k todo (zlen kept) Mi = Some r.
Proof.
  intros HR REC TERM Hn. induction todo as [|todo IH]; intros Mi kept rest added HL I; cbn [master_loop]; [eexists; reflexivity|].
  destruct rest as [|m rest]; [discriminate|]. injection HL as HL. pose proof I as I0. destruct I as (K & W & Hch & (sl & Hk) & Hfree & HA & Hun & Hdone & Hob & Hrest). rewrite Hk. cbn [mp_master]. rewrite <- app_comm_cons. rewrite zget_mid.
  destruct (proj2 W k _ Hk) as [_ Wk]. specialize (Wk m). cbn [mp_master] in Wk. rewrite !in_app_iff in Wk. destruct Wk as [Wd Wc]; [right; left; now left|].
  destruct (Z.leb_spec 1 (md_dof m)); [|lia]. destruct (Z.leb_spec (md_dof m) dim); [|lia]. cbn [andb negb]. rewrite (proj2 (Rltb_true _ _) Wc).
  unfold get_mpc. replace (md_node m * dim + (md_dof m - 1)) with (dof_key dim m) by (unfold dof_key; lia).
  destruct (mm_find Mi (dof_key dim m)) as [q|] eqn:Eq.
  - assert (slaveof Mi (dof_key dim m)) as Hs by (unfold slaveof; congruence).
    destruct (TERM Mi (dof_key dim m) W) as (r & Er); [intros a x c Hc; eapply ranked_chain; [exact HR|apply (Hch _ _ _ Hc)]|exact Hs|specialize (HR _ _ _ (Hrest m (or_introl eq_refl))); lia|].
    destruct (REC _ _ _ W Er Hs) as (M2 & -> & HP). rewrite Er. assert (slaveof M2 k) as S1 by (apply (keys_slave Mi); [apply HP|]; unfold slaveof; congruence).
    assert (slaveof M2 (dof_key dim m)) as S2 by (apply (keys_slave Mi); [apply HP|exact Hs]). unfold slaveof in S1, S2. destruct (mm_find M2 k) as [p|] eqn:E1; [|congruence]. destruct (mm_find M2 (dof_key dim m)) as [p2|] eqn:E2; [|congruence].
    destruct (step_inv dim M k Mi kept m rest added M2 p p2 I0 Hs HP E1 E2) as (added' & I2). exact (IH _ _ _ _ HL I2).
  - replace (zlen kept + 1) with (zlen (kept ++ [m])) by (rewrite zlen_app; reflexivity). apply (IH Mi (kept ++ [m]) rest added HL).
    assert (~ slaveof M (dof_key dim m)) as Ns by (rewrite <- (keys_slave _ _ _ K); unfold slaveof; tauto).
    unfold inv. split; [exact K|]. split; [exact W|]. split; [exact Hch|]. split; [exists sl; rewrite Hk; rewrite <- app_assoc; reflexivity|]. split.
    { intros m' [Hm'|Hm']; [|apply Hfree; now right]. apply in_app_iff in Hm'. destruct Hm' as [Hm'|[<-|[]]]; [apply Hfree; now left|exact Ns]. }
    split. { intros x Hx. destruct (HA x Hx) as [E|(m' & [<-|Hm'] & <-)]; [now left|left; apply no_successor; exact Ns|right; exists m'; tauto]. }
    split; [exact Hun|]. split; [exact Hdone|]. split; [exact Hob|]. intros m' Hm'. apply Hrest. now right.
Qed.
Lemma resolve_ends dim rank n : forall M k, wf_mpcs dim M -> ranked dim rank M -> slaveof M k -> (rank k < n)%nat -> exists r, resolve n dim M k = Some r.
Proof.
  induction n as [|n IH]; intros M k W HR Hs Hn; [lia|]. cbn [resolve]. pose proof Hs as Hs0. unfold slaveof in Hs0. destruct (mm_find M k) as [p|] eqn:Ep; [|congruence].
  apply (loop_ends dim M k (resolve n dim) rank n HR (resolve_post dim n) IH ltac:(lia) _ M [] (mp_master p) []); [reflexivity|]. apply start_inv; assumption.
Qed.

(* ---- ranks *)
Definition succs (dim : Z) (M : mpcmap) (k : Z) : list Z := match mm_find M k with Some p => map (dof_key dim) (mp_master p) | None => [] end.
Lemma succs_under dim M k x : In x (succs dim M k) <-> under dim M x k.
Proof.
  unfold succs, under, couples. destruct (mm_find M k) as [p|]; [|split; [intros []|intros (c & q & m & H & _); discriminate]]. rewrite in_map_iff. split.
  - intros (m & <- & Hm). exists (md_coeff m), p, m. tauto.
  - intros (c & q & m & [= <-] & Hm & <- & _). exists m. tauto.
Qed.
Fixpoint rk (dim : Z) (M : mpcmap) (n : nat) (k : Z) : nat :=
  match n with O => O | Datatypes.S n => fold_right (fun x r => Nat.max (Datatypes.S (rk dim M n x)) r) O (succs dim M k) end.
Lemma rk_stable dim M k : Acc (under dim M) k -> exists N, forall n, (N <= n)%nat -> rk dim M n k = rk dim M N k.
Proof.
  induction 1 as [k _ IH]. assert (forall l, (forall x, In x l -> under dim M x k) -> exists N, forall n, (N <= n)%nat -> forall x, In x l -> rk dim M n x = rk dim M N x) as H.
  { induction l as [|x l IHl]; intros Hl; [exists O; intros n _ y []|]. destruct (IH x (Hl x (or_introl eq_refl))) as (N1 & H1). destruct IHl as (N2 & H2); [intros y Hy; apply Hl; now right|].
    exists (Nat.max N1 N2). intros n Hn y [<-|Hy]; [rewrite (H1 n), (H1 (Nat.max N1 N2)) by lia; reflexivity|rewrite (H2 n), (H2 (Nat.max N1 N2)) by (exact Hy || lia); reflexivity]. }
  destruct (H (succs dim M k)) as (N & HN); [intros x; apply succs_under|]. exists (Datatypes.S N). intros [|n] Hn; [lia|]. cbn [rk].
  assert (forall l, (forall x, In x l -> In x (succs dim M k)) -> fold_right (fun x r => Nat.max (Datatypes.S (rk dim M n x)) r) O l = fold_right (fun x r => Nat.max (Datatypes.S (rk dim M N x)) r) O l) as E; [|apply E; tauto].
  induction l as [|x l IHl]; intros Hl; cbn [fold_right]; [reflexivity|]. rewrite (HN n ltac:(lia) x (Hl x (or_introl eq_refl))). f_equal. apply IHl. intros y Hy. apply Hl. now right.
Qed.
Lemma Acc_ranked dim M : (forall k, slaveof M k -> Acc (under dim M) k) -> exists rank, ranked dim rank M.
Proof.
  intros H. assert (forall l, (forall k, In k l -> slaveof M k) -> exists N, forall n, (N <= n)%nat -> forall k, In k l -> rk dim M n k = rk dim M N k) as HH.
  { induction l as [|x l IHl]; intros Hl; [exists O; intros n _ y []|]. destruct (rk_stable dim M x (H x (Hl x (or_introl eq_refl)))) as (N1 & H1). destruct IHl as (N2 & H2); [intros y Hy; apply Hl; now right|].
    exists (Nat.max N1 N2). intros n Hn y [<-|Hy]; [rewrite (H1 n), (H1 (Nat.max N1 N2)) by lia; reflexivity|rewrite (H2 n), (H2 (Nat.max N1 N2)) by (exact Hy || lia); reflexivity]. }
  destruct (HH (map fst M)) as (N & HN); [intros k; apply mm_find_keys|]. exists (rk dim M N). intros a x c Hc.
  assert (In a (map fst M)) as Ha by (apply mm_find_keys; destruct Hc as (p & m & Hp & _); unfold slaveof; congruence). rewrite <- (HN (Datatypes.S N) ltac:(lia) a Ha). cbn [rk].
  assert (In x (succs dim M a)) as Hx by (apply succs_under; exists c; exact Hc). revert Hx. generalize (succs dim M a). induction l as [|y l IH]; [intros []|]. cbn [fold_right]. intros [->|Hx]; [lia|]. specialize (IH Hx). lia.
Qed.
Lemma acyclic_Acc dim M : ~ cyclic dim M -> forall k, Acc (under dim M) k.
Proof.
  intros NC. assert (forall n vis k, (forall v, In v vis -> slaveof M v /\ exists c, chain dim M v k c) -> NoDup vis -> (length (map fst M) < n + length vis)%nat -> Acc (under dim M) k) as H.
  { induction n as [|n IH]; intros vis k Hv ND HL.
    - exfalso. assert (incl vis (map fst M)) as Hi by (intros v Hv'; apply mm_find_keys, (Hv v Hv')). pose proof (NoDup_incl_length ND Hi). lia.
    - constructor. intros x (c & Hc). apply (IH (k :: vis)); [| |cbn [length]; lia].
      + intros v [<-|Hv']; [split; [destruct Hc as (p & m & Hp & _); unfold slaveof; congruence|exists c; apply chain_one; exact Hc]|]. destruct (Hv v Hv') as (Hs & d & Hd). split; [exact Hs|]. exists (d * c)%R. eapply chain_trans; [exact Hd|apply chain_one; exact Hc].
      + constructor; [|exact ND]. intros Hi. destruct (Hv k Hi) as (_ & d & Hd). apply NC. exists k, d. exact Hd. }
  intros k. apply (H (Datatypes.S (length (map fst M))) [] k); [intros v []|constructor|cbn; lia].
Qed.

(* ---- all constraints *)
Definition allpost (dim : Z) (M : mpcmap) (ks : list Z) (M' : mpcmap) : Prop :=
  map fst M' = map fst M /\ wf_mpcs dim M' /\ (forall a x c, couples dim M' a x c -> chain dim M a x c) /\
  (forall k, In k ks -> Acc (under dim M) k /\ done_at dim M' k) /\ (forall x, mm_find M' x = mm_find M x \/ Acc (under dim M) x) /\
  (no_loss dim M -> forall u, obeys dim M' u <-> obeys dim M u) /\ (forall x, done_at dim M x -> mm_find M' x = mm_find M x).
Lemma Acc_back2 dim M Mi : map fst Mi = map fst M -> (forall x, mm_find Mi x = mm_find M x \/ Acc (under dim M) x) ->
  forall y, Acc (under dim Mi) y -> Acc (under dim M) y.
Proof.
  intros K H y Hy. induction Hy as [y _ IH]. destruct (H y) as [E|A]; [|exact A].
  constructor. intros z (c & p & m & Hf & Hm & Hk & Hc). rewrite <- E in Hf. apply IH. exists c, p, m. tauto.
Qed.
Lemma done_same dim M M' x : map fst M' = map fst M -> mm_find M' x = mm_find M x -> done_at dim M x -> done_at dim M' x.
Proof. intros K E D y c (p & m & Hp & Hm & Hy & Hc) Sy. rewrite E in Hp. apply (D y c); [exists p, m; tauto|]. apply (keys_slave _ _ _ K). exact Sy. Qed.
Lemma allpost_step dim M ks Mi k M' : allpost dim M ks Mi -> post dim Mi k M' -> allpost dim M (ks ++ [k]) M'.
Proof.
  intros (K & W & Hch & Hd & Hun & Hob & Hkeep) (K2 & W2 & Hch2 & A2 & Hun2 & D2 & Hdone2 & Hob2). unfold allpost. split; [congruence|]. split; [exact W2|]. split; [intros a x c Hc; eapply chain_sub; [exact Hch|apply Hch2; exact Hc]|]. split.
  { intros x Hx. apply in_app_iff in Hx. destruct Hx as [Hx|[<-|[]]].
    - destruct (Hd x Hx) as [A D]. split; [exact A|]. apply (done_same _ Mi); [exact K2|apply Hdone2; exact D|exact D].
    - split; [eapply Acc_back2; eassumption|exact D2]. }
  split. { intros x. destruct (Hun2 x) as [E|E]; [rewrite E; apply Hun|]. right. eapply Acc_back2; [exact K|exact Hun|]. eapply Acc_reach; eassumption. }
  split. { intros NL u. rewrite <- Hob by exact NL. apply Hob2. intros a x c Hc. eapply NL. eapply chain_sub; eassumption. }
  intros x Dx. rewrite Hdone2; [apply Hkeep; exact Dx|]. apply (done_same _ M); [exact K|apply Hkeep; exact Dx|exact Dx].
Qed.
Lemma fold_stuck dim fuel l r : (forall M, r <> Some (Ok M)) -> fold_left (fun r k => match r with Some (Ok M) => resolve fuel dim M k | r => r end) l r = r.
Proof. intros H. induction l as [|k l IH]; cbn [fold_left]; [reflexivity|]. destruct r as [[M| |]|]; try exact IH. exfalso. now apply (H M). Qed.
Lemma fold_post dim fuel M l : forall ks Mi r, (forall k, In k l -> slaveof M k) -> allpost dim M ks Mi ->
  fold_left (fun r k => match r with Some (Ok M) => resolve fuel dim M k | r => r end) l (Some (Ok Mi)) = Some r -> exists M', r = Ok M' /\ allpost dim M (ks ++ l) M'.
Proof.
  induction l as [|k l IH]; intros ks Mi r Hl I Hr; cbn [fold_left] in Hr.
  - injection Hr as <-. exists Mi. rewrite app_nil_r. split; [reflexivity|exact I].
  - destruct (resolve fuel dim Mi k) as [r2|] eqn:Er; [|rewrite fold_stuck in Hr; [discriminate|intros ? ?; discriminate]].
    assert (slaveof Mi k) as Hs by (apply (keys_slave M); [apply I|apply Hl; now left]). destruct (resolve_post dim fuel Mi k r2 (proj1 (proj2 I)) Er Hs) as (M2 & -> & HP).
    destruct (IH (ks ++ [k]) M2 r) as (M' & -> & HA); [intros y Hy; apply Hl; now right|eapply allpost_step; eassumption|exact Hr|]. exists M'. split; [reflexivity|]. rewrite <- app_assoc in HA. exact HA.
Qed.
Lemma allpost_start dim M : wf_mpcs dim M -> allpost dim M [] M.
Proof. intros W. unfold allpost. split; [reflexivity|]. split; [exact W|]. split; [intros a x c; apply chain_one|]. split; [intros k []|]. split; [intros; now left|]. split; [intros; tauto|intros; reflexivity]. Qed.
Lemma resolve_all_post dim fuel M r : wf_mpcs dim M -> resolve_all fuel dim M = Some r -> exists M', r = Ok M' /\ allpost dim M (map fst M) M'.
Proof. intros W Hr. apply (fold_post dim fuel M (map fst M) [] M r); [intros k; apply mm_find_keys|apply allpost_start; exact W|exact Hr]. Qed.
Lemma max_rank (rank : Z -> nat) l : exists N, forall k, In k l -> (rank k < N)%nat.
Proof. induction l as [|x l [N H]]; [exists O; intros k []|]. exists (Nat.max N (Datatypes.S (rank x))). intros k [->|Hk]; [lia|]. specialize (H k Hk). lia. Qed.
Lemma fold_ends dim fuel M rank l : ranked dim rank M -> (forall k, slaveof M k -> (rank k < fuel)%nat) -> forall ks Mi, (forall k, In k l -> slaveof M k) -> allpost dim M ks Mi ->
  exists r, fold_left (fun r k => match r with Some (Ok M) => resolve fuel dim M k | r => r end) l (Some (Ok Mi)) = Some r.
Proof.
  intros HR HF. induction l as [|k l IH]; intros ks Mi Hl I; cbn [fold_left]; [eexists; reflexivity|].
  assert (slaveof Mi k) as Hs by (apply (keys_slave M); [apply I|apply Hl; now left]). pose proof (proj1 (proj2 I)) as W.
  destruct (resolve_ends dim rank fuel Mi k W) as (r & Er); [intros a x c Hc; eapply ranked_chain; [exact HR|apply (proj1 (proj2 (proj2 I)) _ _ _ Hc)]|exact Hs|apply HF, Hl; now left|].
  rewrite Er. destruct (resolve_post dim fuel Mi k r W Er Hs) as (M2 & -> & HP). apply (IH (ks ++ [k])); [intros y Hy; apply Hl; now right|eapply allpost_step; eassumption].
Qed.
(* ---- the theorems *)
Lemma resolve_terminates dim M : wf_mpcs dim M -> ~ cyclic dim M -> exists fuel0, forall fuel, (fuel0 <= fuel)%nat -> exists M', resolve_all fuel dim M = Some (Ok M').
Proof.
  intros W NC. destruct (Acc_ranked dim M (fun k _ => acyclic_Acc dim M NC k)) as (rank & HR). destruct (max_rank rank (map fst M)) as (N & HN). exists N. intros fuel Hf.
  destruct (fold_ends dim fuel M rank (map fst M) HR) with (ks := @nil Z) (Mi := M) as (r & Hr); [intros k Hk; apply mm_find_keys in Hk; specialize (HN k Hk); lia|intros k; apply mm_find_keys|apply allpost_start; exact W|].
  destruct (resolve_all_post dim fuel M r W Hr) as (M' & -> & _). exists M'. exact Hr.
Qed.
Lemma resolve_diverges dim M : wf_mpcs dim M -> cyclic dim M -> forall fuel, resolve_all fuel dim M = None.
Proof.
  intros W (k & c & Hc) fuel. destruct (resolve_all fuel dim M) as [r|] eqn:E; [|reflexivity]. exfalso. destruct (resolve_all_post dim fuel M r W E) as (M' & -> & (_ & _ & _ & H & _)).
  apply (Acc_no_cycle dim M k) with c; [|exact Hc]. apply H. apply mm_find_keys. eapply chain_start. exact Hc.
Qed.
Lemma resolve_result dim M fuel r : wf_mpcs dim M -> resolve_all fuel dim M = Some r -> exists M', r = Ok M' /\ wf_mpcs dim M' /\
  (forall k, slaveof M' k <-> slaveof M k) /\ resolved dim M' /\ (forall k x c, couples dim M' k x c -> chain dim M k x c) /\
  (no_loss dim M -> forall u, obeys dim M' u <-> obeys dim M u) /\ (resolved dim M -> forall k, mm_find M' k = mm_find M k).
Proof.
  intros W Hr. destruct (resolve_all_post dim fuel M r W Hr) as (M' & -> & (K & W' & Hch & Hd & Hun & Hob & Hk)). exists M'. split; [reflexivity|]. split; [exact W'|]. split; [intros k; apply keys_slave; exact K|]. split.
  { intros k x c Hc. assert (In k (map fst M)) as Hi by (rewrite <- K; apply mm_find_keys; destruct Hc as (p & m & Hp & _); unfold slaveof; congruence). apply (proj2 (Hd k Hi) x c Hc). }
  split; [exact Hch|]. split; [exact Hob|]. intros RM k. apply Hk. intros y c Hc. apply (RM k y c Hc).
Qed.
