(* Equation numbers, pattern and assembly. *)
From Verif Require Import RBaseFacts BaseFacts Lin_Facts Mim_Proofs Smat_Proofs Asm_Proofs Asm_Proofs2 Asm_Spec.
Open Scope Z_scope.

Lemma divmod dim n i : 0 <= i < dim -> (n * dim + i) / dim = n /\ (n * dim + i) mod dim = i.
Proof. intros H. split; [rewrite Z.div_add_l by lia; rewrite Z.div_small by lia; lia|rewrite Z.add_comm, Z.mod_add by lia; apply Z.mod_small; lia]. Qed.
Lemma dof_split dim nodes d : 0 < dim -> 0 <= d < nodes * dim -> 0 <= d / dim < nodes /\ 0 <= d mod dim < dim /\ d = d / dim * dim + d mod dim.
Proof.
  intros H Hd. pose proof (Z.mod_pos_bound d dim H). pose proof (Z.div_mod d dim ltac:(lia)). split; [split; [apply Z.div_pos; lia|apply Z.div_lt_upper_bound; lia]|]. split; [lia|]. lia.
Qed.
Lemma free_dec dim M F d : free_dof dim M F d \/ ~ free_dof dim M F d.
Proof. unfold free_dof, slaveof. destruct (mm_find M d); [right; intros [H _]; apply H; discriminate|]. destruct (fx_flag F _ _); [right; intros [_ H]; discriminate|left; split; [congruence|reflexivity]]. Qed.
(* the numbering of the first D dofs *)
Definition part (N D first next : Z) (free : Z -> Prop) (eqn : list Z) : Prop :=
  zlen eqn = N /\ first <= next /\ (forall d, 0 <= d < D -> ~ free d -> zget eqn d = Some (-1)) /\
  (forall d, 0 <= d < D -> free d -> exists q, zget eqn d = Some q /\ first <= q < next) /\
  (forall q, first <= q < next -> exists d, 0 <= d < D /\ free d /\ zget eqn d = Some q) /\
  (forall d d' q q', 0 <= d -> d' < D -> free d -> free d' -> d < d' -> zget eqn d = Some q -> zget eqn d' = Some q' -> q < q').
Lemma part_not N D first next free eqn : part N D first next free eqn -> 0 <= D < N -> ~ free D ->
  exists eqn', rset eqn D (-1) = Ok eqn' /\ part N (D + 1) first next free eqn'.
Proof.
  intros (L & Hn & H1 & H2 & H3 & H4) HD NF. destruct (rset_exists eqn D (-1)) as (eqn' & E & L' & G & G'); [lia|]. exists eqn'. split; [exact E|]. unfold part. split; [lia|]. split; [exact Hn|]. split.
  { intros d Hd Nf. destruct (Z.eq_dec d D) as [->|Nd]; [exact G|]. rewrite G' by exact Nd. apply H1; [lia|exact Nf]. }
  split. { intros d Hd Hf. destruct (Z.eq_dec d D) as [->|Nd]; [contradiction|]. rewrite G' by exact Nd. apply H2; [lia|exact Hf]. }
  split. { intros q Hq. destruct (H3 q Hq) as (d & Hd & Hf & Hg). exists d. split; [lia|]. split; [exact Hf|]. rewrite G' by lia. exact Hg. }
  intros d d' q q' Hd Hd' Hf Hf' Hlt. assert (d' <> D) by (intros ->; contradiction). rewrite !G' by lia. apply H4; try assumption. lia.
Qed.
Lemma part_free N D first next free eqn : part N D first next free eqn -> 0 <= D < N -> free D ->
  exists eqn', rset eqn D next = Ok eqn' /\ part N (D + 1) first (next + 1) free eqn'.
Proof.
  intros (L & Hn & H1 & H2 & H3 & H4) HD HF. destruct (rset_exists eqn D next) as (eqn' & E & L' & G & G'); [lia|]. exists eqn'. split; [exact E|]. unfold part. split; [lia|]. split; [lia|]. split.
  { intros d Hd Nf. destruct (Z.eq_dec d D) as [->|Nd]; [contradiction|]. rewrite G' by exact Nd. apply H1; [lia|exact Nf]. }
  split. { intros d Hd Hf. destruct (Z.eq_dec d D) as [->|Nd]; [exists next; split; [exact G|lia]|]. rewrite G' by exact Nd. destruct (H2 d) as (q & Hq & Hr); [lia|exact Hf|]. exists q. split; [exact Hq|lia]. }
  split. { intros q Hq. destruct (Z.eq_dec q next) as [->|Nq]; [exists D; split; [lia|]; split; [exact HF|exact G]|]. destruct (H3 q) as (d & Hd & Hf & Hg); [lia|]. exists d. split; [lia|]. split; [exact Hf|]. rewrite G' by lia. exact Hg. }
  intros d d' q q' Hd Hd' Hf Hf' Hlt. rewrite (G' d) by lia. intros Hg. destruct (Z.eq_dec d' D) as [->|Nd].
  - rewrite G. intros [= <-]. destruct (H2 d) as (q2 & Hq2 & Hr); [lia|exact Hf|]. rewrite Hq2 in Hg. injection Hg as <-. lia.
  - rewrite G' by exact Nd. apply (H4 d d'); try assumption. lia.
Qed.
Lemma preprocess_ok dim nodes M F first : 0 < dim -> 0 <= nodes -> exists eqn next, preprocess dim nodes M F first = Ok (eqn, next) /\ first <= next /\
  numbering (nodes * dim) first next (free_dof dim M F) eqn.
Proof.
  intros Hdim Hn. set (P := fun D (st : list Z * Z) => part (nodes * dim) D first (snd st) (free_dof dim M F) (fst st)).
  destruct (zloop (fun st n => foldM (fun st i => let '(meqn, next) := st in
          if fx_flag F n i then let* meqn := rset meqn (n * dim + i) (-1) in Ok (meqn, next) else
          match get_mpc dim M n i with
          | None => let* meqn := rset meqn (n * dim + i) next in Ok (meqn, next + 1)
          | Some _ => let* meqn := rset meqn (n * dim + i) (-1) in Ok (meqn, next)
          end) (zrange 0 dim) st) (fun n => P (n * dim)) 0 nodes (zrepeat 0 (nodes * dim), first)) as ([eqn next] & E & HP).
  - exact Hn.
  - unfold P, part. cbn [fst snd]. split; [apply zlen_zrepeat; nia|]. repeat split; try lia; intros; lia.
  - intros n st Hi HP. destruct (zloop (fun st i => let '(meqn, next) := st in
          if fx_flag F n i then let* meqn := rset meqn (n * dim + i) (-1) in Ok (meqn, next) else
          match get_mpc dim M n i with
          | None => let* meqn := rset meqn (n * dim + i) next in Ok (meqn, next + 1)
          | Some _ => let* meqn := rset meqn (n * dim + i) (-1) in Ok (meqn, next)
          end) (fun i => P (n * dim + i)) 0 dim st) as (st' & E' & HP'); [lia|rewrite Z.add_0_r; exact HP| |].
    + intros i [eqn next] Hi2 HP2. unfold P in HP2. cbn [fst snd] in HP2. unfold get_mpc. assert (0 <= n * dim + i < nodes * dim) as HD by nia. destruct (divmod dim n i Hi2) as [D1 D2].
      destruct (fx_flag F n i) eqn:EF.
      * destruct (part_not _ _ _ _ _ _ HP2 HD) as (eqn' & E1 & P1); [intros [_ H]; rewrite D1, D2, EF in H; discriminate|]. rewrite E1. eexists. split; [reflexivity|]. unfold P. rewrite Z.add_assoc. exact P1.
      * destruct (mm_find M (n * dim + i)) as [p|] eqn:Ep.
        -- destruct (part_not _ _ _ _ _ _ HP2 HD) as (eqn' & E1 & P1); [intros [H _]; apply H; congruence|]. rewrite E1. eexists. split; [reflexivity|]. unfold P. rewrite Z.add_assoc. exact P1.
        -- destruct (part_free _ _ _ _ _ _ HP2 HD) as (eqn' & E1 & P1); [split; [unfold slaveof; congruence|rewrite D1, D2; exact EF]|]. rewrite E1. eexists. split; [reflexivity|]. unfold P. rewrite Z.add_assoc. exact P1.
    + exists st'. split; [exact E'|]. replace ((n + 1) * dim) with (n * dim + dim) by lia. exact HP'.
  - exists eqn, next. split; [exact E|]. destruct HP as (L & Hf & H1 & H2 & H3 & H4). cbn [fst snd] in *. split; [exact Hf|]. unfold numbering. split; [exact L|]. split; [exact H1|]. split; [exact H2|]. split; [exact H3|].
    intros d d' q q' Hd Hd' Hlt Hq Hq'. apply (H4 d d'); try assumption; [apply (zget_Some_range _ _ _ Hq)|]. rewrite <- L. apply (zget_Some_range _ _ _ Hq').
Qed.
