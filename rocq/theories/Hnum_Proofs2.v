From Verif Require Import BaseFacts RBaseFacts Impl_Proofs Hnum_Proofs.
From Verif Require Export Hnum_Spec.
Open Scope Z_scope.

Lemma nth_zget {A} (l : list A) i x d : zget l i = Some x -> nth (Z.to_nat i) l d = x.
Proof. intros H. pose proof (zget_Some_range _ _ _ H) as R. rewrite (zget_nth_def l d i R) in H. congruence. Qed.
Lemma entry_row t k r n (f : Z -> Z) : zget t k = Some (map f (zrange 0 n)) -> 0 <= r < n -> entry_of t k r = f r.
Proof.
  intros H Hr. unfold entry_of. rewrite (nth_zget t k _ [] H). apply nth_zget. rewrite zget_map, zget_zrange by lia. reflexivity.
Qed.
Lemma numbers_ext g f f' i t : (forall k r, half g k r -> f k r = f' k r) -> numbers g f i t -> numbers g f' i t.
Proof.
  intros E (A & B & C & D). split; [|split; [|split]].
  - intros k r H. rewrite <- E by exact H. apply A. exact H.
  - intros n Hn. destruct (B n Hn) as (k & r & H & Q). exists k, r. split; [exact H|]. rewrite <- E by exact H. exact Q.
  - intros k r k' r' H H'. rewrite <- !E by assumption. apply C; assumption.
  - intros k r H. rewrite <- E by exact H. apply D. exact H.
Qed.
Lemma in_order_counts g : in_order g -> counts_agree g.
Proof. intros H k k' Hk Hk' E. rewrite H in E by exact Hk'. subst. reflexivity. Qed.
Lemma maxof_most g m0 m : m0 <= 0 -> maxof g m0 (zlen g) m -> most_faces g m.
Proof.
  intros Hm (A & B & C). split; [exact B|]. intros Hn. destruct C as [->|(j & Hj & ->)]; [|exists j; auto]. exists 0. specialize (B 0 ltac:(lia)). pose proof (zlen_nonneg (hc_faces (cell_at g 0))). split; [lia|]. unfold nfaces in *. lia.
Qed.
Lemma numbering_ok g : conforming g -> counts_agree g -> exists nm, enumerate_grid g = Ok nm /\
  (forall k, 0 <= k < zlen g -> zget (nm_cell nm) (idx g k) = Some k) /\
  (forall k, 0 <= k < zlen g -> exists row, zget (nm_cf nm) k = Some row /\ zlen row = nfaces g k) /\ zlen (nm_cf nm) = zlen g /\ most_faces g (nm_max nm) /\
  numbers g (entry_of (nm_cf nm)) (nm_internal nm) (nm_total nm).
Proof.
  intros W C. destruct (enumerate_ok g W C) as (nm & E & L & G & Ec & Ei & Et & M). exists nm. split; [exact E|]. split; [exact G|].
  assert (Row : forall k, 0 <= k < zlen g -> zget (nm_cf nm) k = Some (map (fnum g k) (zrange 0 (nfaces g k)))) by (intros k Hk; rewrite Ec, zget_map, zget_zrange by lia; reflexivity).
  assert (Nn : forall k, 0 <= nfaces g k) by (intros; apply zlen_nonneg).
  split; [|split; [|split]].
  - intros k Hk. eexists. split; [apply Row; exact Hk|]. rewrite zlen_map, zlen_zrange by apply Nn. lia.
  - rewrite Ec, zlen_map, zlen_zrange by apply zlen_nonneg. lia.
  - apply (maxof_most g (-1)); [lia|exact M].
  - rewrite Ei, Et. apply (numbers_ext g (fnum g)); [|apply fnum_numbers; exact W]. intros k r (Hk & Hr). symmetry. eapply entry_row; [apply Row; exact Hk|exact Hr].
Qed.
Lemma interface_ok g : conforming g -> exists tbl total mx, build_face_indices g = Ok (tbl, total, mx) /\
  zlen tbl = zlen g /\ (forall k, 0 <= k < zlen g -> exists row, zget tbl (idx g k) = Some row /\ zlen row = nfaces g k) /\ most_faces g mx /\
  exists internal, numbers g (fun k r => entry_of tbl (idx g k) r) internal total.
Proof.
  intros W. destruct (build_ok g W) as (tbl & mx & E & L & Row & M). exists tbl, (off (dscv g) (zlen g) + off (bf g) (zlen g)), mx. split; [exact E|]. split; [exact L|].
  assert (Nn : forall k, 0 <= nfaces g k) by (intros; apply zlen_nonneg).
  split; [|split].
  - intros k Hk. eexists. split; [apply Row; exact Hk|]. rewrite zlen_map, zlen_zrange by apply Nn. lia.
  - apply (maxof_most g 0); [lia|exact M].
  - exists (off (dscv g) (zlen g)). apply (numbers_ext g (fnum g)); [|apply fnum_numbers; exact W]. intros k r (Hk & Hr). symmetry. eapply entry_row; [apply Row; exact Hk|exact Hr].
Qed.
Lemma same_numbers g nm tbl total mx : conforming g -> counts_agree g -> enumerate_grid g = Ok nm -> build_face_indices g = Ok (tbl, total, mx) ->
  total = nm_total nm /\ forall k r, half g k r -> entry_of tbl (idx g k) r = entry_of (nm_cf nm) k r.
Proof.
  intros W C E1 E2. destruct (enumerate_ok g W C) as (nm' & E & L & G & Ec & Ei & Et & M). assert (nm' = nm) by congruence. subst nm'.
  destruct (build_ok g W) as (tbl' & mx' & E' & L' & Row & M'). rewrite E' in E2. injection E2 as <- <- <-. split; [congruence|]. intros k r (Hk & Hr).
  rewrite (entry_row _ _ r _ _ (Row k Hk) Hr). symmetry. eapply entry_row; [|exact Hr]. rewrite Ec, zget_map, zget_zrange by lia. reflexivity.
Qed.

(* ---- topologyIsSane ---- *)
Lemma distinct_NoDup l : distinct l = true <-> NoDup l.
Proof.
  induction l as [|x l IH]; cbn [distinct]; [split; [constructor|reflexivity]|]. rewrite andb_true_iff, negb_true_iff, IH. split.
  - intros (H & N). constructor; [|exact N]. intros Hin. assert (existsb (Z.eqb x) l = true) by (apply existsb_exists; exists x; split; [exact Hin|apply Z.eqb_refl]). congruence.
  - intros N. inversion N as [|? ? Hx Nl]; subst. split; [|exact Nl]. destruct (existsb (Z.eqb x) l) eqn:E; [|reflexivity]. apply existsb_exists in E. destruct E as (y & Hy & Q). apply Z.eqb_eq in Q. subst. contradiction.
Qed.
Definition nbs (f : hface) : list Z := match hf_nb f with Some c1 => [c1] | None => [] end.
Lemma nbs_NoDup l : NoDup (flat_map nbs l) <-> forall i j f f' c, zget l i = Some f -> zget l j = Some f' -> hf_nb f = Some c -> hf_nb f' = Some c -> i = j.
Proof.
  induction l as [|h l IH]; cbn [flat_map].
  - split; [intros _ i j f f' c H; pose proof (zget_Some_range _ _ _ H) as R; change (zlen (@nil hface)) with 0 in R; lia|constructor].
  - assert (Z0 : forall i f, zget (h :: l) i = Some f -> (i = 0 /\ f = h) \/ (0 < i /\ zget l (i - 1) = Some f)).
    { intros i f H. pose proof (zget_Some_range _ _ _ H) as R. destruct (Z.eq_dec i 0) as [->|N]; [left; split; [reflexivity|]; cbn in H; congruence|right]. split; [lia|].
      change (h :: l) with ([h] ++ l) in H. rewrite zget_app_r in H by (change (zlen [h]) with 1; lia). exact H. }
    assert (ZS : forall i f, 0 <= i -> zget l i = Some f -> zget (h :: l) (i + 1) = Some f).
    { intros i f Hi H. change (h :: l) with ([h] ++ l). rewrite zget_app_r by (change (zlen [h]) with 1; lia). change (zlen [h]) with 1. replace (i + 1 - 1) with i by lia. exact H. }
    split.
    + intros N i j f f' c Gi Gj Ef Ef'. assert (Nl : NoDup (flat_map nbs l)) by (clear -N; induction (nbs h) as [|a t IHt]; [exact N|inversion N; subst; auto]).
      destruct (Z0 i f Gi) as [(-> & ->)|(Hi & Gi')], (Z0 j f' Gj) as [(-> & ->)|(Hj & Gj')]; [reflexivity| | |].
      * exfalso. unfold nbs at 1 in N. rewrite Ef in N. inversion N as [|? ? Nc _]; subst. apply Nc. apply in_flat_map. exists f'. split; [eapply zget_In; exact Gj'|]. unfold nbs. rewrite Ef'. left; reflexivity.
      * exfalso. unfold nbs at 1 in N. rewrite Ef' in N. inversion N as [|? ? Nc _]; subst. apply Nc. apply in_flat_map. exists f. split; [eapply zget_In; exact Gi'|]. unfold nbs. rewrite Ef. left; reflexivity.
      * assert (i - 1 = j - 1); [|lia]. eapply (proj1 IH Nl); eassumption.
    + intros U. assert (Nl : NoDup (flat_map nbs l)). { apply IH. intros i j f f' c Gi Gj Ef Ef'. pose proof (zget_Some_range _ _ _ Gi). pose proof (zget_Some_range _ _ _ Gj). assert (i + 1 = j + 1); [|lia]. eapply U; [apply ZS; [lia|exact Gi]|apply ZS; [lia|exact Gj]|exact Ef|exact Ef']. }
      unfold nbs at 1. destruct (hf_nb h) as [c|] eqn:E; [|exact Nl]. constructor; [|exact Nl]. intros Hin. apply in_flat_map in Hin. destruct Hin as (f & Hf & Hc). unfold nbs in Hc. destruct (hf_nb f) as [c'|] eqn:E'; [|destruct Hc]. destruct Hc as [->|[]].
      apply In_zget in Hf. destruct Hf as (j & Hj & Gj). assert (0 = j + 1); [|lia]. eapply (U 0 (j + 1) h f c); [reflexivity|apply ZS; [lia|exact Gj]|exact E|exact E'].
Qed.
Lemma sane_ok g : topology_is_sane g = true <-> forall k r r' c, half g k r -> half g k r' -> nbr g k r = Some c -> nbr g k r' = Some c -> r = r'.
Proof.
  unfold topology_is_sane. rewrite forallb_forall. split.
  - intros H k r r' c (Hk & Hr) (_ & Hr') E E'. assert (Hin : In (cell_at g k) g) by (eapply zget_In; apply zget_nth_def; exact Hk).
    specialize (H _ Hin). apply distinct_NoDup in H. eapply (proj1 (nbs_NoDup _) H); [apply zget_nth_def; exact Hr|apply zget_nth_def; exact Hr'|exact E|exact E'].
  - intros U c Hin. apply distinct_NoDup, nbs_NoDup. intros i j f f' n Gi Gj Ef Ef'. apply In_zget in Hin. destruct Hin as (k & Hk & Gk).
    assert (Ec : cell_at g k = c) by (apply nth_zget; exact Gk). subst c.
    assert (Fi : face_at g k i = f) by (apply nth_zget; exact Gi). assert (Fj : face_at g k j = f') by (apply nth_zget; exact Gj).
    apply (U k i j n); [split; [exact Hk|exact (zget_Some_range _ _ _ Gi)]|split; [exact Hk|exact (zget_Some_range _ _ _ Gj)]| |]; unfold nbr; [rewrite Fi; exact Ef|rewrite Fj; exact Ef'].
Qed.

(* ---- a grid visited in another order than its indices ---- *)
Definition swapped : list hcell := [mkHCell 1 [mkHFace (Some 0) 0; mkHFace None 1]; mkHCell 0 [mkHFace (Some 1) 0]].
Lemma swapped_half k r : half swapped k r -> (k = 0 /\ r = 0) \/ (k = 0 /\ r = 1) \/ (k = 1 /\ r = 0).
Proof.
  intros (Hk & Hr). change (zlen swapped) with 2 in Hk. assert (k = 0 \/ k = 1) as [->| ->] by lia.
  - change (nfaces swapped 0) with 2 in Hr. lia.
  - change (nfaces swapped 1) with 1 in Hr. lia.
Qed.
Lemma swapped_conforming : conforming swapped.
Proof.
  split; [|split; [|split]].
  - cbn. repeat constructor; cbn; intuition lia.
  - intros k Hk. change (zlen swapped) with 2 in *. assert (k = 0 \/ k = 1) as [->| ->] by lia; (split; vm_compute; first [reflexivity|intro; discriminate]).
  - intros k r c H E. destruct (swapped_half k r H) as [(-> & ->)|[(-> & ->)|(-> & ->)]]; cbn in E; try discriminate; injection E as <-; (split; [vm_compute; intro; discriminate|]).
    + exists 1, 0. split; [split; (split; vm_compute; first [reflexivity|intro; discriminate])|]. split; reflexivity.
    + exists 0, 0. split; [split; (split; vm_compute; first [reflexivity|intro; discriminate])|]. split; reflexivity.
  - intros k r r' c H H' E E'. destruct (swapped_half k r H) as [(-> & ->)|[(-> & ->)|(-> & ->)]], (swapped_half _ r' H') as [(Q & ->)|[(Q & ->)|(Q & ->)]]; try reflexivity; try discriminate; vm_compute in E, E'; congruence.
Qed.
Lemma swapped_refuted : exists g, conforming g /\ enumerate_grid g = UB.
Proof. exists swapped. split; [exact swapped_conforming|reflexivity]. Qed.

(* ---- example: a row of three cells ---- *)
Definition row3 : list hcell :=
  [mkHCell 0 [mkHFace None 1; mkHFace (Some 1) 0]; mkHCell 1 [mkHFace (Some 0) 0; mkHFace (Some 2) 0]; mkHCell 2 [mkHFace (Some 1) 0; mkHFace None 2]].
Lemma row3_half k r : half row3 k r -> (k = 0 \/ k = 1 \/ k = 2) /\ (r = 0 \/ r = 1).
Proof.
  intros (Hk & Hr). change (zlen row3) with 3 in Hk. assert (k = 0 \/ k = 1 \/ k = 2) as [->|[->| ->]] by lia.
  - change (nfaces row3 0) with 2 in Hr. lia.
  - change (nfaces row3 1) with 2 in Hr. lia.
  - change (nfaces row3 2) with 2 in Hr. lia.
Qed.
Lemma row3_ok : conforming row3 /\ in_order row3 /\ enumerate_grid row3 = Ok (mkNum [0; 1; 2] [[2; 0]; [0; 1]; [1; 3]] 2 4 2).
Proof.
  split; [|split; [|reflexivity]].
  - split; [|split; [|split]].
    + cbn. repeat constructor; cbn; intuition lia.
    + intros k Hk. change (zlen row3) with 3 in *. assert (k = 0 \/ k = 1 \/ k = 2) as [->|[->| ->]] by lia; (split; vm_compute; first [reflexivity|intro; discriminate]).
    + intros k r c H E. destruct (row3_half k r H) as ([->|[->| ->]] & [->| ->]); cbn in E; try discriminate; injection E as <-; (split; [vm_compute; intro; discriminate|]).
      * exists 1, 0. split; [split; (split; vm_compute; first [reflexivity|intro; discriminate])|]. split; reflexivity.
      * exists 0, 1. split; [split; (split; vm_compute; first [reflexivity|intro; discriminate])|]. split; reflexivity.
      * exists 2, 0. split; [split; (split; vm_compute; first [reflexivity|intro; discriminate])|]. split; reflexivity.
      * exists 1, 1. split; [split; (split; vm_compute; first [reflexivity|intro; discriminate])|]. split; reflexivity.
    + intros k r r' c H H' E E'. destruct (row3_half k r H) as ([->|[->| ->]] & [->| ->]), (row3_half _ r' H') as (_ & [->| ->]); try reflexivity; try discriminate; vm_compute in E, E'; congruence.
  - intros k Hk. change (zlen row3) with 3 in *. assert (k = 0 \/ k = 1 \/ k = 2) as [->|[->| ->]] by lia; reflexivity.
Qed.
