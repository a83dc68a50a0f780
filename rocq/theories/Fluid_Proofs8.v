From Verif Require Import Lin_Facts BaseFacts RBaseFacts Matx_Proofs Matx_Proofs3 Mim_Proofs Mim_Proofs2 Fluid_Proofs Fluid_Proofs2 Fluid_Proofs3 Fluid_Proofs4 Fluid_Proofs5 Fluid_Proofs7 Rprop_Proofs3 Rprop_Proofs2 Euler_Proofs2 Steady_Proofs Hnum_Proofs Fluid_Spec Fluid_Model.
From Coq Require Import Lra Lia.
Open Scope Z_scope.

Definition ex_jrock : jrock := mkJRock (fun s => s * s)%R (fun s => (1 - s) * (1 - s))%R (fun s => 2 * s)%R (fun s => -2 * (1 - s))%R (fun s => 1 - s)%R (fun _ => -1)%R (fun p => 1 - p)%R true 2 0 1.
Definition ex_prop : rprop := mkRprop [/ 2]%R [] [] [] ScalarPerm [1; 0; 0; 0; 1; 0; 0; 0; 1]%R [true] [0].
Definition ex_fluid : fluid := mkFluid ex_prop [ex_jrock] 1 3.
Definition ex_K : mat := mkMat 3 3 COrd [1; 0; 0; 0; 1; 0; 0; 0; 1]%R.
Lemma ex_K_perm : permeability ex_prop 0 = Ok ex_K.
Proof. reflexivity. Qed.
Lemma ex_K_good : good_rock ex_K (/ 2).
Proof.
  assert (S : shaped ex_K COrd 3 3).
  { split; [reflexivity |]. split; [reflexivity |]. split; [reflexivity |]. split; [lia |]. split; [lia |]. split; [reflexivity |]. intros r c _ _. reflexivity. }
  split; [exact S |]. split; [| lra]. unfold mean_diag.
  assert (S3 : forall g, Sum 3 g = (g 0%Z + g 1%Z + g 2%Z)%R) by (intros g; replace 3 with (0 + 1 + 1 + 1) by lia; rewrite !Sum_S by lia; rewrite Sum_0; cbn; ring).
  rewrite S3. unfold entry, ex_K, nthR. cbn. change (Pos.to_nat 4) with 4%nat. change (Pos.to_nat 8) with 8%nat. cbn. lra.
Qed.
Lemma ex_cell : cell_data ex_fluid 0 ex_jrock ex_K (/ 2).
Proof. split; [exists 0; split; reflexivity |]. split; [exact ex_K_perm | reflexivity]. Qed.
Lemma ex_fluid_good : cells_good ex_fluid /\ invertible ex_jrock /\ jr_sct ex_jrock <> 0%R /\
  forall r rk, zget (fl_rocks ex_fluid) r = Some rk -> usable (jr_krw rk) (jr_kro rk) /\ exists c, 0 <= c < zlen (rp_poro (fl_prop ex_fluid)) /\ in_rock ex_fluid r c.
Proof.
  split. { intros c Hc. assert (c = 0) as -> by (cbn in Hc; unfold zlen in Hc; cbn in Hc; lia). exists ex_jrock, ex_K, (/ 2)%R. split; [exact ex_cell | exact ex_K_good]. }
  split. { intros s _. cbn. ring. }
  split; [cbn; lra |]. intros r rk E. pose proof (zget_Some_range _ _ _ E) as H. assert (r = 0) as -> by (unfold zlen in H; cbn in H; lia).
  injection E as <-. split; [exact quadratic_usable |]. exists 0. split; [unfold zlen; cbn; lia | reflexivity].
Qed.
Definition ex_faces : list sface := [mkSFace (-1) 0 [0]%R 3; mkSFace 0 (-1) [1]%R 3].
Lemma ex_simple : simple_grid 1 [[/ 2]%R] [1%R] ex_faces /\
  (forall i, 0 <= i < zlen ex_faces -> sf_flux (nth_sface ex_faces i) = dot 1 (fun _ => 1%R) (fun _ => 3%R)) /\
  Sum (zlen ex_faces) (fun i => orient (nth_sface ex_faces i) 0 * 1 * (nthR (sf_cen (nth_sface ex_faces i)) 0 - nthR [/ 2]%R 0))%R = (nthR [1%R] 0 * ident 0 0)%R.
Proof.
  assert (S1 : forall g, Sum 1 g = g 0%Z) by (intros g; replace 1 with (0 + 1) by lia; rewrite !Sum_S by lia; rewrite Sum_0; cbn; ring).
  assert (S2 : forall g, Sum 2 g = (g 0%Z + g 1%Z)%R) by (intros g; replace 2 with (0 + 1 + 1) by lia; rewrite !Sum_S by lia; rewrite Sum_0; cbn; ring).
  split; [| split].
  - split; [lia |]. split; [reflexivity |]. split.
    + intros c x E. pose proof (zget_Some_range _ _ _ E) as H. assert (c = 0) as -> by (unfold zlen in H; cbn in H; lia). injection E as <-. reflexivity.
    + split.
      * intros c H. assert (c = 0) as -> by (unfold zlen in H; cbn in H; lia). unfold nthR. cbn. lra.
      * intros f [<- | [<- | []]]; cbn; unfold zlen; cbn; lia.
  - intros i Hi. unfold dot. rewrite S1. assert (i = 0 \/ i = 1) as [-> | ->] by (unfold zlen in Hi; cbn in Hi; lia); [change (sf_flux (nth_sface ex_faces 0)) with 3%R | change (sf_flux (nth_sface ex_faces 1)) with 3%R]; ring.
  - change (zlen ex_faces) with 2. rewrite S2. change (nth_sface ex_faces 0) with (mkSFace (-1) 0 [0]%R 3). change (nth_sface ex_faces 1) with (mkSFace 0 (-1) [1]%R 3). unfold orient, nthR, ident. cbn. lra.
Qed.
Lemma ex_flows : relperms ex_fluid 0 (jr_krw ex_jrock) (jr_kro ex_jrock) /\ flows (jr_krw ex_jrock (/ 4)) (jr_kro ex_jrock (/ 4)) /\ (0 < fl_mu1 ex_fluid)%R /\ (0 < fl_mu2 ex_fluid)%R.
Proof.
  split; [right; exists 0, ex_jrock; repeat split |]. split; [unfold flows; cbn; repeat split; lra |]. cbn. lra.
Qed.
Definition ex_comment : list ascii := ["#"; "a"; newline]%char.
Lemma ex_header : Forall comment_line [ex_comment; ex_comment] /\ not_comment ["1"; newline]%char /\ five_columns [[1; 2; 3; 4; 5]; [2; 3; 4; 5; 6]]%R.
Proof.
  split; [| split].
  - assert (H : comment_line ex_comment) by (exists "#"%char, ["a"%char]; split; [reflexivity |]; split; [right; reflexivity |]; intros [E | []]; discriminate E). repeat constructor; exact H.
  - intros c t E [-> | ->]; discriminate E.
  - intros r [<- | [<- | []]]; reflexivity.
Qed.
