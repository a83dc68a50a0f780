From Coq Require Import Lra.
From Verif Require Import BaseFacts RBaseFacts Impl_Proofs5 Ieul_Proofs Ieul_Proofs2 Ieul_Proofs3 Ieul_Proofs4 Ieul_Spec.
Open Scope Z_scope.

(* two cells in a row, periodic at both ends; each cell has one more boundary face, the first open and the second
   closed; the facade numbers the faces backwards *)
Definition row_grid : tgrid := mkTgrid 2 5 [0; 3; 6] [1; 0; 3; 0; 2; 4] [0; 1; -1; 0; 1; -1; 0; -1; 1; -1].
Definition row_glued : tgrid := mkTgrid 2 5 [0; 3; 6] [1; 0; 3; 0; 2; 4] [0; 1; 1; 0; 1; 0; 0; -1; 1; -1].
Definition row_cells : icells :=
  [(0, [mkIface 3 true 1 0; mkIface 4 false 0 0; mkIface 1 true 3 0]);
   (1, [mkIface 4 false 0 1; mkIface 2 true 2 1; mkIface 0 true 4 1])].
Definition row_number (n : Z) : Z := 4 - n.
Definition row_bc : ibc := mkIbc (fun b => (b =? 1) || (b =? 2)) (fun b => 3 - b) (fun b => b =? 4) (fun _ => (1 / 2)%R).
Definition row_mob (c : Z) (s : R) : R * R := (2, 6)%R.
Definition row_out : list R := [-1; 3; -2; -3; 1; 0]%R.

Lemma range6 i : 0 <= i < 6 -> i = 0 \/ i = 1 \/ i = 2 \/ i = 3 \/ i = 4 \/ i = 5.
Proof. lia. Qed.
Lemma row_per i : is_periodic row_bc row_cells i = true -> i = 0 \/ i = 4.
Proof.
  intros H. assert (R : 0 <= i < 6).
  { unfold is_periodic, face_at in H. destruct (zget (visits row_cells) i) eqn:E; [|discriminate]. apply zget_Some_range in E. exact E. }
  destruct (range6 i R) as [-> |[-> |[-> |[-> |[-> | ->]]]]]; vm_compute in H; auto; discriminate.
Qed.
Lemma row_wf : wf_grid row_grid.
Proof.
  unfold wf_grid. cbn [t_nc t_nf t_pos t_cf t_fc row_grid].
  split; [lia|]. split; [lia|]. split; [reflexivity|]. split; [reflexivity|]. split; [|split; [reflexivity|split; [|split; [reflexivity|split]]]].
  - intros c Hc. assert (c = 0 \/ c = 1) as [-> | ->] by lia; vm_compute; discriminate.
  - intros f [<-|[<-|[<-|[<-|[<-|[<-|[]]]]]]]; lia.
  - intros f Hf. assert (f = 0 \/ f = 1 \/ f = 2 \/ f = 3 \/ f = 4) as [-> |[-> |[-> |[-> | ->]]]] by lia; vm_compute; repeat split; discriminate || reflexivity.
  - intros c f Hc. assert (c = 0 \/ c = 1) as [-> | ->] by lia; intros H; vm_compute in H; destruct H as [<-|[<-|[<-|[]]]]; vm_compute; auto.
Qed.
Lemma row_simple : simple_grid row_grid.
Proof. intros c Hc. change (t_nc row_grid) with 2 in Hc. assert (c = 0 \/ c = 1) as [-> | ->] by lia; vm_compute; repeat constructor; intros H; repeat (destruct H as [H|H]; [discriminate|]); destruct H. Qed.
Lemma row_same : same_grid row_grid row_cells row_number.
Proof.
  split; [reflexivity|]. intros c idx fs H. pose proof (zget_Some_range _ _ _ H) as R. change (zlen row_cells) with 2 in R.
  assert (c = 0 \/ c = 1) as [-> | ->] by lia; vm_compute in H; injection H as <- <-; (split; [reflexivity|]; split; [reflexivity|]; intros k f Hk; pose proof (zget_Some_range _ _ _ Hk) as Rk;
    match type of Rk with context [zlen ?l] => change (zlen l) with 3 in Rk end; assert (k = 0 \/ k = 1 \/ k = 2) as [-> |[-> | ->]] by lia; vm_compute in Hk; injection Hk as <-; vm_compute; repeat split; discriminate || reflexivity).
Qed.
Lemma row_paired : paired row_bc row_cells.
Proof.
  split; [|split; [|split]].
  - intros i H. destruct (row_per i H) as [-> | ->]; vm_compute; discriminate.
  - intros i j Hi Hj. destruct (row_per i Hi) as [-> | ->], (row_per j Hj) as [-> | ->]; intros H; vm_compute in H; auto; discriminate.
  - intros i H. destruct (row_per i H) as [-> | ->]; [exists 4|exists 0]; split; reflexivity.
  - intros i H. destruct (row_per i H) as [-> | ->]; (split; [reflexivity|vm_compute; discriminate]).
Qed.
Lemma row_glue : glued row_grid row_bc row_cells row_glued.
Proof.
  repeat (split; [reflexivity|]). split.
  - intros i j Hi [Hj Eb]. destruct (row_per i Hi) as [-> | ->], (row_per j Hj) as [-> | ->]; vm_compute in Eb; try discriminate; split; intros H; vm_compute in H; try discriminate; try (split; reflexivity). exfalso; apply H; reflexivity.
  - intros f Hf Hn. change (t_nf row_grid) with 5 in Hf. pose proof (Hn 0 eq_refl) as N1. pose proof (Hn 4 eq_refl) as N2. vm_compute in N1, N2.
    assert (f = 0 \/ f = 1 \/ f = 2 \/ f = 3 \/ f = 4) as [-> |[-> |[-> |[-> | ->]]]] by lia; try (exfalso; auto; fail); split; reflexivity.
Qed.
Lemma row_opposite : opposite_fluxes row_grid row_out.
Proof.
  intros i j Hi Hj N E. change (zlen (t_cf row_grid)) with 6 in *.
  destruct (range6 i Hi) as [-> |[-> |[-> |[-> |[-> | ->]]]]], (range6 j Hj) as [-> |[-> |[-> |[-> |[-> | ->]]]]]; vm_compute in E; try discriminate; try (exfalso; apply N; reflexivity);
    change (nthR row_out 1) with 3%R; change (nthR row_out 3) with (-3)%R; lra.
Qed.
Lemma row_closed : closed_fluxes row_bc row_cells row_out.
Proof.
  intros i f Hf Hb Hp Hc. assert (R : 0 <= i < 6). { unfold face_at in Hf. destruct (zget (visits row_cells) i) eqn:E; [|discriminate]. apply zget_Some_range in E. exact E. }
  destruct (range6 i R) as [-> |[-> |[-> |[-> |[-> | ->]]]]]; vm_compute in Hf; injection Hf as <-; vm_compute in Hb, Hp, Hc; try discriminate. reflexivity.
Qed.
Lemma row_hypotheses : wf_grid row_grid /\ simple_grid row_grid /\ same_grid row_grid row_cells row_number /\ paired row_bc row_cells /\ glued row_grid row_bc row_cells row_glued /\
  (forall c s, 0 <= fst (row_mob c s) /\ 0 <= snd (row_mob c s) /\ 0 < fst (row_mob c s) + snd (row_mob c s))%R /\
  zlen row_out = zlen (t_cf row_grid) /\ t_nf row_grid <= zlen (t_cf row_grid) /\ opposite_fluxes row_grid row_out /\ closed_fluxes row_bc row_cells row_out.
Proof.
  split; [exact row_wf|]. split; [exact row_simple|]. split; [exact row_same|]. split; [exact row_paired|]. split; [exact row_glue|]. split; [intros c s; unfold row_mob; cbn [fst snd]; lra|].
  split; [reflexivity|]. split; [vm_compute; discriminate|]. split; [exact row_opposite|exact row_closed].
Qed.
Lemma row_halves : the_halves row_cells (is_periodic row_bc row_cells) = [0; 4] /\ the_halves row_cells (is_open row_bc row_cells) = [2] /\
  partner_half row_bc row_cells 0 4 /\ partner_half row_bc row_cells 4 0 /\
  face_to_half row_glued = Ok [1; 3; -1; 0; 4; -1; 2; -1; 5; -1] /\
  periodic_halves [1; 3; -1; 0; 4; -1; 2; -1; 5; -1] [1; 2] [0; 4] [2; 1] = Ok [1; 3; 4; 0; 4; 0; 2; -1; 5; -1].
Proof. repeat split. Qed.

(* two periodic half faces of one cell, glued to each other: the cell is its own neighbour, and the assertion
   cell0 != cell1 of a debug build fails *)
Definition one_grid : tgrid := mkTgrid 1 2 [0; 2] [0; 1] [-1; 0; 0; -1].
Definition one_cells : icells := [(0, [mkIface 0 true 1 0; mkIface 1 true 2 0])].
Lemma own_neighbour : exists g b mob cells number st, wf_grid g /\ same_grid g cells number /\ paired b cells /\ ie_init b mob g cells = Ok st /\ ip_cells st = [0; 0; 0; 0].
Proof.
  exists one_grid, row_bc, row_mob, one_cells, (fun n => n).
  assert (Pr : forall i, is_periodic row_bc one_cells i = true -> i = 0 \/ i = 1).
  { intros i H. unfold is_periodic, face_at in H. destruct (zget (visits one_cells) i) eqn:E; [|discriminate]. apply zget_Some_range in E. change (zlen (visits one_cells)) with 2 in E. lia. }
  eexists. split; [|split; [|split; [|split; [reflexivity|reflexivity]]]].
  - unfold wf_grid. cbn [t_nc t_nf t_pos t_cf t_fc one_grid].
    split; [lia|]. split; [lia|]. split; [reflexivity|]. split; [reflexivity|]. split; [|split; [reflexivity|split; [|split; [reflexivity|split]]]].
    + intros c Hc. replace c with 0 by lia. vm_compute; discriminate.
    + intros f [<-|[<-|[]]]; lia.
    + intros f Hf. assert (f = 0 \/ f = 1) as [-> | ->] by lia; vm_compute; repeat split; discriminate || reflexivity.
    + intros c f Hc. replace c with 0 by lia. intros H; vm_compute in H; destruct H as [<-|[<-|[]]]; vm_compute; auto.
  - split; [reflexivity|]. intros c idx fs H. pose proof (zget_Some_range _ _ _ H) as R. change (zlen one_cells) with 1 in R. replace c with 0 in * by lia. vm_compute in H. injection H as <- <-.
    split; [reflexivity|]. split; [reflexivity|]. intros k f Hk. pose proof (zget_Some_range _ _ _ Hk) as Rk. match type of Rk with context [zlen ?l] => change (zlen l) with 2 in Rk end.
    assert (k = 0 \/ k = 1) as [-> | ->] by lia; vm_compute in Hk; injection Hk as <-; vm_compute; repeat split; discriminate || reflexivity.
  - split; [|split; [|split]].
    + intros i H. destruct (Pr i H) as [-> | ->]; vm_compute; discriminate.
    + intros i j Hi Hj. destruct (Pr i Hi) as [-> | ->], (Pr j Hj) as [-> | ->]; intros H; vm_compute in H; auto; discriminate.
    + intros i H. destruct (Pr i H) as [-> | ->]; [exists 1|exists 0]; split; reflexivity.
    + intros i H. destruct (Pr i H) as [-> | ->]; (split; [reflexivity|vm_compute; discriminate]).
Qed.
