(* Proofs about the element matrices of the mortar couplings; examples. *)
From Verif Require Import BaseFacts RBaseFacts Mim_Proofs Rprop_Proofs3 Shape_Proofs Shape_Proofs2 Bgrid_Proofs Bgrid_Proofs6 Bgrid_Proofs7 Smat_Proofs Asm_Proofs Eups_Proofs Eups_Proofs2 Eups_Proofs3 Eups_Proofs5 Shape_Spec Eups_Spec.
Open Scope Z_scope.

Lemma p1_ok i x : 0 <= i < 4 -> exists v, p1_eval 2 i x = Ok v.
Proof.
  intros H. assert (C : i = 0 \/ i = 1 \/ i = 2 \/ i = 3) by lia. unfold p1_eval. destruct C as [->|[->|[->| ->]]]; eexists; reflexivity.
Qed.
Lemma list_at_eq {A} (l : list (list A)) i x : zget l i = Some x -> list_at l i = x.
Proof.
  unfold list_at. intros ->. reflexivity.
Qed.
Definition term (lf : list (list (list R * Z))) (hex : hexgeo) (i j : Z) (rl : ((R * R) * R) * (R * R)) : R :=
  (val (p1_eval 2 i (at_pt (fst (fst rl)))) * val (tp_eval (list_at lf j) (at_pt (snd rl))) * hex_integration hex (fst (fst rl)) * snd (fst rl))%R.
Lemma mapM_some {A B} (f : A -> res B) l : (forall a, In a l -> exists b, f a = Ok b) -> exists r, mapM f l = Ok r /\ Forall2 (fun a b => f a = Ok b) l r.
Proof.
  induction l as [|a l IH]; intros H; cbn [mapM]; [exists []; split; [reflexivity|constructor]|].
  destruct (H a (or_introl eq_refl)) as (b & E). rewrite E. cbn [bind]. destruct IH as (r & Er & F); [intros x Hx; apply H; right; exact Hx|]. rewrite Er. cbn [bind].
  exists (b :: r). split; [reflexivity|]. constructor; assumption.
Qed.
Lemma forall2_range {B} (P : Z -> B -> Prop) n r : 0 <= n -> Forall2 P (zrange 0 n) r -> zlen r = n /\ forall i, 0 <= i < n -> exists b, zget r i = Some b /\ P i b.
Proof.
  intros Hn F. assert (L : zlen r = n) by (pose proof (Forall2_length' _ _ _ F) as E; pose proof (zlen_zrange 0 n Hn); unfold zlen in *; lia). split; [exact L|].
  intros i Hi. destruct (zget_in_range r i ltac:(lia)) as (b & E). exists b. split; [exact E|].
  assert (Ez : zget (zrange 0 n) i = Some i) by (rewrite zget_zrange by lia; f_equal; lia).
  destruct (Forall2_zget _ _ _ F i i Ez) as (b' & E' & Hb). rewrite E in E'. injection E' as <-. exact Hb.
Qed.
Lemma local_matrix_ok fuel rule lf lg hex locs : Forall2 (placed fuel lg hex) rule locs ->
  (forall loc f, In loc locs -> In f lf -> exists v, tp_eval f (at_pt loc) = Ok v) ->
  exists lE, local_matrix fuel rule lf lg hex = Ok (Some lE) /\ zlen lE = 4 /\ (forall row, In row lE -> zlen row = zlen lf) /\
    forall i j f, 0 <= i < 4 -> zget lf j = Some f -> entry_at lE i j = Rsum (map (fun rl =>
      val (p1_eval 2 i (at_pt (fst (fst rl)))) * val (tp_eval f (at_pt (snd rl))) * hex_integration hex (fst (fst rl)) * snd (fst rl))%R (combine rule locs)).
Proof.
  intros F T. pose proof (zlen_nonneg lf) as Hl.
  assert (G : forall rule locs, Forall2 (placed fuel lg hex) rule locs -> (forall loc f, In loc locs -> In f lf -> exists v, tp_eval f (at_pt loc) = Ok v) ->
    forall lE, zlen lE = 4 -> (forall i, 0 <= i < 4 -> exists row, zget lE i = Some row /\ zlen row = zlen lf) ->
    exists lE', foldM (fun acc r => match acc with
      | None => Ok None
      | Some lE => let pt := fst r in let detJ := hex_integration hex pt in let* loc := hex_local fuel lg (hex_global hex pt) in
        match loc with None => Ok None | Some loc =>
          if Rleb (fst loc) (1 + 1 / 10000) && Rleb 0 (fst loc) && Rleb (snd loc) (1 + 1 / 10000) && Rleb 0 (snd loc) then
            let* lE := mapM (fun i => let* row := rget lE i in mapM (fun j => let* x := rget row j in
                let* u := p1_eval 2 i (fun k => if k =? 0 then fst pt else snd pt) in
                let* f := rget lf j in
                let* l := tp_eval f (fun k => if k =? 0 then fst loc else snd loc) in
                Ok (x + u * l * detJ * snd r)%R) (zrange 0 (zlen lf))) (zrange 0 4) in Ok (Some lE)
          else Throw end end) rule (Some lE) = Ok (Some lE') /\ zlen lE' = 4 /\
      (forall i, 0 <= i < 4 -> exists row, zget lE' i = Some row /\ zlen row = zlen lf) /\
      forall i j, 0 <= i < 4 -> 0 <= j < zlen lf -> entry_at lE' i j = (entry_at lE i j + Rsum (map (term lf hex i j) (combine rule locs)))%R).
  { clear rule locs F T. intros rule locs F. induction F as [|r loc rule locs [P B] F IH]; intros T lE L4 Lr; cbn [foldM].
    - exists lE. split; [reflexivity|]. split; [exact L4|]. split; [exact Lr|]. intros i j _ _. cbn [combine map]. rewrite Rsum_nil. ring.
    - cbn zeta. rewrite P. cbn [bind].
      assert (Bt : Rleb (fst loc) (1 + 1 / 10000) && Rleb 0 (fst loc) && Rleb (snd loc) (1 + 1 / 10000) && Rleb 0 (snd loc) = true).
      { rewrite !andb_true_iff, !Rleb_true. lra. }
      rewrite Bt. set (step := fun i => let* row := rget lE i in _).
      assert (Srow : forall i, In i (zrange 0 4) -> exists row', step i = Ok row' /\ zlen row' = zlen lf /\ forall j, 0 <= j < zlen lf -> nthR row' j = (entry_at lE i j + term lf hex i j (r, loc))%R).
      { intros i Hi. apply In_zrange in Hi. unfold step. destruct (Lr i Hi) as (row & Er & Lrow). rewrite (proj2 (rget_Ok _ _ _) Er). cbn [bind].
        destruct (p1_ok i (at_pt (fst r)) Hi) as (u & Eu).
        assert (El : forall j, In j (zrange 0 (zlen lf)) -> exists y, (let* x := rget row j in let* u := p1_eval 2 i (fun k => if k =? 0 then fst (fst r) else snd (fst r)) in
            let* f := rget lf j in let* l := tp_eval f (fun k => if k =? 0 then fst loc else snd loc) in Ok (x + u * l * hex_integration hex (fst r) * snd r)%R) = Ok y /\
            y = (entry_at lE i j + term lf hex i j (r, loc))%R).
        { intros j Hj. apply In_zrange in Hj. destruct (zget_in_range row j ltac:(lia)) as (x & Ex). destruct (zget_in_range lf j Hj) as (f & Ef).
          destruct (T loc f (or_introl eq_refl) (zget_In _ _ _ Ef)) as (l & El). rewrite (proj2 (rget_Ok _ _ _) Ex). cbn [bind].
          change (fun k => if k =? 0 then fst (fst r) else snd (fst r)) with (at_pt (fst r)). rewrite Eu. cbn [bind]. rewrite (proj2 (rget_Ok _ _ _) Ef). cbn [bind].
          change (fun k => if k =? 0 then fst loc else snd loc) with (at_pt loc). rewrite El. cbn [bind]. eexists; split; [reflexivity|].
          unfold entry_at, term. rewrite (list_at_eq _ _ _ Er), (list_at_eq _ _ _ Ef). cbn [fst snd]. rewrite Eu, El. cbn [val]. unfold nthR. rewrite Ex. ring. }
        destruct (mapM_some _ (zrange 0 (zlen lf)) (fun j Hj => let '(ex_intro _ y (conj E _)) := El j Hj in ex_intro _ y E)) as (row' & Em & F2). rewrite Em.
        apply forall2_range in F2; [|exact Hl]. destruct F2 as [L' V]. exists row'. split; [reflexivity|]. split; [exact L'|].
        intros j Hj. destruct (V j Hj) as (b & Eb & Hb). destruct (El j (proj2 (In_zrange _ _ _) Hj)) as (y & Ey & Hy). cbn beta in Hb. rewrite Ey in Hb. injection Hb as <-.
        unfold nthR. rewrite Eb. exact Hy. }
      destruct (mapM_some step (zrange 0 4) (fun i Hi => let '(ex_intro _ y (conj E _)) := Srow i Hi in ex_intro _ y E)) as (lE1 & Em & F2). rewrite Em. cbn [bind].
      apply forall2_range in F2; [|lia]. destruct F2 as [L1 V].
      assert (R1 : forall i, 0 <= i < 4 -> exists row, zget lE1 i = Some row /\ zlen row = zlen lf /\ forall j, 0 <= j < zlen lf -> nthR row j = (entry_at lE i j + term lf hex i j (r, loc))%R).
      { intros i Hi. destruct (V i Hi) as (b & Eb & Hb). destruct (Srow i (proj2 (In_zrange _ _ _) Hi)) as (y & Ey & Hy). rewrite Ey in Hb. injection Hb as <-. exists y. split; [exact Eb|exact Hy]. }
      destruct (IH (fun l f Hin Hf => T l f (or_intror Hin) Hf) lE1 L1) as (lE' & E' & L' & R' & V').
      { intros i Hi. destruct (R1 i Hi) as (row & A1 & A2 & _). exists row. auto. }
      exists lE'. split; [exact E'|]. split; [exact L'|]. split; [exact R'|]. intros i j Hi Hj. rewrite V' by assumption. cbn [combine map]. rewrite Rsum_cons.
      destruct (R1 i Hi) as (row & A1 & _ & A3). unfold entry_at at 1. rewrite (list_at_eq _ _ _ A1), A3 by exact Hj. ring. }
  destruct (G rule locs F T (zrepeat (zrepeat 0%R (zlen lf)) 4)) as (lE & E & L & Rw & V).
  - apply zlen_zrepeat. lia.
  - intros i Hi. exists (zrepeat 0%R (zlen lf)). split; [apply zget_zrepeat; lia|apply zlen_zrepeat; exact Hl].
  - exists lE. split; [exact E|]. split; [exact L|]. split.
    + intros row Hr. apply In_zget in Hr. destruct Hr as (i & Hi & Er). destruct (Rw i ltac:(lia)) as (row' & E' & L'). congruence.
    + intros i j f Hi Ef. pose proof (zget_Some_range _ _ _ Ef) as Hj. rewrite V by assumption.
      assert (Z0 : entry_at (zrepeat (zrepeat 0%R (zlen lf)) 4) i j = 0%R) by (unfold entry_at, list_at, nthR; rewrite !zget_zrepeat by lia; reflexivity).
      rewrite Z0, Rplus_0_l. apply Rsum_map_ext. intros rl _. unfold term. rewrite (list_at_eq _ _ _ Ef). reflexivity.
Qed.
Lemma local_matrix_total fuel rule lf lg hex locs lE : Forall2 (placed fuel lg hex) rule locs ->
  (forall loc f, In loc locs -> In f lf -> exists v, tp_eval f (at_pt loc) = Ok v) -> local_matrix fuel rule lf lg hex = Ok (Some lE) ->
  forall j f, zget lf j = Some f -> Rsum (map (fun i => entry_at lE i j) (zrange 0 4)) =
    Rsum (map (fun rl => val (tp_eval f (at_pt (snd rl))) * hex_integration hex (fst (fst rl)) * snd (fst rl))%R (combine rule locs)).
Proof.
  intros F T E j f Ef. destruct (local_matrix_ok fuel rule lf lg hex locs F T) as (lE' & E' & _ & _ & V). rewrite E in E'. injection E' as <-.
  change (zrange 0 4) with [0; 1; 2; 3]. cbn [map]. rewrite !Rsum_cons, Rsum_nil. rewrite !(V _ j f) by (lia || exact Ef). rewrite Rplus_0_r, <- !Rsum_map_plus.
  apply Rsum_map_ext. intros [[pt w] loc] _. cbn [fst snd].
  assert (P : (val (p1_eval 2 0 (at_pt pt)) + (val (p1_eval 2 1 (at_pt pt)) + (val (p1_eval 2 2 (at_pt pt)) + val (p1_eval 2 3 (at_pt pt)))) = 1)%R).
  { destruct (p1_reproduces 2 (fun _ => 1%R) (at_pt pt)) as (N & HN & Sm); [left; reflexivity| |].
    - split; [reflexivity|]. intros; ring.
    - rewrite !HN by (cbn; lia). cbn [val]. unfold Lin_Spec.Sum in Sm. change (zrange 0 (2 ^ 2)) with [0; 1; 2; 3] in Sm. cbn [map] in Sm. rewrite !Rsum_cons, Rsum_nil in Sm. lra. }
  set (a := val (p1_eval 2 0 _)) in *. set (b := val (p1_eval 2 1 _)) in *. set (c := val (p1_eval 2 2 _)) in *. set (e := val (p1_eval 2 3 _)) in *. clearbody a b c e.
  replace a with (1 - (b + (c + e)))%R by lra. ring.
Qed.

(* ---- fewer pillars than elements of the interface *)
Lemma foldM_each_ok {A S} (f : S -> A -> res S) l : forall s r, foldM f l s = Ok r -> forall a, In a l -> exists s' r', f s' a = Ok r'.
Proof.
  induction l as [|x l IH]; intros s r; cbn [foldM]; [intros _ a []|]. destruct (f s x) as [s'| |] eqn:E; cbn [bind]; try discriminate.
  intros H a [<-|Ha]; [exists s, s'; exact E|exact (IH s' r H a Ha)].
Qed.
Lemma few_pillars M meqn neq cols m n1 n2 colofs patt r : zlen cols < m -> add_bblock M meqn neq cols m n1 n2 colofs patt <> Ok r.
Proof.
  intros L H. unfold add_bblock in H. destruct (renumber m (n1 + 1) (n2 + 1)) as [[ln tot]| |]; cbn [bind] in H; try discriminate.
  destruct (foldM _ _ _) as [p| |] eqn:E in H; cbn [bind] in H; try discriminate. pose proof (zlen_nonneg cols) as H0.
  destruct (foldM_each_ok _ _ _ _ E (zlen cols)) as (s' & r' & E'); [apply In_zrange; lia|]. cbn beta in E'.
  destruct (rget cols (zlen cols)) as [c| |] eqn:Ec; cbn [bind] in E'; try discriminate. apply rget_Ok in Ec. apply zget_Some_range in Ec. lia.
Qed.

(* ---- a matrix is only returned when every point was found on the element *)
Lemma local_matrix_placed fuel rule lf lg hex lE : local_matrix fuel rule lf lg hex = Ok (Some lE) -> exists locs, Forall2 (placed fuel lg hex) rule locs.
Proof.
  unfold local_matrix. cbn zeta. match goal with |- foldM ?f _ (Some ?s) = _ -> _ => set (step := f); generalize s end.
  assert (N : forall l, foldM step l None = Ok None) by (induction l as [|r l IH]; [reflexivity|exact IH]).
  induction rule as [|r rule IH]; intros T; cbn [foldM]; [intros _; exists []; constructor|].
  unfold step at 1. cbn zeta. destruct (hex_local fuel lg (hex_global hex (fst r))) as [[loc|]| |] eqn:E; cbn [bind]; try discriminate; [|rewrite N; discriminate].
  destruct (Rleb (fst loc) (1 + 1 / 10000) && Rleb 0 (fst loc) && Rleb (snd loc) (1 + 1 / 10000) && Rleb 0 (snd loc)) eqn:B; [|discriminate].
  destruct (mapM _ _) as [T'| |]; cbn [bind]; try discriminate. intros H. destruct (IH T' H) as (locs & F).
  exists (loc :: locs). constructor; [|exact F]. split; [exact E|]. rewrite !andb_true_iff, !Rleb_true in B. lra.
Qed.

(* ---- concrete cases *)
Lemma nodes_case : renumber 3 2 3 = Ok ([[-1; 0; 1; 2; -1; 0]; [0; 3; 2; 4; 0; 3]; [3; -1; 4; 1; 3; -1]], 5).
Proof.
  vm_compute. reflexivity.
Qed.
(* two unit cells beside each other *)
Definition ex_verts : list pos3 := map (fun n => (IZR (n mod 3), IZR (n / 3 mod 2), IZR (n / 6)))%R (zrange 0 12).
Definition ex_cells : list (list Z) := [[0; 1; 3; 4; 6; 7; 9; 10]; [1; 2; 4; 5; 7; 8; 10; 11]].
Lemma box_case : forall p, 0 <= p < 3 -> exists v w, In v ex_verts /\ (pc v p <= 100000)%R /\ In w ex_verts /\ (-100000 <= pc w p)%R.
Proof.
  intros p Hp. exists (0, 0, 0)%R, (0, 0, 0)%R.
  assert (I : In (0, 0, 0)%R ex_verts) by (left; reflexivity). assert (E : pc (0, 0, 0)%R p = 0%R) by (destruct (dir3 p Hp) as [->|[->| ->]]; reflexivity).
  rewrite !E. split; [exact I|]. split; [lra|]. split; [exact I|lra].
Qed.
Lemma cells_case : wf_cells ex_verts ex_cells /\ wf_fixed [] /\ wf_mpcs 3 [] /\ on_boundary (1 / 100) ex_verts 0 2 true [1; 2; 4; 5; 7; 8; 10; 11] /\
  ~ on_boundary (1 / 100) ex_verts 0 2 true [0; 1; 3; 4; 6; 7; 9; 10].
Proof.
  split; [|split; [|split; [|split]]].
  - intros cell H. cbn in H. destruct H as [<-|[<-|[]]]; (split; [reflexivity|]); intros n Hn; change (zlen ex_verts) with 12; cbn in Hn; intuition lia.
  - split; [constructor|]. intros n d v H. discriminate.
  - split; [constructor|]. intros k p H. discriminate.
  - intros f Hf Ht. assert (C : f = 1 \/ f = 3 \/ f = 5 \/ f = 7).
    { assert (C : f = 0 \/ f = 1 \/ f = 2 \/ f = 3 \/ f = 4 \/ f = 5 \/ f = 6 \/ f = 7) by lia. destruct C as [->|[->|[->|[->|[->|[->|[->| ->]]]]]]]; try discriminate Ht; tauto. }
    assert (A : (Rabs (2 - 2) < 1 / 100)%R) by (rewrite Rminus_eq_0, Rabs_R0; lra).
    destruct C as [->|[->|[->| ->]]]; eexists _, _; (split; [reflexivity|split; [reflexivity|exact A]]).
  - intros H. destruct (H 1 ltac:(lia) eq_refl) as (n & c & E & E' & A). cbn in E. injection E as <-. cbn in E'. injection E' as <-. cbn in A.
    revert A. unfold Rabs. destruct Rcase_abs; lra.
Qed.
(* an interface of two elements of order 1 by 1; no constraints; one quad per pillar *)
Definition ex_quad (a b c d : Z) : quad := mkQuad (mkVertex a 0 0) (mkVertex b 1 0) (mkVertex c 1 1) (mkVertex d 0 1) (0, 0)%R (1, 1)%R.
Definition ex_face : mface := ([[ex_quad 0 1 4 3]; [ex_quad 1 2 5 4]], [[zrepeat (zrepeat (1 / 16)%R 4) 4]; [zrepeat (zrepeat (1 / 16)%R 4) 4]]).
Lemma fits_case : fits [] (zrange 0 18) 18 2 4 ex_face.
Proof.
  split; [cbn; lia|]. split; [cbn; lia|]. intros p col le Hp Ec Ee.
  assert (C : p = 0 \/ p = 1) by lia. destruct C as [-> | ->]; cbn in Ec, Ee; injection Ec as <-; injection Ee as <-;
    (split; [reflexivity|]; split; [intros lE [<-|[]]; split; [reflexivity|]; intros r Hr; cbn in Hr; intuition (subst; reflexivity)|]);
    intros q v d x [<-|[]] Hv Hd Hx; cbn in Hx; destruct Hx as [<-|[]];
    (assert (0 <= v_i v * 3 + d < 18) by (cbn in Hv; repeat (destruct Hv as [<-|Hv]; [cbn [v_i]; lia|]); destruct Hv)); exists (v_i v * 3 + d);
    (split; [rewrite zget_zrange by lia; f_equal; lia|lia]).
Qed.
(* the lower half of the unit square against the whole, at one point *)
Definition unit_hex : hexgeo := mkHex (0, 0)%R (1, 0)%R (0, 1)%R (1, 1)%R.
Definition half_hex : hexgeo := mkHex (0, 0)%R (1, 0)%R (0, 1 / 2)%R (1, 1 / 2)%R.
Lemma placed_case : placed 2 unit_hex half_hex ((1 / 2, 1 / 2), 1)%R (1 / 2, 1 / 4)%R /\
  exists v, tp_eval [([0; 1]%R, 0); ([0; 1]%R, 1)] (at_pt (1 / 2, 1 / 4)%R) = Ok v.
Proof.
  split.
  - split; [|cbn [fst snd]; lra]. destruct (Bgrid_Proofs6.local_affine 0 unit_hex (hex_global half_hex (1 / 2, 1 / 2)%R)) as (r & E & G).
    + unfold twist, unit_hex; cbn [h_c0 h_c1 h_c2 h_c3 fst snd]; f_equal; ring.
    + unfold unit_hex; cbn [h_c0 h_c1 h_c2 h_c3 fst snd]; lra.
    + cbn [fst]. rewrite E. f_equal. f_equal. destruct r as [x y]. rewrite !Bgrid_Proofs6.hex_global_eq in G. unfold unit_hex, half_hex in G. cbn [h_c0 h_c1 h_c2 h_c3 fst snd] in G.
      injection G as G1 G2. f_equal; lra.
  - assert (ND : NoDup [0; 1]%R) by (constructor; [intros [H|[]]; lra|constructor; [intros []|constructor]]).
    destruct (Shape_Proofs2.card_reproduces [0; 1]%R (1 / 2) ND) as (L & HL & _). destruct (Shape_Proofs2.card_reproduces [0; 1]%R (1 / 4) ND) as (L' & HL' & _).
    exists (1 * L 0%Z * L' 1%Z)%R. unfold tp_eval. change (zrange 0 _) with [0; 1]. cbn [foldM]. change (rget [([0; 1]%R, 0); ([0; 1]%R, 1)] 0) with (Ok ([0; 1]%R, 0)). cbn [bind fst snd].
    change (at_pt (1 / 2, 1 / 4)%R 0) with (1 / 2)%R. rewrite HL by (cbn; lia). cbn [bind].
    change (rget [([0; 1]%R, 0); ([0; 1]%R, 1)] 1) with (Ok ([0; 1]%R, 1)). cbn [bind fst snd]. change (at_pt (1 / 2, 1 / 4)%R 1) with (1 / 4)%R. rewrite HL' by (cbn; lia). reflexivity.
Qed.
