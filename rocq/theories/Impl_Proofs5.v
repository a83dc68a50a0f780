From Coq Require Import Lra Permutation.
From Verif Require Import BaseFacts RBaseFacts Steady_Proofs Euler_Proofs2 Impl_Model Impl_Spec Impl_Proofs Impl_Proofs2 Impl_Proofs3.
Open Scope Z_scope.

Lemma rget_at l i : 0 <= i < zlen l -> rget l i = Ok (nthR l i).
Proof. intros H. destruct (zget_in_range _ _ H) as (x & E). apply rget_Ok. rewrite E. f_equal. symmetry. now apply nthR_get. Qed.

Section halves.
Context (g : tgrid) (W : wf_grid g).
Definition hcell (c : Z) : list (Z * (Z * Z)) := map (fun i => (i, (c, nthZ (t_cf g) i))) (zrange (nthZ (t_pos g) c) (nthZ (t_pos g) (c + 1))).
Definition halves : list (Z * (Z * Z)) := flat_map hcell (zrange 0 (t_nc g)).
Lemma half_faces_ok : half_faces g = Ok halves.
Proof.
  unfold half_faces, halves.
  pose proof W as (W0 & _ & L & P0 & _).
  assert (H : forall n, Z.of_nat n <= t_nc g -> foldM (fun (st : Z * list (Z * (Z * Z))) c =>
      let* e := rget (t_pos g) (c + 1) in
      let* hs := mapM (fun i => let* f := rget (t_cf g) i in Ok (i, (c, f))) (zrange (fst st) e) in
      Ok (Z.max (fst st) e, snd st ++ hs)) (zrange 0 (Z.of_nat n)) (0, []) = Ok (nthZ (t_pos g) (Z.of_nat n), flat_map hcell (zrange 0 (Z.of_nat n)))).
  { induction n as [|n IH]; intros Hn; [cbn; now rewrite P0|].
    rewrite (zrange_app 0 (Z.of_nat n) (Z.of_nat (S n))) by lia. rewrite (zrange_cons (Z.of_nat n)), (zrange_empty (Z.of_nat n + 1)) by lia.
    rewrite foldM_app, IH by lia. cbn [bind foldM fst snd]. pose proof (pos_range g W (Z.of_nat n) ltac:(lia)) as R.
    rewrite nthZ_get by lia. cbn [bind].
    rewrite (mapM_all_Ok _ (fun i => (i, (Z.of_nat n, nthZ (t_cf g) i)))).
    2:{ intros i Hi. apply In_zrange in Hi. rewrite nthZ_get by lia. reflexivity. }
    cbn [bind]. rewrite flat_map_app. cbn [flat_map]. rewrite app_nil_r. replace (Z.of_nat (S n)) with (Z.of_nat n + 1) by lia. rewrite Z.max_r by lia. reflexivity. }
  specialize (H (Z.to_nat (t_nc g))). rewrite Z2Nat.id in H by lia. rewrite H by lia. reflexivity.
Qed.
Lemma halves_idx : map fst halves = zrange 0 (zlen (t_cf g)).
Proof.
  pose proof W as (W0 & _ & L & P0 & _ & Pn & _). unfold halves. rewrite <- Pn.
  assert (H : forall n, Z.of_nat n <= t_nc g -> map fst (flat_map hcell (zrange 0 (Z.of_nat n))) = zrange 0 (nthZ (t_pos g) (Z.of_nat n))).
  { induction n as [|n IH]; intros Hn; [cbn [Z.of_nat]; rewrite P0; reflexivity|].
    rewrite (zrange_app 0 (Z.of_nat n) (Z.of_nat (S n))) by lia. rewrite (zrange_cons (Z.of_nat n)), (zrange_empty (Z.of_nat n + 1)) by lia.
    rewrite flat_map_app, map_app, IH by lia. cbn [flat_map]. rewrite app_nil_r. unfold hcell. rewrite map_map. cbn [fst]. rewrite map_id.
    pose proof (pos_range g W (Z.of_nat n) ltac:(lia)) as R. replace (Z.of_nat (S n)) with (Z.of_nat n + 1) by lia. rewrite <- zrange_app by lia. reflexivity. }
  specialize (H (Z.to_nat (t_nc g))). rewrite Z2Nat.id in H by lia. apply H. lia.
Qed.
Lemma In_halves i c f : In (i, (c, f)) halves <-> 0 <= c < t_nc g /\ half_of g c f i.
Proof.
  unfold halves, half_of. rewrite in_flat_map. split.
  - intros (c' & Hc & Hi). apply In_zrange in Hc. apply in_map_iff in Hi. destruct Hi as (i' & E & Hi). apply In_zrange in Hi. injection E as <- <- <-. auto.
  - intros (Hc & Hi & <-). exists c. split; [now apply In_zrange|]. apply in_map_iff. exists i. split; auto. now apply In_zrange.
Qed.
Lemma halves_face h : In h halves -> snd (snd h) = nthZ (t_cf g) (fst h) /\ 0 <= snd (snd h) < t_nf g /\ 0 <= fst h < zlen (t_cf g) /\ 0 <= fst (snd h) < t_nc g.
Proof.
  destruct h as (i & c & f). intros H. cbn [fst snd]. apply In_halves in H. destruct H as (Hc & Hi & E). pose proof (pos_range g W c Hc). split; auto.
  pose proof W as (_ & _ & _ & _ & _ & _ & F & _). split; [|split; lia]. subst f. apply F. destruct (zget_in_range (t_cf g) i ltac:(lia)) as (x & G). unfold nthZ. rewrite G. eapply zget_In; eauto.
Qed.
Lemma halves_map {B} (F : Z -> Z -> B) : map (fun h => F (fst h) (snd (snd h))) halves = map (fun i => F i (nthZ (t_cf g) i)) (zrange 0 (zlen (t_cf g))).
Proof.
  rewrite <- halves_idx, map_map. apply map_ext_in. intros h Hh. destruct (halves_face h Hh) as (-> & _). reflexivity.
Qed.

(* transmissibilities *)
Lemma trans_fold ht : forall hs t, (forall h, In h hs -> 0 <= fst h < zlen ht /\ 0 <= snd (snd h) < zlen t) ->
  exists t', foldM (fun t h => let* x := rget ht (fst h) in let* y := rget t (snd (snd h)) in rset t (snd (snd h)) (y + 1 / x)%R) (hs : list (Z * (Z * Z))) t = Ok t' /\ zlen t' = zlen t /\
    forall f, nthR t' f = (nthR t f + Rsum (map (fun h => if Z.eqb (snd (snd h)) f then 1 / nthR ht (fst h) else 0) hs))%R.
Proof.
  induction hs as [|h hs IH]; intros t H.
  - exists t. split; auto. split; auto. intros f. cbn [map]. rewrite Rsum_nil. ring.
  - cbn [foldM]. destruct (H h ltac:(left; auto)) as (A & B). rewrite (rget_at ht) by auto. cbn [bind]. rewrite (rget_at t) by auto. cbn [bind].
    destruct (rset_exists t (snd (snd h)) (nthR t (snd (snd h)) + 1 / nthR ht (fst h))%R B) as (t1 & E1 & _). rewrite E1. cbn [bind]. destruct (rset_nthR _ _ _ _ E1) as (L1 & _ & N1 & _).
    destruct (IH t1) as (t2 & E2 & L2 & N2). { intros h' Hh. rewrite L1. apply H. right; auto. }
    exists t2. split; auto. split; [lia|]. intros f. rewrite N2, N1. cbn [map]. rewrite Rsum_cons, (Z.eqb_sym f). destruct (Z.eqb_spec (snd (snd h)) f) as [->|]; ring.
Qed.
Lemma face_trans_ok ht : zlen ht = zlen (t_cf g) -> exists t, face_trans g ht = Ok t /\ zlen t = t_nf g /\
  forall f, 0 <= f < t_nf g -> nthR t f = (1 / Rsum (map (fun i => 1 / nthR ht i) (halves_of g f)))%R.
Proof.
  intros H. pose proof W as (W0 & W1 & _). unfold face_trans. rewrite half_faces_ok. cbn [bind].
  destruct (trans_fold ht halves (zrepeat 0%R (t_nf g))) as (t & E & L & N).
  { intros h Hh. destruct (halves_face h Hh) as (_ & A & B & _). rewrite zlen_zrepeat by lia. split; lia. }
  rewrite zlen_zrepeat in L by lia. rewrite E. cbn [bind]. eexists. split; [reflexivity|]. split; [now rewrite zlen_map|]. intros f Hf.
  specialize (N f). rewrite nthR_zrepeat0, Rplus_0_l in N.
  rewrite (halves_map (fun i f' => if Z.eqb f' f then (1 / nthR ht i)%R else 0%R)) in N. rewrite Rsum_if in N. unfold halves_of. rewrite <- N.
  unfold nthR at 1. rewrite zget_map. destruct (zget_in_range t f ltac:(lia)) as (x & Gx). rewrite Gx. cbn [option_map]. apply nthR_get in Gx. now rewrite Gx.
Qed.

(* face to half face *)
Definition slot (h : Z * (Z * Z)) : Z := 2 * snd (snd h) + (1 - (if first_cell g (snd (snd h)) =? fst (snd h) then 1 else 0)).
Lemma slots_fold : forall hs m, NoDup (map slot hs) -> (forall h, In h hs -> 0 <= snd (snd h) < t_nf g) -> zlen m = 2 * t_nf g ->
  exists m', foldM (fun m h =>
      let c := fst (snd h) in let f := snd (snd h) in
      let* n0 := rget (t_fc g) (2 * f) in
      rset m (2 * f + (1 - (if n0 =? c then 1 else 0))) (fst h)) hs m = Ok m' /\ zlen m' = zlen m /\
    (forall h, In h hs -> zget m' (slot h) = Some (fst h)) /\ (forall k, ~ In k (map slot hs) -> zget m' k = zget m k).
Proof.
  pose proof W as (_ & _ & _ & _ & _ & _ & _ & FC & _).
  induction hs as [|h hs IH]; intros m ND H L.
  - exists m. split; auto. split; auto. split; [intros h []|auto].
  - cbn [foldM]. assert (Hh := H h ltac:(left; auto)). rewrite (nthZ_get (t_fc g)) by lia. cbn [bind]. fold (first_cell g (snd (snd h))). fold (slot h).
    assert (Sr : 0 <= slot h < zlen m) by (unfold slot; destruct (_ =? _); lia).
    destruct (rset_exists m (slot h) (fst h) Sr) as (m1 & E1 & _). rewrite E1. cbn [bind]. destruct (rset_inv _ _ _ _ E1) as (_ & L1 & G1 & G1o).
    inversion ND as [|? ? NI ND']. destruct (IH m1 ND') as (m2 & E2 & L2 & G2 & O2); [intros; apply H; right; auto|lia|].
    cbn zeta in E2. rewrite E2. exists m2. split; auto. split; [lia|]. split.
    + intros h' [<-|Hin]; auto. rewrite O2 by auto. exact G1.
    + intros k Hk. cbn [map] in Hk. rewrite O2 by (intros X; apply Hk; right; auto). apply G1o. intros ->. apply Hk. left; auto.
Qed.
Lemma slots_inj : (forall c, 0 <= c < t_nc g -> NoDup (faces g c)) -> forall h h', In h halves -> In h' halves -> slot h = slot h' -> h = h'.
Proof.
  intros ND (i & c & f) (i' & c' & f') H H'. apply In_halves in H, H'. destruct H as (Hc & Hi & Ef), H' as (Hc' & Hi' & Ef'). unfold slot. cbn [fst snd]. intros S.
  assert (f = f' /\ (first_cell g f =? c) = (first_cell g f' =? c')) as (<- & B).
  { destruct (first_cell g f =? c), (first_cell g f' =? c'); split; auto; lia. }
  assert (Hf : In f (faces g c)) by (apply in_map_iff; exists i; split; auto; now apply In_zrange).
  assert (Hf' : In f (faces g c')) by (apply in_map_iff; exists i'; split; auto; now apply In_zrange).
  pose proof W as (_ & _ & _ & _ & _ & _ & _ & _ & _ & S2). pose proof (S2 _ _ Hc Hf). pose proof (S2 _ _ Hc' Hf').
  assert (c = c') as <- by (destruct (Z.eqb_spec (first_cell g f) c), (Z.eqb_spec (first_cell g f) c'); try discriminate; lia).
  assert (i = i') as <-; auto. specialize (ND c Hc). unfold faces in ND. set (p := nthZ (t_pos g) c) in *. set (e := nthZ (t_pos g) (c + 1)) in *.
  assert (Z1 : zget (map (nthZ (t_cf g)) (zrange p e)) (i - p) = Some f) by (rewrite zget_map, zget_zrange by lia; cbn; f_equal; rewrite <- Ef; f_equal; lia).
  assert (Z2 : zget (map (nthZ (t_cf g)) (zrange p e)) (i' - p) = Some f) by (rewrite zget_map, zget_zrange by lia; cbn; f_equal; rewrite <- Ef'; f_equal; lia).
  rewrite zget_nth in Z1, Z2 by lia. rewrite <- Z2 in Z1.
  apply (proj1 (NoDup_nth_error _) ND) in Z1; [lia|]. rewrite map_length, zrange_length. lia.
Qed.
Lemma NoDup_map_inj {A B} (F : A -> B) l : NoDup l -> (forall x y, In x l -> In y l -> F x = F y -> x = y) -> NoDup (map F l).
Proof.
  induction l as [|x l IH]; intros ND H; cbn [map]; constructor; inversion ND as [|? ? NI ND'].
  - intros X. apply in_map_iff in X. destruct X as (y & E & Hy). apply H in E; [subst; contradiction|right; auto|left; auto].
  - apply IH; auto. intros; apply H; auto; right; auto.
Qed.
Lemma face_to_half_ok : (forall c, 0 <= c < t_nc g -> NoDup (faces g c)) -> exists m, face_to_half g = Ok m /\ zlen m = 2 * t_nf g /\
  (forall c f i, 0 <= c < t_nc g -> half_of g c f i -> zget m (2 * f + (if first_cell g f =? c then 0 else 1)) = Some i) /\
  (forall k, 0 <= k < 2 * t_nf g -> (forall c f i, 0 <= c < t_nc g -> half_of g c f i -> k <> 2 * f + (if first_cell g f =? c then 0 else 1)) -> zget m k = Some (-1)).
Proof.
  intros ND. pose proof W as (_ & W1 & _). unfold face_to_half. rewrite half_faces_ok. cbn [bind].
  assert (SL : forall i c f, slot (i, (c, f)) = 2 * f + (if first_cell g f =? c then 0 else 1)) by (intros; unfold slot; cbn [fst snd]; destruct (_ =? _); lia).
  destruct (slots_fold halves (zrepeat (-1) (2 * t_nf g))) as (m & E & L & G & O).
  - apply NoDup_map_inj; [|apply slots_inj; auto]. apply NoDup_map_inv with (f := fst). rewrite halves_idx. apply zrange_NoDup.
  - intros h Hh. apply halves_face; auto.
  - apply zlen_zrepeat. lia.
  - exists m. split; [exact E|]. rewrite zlen_zrepeat in L by lia. split; auto. split.
    + intros c f i Hc Hi. rewrite <- (SL i). apply (G (i, (c, f))). apply In_halves; auto.
    + intros k Hk H. rewrite O; [apply zget_zrepeat; lia|]. intros X. apply in_map_iff in X. destruct X as ((i & c & f) & <- & Hh). apply In_halves in Hh. destruct Hh as (Hc & Hi). apply (H c f i Hc Hi). apply SL.
Qed.

(* gravity *)
Lemma static_ok tr gx : zlen tr = t_nf g -> exists dg, static_gravity g tr gx = Ok dg /\ zlen dg = zlen (t_cf g) /\
  forall c f i, 0 <= c < t_nc g -> half_of g c f i -> zget dg i = Some (nthR tr f * gx c f)%R.
Proof.
  intros H. unfold static_gravity. rewrite half_faces_ok. cbn [bind].
  rewrite (mapM_all_Ok _ (fun h => nthR tr (snd (snd h)) * gx (fst (snd h)) (snd (snd h)))%R).
  2:{ intros h Hh. destruct (halves_face h Hh) as (_ & A & _). rewrite rget_at by lia. reflexivity. }
  assert (LH : zlen halves = zlen (t_cf g)). { rewrite <- (zlen_map fst), halves_idx, zlen_zrange by apply zlen_nonneg. lia. }
  eexists. split; [reflexivity|]. split; [now rewrite zlen_map|].
  intros c f i Hc Hi. rewrite zget_map.
  assert (In (i, (c, f)) halves) as Hh by (apply In_halves; auto). destruct (In_zget _ _ Hh) as (k & Hk & Gk).
  assert (k = i) as ->.
  { assert (X : zget (map fst halves) k = Some i) by (rewrite zget_map, Gk; reflexivity). rewrite halves_idx, zget_zrange in X by lia. injection X; lia. }
  rewrite Gk. reflexivity.
Qed.
Lemma gravity_ok tr gx drho : zlen tr = t_nf g -> (forall c, 0 <= c < t_nc g -> NoDup (faces g c)) ->
  exists m dg, face_to_half g = Ok m /\ static_gravity g tr gx = Ok dg /\
  forall f a b, 0 <= a < t_nc g -> 0 <= b < t_nc g -> first_cell g f = a -> second_cell g f = b -> a <> b -> In f (faces g a) -> In f (faces g b) ->
    gravity_flux_face true drho m dg f = Ok (drho * nthR tr f * (gx a f - gx b f))%R /\ gravity_flux_face false drho m dg f = Ok 0%R.
Proof.
  intros HT ND. destruct (face_to_half_ok ND) as (m & E & L & G & _). destruct (static_ok tr gx HT) as (dg & E2 & L2 & G2). exists m, dg. split; auto. split; auto.
  intros f a b Ha Hb A B N Ia Ib. split; auto. unfold gravity_flux_face.
  apply in_map_iff in Ia, Ib. destruct Ia as (i & Fi & Hi), Ib as (i' & Fi' & Hi'). apply In_zrange in Hi, Hi'.
  pose proof (G a f i Ha (conj Hi Fi)) as X1. pose proof (G b f i' Hb (conj Hi' Fi')) as X2.
  rewrite A, Z.eqb_refl, Z.add_0_r in X1. rewrite A in X2. destruct (Z.eqb_spec a b); [contradiction|].
  apply rget_Ok in X1, X2. rewrite X1, X2. cbn [bind].
  pose proof (G2 a f i Ha (conj Hi Fi)) as Y1. pose proof (G2 b f i' Hb (conj Hi' Fi')) as Y2. apply rget_Ok in Y1, Y2. rewrite Y1, Y2. cbn [bind]. f_equal. ring.
Qed.
(* an interior face: the two half transmissibilities in series *)
Lemma series_ok ht f i1 i2 : zlen ht = zlen (t_cf g) -> 0 <= f < t_nf g -> Permutation (halves_of g f) [i1; i2] -> (0 < nthR ht i1)%R -> (0 < nthR ht i2)%R ->
  exists t, face_trans g ht = Ok t /\ nthR t f = (nthR ht i1 * nthR ht i2 / (nthR ht i1 + nthR ht i2))%R.
Proof.
  intros H Hf P A B. destruct (face_trans_ok ht H) as (t & E & _ & N). exists t. split; auto. rewrite N by auto.
  rewrite (Rsum_perm _ _ (Permutation_map _ P)). cbn [map]. rewrite !Rsum_cons, Rsum_nil. field. lra.
Qed.
End halves.

(* ---- what goes wrong with periodic boundaries *)
(* two cells in a ring: face 0 between them, faces 1 and 2 glued *)
Definition ring : tgrid := mkTgrid 2 3 [0; 2; 4] [1; 0; 0; 2] [0; 1; 1; 0; 1; 0].
Definition ring_store (trans : Z -> R) : ustore :=
  mkUstore (fun _ => 1%R) (fun _ => 1%R) (fun _ => 0%R) (fun _ => 0%R) (fun _ => 1%R) (fun _ => 0%R) IZR (fun _ => 0%R) trans (fun _ => 0%R) (fun _ => 0%R).
Lemma case2 c : 0 <= c < 2 -> c = 0 \/ c = 1. Proof. lia. Qed.
Lemma case3 c : 0 <= c < 3 -> c = 0 \/ c = 1 \/ c = 2. Proof. lia. Qed.
Lemma ring_wf : wf_grid ring.
Proof.
  unfold wf_grid. cbn [t_nc t_nf t_pos t_cf t_fc ring].
  split; [lia|]. split; [lia|]. split; [reflexivity|]. split; [reflexivity|]. split; [|split; [reflexivity|split; [|split; [reflexivity|split]]]].
  - intros c Hc. destruct (case2 c Hc) as [-> | ->]; vm_compute; discriminate.
  - intros f [<-|[<-|[<-|[<-|[]]]]]; lia.
  - intros f Hf. destruct (case3 f Hf) as [-> |[-> | ->]]; vm_compute; repeat split; discriminate || reflexivity.
  - intros c f Hc. destruct (case2 c Hc) as [-> | ->]; intros H; vm_compute in H; destruct H as [<-|[<-|[]]]; vm_compute; auto.
Qed.
Lemma ring_halves : half_conns ring = [(0, 1); (0, 0); (1, 0); (1, 2)].
Proof. reflexivity. Qed.
Lemma ring_matched t : matched ring (ring_store t) ((0, 1), (1, 2)).
Proof. cbn. repeat split; try discriminate. right. split; reflexivity. Qed.
Lemma conservation_refuted : exists g u dt s0 s, wf_grid g /\ create_system g = Ok s0 /\ assemble g u dt [] s0 = Ok s /\
  Permutation (half_conns g) (both_sides g [0] ++ flat_map (fun p => [fst p; snd p]) [((0, 1), (1, 2))]) /\
  first_cell g 0 <> second_cell g 0 /\ matched g u ((0, 1), (1, 2)) /\
  Rsum (map (nthR (y_res s)) (zrange 0 (t_nc g))) <> Rsum (map (fun c => u_pv u c * u_ds u c)%R (zrange 0 (t_nc g))).
Proof.
  exists ring, (ring_store (fun f => if f =? 1 then 1%R else 2%R)), 1%R.
  destruct (assembled ring (ring_store (fun f => if f =? 1 then 1%R else 2%R)) 1 [] ring_wf ltac:(intros q [])) as (s0 & s & A & B & _ & C).
  exists s0, s. split; [apply ring_wf|]. split; auto. split; auto. split.
  { rewrite ring_halves. change (both_sides ring [0]) with [(0, 0); (1, 0)]. cbn [flat_map fst snd app].
    apply (Permutation_middle [(0, 0); (1, 0)] [(1, 2)] (0, 1)). }
  split; [discriminate|]. split; [apply ring_matched|].
  change (t_nc ring) with 2 in *. change (zrange 0 2) with [0; 1]. cbn [map]. rewrite !C by lia. rewrite !Rsum_cons, !Rsum_nil.
  unfold balance. change (conns ring 0) with [1; 0]. change (conns ring 1) with [0; 2]. cbn [filter map]. rewrite !Rsum_cons, !Rsum_nil.
  unfold outward, face_flux. change (first_cell ring 0) with 0. change (first_cell ring 1) with 1. change (first_cell ring 2) with 1.
  change (second_cell ring 0) with 1. change (second_cell ring 1) with 0. change (second_cell ring 2) with 0.
  cbn [Z.eqb Pos.eqb u_m0 u_m1 u_pv u_ds u_pc u_trans u_gflux u_dflux ring_store]. lra.
Qed.
(* a single cell glued to itself *)
Definition loop : tgrid := mkTgrid 1 2 [0; 2] [0; 1] [0; 0; 0; 0].
Lemma loop_wf : wf_grid loop.
Proof.
  unfold wf_grid. cbn [t_nc t_nf t_pos t_cf t_fc loop].
  split; [lia|]. split; [lia|]. split; [reflexivity|]. split; [reflexivity|]. split; [|split; [reflexivity|split; [|split; [reflexivity|split]]]].
  - intros c Hc. replace c with 0 by lia. vm_compute; discriminate.
  - intros f [<-|[<-|[]]]; lia.
  - intros f Hf. destruct (case2 f Hf) as [-> | ->]; vm_compute; repeat split; discriminate || reflexivity.
  - intros c f Hc. replace c with 0 by lia. intros H; vm_compute in H; destruct H as [<-|[<-|[]]]; vm_compute; auto.
Qed.
Lemma self_refuted : exists g u dt s0 s, wf_grid g /\ create_system g = Ok s0 /\ assemble g u dt [] s0 = Ok s /\
  t_nc g = 1 /\ t_nf g = 2 /\ (forall f, 0 <= f < 2 -> first_cell g f = 0 /\ second_cell g f = 0) /\ u_dflux u 0 = u_dflux u 1 /\
  Rsum (map (nthR (y_res s)) (zrange 0 (t_nc g))) <> Rsum (map (fun c => u_pv u c * u_ds u c)%R (zrange 0 (t_nc g))).
Proof.
  set (u := mkUstore (fun _ => 1%R) (fun _ => 1%R) (fun _ => 0%R) (fun _ => 0%R) (fun _ => 1%R) (fun _ => 0%R) IZR (fun _ => 0%R) (fun _ => 1%R) (fun _ => 0%R) (fun _ => 1%R)).
  exists loop, u, 1%R. destruct (assembled loop u 1 [] loop_wf ltac:(intros q [])) as (s0 & s & A & B & _ & C). exists s0, s.
  split; [apply loop_wf|]. split; auto. split; auto. split; auto. split; auto. split.
  { intros f Hf. destruct (case2 f Hf) as [-> | ->]; split; reflexivity. }
  split; auto.
  change (t_nc loop) with 1 in *. change (zrange 0 1) with [0]. cbn [map]. rewrite !C by lia. rewrite !Rsum_cons, !Rsum_nil.
  unfold balance. change (conns loop 0) with [0; 1]. cbn [filter map]. rewrite !Rsum_cons, !Rsum_nil.
  unfold outward, face_flux. change (first_cell loop 0) with 0. change (first_cell loop 1) with 0.
  change (second_cell loop 0) with 0. change (second_cell loop 1) with 0.
  cbn [Z.eqb Pos.eqb u_m0 u_m1 u_pv u_ds u_pc u_trans u_gflux u_dflux u].
  repeat match goal with |- context [if ?b then 1%R else 1%R] => replace (if b then 1%R else 1%R) with 1%R by (destruct b; reflexivity) end. lra.
Qed.
