(* Index tables, windows, the table of results. *)
From Verif Require Import BaseFacts RBaseFacts Shape_Proofs2 Steady_Proofs Euler_Proofs2 Mload_Proofs Mload_Proofs2 Mload_Proofs3 Avg_Proofs Avg_Proofs2 Drv_Spec.
Open Scope Z_scope.

(* ---- cpregularize *)
Lemma index_table_ok dim ires imax : 0 <= dim -> 1 <= ires -> exists l, index_table dim ires imax = Ok l /\ zlen l = ires + 1 /\
  (forall c, 0 <= c < ires -> zget l c = Some (c * (dim / ires) + Z.min c (dim mod ires))) /\ zget l ires = Some imax.
Proof.
  intros Hd Hi. unfold index_table. destruct (Z.eqb_spec ires 0); [lia|]. rewrite Z.quot_div_nonneg by lia. set (f := dim / ires). replace (dim - ires * f) with (dim mod ires) by (unfold f; pose proof (Z.div_mod dim ires ltac:(lia)); lia).
  set (r := dim mod ires). assert (Hr : 0 <= r < ires) by (apply Z.mod_pos_bound; lia). eexists. split; [reflexivity|].
  assert (L1 : zlen (map (fun c => c * (f + 1)) (zrange 0 (r + 1))) = r + 1) by (rewrite zlen_map, zlen_zrange by lia; lia).
  assert (L2 : zlen (map (fun c => c * f + r) (zrange (r + 1) ires)) = ires - (r + 1)) by (rewrite zlen_map, zlen_zrange by lia; lia).
  split; [rewrite !zlen_app, L1, L2; change (zlen [imax]) with 1; lia|]. split.
  - intros c Hc. destruct (Z_lt_dec c (r + 1)).
    + rewrite zget_app_l by lia. rewrite zget_map, zget_zrange by lia. cbn [option_map]. f_equal. rewrite Z.min_l by lia. ring.
    + rewrite zget_app_r by lia. rewrite zget_app_l by lia. rewrite zget_map, L1, zget_zrange by lia. cbn [option_map]. f_equal. rewrite Z.min_r by lia. ring.
  - rewrite zget_app_r by lia. rewrite zget_app_r by lia. rewrite L1, L2. replace (ires - (r + 1) - (ires - (r + 1))) with 0 by lia. reflexivity.
Qed.
Lemma balanced_step dim ires c : 0 <= dim -> 1 <= ires -> 0 <= c ->
  let e x := x * (dim / ires) + Z.min x (dim mod ires) in e c <= e (c + 1) /\ dim / ires <= e (c + 1) - e c <= dim / ires + 1.
Proof.
  intros Hd Hi Hc e. unfold e. assert (0 <= dim / ires) by (apply Z.div_pos; lia). split; lia.
Qed.
Lemma index_table_partition dim ires : 0 <= dim -> 1 <= ires -> exists l, index_table dim ires dim = Ok l /\ zlen l = ires + 1 /\ zget l 0 = Some 0 /\ zget l ires = Some dim /\
  (forall c a b, 0 <= c < ires -> zget l c = Some a -> zget l (c + 1) = Some b -> dim / ires <= b - a <= dim / ires + 1) /\
  (forall x, 0 <= x < dim -> exists c a b, 0 <= c < ires /\ zget l c = Some a /\ zget l (c + 1) = Some b /\ a <= x < b /\
     forall c' a' b', 0 <= c' < ires -> zget l c' = Some a' -> zget l (c' + 1) = Some b' -> a' <= x < b' -> c' = c).
Proof.
  intros Hd Hi. destruct (index_table_ok dim ires dim Hd Hi) as (l & E & L & V & W). exists l. split; [exact E|]. split; [exact L|].
  set (e := fun x => x * (dim / ires) + Z.min x (dim mod ires)).
  assert (Hr : 0 <= dim mod ires < ires) by (apply Z.mod_pos_bound; lia).
  assert (V' : forall c, 0 <= c <= ires -> zget l c = Some (e c)).
  { intros c Hc. destruct (Z.eq_dec c ires) as [->|N]; [|apply V; lia]. rewrite W. f_equal. unfold e. rewrite Z.min_r by lia. pose proof (Z.div_mod dim ires ltac:(lia)); lia. }
  split; [rewrite V' by lia; unfold e; f_equal; lia|]. split; [exact W|]. split.
  - intros c a b Hc A B. rewrite V' in A, B by lia. injection A as <-. injection B as <-. apply (balanced_step dim ires c); lia.
  - assert (Mono : forall n a, 0 <= a -> e a <= e (a + Z.of_nat n)).
    { induction n as [|n IH]; intros a Ha; [replace (a + Z.of_nat 0) with a by lia; lia|]. specialize (IH a Ha). destruct (balanced_step dim ires (a + Z.of_nat n) Hd Hi ltac:(lia)) as [B _]. fold (e (a + Z.of_nat n)) in B. fold (e (a + Z.of_nat n + 1)) in B. replace (a + Z.of_nat (S n)) with (a + Z.of_nat n + 1) by lia. lia. }
    assert (Mono' : forall a b, 0 <= a <= b -> e a <= e b) by (intros a b Hab; specialize (Mono (Z.to_nat (b - a)) a ltac:(lia)); replace (a + Z.of_nat (Z.to_nat (b - a))) with b in Mono by lia; exact Mono).
    intros x Hx.
    assert (Find : forall n, Z.of_nat n <= ires -> x < e (Z.of_nat n) -> exists c, 0 <= c < Z.of_nat n /\ e c <= x < e (c + 1)).
    { induction n as [|n IH]; intros Hn Hx'; [unfold e in Hx'; cbn in Hx'; rewrite Z.min_l in Hx'; lia|]. destruct (Z_lt_dec x (e (Z.of_nat n))) as [Q|Q]; [destruct (IH ltac:(lia) Q) as (c & A & B); exists c; split; [lia|exact B]|].
      exists (Z.of_nat n). split; [lia|]. replace (Z.of_nat n + 1) with (Z.of_nat (S n)) by lia. lia. }
    destruct (Find (Z.to_nat ires)) as (c & A & B); [lia| |].
    { replace (Z.of_nat (Z.to_nat ires)) with ires by lia. pose proof (V' ires ltac:(lia)) as Q. rewrite W in Q. injection Q as Q. lia. }
    exists c, (e c), (e (c + 1)). split; [lia|]. split; [apply V'; lia|]. split; [apply V'; lia|]. split; [exact B|]. intros c' a' b' Hc' A' B' R'. rewrite V' in A', B' by lia. injection A' as <-. injection B' as <-.
    destruct (Z_lt_dec c' c); [pose proof (Mono' (c' + 1) c ltac:(lia)); lia|]. destruct (Z_lt_dec c c'); [pose proof (Mono' (c + 1) c' ltac:(lia)); lia|lia].
Qed.
(* with an upper limit below the start of the last block, that block is inside out *)
Lemma index_table_cut dim ires imax : 0 <= dim -> 1 <= ires -> imax < (ires - 1) * (dim / ires) + Z.min (ires - 1) (dim mod ires) ->
  exists l a b, index_table dim ires imax = Ok l /\ zget l (ires - 1) = Some a /\ zget l ires = Some b /\ b < a.
Proof.
  intros Hd Hi H. destruct (index_table_ok dim ires imax Hd Hi) as (l & E & _ & V & W). exists l. do 2 eexists. split; [exact E|]. split; [apply V; lia|]. split; [exact W|]. exact H.
Qed.
Lemma depth_table_ok zmin zmax zres : 1 <= zres -> zlen (depth_table zmin zmax zres) = zres + 1 /\
  (forall k, 0 <= k <= zres -> nthR (depth_table zmin zmax zres) k = (zmin + IZR k * ((zmax - zmin) / IZR zres))%R).
Proof.
  intros Hz. unfold depth_table. assert (L : zlen (map (fun k => zmin + IZR k * (zmax - zmin) / IZR zres)%R (zrange 0 zres)) = zres) by (rewrite zlen_map, zlen_zrange by lia; lia).
  assert (NZ : IZR zres <> 0%R) by (apply not_0_IZR; lia). split; [rewrite zlen_app, L; change (zlen [zmax]) with 1; lia|]. intros k Hk. unfold nthR. destruct (Z.eq_dec k zres) as [->|N].
  - rewrite zget_app_r by lia. rewrite L, Z.sub_diag. change (zget [zmax] 0) with (Some zmax). cbv iota. field. exact NZ.
  - rewrite zget_app_l by lia. rewrite zget_map, zget_zrange by lia. cbn [option_map]. rewrite Z.add_0_l. unfold Rdiv. ring.
Qed.
Lemma regularize_never nx ny azmin azmax imin imax jmin jmax zmin zmax ires jres zres piece r : 1 <= ires -> 1 <= jres -> 1 <= zres ->
  regularize nx ny azmin azmax imin imax jmin jmax zmin zmax ires jres zres piece <> Ok r.
Proof.
  intros Hi Hj Hz. unfold regularize. destruct (verify_shoebox _ _ _ _ _ _ _ _ _ _ _ _ _); cbn [bind]; try discriminate. destruct (index_table nx ires imax) as [is| |]; cbn [bind]; try discriminate. destruct (index_table ny jres jmax) as [js| |]; cbn [bind]; try discriminate.
  assert (H : In (0, (0, 0)) (triples (zrange 0 zres) (zrange 0 jres) (zrange 0 ires))) by (apply In_triples; rewrite !In_zrange; lia).
  destruct (triples (zrange 0 zres) (zrange 0 jres) (zrange 0 ires)) as [|[k [j i]] t]; [destruct H|]. cbn [foldM].
  destruct (rget is i); cbn [bind]; try discriminate. destruct (rget is (i + 1)); cbn [bind]; try discriminate. destruct (rget js j); cbn [bind]; try discriminate. destruct (rget js (j + 1)); cbn [bind]; try discriminate.
  destruct (rget (depth_table zmin zmax zres) k); cbn [bind]; try discriminate. destruct (rget (depth_table zmin zmax zres) (k + 1)); cbn [bind]; try discriminate. destruct (piece _ _ _ _ _ _); cbn [bind]; discriminate.
Qed.
(* ---- windows *)
Lemma window_random imin ilen imax jmin jlen jmax zmin zl zmax x y z : imin <= imax - ilen -> jmin <= jmax - jlen ->
  imin <= x <= imax - ilen -> jmin <= y <= jmax - jlen -> (zmin <= z <= z_upper zmin zl zmax)%R ->
  exists i1 i2 j1 j2 z1 z2, chop_window true imin ilen imax jmin jlen jmax zmin zl x y z = Ok (i1, i2, j1, j2, z1, z2) /\
    imin <= i1 /\ i2 = i1 + ilen /\ i2 <= imax /\ jmin <= j1 /\ j2 = j1 + jlen /\ j2 <= jmax /\ (zmin <= z1)%R /\ z2 = (z1 + zl)%R /\
    (zmin + 1 / 1000000 <= zmax - zl -> z2 <= zmax)%R /\ (zl <= zmax - zmin -> z2 <= zmax + 1 / 1000000)%R.
Proof.
  intros Hi Hj Hx Hy Hz. unfold chop_window, uniform_int. destruct (Z.ltb_spec (imax - ilen) imin); [lia|]. destruct (Z.ltb_spec (jmax - jlen) jmin); [lia|]. cbn [bind].
  do 6 eexists. split; [reflexivity|]. unfold z_upper in Hz. rewrite smax_Rmax in Hz. repeat (split; [lia|]). split; [lra|]. split; [reflexivity|]. split.
  - intros HH. rewrite Rmax_left in Hz by lra. lra.
  - intros HH. unfold Rmax in Hz. destruct (Rle_dec (zmax - zl) (zmin + 1 / 1000000)); lra.
Qed.
Lemma window_fixed imin ilen imax jmin jlen jmax zmin zl x y z : imin <= imax - ilen -> jmin <= jmax - jlen ->
  chop_window false imin ilen imax jmin jlen jmax zmin zl x y z = Ok (0, ilen, 0, jlen, zmin, (zmin + zl)%R).
Proof.
  intros Hi Hj. unfold chop_window, uniform_int. destruct (Z.ltb_spec (imax - ilen) imin); [lia|]. destruct (Z.ltb_spec (jmax - jlen) jmin); [lia|]. reflexivity.
Qed.
Lemma window_ub b imin ilen imax jmin jlen jmax zmin zl x y z : imax - imin < ilen \/ jmax - jmin < jlen -> chop_window b imin ilen imax jmin jlen jmax zmin zl x y z = UB.
Proof.
  intros H. unfold chop_window, uniform_int. destruct (Z.ltb_spec (imax - ilen) imin); [reflexivity|]. cbn [bind]. destruct (Z.ltb_spec (jmax - jlen) jmin); [reflexivity|]. lia.
Qed.
