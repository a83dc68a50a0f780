From Verif Require Import RBaseFacts Chop_Model Chop_Spec.
Open Scope Z_scope.

Lemma corner_range nx ny nz i j k ci cj ck :
  0 <= i < nx -> 0 <= j < ny -> 0 <= k < nz -> bit ci -> bit cj -> bit ck ->
  0 <= corner_no nx ny i j k ci cj ck < 8 * nx * ny * nz.
Proof.
  unfold bit, corner_no. intros.
  pose proof (mr_range (2*i+ci) (2*nx) ((2*j+cj) + 2*ny*(2*k+ck)) ((2*ny)*(2*nz))).
  pose proof (mr_range (2*j+cj) (2*ny) (2*k+ck) (2*nz)).
  assert (2 * nx * (2 * ny * (2 * nz)) = 8 * nx * ny * nz) by ring. lia.
Qed.

Lemma corner_inj nx ny i j k ci cj ck i' j' k' ci' cj' ck' :
  0 <= i < nx -> 0 <= j < ny -> 0 <= i' < nx -> 0 <= j' < ny ->
  bit ci -> bit cj -> bit ck -> bit ci' -> bit cj' -> bit ck' ->
  corner_no nx ny i j k ci cj ck = corner_no nx ny i' j' k' ci' cj' ck' ->
  i = i' /\ j = j' /\ k = k' /\ ci = ci' /\ cj = cj' /\ ck = ck'.
Proof.
  unfold bit, corner_no. intros.
  assert (2*i+ci = 2*i'+ci' /\ (2*j+cj) + 2*ny*(2*k+ck) = (2*j'+cj') + 2*ny*(2*k'+ck')) as [E1 E2]
    by (apply mr_inj with (A := 2*nx); lia).
  assert (2*j+cj = 2*j'+cj' /\ 2*k+ck = 2*k'+ck') as [E3 E4] by (apply mr_inj with (A := 2*ny); lia).
  lia.
Qed.

Lemma bit_decomp x n : 0 <= x < 2 * n -> exists i c, 0 <= i < n /\ bit c /\ x = 2 * i + c.
Proof. intros. exists (x / 2), (x mod 2). unfold bit. lia. Qed.

Lemma corner_decomp nx ny nz p : 1 <= nx -> 1 <= ny -> 0 <= p < 8 * nx * ny * nz ->
  exists i j k ci cj ck, 0 <= i < nx /\ 0 <= j < ny /\ 0 <= k < nz /\ bit ci /\ bit cj /\ bit ck /\
    p = corner_no nx ny i j k ci cj ck.
Proof.
  intros Hx Hy Hp.
  destruct (mr_decomp p (2*nx) ((2*ny)*(2*nz))) as [x [q [Hxr [Hq E]]]]; [lia| |].
  { assert (2 * nx * (2 * ny * (2 * nz)) = 8 * nx * ny * nz) by ring. lia. }
  destruct (mr_decomp q (2*ny) (2*nz)) as [y [w [Hyr [Hw E2]]]]; [lia|lia|].
  destruct (bit_decomp x nx Hxr) as [i [ci [Hi [Hci ->]]]].
  destruct (bit_decomp y ny Hyr) as [j [cj [Hj [Hcj ->]]]].
  destruct (bit_decomp w nz Hw) as [k [ck [Hk [Hck ->]]]].
  exists i, j, k, ci, cj, ck. unfold corner_no. subst q. repeat split; try lia; assumption.
Qed.

(* which half layer an index belongs to *)
Lemma corner_half nx ny i j k ci cj ck :
  0 <= i < nx -> 0 <= j < ny -> bit ci -> bit cj ->
  (2*k+ck) * (4*nx*ny) <= corner_no nx ny i j k ci cj ck < (2*k+ck+1) * (4*nx*ny).
Proof.
  unfold bit, corner_no. intros.
  pose proof (mr_range (2*i+ci) (2*nx) (2*j+cj) (2*ny)).
  assert (2*i+ci + 2*nx*((2*j+cj) + 2*ny*(2*k+ck)) = (2*i+ci + 2*nx*(2*j+cj)) + (2*k+ck)*(4*nx*ny)) by ring.
  assert (2 * nx * (2 * ny) = 4*nx*ny) by ring. lia.
Qed.

Lemma cell_range nx ny nz i j k : 0 <= i < nx -> 0 <= j < ny -> 0 <= k < nz ->
  0 <= cell_no nx ny i j k < nx * ny * nz.
Proof.
  unfold cell_no. intros.
  pose proof (mr_range i nx (j + ny*k) (ny*nz)). pose proof (mr_range j ny k nz).
  assert (nx * (ny*nz) = nx*ny*nz) by ring. lia.
Qed.

(* ---------- verification *)
Lemma verify_iff nx ny azmin azmax imin ilen imax jmin jlen jmax zmin zl zmax :
  (verify_shoebox nx ny azmin azmax imin ilen imax jmin jlen jmax zmin zl zmax = Ok tt <->
   (0 <= imin /\ ilen <= nx /\ imax <= nx /\ 0 <= jmin /\ jlen <= ny /\ jmax <= ny /\
    (azmin <= zmin)%R /\ (zmax <= azmax)%R /\ (zl <= azmax - azmin)%R)) /\
  (verify_shoebox nx ny azmin azmax imin ilen imax jmin jlen jmax zmin zl zmax = Ok tt \/
   verify_shoebox nx ny azmin azmax imin ilen imax jmin jlen jmax zmin zl zmax = Throw).
Proof.
  unfold verify_shoebox.
  destruct (Z.ltb_spec imin 0); [split; [split; [discriminate|lia]|auto]|].
  destruct (Z.ltb_spec nx ilen); [split; [split; [discriminate|lia]|auto]|].
  destruct (Z.ltb_spec nx imax); [split; [split; [discriminate|lia]|auto]|].
  destruct (Z.ltb_spec jmin 0); [split; [split; [discriminate|lia]|auto]|].
  destruct (Z.ltb_spec ny jlen); [split; [split; [discriminate|lia]|auto]|].
  destruct (Z.ltb_spec ny jmax); [split; [split; [discriminate|lia]|auto]|].
  destruct (Rltb_spec zmin azmin); [split; [split; [discriminate|intros; exfalso; lra]|auto]|].
  destruct (Rltb_spec azmax zmax); [split; [split; [discriminate|intros; exfalso; lra]|auto]|].
  destruct (Rltb_spec (azmax - azmin) zl); [split; [split; [discriminate|intros; exfalso; lra]|auto]|].
  split; [split; [intros _; repeat split; try lia; lra|reflexivity]|auto].
Qed.

(* ---------- layers *)
Section Grid.
Variable g : grid.
Let nx := g_nx g. Let ny := g_ny g. Let nz := g_nz g.
Hypothesis WF : wf_arrays nx ny nz (g_coord g) (g_zcorn g).

Lemma dims_pos : 1 <= nx /\ 1 <= ny /\ 1 <= nz. Proof. apply WF. Qed.
Lemma layersz_eq : layersz g = 8 * nx * ny. Proof. reflexivity. Qed.
Lemma area_pos : 1 <= nx * ny. Proof. pose proof dims_pos. nia. Qed.
Lemma zcorn_len : zlen (g_zcorn g) = 8 * nx * ny * nz. Proof. apply WF. Qed.

Lemma layer_slice k z : 0 <= k < nz ->
  In z (zslice (g_zcorn g) (k * layersz g) ((k+1) * layersz g)) <-> in_layer nx ny (g_zcorn g) k z.
Proof.
  intros Hk. pose proof dims_pos as D. pose proof area_pos as AP. pose proof zcorn_len as ZL. rewrite layersz_eq.
  assert (0 <= k * (8*nx*ny)) by nia. assert ((k+1)*(8*nx*ny) <= 8*nx*ny*nz) by nia.
  rewrite zslice_In by nia. split.
  - intros [p [Hp E]].
    destruct (corner_decomp nx ny nz p) as [i [j [k' [ci [cj [ck [Hi [Hj [Hk' [Hci [Hcj [Hck ->]]]]]]]]]]]]; [lia|lia|nia|].
    pose proof (corner_half nx ny i j k' ci cj ck Hi Hj Hci Hcj).
    assert (k' = k). { unfold bit in *. destruct Hck as [->| ->]; nia. }
    subst k'. exists i, j, ci, cj, ck. repeat split; try lia; assumption.
  - intros [i [j [ci [cj [ck [Hi [Hj [Hci [Hcj [Hck E]]]]]]]]]].
    exists (corner_no nx ny i j k ci cj ck). split; [|exact E].
    pose proof (corner_half nx ny i j k ci cj ck Hi Hj Hci Hcj).
    unfold bit in *. destruct Hck as [->| ->]; nia.
Qed.

Lemma layer_max_ok k : 0 <= k < nz ->
  exists m, lmax (zslice (g_zcorn g) (k * layersz g) ((k+1) * layersz g)) = Ok m /\
    in_layer nx ny (g_zcorn g) k m /\ forall z, in_layer nx ny (g_zcorn g) k z -> (z <= m)%R.
Proof.
  intros Hk. destruct (lmax_spec (zslice (g_zcorn g) (k * layersz g) ((k+1) * layersz g))) as [m [E [Hin Hall]]].
  - pose proof dims_pos. pose proof area_pos. pose proof zcorn_len. rewrite layersz_eq. apply zslice_nonempty; nia.
  - exists m. split; [exact E|]. split; [apply layer_slice; assumption|].
    intros z Hz. apply Hall. apply layer_slice; assumption.
Qed.

Lemma layer_min_ok k : 0 <= k < nz ->
  exists m, lmin (zslice (g_zcorn g) (k * layersz g) ((k+1) * layersz g)) = Ok m /\
    in_layer nx ny (g_zcorn g) k m /\ forall z, in_layer nx ny (g_zcorn g) k z -> (m <= z)%R.
Proof.
  intros Hk. destruct (lmin_spec (zslice (g_zcorn g) (k * layersz g) ((k+1) * layersz g))) as [m [E [Hin Hall]]].
  - pose proof dims_pos. pose proof area_pos. pose proof zcorn_len. rewrite layersz_eq. apply zslice_nonempty; nia.
  - exists m. split; [exact E|]. split; [apply layer_slice; assumption|].
    intros z Hz. apply Hall. apply layer_slice; assumption.
Qed.

Lemma half_of_layersz : layersz g / 2 = 4 * nx * ny.
Proof. rewrite layersz_eq. replace (8*nx*ny) with ((4*nx*ny)*2) by ring. apply Z.div_mul. lia. Qed.

Lemma botmax_ok : exists m, botmax g = Ok m /\ is_bottom_max nx ny (g_zcorn g) m.
Proof.
  pose proof dims_pos as D. pose proof area_pos. pose proof zcorn_len as ZL.
  unfold botmax. rewrite half_of_layersz.
  destruct (lmax_spec (zslice (g_zcorn g) 0 (4*nx*ny))) as [m [E [Hin Hall]]].
  { apply zslice_nonempty; nia. }
  exists m. split; [exact E|]. split.
  - apply zslice_In in Hin; [|nia|nia]. destruct Hin as [p [Hp Ep]].
    destruct (corner_decomp nx ny nz p) as [i [j [k [ci [cj [ck [Hi [Hj [Hk [Hci [Hcj [Hck ->]]]]]]]]]]]]; [lia|lia|nia|].
    pose proof (corner_half nx ny i j k ci cj ck Hi Hj Hci Hcj).
    assert (k = 0 /\ ck = 0) as [-> ->]. { unfold bit in *. destruct Hck as [->| ->]; nia. }
    exists i, j, ci, cj. repeat split; try lia; assumption.
  - intros i j ci cj z Hi Hj Hci Hcj Ez. apply Hall. apply zslice_In; [nia|nia|].
    exists (corner_no nx ny i j 0 ci cj 0). split; [|exact Ez].
    pose proof (corner_half nx ny i j 0 ci cj 0 Hi Hj Hci Hcj). nia.
Qed.

Lemma topmin_ok : exists m, topmin g = Ok m /\ is_top_min nx ny nz (g_zcorn g) m.
Proof.
  pose proof dims_pos as D. pose proof area_pos. pose proof zcorn_len as ZL.
  unfold topmin. rewrite half_of_layersz, layersz_eq. fold nz.
  destruct (lmin_spec (zslice (g_zcorn g) (nz*(8*nx*ny) - 4*nx*ny) (nz*(8*nx*ny)))) as [m [E [Hin Hall]]].
  { apply zslice_nonempty; nia. }
  exists m. split; [exact E|]. split.
  - apply zslice_In in Hin; [|nia|nia]. destruct Hin as [p [Hp Ep]].
    destruct (corner_decomp nx ny nz p) as [i [j [k [ci [cj [ck [Hi [Hj [Hk [Hci [Hcj [Hck ->]]]]]]]]]]]]; [lia|lia|nia|].
    pose proof (corner_half nx ny i j k ci cj ck Hi Hj Hci Hcj).
    assert (k = nz - 1 /\ ck = 1) as [-> ->]. { unfold bit in *. destruct Hck as [->| ->]; nia. }
    exists i, j, ci, cj. repeat split; try lia; assumption.
  - intros i j ci cj z Hi Hj Hci Hcj Ez. apply Hall. apply zslice_In; [nia|nia|].
    exists (corner_no nx ny i j (nz-1) ci cj 1). split; [|exact Ez].
    pose proof (corner_half nx ny i j (nz-1) ci cj 1 Hi Hj Hci Hcj). nia.
Qed.

Lemma bottom_max_unique m m' : is_bottom_max nx ny (g_zcorn g) m -> is_bottom_max nx ny (g_zcorn g) m' -> m = m'.
Proof.
  intros [[i [j [ci [cj [Hi [Hj [Hci [Hcj E]]]]]]]] H] [[i' [j' [ci' [cj' [Hi' [Hj' [Hci' [Hcj' E']]]]]]]] H'].
  apply Rle_antisym; [eapply H' with (5:=E)|eapply H with (5:=E')]; eassumption.
Qed.
Lemma top_min_unique m m' : is_top_min nx ny nz (g_zcorn g) m -> is_top_min nx ny nz (g_zcorn g) m' -> m = m'.
Proof.
  intros [[i [j [ci [cj [Hi [Hj [Hci [Hcj E]]]]]]]] H] [[i' [j' [ci' [cj' [Hi' [Hj' [Hci' [Hcj' E']]]]]]]] H'].
  apply Rle_antisym; [eapply H with (5:=E')|eapply H' with (5:=E)]; eassumption.
Qed.

(* find_kmin over a tail of the range *)
Lemma find_kmin_spec zlo lo : 0 <= lo <= nz ->
  exists k, find_kmin g zlo (zrange lo nz) = Ok k /\
   ((k = -1 /\ forall k' z, lo <= k' < nz -> in_layer nx ny (g_zcorn g) k' z -> (z <= zlo)%R) \/
    (lo <= k < nz /\ (exists z, in_layer nx ny (g_zcorn g) k z /\ (zlo < z)%R) /\
     forall k' z, lo <= k' < k -> in_layer nx ny (g_zcorn g) k' z -> (z <= zlo)%R)).
Proof.
  intros Hlo. remember (Z.to_nat (nz - lo)) as n eqn:En. revert lo Hlo En.
  induction n as [|n IH]; intros lo Hlo En.
  - rewrite zrange_empty by lia. exists (-1). split; [reflexivity|]. left. split; [reflexivity|]. intros; lia.
  - rewrite zrange_cons by lia. cbn [find_kmin].
    destruct (layer_max_ok lo) as [m [E [Hm Hall]]]; [lia|]. rewrite E. cbn [bind].
    destruct (Rltb_spec zlo m) as [Hlt|Hge].
    + exists lo. split; [reflexivity|]. right. split; [lia|]. split; [exists m; auto|]. intros; lia.
    + destruct (IH (lo+1)) as [k [Ek Hk]]; [lia|lia|]. exists k. split; [exact Ek|].
      assert (forall z, in_layer nx ny (g_zcorn g) lo z -> (z <= zlo)%R) as Hz0.
      { intros z Hz. specialize (Hall z Hz). lra. }
      destruct Hk as [[-> Hno]|[Hr [Hex Hno]]].
      * left. split; [reflexivity|]. intros k' z Hk' Hz.
        destruct (Z.eq_dec k' lo) as [->|]; [apply Hz0; exact Hz|apply (Hno k'); [lia|exact Hz]].
      * right. split; [lia|]. split; [exact Hex|]. intros k' z Hk' Hz.
        destruct (Z.eq_dec k' lo) as [->|]; [apply Hz0; exact Hz|apply (Hno k'); [lia|exact Hz]].
Qed.

Lemma rev_zrange_step hi : 1 <= hi -> rev (zrange 1 (hi + 1)) = hi :: rev (zrange 1 hi).
Proof.
  intros H. rewrite (zrange_app 1 hi (hi+1)) by lia. rewrite rev_app_distr.
  rewrite (zrange_cons hi (hi+1)) by lia. rewrite zrange_empty by lia. reflexivity.
Qed.

Lemma find_kmax_spec zhi hi : 0 <= hi <= nz ->
  exists k, find_kmax g zhi (rev (zrange 1 (hi+1))) = Ok k /\
   ((k = -1 /\ forall k' z, 0 <= k' < hi -> in_layer nx ny (g_zcorn g) k' z -> (zhi <= z)%R) \/
    (1 <= k <= hi /\ (exists z, in_layer nx ny (g_zcorn g) (k-1) z /\ (z < zhi)%R) /\
     forall k' z, k <= k' < hi -> in_layer nx ny (g_zcorn g) k' z -> (zhi <= z)%R)).
Proof.
  intros Hhi. remember (Z.to_nat hi) as n eqn:En. revert hi Hhi En.
  induction n as [|n IH]; intros hi Hhi En.
  - rewrite zrange_empty by lia. exists (-1). split; [reflexivity|]. left. split; [reflexivity|]. intros; lia.
  - rewrite rev_zrange_step by lia. cbn [find_kmax].
    destruct (layer_min_ok (hi-1)) as [m [E [Hm Hall]]]; [lia|].
    replace (hi - 1 + 1) with hi in E by lia. rewrite E. cbn [bind].
    destruct (Rltb_spec m zhi) as [Hlt|Hge].
    + exists hi. split; [reflexivity|]. right. split; [lia|]. split; [exists m; auto|]. intros; lia.
    + destruct (IH (hi-1)) as [k [Ek Hk]]; [lia|lia|]. replace (hi - 1 + 1) with hi in Ek by lia.
      exists k. split; [exact Ek|].
      assert (forall z, in_layer nx ny (g_zcorn g) (hi-1) z -> (zhi <= z)%R) as Hz0.
      { intros z Hz. specialize (Hall z Hz). lra. }
      destruct Hk as [[-> Hno]|[Hr [Hex Hno]]].
      * left. split; [reflexivity|]. intros k' z Hk' Hz.
        destruct (Z.eq_dec k' (hi-1)) as [->|]; [apply Hz0; exact Hz|apply (Hno k'); [lia|exact Hz]].
      * right. split; [lia|]. split; [exact Hex|]. intros k' z Hk' Hz.
        destruct (Z.eq_dec k' (hi-1)) as [->|]; [apply Hz0; exact Hz|apply (Hno k'); [lia|exact Hz]].
Qed.

(* both searches succeed and are ordered once the clipped interval is non-empty *)
Lemma layers_found bm tm zlo zhi :
  is_bottom_max nx ny (g_zcorn g) bm -> is_top_min nx ny nz (g_zcorn g) tm ->
  (bm <= zlo)%R -> (zhi <= tm)%R -> (zlo < zhi)%R ->
  exists kmin kmax,
    find_kmin g zlo (zrange 0 nz) = Ok kmin /\ find_kmax g zhi (rev (zrange 1 (nz+1))) = Ok kmax /\
    0 <= kmin /\ kmin <= kmax /\ kmax <= nz /\ kmin < nz /\ 0 < kmax /\
    (forall k z, 0 <= k < kmin -> in_layer nx ny (g_zcorn g) k z -> (z <= zlo)%R) /\
    (forall k z, kmax <= k < nz -> in_layer nx ny (g_zcorn g) k z -> (zhi <= z)%R) /\
    (exists z, in_layer nx ny (g_zcorn g) kmin z /\ (zlo < z)%R) /\
    (exists z, in_layer nx ny (g_zcorn g) (kmax-1) z /\ (z < zhi)%R).
Proof.
  intros Hbm Htm Hb Ht Hlt. pose proof dims_pos as D.
  destruct (find_kmin_spec zlo 0) as [kmin [E1 H1]]; [lia|].
  destruct (find_kmax_spec zhi nz) as [kmax [E2 H2]]; [lia|].
  exists kmin, kmax. split; [exact E1|]. split; [exact E2|].
  destruct Hbm as [[i [j [ci [cj [Hi [Hj [Hci [Hcj Eb]]]]]]]] _].
  destruct Htm as [[i' [j' [ci' [cj' [Hi' [Hj' [Hci' [Hcj' Et]]]]]]]] _].
  assert (in_layer nx ny (g_zcorn g) 0 bm) as Lb by (exists i, j, ci, cj, 0; repeat split; try lia; try assumption; left; reflexivity).
  assert (in_layer nx ny (g_zcorn g) (nz-1) tm) as Lt by (exists i', j', ci', cj', 1; repeat split; try lia; try assumption; right; reflexivity).
  destruct H1 as [[-> Hno]|[Hr [Hex Hno]]].
  { exfalso. specialize (Hno (nz-1) tm ltac:(lia) Lt). lra. }
  destruct H2 as [[-> Hno2]|[Hr2 [Hex2 Hno2]]].
  { exfalso. specialize (Hno2 0 bm ltac:(lia) Lb). lra. }
  assert (kmin <= kmax).
  { destruct (Z.le_gt_cases kmin kmax) as [|Hgt]; [assumption|]. exfalso.
    destruct (layer_max_ok (kmin-1)) as [m [_ [Hm _]]]; [lia|].
    assert (m <= zlo)%R by (apply (Hno (kmin-1)); [lia|exact Hm]).
    assert (zhi <= m)%R by (apply (Hno2 (kmin-1)); [lia|exact Hm]). lra. }
  repeat split; try lia; try assumption.
Qed.
End Grid.

Lemma corner_off_no n m i j k ci cj ck : bit ci -> bit cj -> bit ck ->
  2 * (i * 1 + j * (2 * n) + k * (4 * n * m)) + corner_off 1 (2 * n) (4 * n * m) (ci + 2 * cj + 4 * ck)
  = corner_no n m i j k ci cj ck.
Proof.
  intros [-> | ->] [-> | ->] [-> | ->]; unfold corner_off;
  match goal with |- context [Z.to_nat ?e] => let v := eval vm_compute in (Z.to_nat e) in change (Z.to_nat e) with v end;
  cbn [nth]; unfold corner_no; ring.
Qed.
Lemma cc_bits cc : 0 <= cc < 8 -> exists ci cj ck, bit ci /\ bit cj /\ bit ck /\ cc = ci + 2 * cj + 4 * ck.
Proof. intros. exists (cc mod 2), ((cc / 2) mod 2), (cc / 4). unfold bit. lia. Qed.

Section Chop.
Variable g : grid.
Let nx := g_nx g. Let ny := g_ny g. Let nz := g_nz g.
Hypothesis WF : wf_arrays nx ny nz (g_coord g) (g_zcorn g).
Variables imin imax jmin jmax : Z.
Hypothesis Hi : 0 <= imin < imax /\ imax <= nx.
Hypothesis Hj : 0 <= jmin < jmax /\ jmax <= ny.

Lemma pillar_range i j c : 0 <= i <= nx -> 0 <= j <= ny -> 0 <= c < 6 ->
  0 <= pillar_no nx i j c < zlen (g_coord g).
Proof.
  intros. destruct WF as [D C _]. rewrite C. unfold pillar_no.
  pose proof (mr_range i (nx+1) j (ny+1)). nia.
Qed.

(* reading a pillar component *)
Lemma pillar_get i j c : 0 <= i <= nx -> 0 <= j <= ny -> 0 <= c < 6 ->
  exists v, rget (g_coord g) (pillar_no nx i j c) = Ok v /\ zget (g_coord g) (pillar_no nx i j c) = Some v.
Proof. intros. apply rget_range. apply pillar_range; assumption. Qed.

Definition coord_new (reset : bool) (xc yc zmin zmax v : R) (c : Z) : R :=
  if reset then
    (if c =? 0 then v - xc else if c =? 1 then v - yc else if c =? 2 then 0
     else if c =? 3 then v - xc else if c =? 4 then v - yc else zmax - zmin)%R
  else v.

Lemma chop_coord_ok zmin zmax reset :
  exists nc xc yc, chop_coord g imin imax jmin jmax zmin zmax reset = Ok nc /\
    zget (g_coord g) (pillar_no nx imin jmin 0) = Some xc /\
    zget (g_coord g) (pillar_no nx imin jmin 1) = Some yc /\
    zlen nc = 6 * (imax - imin + 1) * (jmax - jmin + 1) /\
    forall i j c v, 0 <= i <= imax - imin -> 0 <= j <= jmax - jmin -> 0 <= c < 6 ->
      zget (g_coord g) (pillar_no nx (i + imin) (j + jmin) c) = Some v ->
      zget nc (pillar_no (imax - imin) i j c) = Some (coord_new reset xc yc zmin zmax v c).
Proof.
  pose proof (wf_dims _ _ _ _ _ WF) as D. pose proof (wf_coord _ _ _ _ _ WF) as CL.
  unfold chop_coord. fold nx ny.
  destruct (Z.eqb_spec (zlen (g_coord g)) (6 * (nx + 1) * (ny + 1))) as [_|Hne]; [|lia]. cbn [negb].
  destruct (pillar_get imin jmin 0) as [xc [Exc Gxc]]; [lia|lia|lia|].
  destruct (pillar_get imin jmin 1) as [yc [Eyc Gyc]]; [lia|lia|lia|].
  replace (6 * ((nx + 1) * jmin + imin)) with (pillar_no nx imin jmin 0) by (unfold pillar_no; ring).
  replace (pillar_no nx imin jmin 0 + 1) with (pillar_no nx imin jmin 1) by (unfold pillar_no; ring).
  rewrite Exc, Eyc. cbn [bind]. unfold vresize.
  destruct (Z.ltb_spec (6 * (imax - imin + 1) * (jmax - jmin + 1)) 0) as [Hneg|_]; [nia|]. cbn [bind].
  set (f := pillar_writes g imin jmin (imax - imin) xc yc zmin zmax reset).
  set (nn := imax - imin).
  (* one pillar *)
  assert (forall j i, jmin <= j < jmax + 1 -> imin <= i < imax + 1 ->
    exists l, f (j, i) = Ok l /\
      (forall w, In w l -> exists c v, 0 <= c < 6 /\ zget (g_coord g) (pillar_no nx i j c) = Some v /\
          w = (pillar_no nn (i - imin) (j - jmin) c, coord_new reset xc yc zmin zmax v c)) /\
      (forall c v, 0 <= c < 6 -> zget (g_coord g) (pillar_no nx i j c) = Some v ->
          In (pillar_no nn (i - imin) (j - jmin) c, coord_new reset xc yc zmin zmax v c) l)) as Hone.
  { intros j i Hjr Hir. unfold f, pillar_writes. cbn [fst snd]. fold nx.
    destruct (pillar_get i j 0) as [c0 [E0 G0]]; [lia|lia|lia|].
    destruct (pillar_get i j 1) as [c1 [E1 G1]]; [lia|lia|lia|].
    destruct (pillar_get i j 2) as [c2 [E2 G2]]; [lia|lia|lia|].
    destruct (pillar_get i j 3) as [c3 [E3 G3]]; [lia|lia|lia|].
    destruct (pillar_get i j 4) as [c4 [E4 G4]]; [lia|lia|lia|].
    destruct (pillar_get i j 5) as [c5 [E5 G5]]; [lia|lia|lia|].
    replace (6 * ((nx + 1) * j + i)) with (pillar_no nx i j 0) by (unfold pillar_no; ring).
    replace (pillar_no nx i j 0 + 1) with (pillar_no nx i j 1) by (unfold pillar_no; ring).
    replace (pillar_no nx i j 0 + 2) with (pillar_no nx i j 2) by (unfold pillar_no; ring).
    replace (pillar_no nx i j 0 + 3) with (pillar_no nx i j 3) by (unfold pillar_no; ring).
    replace (pillar_no nx i j 0 + 4) with (pillar_no nx i j 4) by (unfold pillar_no; ring).
    replace (pillar_no nx i j 0 + 5) with (pillar_no nx i j 5) by (unfold pillar_no; ring).
    rewrite E0, E1, E2, E3, E4, E5. cbn [bind].
    replace (6 * ((imax - imin + 1) * (j - jmin) + (i - imin))) with (pillar_no nn (i - imin) (j - jmin) 0)
      by (unfold pillar_no, nn; ring).
    assert (forall c, pillar_no nn (i - imin) (j - jmin) 0 + c = pillar_no nn (i - imin) (j - jmin) c) as EN
      by (intros; unfold pillar_no; ring).
    rewrite !EN.
    eexists. split; [reflexivity|]. split.
    - intros w Hw. destruct reset; cbn [In] in Hw;
      repeat (destruct Hw as [<-|Hw]); try contradiction;
      [exists 0, c0|exists 1, c1|exists 2, c2|exists 3, c3|exists 4, c4|exists 5, c5
      |exists 0, c0|exists 1, c1|exists 2, c2|exists 3, c3|exists 4, c4|exists 5, c5];
      (split; [lia|split; [assumption|reflexivity]]).
    - intros c v Hc Hv.
      assert (c = 0 \/ c = 1 \/ c = 2 \/ c = 3 \/ c = 4 \/ c = 5) as Hcases by lia.
      destruct Hcases as [->|[->|[->|[->|[->| ->]]]]];
      match goal with H1 : zget (g_coord g) ?p = Some ?a, H2 : zget (g_coord g) ?p = Some v |- _ =>
        assert (v = a) by congruence; subst v end; destruct reset; cbn; tauto. }
  destruct (mapM_exists f (pairs (zrange jmin (jmax + 1)) (zrange imin (imax + 1)))) as [ws Ews].
  { intros [j i] Hin. apply In_pairs in Hin. destruct Hin as [H1 H2]. apply In_zrange in H1, H2.
    destruct (Hone j i H1 H2) as [l [E _]]. eauto. }
  rewrite Ews. cbn [bind].
  assert (forall w, In w (concat ws) -> exists i j c v, imin <= i < imax + 1 /\ jmin <= j < jmax + 1 /\ 0 <= c < 6 /\
     zget (g_coord g) (pillar_no nx i j c) = Some v /\
     w = (pillar_no nn (i - imin) (j - jmin) c, coord_new reset xc yc zmin zmax v c)) as Hws.
  { intros w Hin. destruct (In_concat_mapM _ _ _ _ Ews Hin) as [[j i] [l [Hp [El Hw]]]].
    apply In_pairs in Hp. destruct Hp as [H1 H2]. apply In_zrange in H1, H2.
    destruct (Hone j i H1 H2) as [l' [El' [Hfw _]]]. assert (l = l') by congruence. subst l'.
    destruct (Hfw w Hw) as [c [v [Hc [Hv ->]]]]. exists i, j, c, v. auto. }
  destruct (writes_Ok (concat ws) (zrepeat fill_value (6 * (nn + 1) * (jmax - jmin + 1)))) as [nc [Enc [Hlen [_ Hwr]]]].
  { intros w Hin. destruct (Hws w Hin) as [i [j [c [v [H1 [H2 [H3 [_ ->]]]]]]]]. cbn [fst].
    rewrite zlen_zrepeat by (unfold nn; nia). unfold pillar_no.
    pose proof (mr_range (i - imin) (nn+1) (j - jmin) (jmax - jmin + 1)). unfold nn in *. nia. }
  exists nc, xc, yc. split; [exact Enc|]. split; [exact Gxc|]. split; [exact Gyc|].
  split. { rewrite Hlen, zlen_zrepeat by (unfold nn; nia). reflexivity. }
  intros i j c v Hir Hjr Hc Hv. apply Hwr.
  - exists (pillar_no nn i j c, coord_new reset xc yc zmin zmax v c). split; [|reflexivity].
    destruct (Hone (j + jmin) (i + imin)) as [l [El [_ Hbw]]]; [lia|lia|].
    apply concat_mapM_In with (f := f) (l := pairs (zrange jmin (jmax + 1)) (zrange imin (imax + 1)))
        (a := (j + jmin, i + imin)) (l' := l).
    + exact Ews.
    + apply In_pairs. rewrite !In_zrange. lia.
    + exact El.
    + specialize (Hbw c v Hc Hv). replace (i + imin - imin) with i in Hbw by lia.
      replace (j + jmin - jmin) with j in Hbw by lia. exact Hbw.
  - intros w Hin Hp. destruct (Hws w Hin) as [i' [j' [c' [v' [H1 [H2 [H3 [Hv' ->]]]]]]]]. cbn in *.
    unfold pillar_no in Hp.
    assert (c' = c /\ (i' - imin + (nn + 1) * (j' - jmin)) = i + (nn + 1) * j) as [-> E]
      by (split; lia).
    assert (i' - imin = i /\ j' - jmin = j) as [E1 E2] by (apply mr_inj with (A := nn + 1); unfold nn in *; lia).
    replace i' with (i + imin) in Hv' by lia. replace j' with (j + jmin) in Hv' by lia. congruence.
Qed.

(* the ZCORN loop *)
Lemma cells_ok kmin kmax zlo zhi corr :
  0 <= kmin <= kmax -> kmax <= nz ->
  exists nzc,
    (let* ws := mapM (cell_writes g imin jmin kmin (imax - imin) (jmax - jmin) zlo zhi corr)
                 (triples (zrange kmin kmax) (zrange jmin jmax) (zrange imin imax)) in
     writes (concat ws) (zrepeat fill_value (8 * (imax - imin) * (jmax - jmin) * (kmax - kmin)))) = Ok nzc /\
    zlen nzc = 8 * (imax - imin) * (jmax - jmin) * (kmax - kmin) /\
    forall i j k ci cj ck z, 0 <= i < imax - imin -> 0 <= j < jmax - jmin -> 0 <= k < kmax - kmin ->
      bit ci -> bit cj -> bit ck ->
      zget (g_zcorn g) (corner_no nx ny (i + imin) (j + jmin) (k + kmin) ci cj ck) = Some z ->
      zget nzc (corner_no (imax - imin) (jmax - jmin) i j k ci cj ck) = Some (clamp zlo zhi z - corr)%R.
Proof.
  intros Hk Hkz. pose proof (wf_dims _ _ _ _ _ WF) as D. pose proof (wf_zcorn _ _ _ _ _ WF) as ZL.
  set (nnx := imax - imin). set (nny := jmax - jmin). set (nnz := kmax - kmin).
  set (f := cell_writes g imin jmin kmin nnx nny zlo zhi corr).
  set (cells := triples (zrange kmin kmax) (zrange jmin jmax) (zrange imin imax)).
  assert (forall k j i, kmin <= k < kmax -> jmin <= j < jmax -> imin <= i < imax ->
    exists l, f (k, (j, i)) = Ok l /\
      (forall w, In w l -> exists ci cj ck z, bit ci /\ bit cj /\ bit ck /\
          zget (g_zcorn g) (corner_no nx ny i j k ci cj ck) = Some z /\
          w = (corner_no nnx nny (i - imin) (j - jmin) (k - kmin) ci cj ck, clamp zlo zhi z - corr)%R) /\
      (forall ci cj ck z, bit ci -> bit cj -> bit ck ->
          zget (g_zcorn g) (corner_no nx ny i j k ci cj ck) = Some z ->
          In (corner_no nnx nny (i - imin) (j - jmin) (k - kmin) ci cj ck, clamp zlo zhi z - corr)%R l)) as Hone.
  { intros k j i Hkr Hjr Hir. unfold f, cell_writes. cbn [fst snd]. fold nx ny.
    set (h := fun cc => let* z := rget (g_zcorn g) (2 * (i * 1 + j * (2 * nx) + k * (4 * nx * ny)) + corner_off 1 (2 * nx) (4 * nx * ny) cc) in
       Ok (2 * ((i - imin) * 1 + (j - jmin) * (2 * nnx) + (k - kmin) * (4 * nnx * nny)) + corner_off 1 (2 * nnx) (4 * nnx * nny) cc, (smin zhi (smax zlo z) - corr)%R)).
    assert (forall ci cj ck, bit ci -> bit cj -> bit ck -> exists z,
        zget (g_zcorn g) (corner_no nx ny i j k ci cj ck) = Some z /\
        h (ci + 2 * cj + 4 * ck) = Ok (corner_no nnx nny (i - imin) (j - jmin) (k - kmin) ci cj ck, (clamp zlo zhi z - corr)%R)) as Hh.
    { intros ci cj ck Hci Hcj Hck. unfold h.
      rewrite !corner_off_no by assumption.
      destruct (rget_range (g_zcorn g) (corner_no nx ny i j k ci cj ck)) as [z [Ez Gz]].
      { rewrite ZL. apply corner_range; try assumption; lia. }
      exists z. split; [exact Gz|]. rewrite Ez. cbn [bind]. unfold clamp. rewrite smin_Rmin, smax_Rmax. reflexivity. }
    destruct (mapM_exists h (zrange 0 8)) as [l El].
    { intros cc Hcc. apply In_zrange in Hcc. destruct (cc_bits cc Hcc) as [ci [cj [ck [H1 [H2 [H3 ->]]]]]].
      destruct (Hh ci cj ck H1 H2 H3) as [z [_ E]]. eauto. }
    exists l. split; [exact El|]. apply mapM_Ok in El. split.
    - intros w Hw. apply In_zget in Hw. destruct Hw as [q [Hq Eq]].
      assert (zlen l = 8) as Ll. { unfold zlen. rewrite <- (Forall2_length' _ _ _ El), zrange_length. reflexivity. }
      pose proof (zget_zrange 0 8 q ltac:(lia)) as Er.
      destruct (Forall2_zget _ _ _ El q _ Er) as [b [Eb Hb]].
      assert (b = w) by congruence. subst b.
      destruct (cc_bits (0 + q)) as [ci [cj [ck [H1 [H2 [H3 E]]]]]]; [lia|]. rewrite E in Hb.
      destruct (Hh ci cj ck H1 H2 H3) as [z [Gz Ez]]. exists ci, cj, ck, z.
      repeat split; try assumption. congruence.
    - intros ci cj ck z H1 H2 H3 Gz.
      destruct (Hh ci cj ck H1 H2 H3) as [z' [Gz' Ez']]. assert (z' = z) by congruence. subst z'.
      assert (0 <= ci + 2*cj + 4*ck < 8) as Hr by (unfold bit in *; lia).
      pose proof (zget_zrange 0 8 _ ltac:(split; [apply Hr|lia])) as Er. cbn [Z.add] in Er.
      destruct (Forall2_zget _ _ _ El _ _ Er) as [b [Eb Hb]]. cbv beta in Hb.
      eapply zget_In. rewrite Eb. f_equal. congruence. }
  destruct (mapM_exists f cells) as [ws Ews].
  { intros [k [j i]] Hin. apply In_triples in Hin. rewrite !In_zrange in Hin. destruct Hin as [H1 [H2 H3]].
    destruct (Hone k j i H1 H2 H3) as [l [E _]]. eauto. }
  rewrite Ews. cbn [bind].
  assert (forall w, In w (concat ws) -> exists i j k ci cj ck z, imin <= i < imax /\ jmin <= j < jmax /\ kmin <= k < kmax /\
     bit ci /\ bit cj /\ bit ck /\ zget (g_zcorn g) (corner_no nx ny i j k ci cj ck) = Some z /\
     w = (corner_no nnx nny (i - imin) (j - jmin) (k - kmin) ci cj ck, clamp zlo zhi z - corr)%R) as Hws.
  { intros w Hin. destruct (In_concat_mapM _ _ _ _ Ews Hin) as [[k [j i]] [l [Hp [El Hw]]]].
    apply In_triples in Hp. rewrite !In_zrange in Hp. destruct Hp as [H1 [H2 H3]].
    destruct (Hone k j i H1 H2 H3) as [l' [El' [Hfw _]]]. assert (l = l') by congruence. subst l'.
    destruct (Hfw w Hw) as [ci [cj [ck [z [B1 [B2 [B3 [Gz ->]]]]]]]]. exists i, j, k, ci, cj, ck, z. tauto. }
  assert (0 <= 8 * nnx * nny * nnz) as Hpos
    by (unfold nnx, nny, nnz; repeat apply Z.mul_nonneg_nonneg; lia).
  destruct (writes_Ok (concat ws) (zrepeat fill_value (8 * nnx * nny * nnz))) as [nzc [E [Hlen [_ Hwr]]]].
  { intros w Hin. destruct (Hws w Hin) as [i [j [k [ci [cj [ck [z [H1 [H2 [H3 [B1 [B2 [B3 [_ ->]]]]]]]]]]]]]]. cbn [fst].
    rewrite zlen_zrepeat by exact Hpos. apply corner_range; try assumption; unfold nnx, nny, nnz; lia. }
  exists nzc. split; [exact E|]. split. { rewrite Hlen. apply zlen_zrepeat. exact Hpos. }
  intros i j k ci cj ck z H1 H2 H3 B1 B2 B3 Gz. apply Hwr.
  - exists (corner_no nnx nny i j k ci cj ck, clamp zlo zhi z - corr)%R. split; [|reflexivity].
    destruct (Hone (k + kmin) (j + jmin) (i + imin)) as [l [El [_ Hbw]]]; [lia|lia|lia|].
    apply concat_mapM_In with (f := f) (l := cells) (a := (k + kmin, (j + jmin, i + imin))) (l' := l).
    + exact Ews.
    + apply In_triples. rewrite !In_zrange. lia.
    + exact El.
    + specialize (Hbw ci cj ck z B1 B2 B3 Gz). replace (i + imin - imin) with i in Hbw by lia.
      replace (j + jmin - jmin) with j in Hbw by lia. replace (k + kmin - kmin) with k in Hbw by lia. exact Hbw.
  - intros w Hin Hp. destruct (Hws w Hin) as [i' [j' [k' [ci' [cj' [ck' [z' [G1 [G2 [G3 [B1' [B2' [B3' [Gz' ->]]]]]]]]]]]]]].
    cbn [fst snd] in *. apply corner_inj in Hp; try assumption; try (unfold nnx, nny in *; lia).
    destruct Hp as [E1 [E2 [E3 [-> [-> ->]]]]].
    replace i' with (i + imin) in Gz' by lia. replace j' with (j + jmin) in Gz' by lia.
    replace k' with (k + kmin) in Gz' by lia. congruence.
Qed.

Lemma chop_run zmin zmax reset bm tm :
  is_bottom_max nx ny (g_zcorn g) bm -> is_top_min nx ny nz (g_zcorn g) tm ->
  let zlo := Rmax zmin bm in let zhi := Rmin zmax tm in
  ((zhi <= zlo)%R -> chop g imin imax jmin jmax zmin zmax reset = Throw) /\
  ((zlo < zhi)%R -> exists out kmax xc yc,
     chop g imin imax jmin jmax zmin zmax reset = Ok out /\
     c_nx out = imax - imin /\ c_ny out = jmax - jmin /\ c_nz out = kmax - c_kmin out /\
     c_zlo out = zlo /\ c_zhi out = zhi /\
     (* layers *)
     0 <= c_kmin out /\ c_kmin out <= kmax /\ kmax <= nz /\ c_kmin out < nz /\ 0 < kmax /\
     (forall k z, 0 <= k < c_kmin out -> in_layer nx ny (g_zcorn g) k z -> (z <= zlo)%R) /\
     (forall k z, kmax <= k < nz -> in_layer nx ny (g_zcorn g) k z -> (zhi <= z)%R) /\
     (exists z, in_layer nx ny (g_zcorn g) (c_kmin out) z /\ (zlo < z)%R) /\
     (exists z, in_layer nx ny (g_zcorn g) (kmax-1) z /\ (z < zhi)%R) /\
     (* coord *)
     zget (g_coord g) (pillar_no nx imin jmin 0) = Some xc /\
     zget (g_coord g) (pillar_no nx imin jmin 1) = Some yc /\
     zlen (c_coord out) = 6 * (imax - imin + 1) * (jmax - jmin + 1) /\
     (forall i j c v, 0 <= i <= imax - imin -> 0 <= j <= jmax - jmin -> 0 <= c < 6 ->
      zget (g_coord g) (pillar_no nx (i + imin) (j + jmin) c) = Some v ->
      zget (c_coord out) (pillar_no (imax - imin) i j c) = Some (coord_new reset xc yc zmin zmax v c)) /\
     (* zcorn *)
     zlen (c_zcorn out) = 8 * (imax - imin) * (jmax - jmin) * c_nz out /\
     (forall i j k ci cj ck z, 0 <= i < imax - imin -> 0 <= j < jmax - jmin -> 0 <= k < c_nz out ->
      bit ci -> bit cj -> bit ck ->
      zget (g_zcorn g) (corner_no nx ny (i + imin) (j + jmin) (k + c_kmin out) ci cj ck) = Some z ->
      zget (c_zcorn out) (corner_no (imax - imin) (jmax - jmin) i j k ci cj ck)
        = Some (clamp zlo zhi z - (if reset then zlo else 0))%R) /\
     (* cell map *)
     zlen (c_map out) = (imax - imin) * (jmax - jmin) * c_nz out /\
     (forall i j k, 0 <= i < imax - imin -> 0 <= j < jmax - jmin -> 0 <= k < c_nz out ->
       zget (c_map out) (cell_no (imax - imin) (jmax - jmin) i j k)
         = Some (cell_no nx ny (i + imin) (j + jmin) (k + c_kmin out)))).
Proof.
  intros Hbm Htm zlo zhi.
  pose proof (wf_dims _ _ _ _ _ WF) as D. pose proof (wf_zcorn _ _ _ _ _ WF) as ZL.
  destruct (chop_coord_ok zmin zmax reset) as [nc [xc [yc [Enc [Gx [Gy [Hnc Hcoord]]]]]]].
  destruct (botmax_ok g WF) as [bm' [Ebm Hbm']]. destruct (topmin_ok g WF) as [tm' [Etm Htm']].
  assert (bm' = bm) by (eapply bottom_max_unique; eassumption). subst bm'.
  assert (tm' = tm) by (eapply top_min_unique; eassumption). subst tm'.
  unfold chop. rewrite Enc. cbn [bind].
  destruct (Z.eqb_spec (zlen (g_zcorn g)) (layersz g * g_nz g)) as [_|Hne];
    [|exfalso; apply Hne; unfold layersz; exact ZL].
  cbn [negb]. rewrite Ebm, Etm. cbn [bind].
  rewrite smax_Rmax, smin_Rmin. fold zlo zhi. split.
  - intros Hle. destruct (Rleb_spec zhi zlo); [reflexivity|lra].
  - intros Hlt. destruct (Rleb_spec zhi zlo); [lra|].
    destruct (layers_found g WF bm tm zlo zhi Hbm Htm) as [kmin [kmax [E1 [E2 L]]]];
      [apply Rmax_r|apply Rmin_r|exact Hlt|].
    fold nx ny nz in E1, E2, L. fold nx ny nz. rewrite E1, E2. cbn [bind].
    destruct L as [L1 [L2 [L3 [L4 [L5 [L6 [L7 [L8 L9]]]]]]]].
    set (cells := triples (zrange kmin kmax) (zrange jmin jmax) (zrange imin imax)).
    unfold vresize.
    destruct (Z.ltb_spec (8 * (imax - imin) * (jmax - jmin) * (kmax - kmin)) 0) as [Hneg|_];
      [exfalso; apply Zlt_not_le in Hneg; apply Hneg; repeat apply Z.mul_nonneg_nonneg; lia|].
    destruct (Z.ltb_spec ((imax - imin) * (jmax - jmin) * (kmax - kmin)) 0) as [Hneg|_];
      [exfalso; apply Zlt_not_le in Hneg; apply Hneg; repeat apply Z.mul_nonneg_nonneg; lia|].
    cbn [bind].
    set (cmap := map (fun kji => nx * ny * fst kji + nx * fst (snd kji) + snd (snd kji)) cells).
    assert (zlen cmap = (imax - imin) * (jmax - jmin) * (kmax - kmin)) as Lc.
    { unfold cmap. rewrite zlen_map. apply triples_len; lia. }
    rewrite <- Lc. rewrite (fill_writes cmap (-1)). cbn [bind].
    destruct (cells_ok kmin kmax zlo zhi (if reset then zlo else 0%R)) as [nzc [E3 [Hlen Hz]]]; [lia|lia|].
    unfold cells. destruct (mapM _ _) as [ws| |] eqn:Ews; cbn [bind] in E3 |- *; try discriminate.
    rewrite E3. cbn [bind].
    eexists. exists kmax, xc, yc. split; [reflexivity|]. cbn [c_nx c_ny c_nz c_zlo c_zhi c_kmin c_coord c_zcorn c_map].
    repeat match goal with |- _ /\ _ => split end; try assumption; try reflexivity.
    intros i j k Hi' Hj' Hk'. unfold cmap. rewrite zget_map. unfold cells, cell_no at 1.
    rewrite zget_triples by lia. cbn. f_equal. unfold cell_no. ring.
Qed.
End Chop.

(* field filtering *)
Lemma filter_field_ok {A} (field : list A) cmap :
  (forall c, In c cmap -> 0 <= c < zlen field) ->
  exists out, filter_field field cmap = Ok out /\ zlen out = zlen cmap /\
    forall p c, zget cmap p = Some c -> zget out p = zget field c.
Proof.
  intros H. destruct (mapM_exists (fun i => rget field i) cmap) as [out E].
  { intros c Hc. destruct (rget_range field c (H c Hc)) as [x [Ex _]]. eauto. }
  exists out. split; [exact E|]. apply mapM_Ok in E. split.
  - unfold zlen. rewrite (Forall2_length' _ _ _ E). reflexivity.
  - intros p c Hp. destruct (Forall2_zget _ _ _ E p c Hp) as [b [Hb Hr]].
    apply rget_Ok in Hr. congruence.
Qed.

(* ---------- corollaries in the form used by the property file *)
Definition box_ok (g : grid) (imin imax jmin jmax : Z) : Prop :=
  box_within (g_nx g) (g_ny g) imin imax jmin jmax.
Definition grid_ok (g : grid) : Prop :=
  wf_arrays (g_nx g) (g_ny g) (g_nz g) (g_coord g) (g_zcorn g).

Lemma chop_inv g imin imax jmin jmax zmin zmax reset out bm tm :
  grid_ok g -> box_ok g imin imax jmin jmax ->
  is_bottom_max (g_nx g) (g_ny g) (g_zcorn g) bm ->
  is_top_min (g_nx g) (g_ny g) (g_nz g) (g_zcorn g) tm ->
  chop g imin imax jmin jmax zmin zmax reset = Ok out -> (Rmax zmin bm < Rmin zmax tm)%R.
Proof.
  intros W [Hi1 [Hi2 [Hj1 Hj2]]] Hb Ht E.
  destruct (chop_run g W imin imax jmin jmax (conj Hi1 Hi2) (conj Hj1 Hj2) zmin zmax reset bm tm Hb Ht) as [H _].
  destruct (Rlt_dec (Rmax zmin bm) (Rmin zmax tm)) as [|Hn]; [assumption|].
  rewrite H in E by lra. discriminate.
Qed.

Lemma limits_exist g : grid_ok g -> exists bm tm,
  is_bottom_max (g_nx g) (g_ny g) (g_zcorn g) bm /\ is_top_min (g_nx g) (g_ny g) (g_nz g) (g_zcorn g) tm.
Proof.
  intros W. destruct (botmax_ok g W) as [bm [_ Hb]]. destruct (topmin_ok g W) as [tm [_ Ht]]. eauto.
Qed.

Lemma cell_source g imin imax jmin jmax zmin zmax reset out A (field : list A) :
  grid_ok g -> box_ok g imin imax jmin jmax ->
  chop g imin imax jmin jmax zmin zmax reset = Ok out ->
  zlen field = g_nx g * g_ny g * g_nz g ->
  c_nx out = imax - imin /\ c_ny out = jmax - jmin /\
  0 <= c_kmin out /\ 0 <= c_nz out /\ c_kmin out + c_nz out <= g_nz g /\
  exists f', filter_keyword (Some field) (c_map out) = Ok f' /\
    zlen f' = c_nx out * c_ny out * c_nz out /\
    forall i j k, 0 <= i < c_nx out -> 0 <= j < c_ny out -> 0 <= k < c_nz out ->
      exists v, zget f' (cell_no (c_nx out) (c_ny out) i j k) = Some v /\
        zget field (cell_no (g_nx g) (g_ny g) (i + imin) (j + jmin) (k + c_kmin out)) = Some v.
Proof.
  intros W B E HF. destruct (limits_exist g W) as [bm [tm [Hb Ht]]].
  pose proof (chop_inv _ _ _ _ _ _ _ _ _ _ _ W B Hb Ht E) as Hlt.
  destruct B as [Hi1 [Hi2 [Hj1 Hj2]]].
  destruct (chop_run g W imin imax jmin jmax (conj Hi1 Hi2) (conj Hj1 Hj2) zmin zmax reset bm tm Hb Ht) as [_ H].
  destruct (H Hlt) as (out' & kmax & xc & yc & E' & H1 & H2 & H3 & H4 & H5 & L1 & L2 & L3 & L4 & L5 & _ & _ & _ & _ & _ & _ & _ & _ & _ & _ & Hml & Hm).
  rewrite E in E'. injection E' as <-.
  assert (forall c, In c (c_map out) -> 0 <= c < zlen field) as Hrange.
  { intros c Hc. apply In_zget in Hc. destruct Hc as [p [Hp Gp]]. rewrite Hml in Hp.
    destruct (mr_decomp p (imax - imin) ((jmax - jmin) * c_nz out)) as [x [q [Hx [Hq ->]]]]; [lia|lia|].
    destruct (mr_decomp q (jmax - jmin) (c_nz out)) as [y [z [Hy [Hz ->]]]]; [lia|lia|].
    pose proof (Hm x y z Hx Hy Hz) as Hm'. unfold cell_no at 1 in Hm'. rewrite Gp in Hm'. injection Hm' as ->.
    rewrite HF. apply cell_range; lia. }
  destruct (filter_field_ok field (c_map out) Hrange) as [f' [Ef [Lf Hf]]].
  repeat split; try lia; try assumption.
  exists f'. split; [exact Ef|]. split; [rewrite Lf, Hml, H1, H2; reflexivity|].
  intros i j k Hi Hj Hk. rewrite H1, H2 in *.
  pose proof (Hm i j k Hi Hj Hk) as Hm'. rewrite (Hf _ _ Hm').
  destruct (zget_in_range field (cell_no (g_nx g) (g_ny g) (i + imin) (j + jmin) (k + c_kmin out))) as [v Hv].
  { rewrite HF. apply cell_range; lia. }
  exists v. split; exact Hv.
Qed.

Lemma chop_total g imin imax jmin jmax zmin zmax reset bm tm :
  grid_ok g -> box_ok g imin imax jmin jmax ->
  is_bottom_max (g_nx g) (g_ny g) (g_zcorn g) bm ->
  is_top_min (g_nx g) (g_ny g) (g_nz g) (g_zcorn g) tm ->
  ((Rmin zmax tm <= Rmax zmin bm)%R -> chop g imin imax jmin jmax zmin zmax reset = Throw) /\
  ((Rmax zmin bm < Rmin zmax tm)%R ->
    exists out, chop g imin imax jmin jmax zmin zmax reset = Ok out /\
      zlen (c_coord out) = 6 * (c_nx out + 1) * (c_ny out + 1) /\
      zlen (c_zcorn out) = 8 * c_nx out * c_ny out * c_nz out /\
      zlen (c_map out) = c_nx out * c_ny out * c_nz out /\
      (forall c, In c (c_map out) -> 0 <= c < g_nx g * g_ny g * g_nz g)).
Proof.
  intros W B Hb Ht. pose proof B as [Hi1 [Hi2 [Hj1 Hj2]]].
  destruct (chop_run g W imin imax jmin jmax (conj Hi1 Hi2) (conj Hj1 Hj2) zmin zmax reset bm tm Hb Ht) as [H0 H].
  split; [exact H0|]. intros Hlt.
  destruct (H Hlt) as (out & kmax & xc & yc & E' & H1 & H2 & H3 & H4 & H5 & L1 & L2 & L3 & L4 & L5 & _ & _ & _ & _ & _ & _ & HC & _ & HZ & _ & Hml & Hm).
  exists out. rewrite H1, H2. split; [exact E'|]. split; [exact HC|]. split; [exact HZ|]. split; [exact Hml|].
  intros c Hc. apply In_zget in Hc. destruct Hc as [p [Hp Gp]]. rewrite Hml in Hp.
  destruct (mr_decomp p (imax - imin) ((jmax - jmin) * c_nz out)) as [x [q [Hx [Hq ->]]]]; [lia|lia|].
  destruct (mr_decomp q (jmax - jmin) (c_nz out)) as [y [z [Hy [Hz ->]]]]; [lia|lia|].
  pose proof (Hm x y z Hx Hy Hz) as Hm'. unfold cell_no at 1 in Hm'. rewrite Gp in Hm'. injection Hm' as ->.
  apply cell_range; lia.
Qed.

Lemma chop_zcorn g imin imax jmin jmax zmin zmax reset out bm tm :
  grid_ok g -> box_ok g imin imax jmin jmax ->
  is_bottom_max (g_nx g) (g_ny g) (g_zcorn g) bm ->
  is_top_min (g_nx g) (g_ny g) (g_nz g) (g_zcorn g) tm ->
  chop g imin imax jmin jmax zmin zmax reset = Ok out ->
  let lo := Rmax zmin bm in let hi := Rmin zmax tm in
  let shift := if reset then lo else 0%R in
  (lo < hi)%R /\ zlen (c_zcorn out) = 8 * c_nx out * c_ny out * c_nz out /\
  (forall i j k ci cj ck, 0 <= i < c_nx out -> 0 <= j < c_ny out -> 0 <= k < c_nz out ->
     bit ci -> bit cj -> bit ck ->
     exists z, zget (g_zcorn g) (corner_no (g_nx g) (g_ny g) (i + imin) (j + jmin) (k + c_kmin out) ci cj ck) = Some z /\
       zget (c_zcorn out) (corner_no (c_nx out) (c_ny out) i j k ci cj ck) = Some (clamp lo hi z - shift)%R) /\
  (forall z, In z (c_zcorn out) -> (lo - shift <= z <= hi - shift)%R).
Proof.
  intros W B Hb Ht E lo hi shift.
  pose proof (chop_inv _ _ _ _ _ _ _ _ _ _ _ W B Hb Ht E) as Hlt.
  pose proof B as [Hi1 [Hi2 [Hj1 Hj2]]].
  destruct (chop_run g W imin imax jmin jmax (conj Hi1 Hi2) (conj Hj1 Hj2) zmin zmax reset bm tm Hb Ht) as [_ H].
  destruct (H Hlt) as (out' & kmax & xc & yc & E' & H1 & H2 & H3 & H4 & H5 & L1 & L2 & L3 & L4 & L5 & _ & _ & _ & _ & _ & _ & HC & _ & HZ & HZv & _ & _).
  rewrite E in E'. injection E' as <-.
  assert (forall i j k ci cj ck, 0 <= i < c_nx out -> 0 <= j < c_ny out -> 0 <= k < c_nz out ->
     bit ci -> bit cj -> bit ck ->
     exists z, zget (g_zcorn g) (corner_no (g_nx g) (g_ny g) (i + imin) (j + jmin) (k + c_kmin out) ci cj ck) = Some z /\
       zget (c_zcorn out) (corner_no (c_nx out) (c_ny out) i j k ci cj ck) = Some (clamp lo hi z - shift)%R) as Hall.
  { intros i j k ci cj ck Hi Hj Hk B1 B2 B3. rewrite H1, H2 in *.
    destruct (zget_in_range (g_zcorn g) (corner_no (g_nx g) (g_ny g) (i + imin) (j + jmin) (k + c_kmin out) ci cj ck)) as [z Hz].
    { rewrite (wf_zcorn _ _ _ _ _ W). apply corner_range; try assumption; lia. }
    exists z. split; [exact Hz|]. apply HZv; assumption. }
  split; [exact Hlt|]. split; [rewrite H1, H2; exact HZ|]. split; [exact Hall|].
  intros z Hz. apply In_zget in Hz. destruct Hz as [p [Hp Gp]]. rewrite HZ in Hp.
  destruct (corner_decomp (imax - imin) (jmax - jmin) (c_nz out) p) as (i & j & k & ci & cj & ck & Q1 & Q2 & Q3 & B1 & B2 & B3 & ->); [lia|lia|lia|].
  rewrite <- H1 in Q1. rewrite <- H2 in Q2.
  destruct (Hall i j k ci cj ck Q1 Q2 Q3 B1 B2 B3) as [z' [_ Gz']].
  rewrite H1, H2 in Gz'. rewrite Gp in Gz'. injection Gz' as ->.
  unfold clamp. fold lo hi in Hlt. unfold Rmin, Rmax. destruct (Rle_dec lo z'); destruct (Rle_dec hi _); lra.
Qed.

Lemma chop_layers g imin imax jmin jmax zmin zmax reset out bm tm :
  grid_ok g -> box_ok g imin imax jmin jmax ->
  is_bottom_max (g_nx g) (g_ny g) (g_zcorn g) bm ->
  is_top_min (g_nx g) (g_ny g) (g_nz g) (g_zcorn g) tm ->
  chop g imin imax jmin jmax zmin zmax reset = Ok out ->
  let lo := Rmax zmin bm in let hi := Rmin zmax tm in
  let retained k := c_kmin out <= k < c_kmin out + c_nz out in
  let layer := in_layer (g_nx g) (g_ny g) (g_zcorn g) in
  (forall k z1 z2, 0 <= k < g_nz g -> layer k z1 -> layer k z2 -> (z1 < hi)%R -> (lo < z2)%R -> retained k) /\
  (forall k, retained k -> 0 <= k < g_nz g) /\
  (0 < c_nz out -> (exists z, layer (c_kmin out) z /\ (lo < z)%R) /\
                   (exists z, layer (c_kmin out + c_nz out - 1) z /\ (z < hi)%R)).
Proof.
  intros W B Hb Ht E lo hi retained layer.
  pose proof (chop_inv _ _ _ _ _ _ _ _ _ _ _ W B Hb Ht E) as Hlt.
  pose proof B as [Hi1 [Hi2 [Hj1 Hj2]]].
  destruct (chop_run g W imin imax jmin jmax (conj Hi1 Hi2) (conj Hj1 Hj2) zmin zmax reset bm tm Hb Ht) as [_ H].
  destruct (H Hlt) as (out' & kmax & xc & yc & E' & H1 & H2 & H3 & H4 & H5 & L1 & L2 & L3 & L4 & L5 & L6 & L7 & L8 & L9 & _).
  rewrite E in E'. injection E' as <-. unfold retained. split; [|split].
  - intros k z1 z2 Hk Z1 Z2 Hz1 Hz2. rewrite H3. split.
    + destruct (Z.le_gt_cases (c_kmin out) k) as [|Hgt]; [assumption|]. exfalso.
      specialize (L6 k z2 ltac:(lia) Z2). unfold lo in *. lra.
    + destruct (Z.lt_ge_cases k kmax) as [|Hge]; [lia|]. exfalso.
      specialize (L7 k z1 ltac:(lia) Z1). unfold hi in *. lra.
  - intros k Hk. lia.
  - intros _. replace (c_kmin out + c_nz out - 1) with (kmax - 1) by lia. split; assumption.
Qed.

Lemma chop_pillars g imin imax jmin jmax zmin zmax reset out :
  grid_ok g -> box_ok g imin imax jmin jmax ->
  chop g imin imax jmin jmax zmin zmax reset = Ok out ->
  zlen (c_coord out) = 6 * (c_nx out + 1) * (c_ny out + 1) /\
  exists xc yc, zget (g_coord g) (pillar_no (g_nx g) imin jmin 0) = Some xc /\
    zget (g_coord g) (pillar_no (g_nx g) imin jmin 1) = Some yc /\
    forall i j c, 0 <= i <= c_nx out -> 0 <= j <= c_ny out -> 0 <= c < 6 ->
      exists v w, zget (g_coord g) (pillar_no (g_nx g) (i + imin) (j + jmin) c) = Some v /\
        zget (c_coord out) (pillar_no (c_nx out) i j c) = Some w /\
        (reset = false -> w = v) /\
        (reset = true -> (c = 0 \/ c = 3 -> w = (v - xc)%R) /\ (c = 1 \/ c = 4 -> w = (v - yc)%R) /\
                         (c = 2 -> w = 0%R) /\ (c = 5 -> w = (zmax - zmin)%R)).
Proof.
  intros W B E. destruct (limits_exist g W) as [bm [tm [Hb Ht]]].
  pose proof (chop_inv _ _ _ _ _ _ _ _ _ _ _ W B Hb Ht E) as Hlt.
  pose proof B as [Hi1 [Hi2 [Hj1 Hj2]]].
  destruct (chop_run g W imin imax jmin jmax (conj Hi1 Hi2) (conj Hj1 Hj2) zmin zmax reset bm tm Hb Ht) as [_ H].
  destruct (H Hlt) as (out' & kmax & xc & yc & E' & H1 & H2 & H3 & H4 & H5 & L1 & L2 & L3 & L4 & L5 & L6 & L7 & L8 & L9 & X & Y & HC & HCv & _).
  rewrite E in E'. injection E' as <-. rewrite H1, H2. split; [exact HC|].
  exists xc, yc. split; [exact X|]. split; [exact Y|].
  intros i j c Hi Hj Hc.
  destruct (zget_in_range (g_coord g) (pillar_no (g_nx g) (i + imin) (j + jmin) c)) as [v Hv].
  { eapply pillar_range with (jmin:=jmin) (jmax:=jmax); try assumption; lia. }
  exists v. eexists. split; [exact Hv|]. split; [apply HCv; eassumption|].
  unfold coord_new. split; [intros ->; reflexivity|]. intros ->.
  repeat split; intros; subst;
  repeat match goal with H : _ \/ _ |- _ => destruct H; subst end; reflexivity.
Qed.

(* ---------- witnesses *)
(* one cell whose bottom face reaches 1 and whose top face starts at 2 *)
Definition g_slanted : grid :=
  {| g_nx := 1; g_ny := 1; g_nz := 1; g_coord := repeat 0%R 24; g_zcorn := [0;0;0;1;2;2;2;3]%R |}.

Lemma slanted_ok : grid_ok g_slanted.
Proof. constructor; cbn; lia. Qed.
Ltac bits := repeat match goal with H : bit _ |- _ => destruct H as [-> | ->] end.
Lemma slanted_bottom : is_bottom_max 1 1 (g_zcorn g_slanted) 1%R.
Proof.
  split.
  - exists 0, 0, 1, 1. repeat split; try lia; try (right; reflexivity).
  - intros i j ci cj z Hi Hj Hci Hcj. assert (i = 0) by lia. assert (j = 0) by lia. subst.
    bits; cbn; intros E; injection E as <-; lra.
Qed.
Lemma slanted_top : is_top_min 1 1 1 (g_zcorn g_slanted) 2%R.
Proof.
  split.
  - exists 0, 0, 0, 0. repeat split; try lia; try (left; reflexivity).
  - intros i j ci cj z Hi Hj Hci Hcj. assert (i = 0) by lia. assert (j = 0) by lia. subst.
    bits; cbn; intros E; injection E as <-; lra.
Qed.

Lemma pillar_end_refuted :
  exists g imin imax jmin jmax zmin zmax azmin azmax bm tm out w,
    grid_ok g /\ box_ok g imin imax jmin jmax /\
    abszmin g = Ok azmin /\ abszmax g = Ok azmax /\
    verify_shoebox (g_nx g) (g_ny g) azmin azmax imin (imax - imin) imax jmin (jmax - jmin) jmax
      zmin (zmax - zmin) zmax = Ok tt /\
    is_bottom_max (g_nx g) (g_ny g) (g_zcorn g) bm /\
    is_top_min (g_nx g) (g_ny g) (g_nz g) (g_zcorn g) tm /\
    chop g imin imax jmin jmax zmin zmax true = Ok out /\
    zget (c_coord out) (pillar_no (c_nx out) 0 0 5) = Some w /\
    (w <> Rmin zmax tm - Rmax zmin bm)%R.
Proof.
  destruct (chop_total g_slanted 0 1 0 1 0 3 true 1 2 slanted_ok) as [_ H];
    [repeat split; cbn; lia|exact slanted_bottom|exact slanted_top|].
  destruct H as [out [E _]]. { unfold Rmax, Rmin. destruct (Rle_dec 0 1); destruct (Rle_dec 3 2); lra. }
  assert (box_ok g_slanted 0 1 0 1) as B by (repeat split; cbn; lia).
  destruct (chop_pillars g_slanted 0 1 0 1 0 3 true out slanted_ok B E) as [_ [xc [yc [_ [_ HP]]]]].
  assert (c_nx out = 1 /\ c_ny out = 1) as [Nx Ny].
  { destruct (cell_source g_slanted 0 1 0 1 0 3 true out unit [tt] slanted_ok B E) as [H1 [H2 _]]; [reflexivity|]. lia. }
  destruct (HP 0 0 5) as [v [w [_ [Gw [_ Hw]]]]]; [lia|lia|lia|].
  assert (w = 3 - 0)%R by (apply Hw; reflexivity). subst w.
  destruct (lmin_spec (g_zcorn g_slanted)) as [a [Ea [Ia Ha]]]; [discriminate|].
  destruct (lmax_spec (g_zcorn g_slanted)) as [b [Eb [Ib Hbm]]]; [discriminate|].
  assert (a = 0)%R. { pose proof (Ha 0%R ltac:(cbn; tauto)). cbn in Ia. repeat (destruct Ia as [<-|Ia]; [lra|]). contradiction. }
  assert (b = 3)%R. { pose proof (Hbm 3%R ltac:(cbn; tauto)). cbn in Ib. repeat (destruct Ib as [<-|Ib]; [lra|]). contradiction. }
  subst a b.
  exists g_slanted, 0, 1, 0, 1, 0%R, 3%R, 0%R, 3%R, 1%R, 2%R, out, (3-0)%R.
  split; [exact slanted_ok|]. split; [exact B|]. split; [exact Ea|]. split; [exact Eb|].
  split. { apply verify_iff. cbn. repeat split; try lia; lra. }
  split; [exact slanted_bottom|]. split; [exact slanted_top|]. split; [exact E|]. split; [exact Gw|].
  unfold Rmax, Rmin. destruct (Rle_dec 0 1); destruct (Rle_dec 3 2); lra.
Qed.

(* an inverted box passes verification, and chop then hands out unset depths and
   the cell index -1 *)
Lemma inverted_box_refuted :
  exists g imin imax jmin jmax zmin zmax azmin azmax out,
    grid_ok g /\ abszmin g = Ok azmin /\ abszmax g = Ok azmax /\
    verify_shoebox (g_nx g) (g_ny g) azmin azmax imin (imax - imin) imax jmin (jmax - jmin) jmax
      zmin (zmax - zmin) zmax = Ok tt /\
    chop g imin imax jmin jmax zmin zmax true = Ok out /\
    0 < zlen (c_zcorn out) /\ (forall z, In z (c_zcorn out) -> z = fill_value) /\
    (forall (A : Type) (field : list A), filter_keyword (Some field) (c_map out) = UB).
Proof.
  destruct (lmin_spec (g_zcorn g_slanted)) as [a [Ea [Ia Ha]]]; [discriminate|].
  destruct (lmax_spec (g_zcorn g_slanted)) as [b [Eb [Ib Hbm]]]; [discriminate|].
  assert (a = 0)%R. { pose proof (Ha 0%R ltac:(cbn; tauto)). cbn in Ia. repeat (destruct Ia as [<-|Ia]; [lra|]). contradiction. }
  assert (b = 3)%R. { pose proof (Hbm 3%R ltac:(cbn; tauto)). cbn in Ib. repeat (destruct Ib as [<-|Ib]; [lra|]). contradiction. }
  subst a b.
  destruct (botmax_ok g_slanted slanted_ok) as [bm [Ebm Hbm1]].
  destruct (topmin_ok g_slanted slanted_ok) as [tm [Etm Htm1]].
  assert (bm = 1%R) by (eapply bottom_max_unique; [exact Hbm1|exact slanted_bottom]).
  assert (tm = 2%R) by (eapply top_min_unique; [exact Htm1|exact slanted_top]). subst bm tm.
  destruct (layers_found g_slanted slanted_ok 1 2 1 2 slanted_bottom slanted_top) as [kmin [kmax [E1 [E2 L]]]]; [lra|lra|lra|].
  assert (kmin = 0 /\ kmax = 1) as [-> ->] by (cbn in L; lia).
  assert (chop g_slanted 1 0 1 0 1 2 true =
    Ok {| c_nx := -1; c_ny := -1; c_nz := 1; c_coord := []; c_zcorn := zrepeat fill_value 8; c_map := [-1];
          c_zlo := 1; c_zhi := 2; c_kmin := 0 |}) as E.
  { unfold chop, chop_coord. rewrite Ebm, Etm.
    cbn [bind negb vresize Z.ltb Z.eqb Z.sub Z.add Z.mul]. 
    rewrite smax_Rmax, smin_Rmin. rewrite Rmax_left, Rmin_left by lra.
    destruct (Rleb_spec 2 1); [lra|].
    assert (forall A (r : res A) P, r = P -> r = P) as K by auto.
    change (zrange 0 (g_nz g_slanted)) with (zrange 0 1).
    change (rev (zrange 1 (g_nz g_slanted + 1))) with (rev (zrange 1 (1 + 1))).
    change (g_nz g_slanted) with 1 in E1, E2. rewrite E1, E2. cbn. reflexivity. }
  exists g_slanted, 1, 0, 1, 0, 1%R, 2%R, 0%R, 3%R.
  eexists. split; [exact slanted_ok|]. split; [exact Ea|]. split; [exact Eb|].
  split. { apply verify_iff. cbn. repeat split; try lia; lra. }
  split; [exact E|]. cbn [c_zcorn c_map]. split; [rewrite zlen_zrepeat; lia|]. split.
  - intros z Hz. apply repeat_spec in Hz. exact Hz.
  - intros A field. reflexivity.
Qed.

Lemma pillar_end_unclipped : forall g imin imax jmin jmax zmin zmax out bm tm i j,
  grid_ok g -> box_ok g imin imax jmin jmax ->
  is_bottom_max (g_nx g) (g_ny g) (g_zcorn g) bm ->
  is_top_min (g_nx g) (g_ny g) (g_nz g) (g_zcorn g) tm ->
  (bm <= zmin)%R -> (zmax <= tm)%R ->
  chop g imin imax jmin jmax zmin zmax true = Ok out ->
  0 <= i <= c_nx out -> 0 <= j <= c_ny out ->
  zget (c_coord out) (pillar_no (c_nx out) i j 2) = Some 0%R /\
  zget (c_coord out) (pillar_no (c_nx out) i j 5) = Some (Rmin zmax tm - Rmax zmin bm)%R.
Proof.
  intros g imin imax jmin jmax zmin zmax out bm tm i j W B Hb Ht H1 H2 E Hi Hj.
  destruct (chop_pillars _ _ _ _ _ _ _ _ _ W B E) as [_ [xc [yc [_ [_ HP]]]]].
  destruct (HP i j 2 Hi Hj ltac:(lia)) as [v [w [_ [G [_ Hw]]]]].
  destruct (HP i j 5 Hi Hj ltac:(lia)) as [v5 [w5 [_ [G5 [_ Hw5]]]]].
  specialize (Hw eq_refl). specialize (Hw5 eq_refl).
  rewrite Rmin_left, Rmax_left by lra. rewrite G, G5. split; f_equal; [apply Hw|apply Hw5]; reflexivity.
Qed.

Lemma slanted_meets :
  wf_arrays 1 1 1 (g_coord g_slanted) (g_zcorn g_slanted) /\
  box_within 1 1 0 1 0 1 /\
  is_bottom_max 1 1 (g_zcorn g_slanted) 1%R /\ is_top_min 1 1 1 (g_zcorn g_slanted) 2%R /\
  exists out, chop g_slanted 0 1 0 1 1%R 2%R true = Ok out /\ c_nz out = 1.
Proof.
  assert (box_ok g_slanted 0 1 0 1) as B by (repeat split; cbn; lia).
  split; [exact slanted_ok|]. split; [exact B|]. split; [exact slanted_bottom|]. split; [exact slanted_top|].
  destruct (chop_total g_slanted 0 1 0 1 1 2 true 1 2 slanted_ok B slanted_bottom slanted_top) as [_ H].
  rewrite Rmin_left, Rmax_left in H by lra.
  destruct H as [out [E _]]; [lra|]. exists out. split; [exact E|].
  destruct (chop_layers g_slanted 0 1 0 1 1 2 true out 1 2 slanted_ok B slanted_bottom slanted_top E) as [L1 [L2 _]].
  destruct (cell_source g_slanted 0 1 0 1 1 2 true out unit [tt] slanted_ok B E eq_refl) as [_ [_ [K1 [K2 [K3 _]]]]].
  cbn [g_nz g_slanted] in *. rewrite Rmin_left, Rmax_left in L1 by lra.
  assert (c_kmin out <= 0 < c_kmin out + c_nz out).
  { apply (L1 0 1%R 2%R); [lia| | |lra|lra].
    - exists 0, 0, 1, 1, 0. repeat split; try lia; try (right; reflexivity); left; reflexivity.
    - exists 0, 0, 0, 0, 1. repeat split; try lia; try (right; reflexivity); left; reflexivity. }
  lia.
Qed.
