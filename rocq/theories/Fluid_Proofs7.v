From Verif Require Import Lin_Facts BaseFacts RBaseFacts Matx_Proofs Matx_Proofs3 Mim_Proofs Mim_Proofs2 Fluid_Proofs Fluid_Proofs2 Rprop_Proofs3 Rprop_Proofs2 Euler_Proofs2 Steady_Proofs Hnum_Proofs Fluid_Spec Fluid_Model.
From Coq Require Import Lra Lia.
Open Scope Z_scope.

Lemma zlen_combine_map {A} (op : R * R -> A) a b : zlen a = zlen b -> zlen (map op (combine a b)) = zlen a.
Proof. unfold zlen. rewrite map_length, combine_length. lia. Qed.
Lemma zlen_fv_scale a s : zlen (fv_scale a s) = zlen a.
Proof. unfold fv_scale, zlen. rewrite map_length. reflexivity. Qed.
Lemma zlen_fv_sub a b : zlen a = zlen b -> zlen (fv_sub a b) = zlen a.
Proof. apply zlen_combine_map. Qed.
Lemma nthR_fv_scale a s k : 0 <= k < zlen a -> nthR (fv_scale a s) k = (nthR a k * s)%R.
Proof. intros H. unfold fv_scale, nthR. rewrite zget_map. destruct (zget_in_range a k H) as [x ->]. reflexivity. Qed.
Lemma nthR_fv_sub a b k : zlen a = zlen b -> 0 <= k < zlen a -> nthR (fv_sub a b) k = (nthR a k - nthR b k)%R.
Proof. intros L H. apply (nthR_map2 Rminus a b k L H). Qed.
Lemma nthR_fv_add a b k : zlen a = zlen b -> 0 <= k < zlen a -> nthR (map (fun p => (fst p + snd p)%R) (combine a b)) k = (nthR a k + nthR b k)%R.
Proof. intros L H. apply (nthR_map2 Rplus a b k L H). Qed.
Lemma face_at c i f : zget (mc_faces c) i = Some f -> face c i = f.
Proof. intros E. pose proof (zget_Some_range _ _ _ E). rewrite zget_nth in E by lia. unfold face. apply nth_error_nth. exact E. Qed.

Lemma cell_velocity_ok dim c out : wf_cell dim c -> zlen out = zlen (mc_faces c) -> exists v, cell_velocity dim c out = Ok v /\ is_vec dim v (mean_velocity c out).
Proof.
  intros (Hd & Lc & V & W) L. unfold cell_velocity.
  destruct (list_loop (fun v fo => let '(f, o) := fo in let* q := mdiv o (mc_vol c) in
      Ok (map (fun p => (fst p + snd p)%R) (combine v (fv_scale (fv_sub (mf_cen f) (mc_cen c)) q))))
    (fun n v => zlen v = dim /\ forall k, 0 <= k < dim -> nthR v k = (Sum n (fun i => nthR out i * offset c i k) / mc_vol c)%R)
    (combine (mc_faces c) out) (zrepeat 0%R dim)) as (v & E & Lv & Gv).
  - split; [apply zlen_zrepeat; lia |]. intros k Hk. rewrite nthR_zrepeat0, Sum_0. unfold Rdiv. ring.
  - intros i [f o] v Hi (Lv & Gv).
    assert (LC : zlen (combine (mc_faces c) out) = zlen out) by (unfold zlen in *; rewrite combine_length; lia).
    pose proof (zget_Some_range _ _ _ Hi) as Hr. rewrite LC in Hr.
    destruct (zget_in_range (mc_faces c) i ltac:(lia)) as [f' Ef]. destruct (zget_in_range out i Hr) as [o' Eo].
    rewrite (zget_combine _ _ _ _ _ Ef Eo) in Hi. injection Hi as -> ->.
    destruct (W f (zget_In _ _ _ Ef)) as (_ & Lf & _).
    rewrite mdiv_Ok by lra. cbn [bind]. eexists. split; [reflexivity |].
    assert (LS : zlen (fv_scale (fv_sub (mf_cen f) (mc_cen c)) (o / mc_vol c)) = dim) by (rewrite zlen_fv_scale, zlen_fv_sub; lia).
    split; [rewrite zlen_combine_map; lia |]. intros k Hk.
    rewrite nthR_fv_add by lia. rewrite Gv by exact Hk. rewrite nthR_fv_scale by (rewrite zlen_fv_sub; lia). rewrite nthR_fv_sub by lia.
    rewrite Sum_S by lia. rewrite (nthR_get _ _ _ Eo). unfold offset. rewrite (face_at _ _ _ Ef). field. lra.
  - exists v. split; [exact E |]. split; [exact Lv |]. intros k Hk. unfold mean_velocity. rewrite Gv by exact Hk.
    replace (zlen (combine (mc_faces c) out)) with (zlen (mc_faces c)) by (unfold zlen in *; rewrite combine_length; lia). reflexivity.
Qed.
Lemma uniform_velocity dim c v out : wf_cell dim c -> closed_cell dim c -> uniform_outflux dim c v out ->
  forall k, 0 <= k < dim -> mean_velocity c out k = v k.
Proof.
  intros (Hd & _ & V & _) C (L & U) k Hk. unfold mean_velocity.
  rewrite (Sum_ext _ _ (fun i => Sum dim (fun a => v a * (areavec c i a * offset c i k))%R)).
  2: { intros i Hi. rewrite U by lia. unfold dot. rewrite <- Sum_scal_r. apply Sum_ext. intros a Ha. ring. }
  rewrite Sum_swap. rewrite (Sum_ext _ _ (fun a => mc_vol c * (v a * ident a k))%R).
  2: { intros a Ha. rewrite Sum_scal. rewrite (C a k Ha Hk). ring. }
  rewrite Sum_scal, Sum_ident_r by exact Hk. field. lra.
Qed.

(* storing one vector per cell *)
Lemma store_all dim (cells : list (Z * mcell * list R)) (V : Z * mcell * list R -> list R) step :
  (forall c vs, In c cells -> step vs c = rset vs (fst (fst c)) (V c)) -> NoDup (map (fun c => fst (fst c)) cells) -> (forall c, In c cells -> 0 <= fst (fst c) < zlen cells) ->
  exists vs, foldM step cells (zrepeat (zrepeat 0%R dim) (zlen cells)) = Ok vs /\ zlen vs = zlen cells /\ forall c, In c cells -> zget vs (fst (fst c)) = Some (V c).
Proof.
  intros HS ND HR. set (n := zlen cells) in *. assert (Hn : 0 <= n) by (unfold n, zlen; lia). clearbody n.
  assert (G : forall l vs, (forall c, In c l -> In c cells) -> NoDup (map (fun c => fst (fst c)) l) -> zlen vs = n ->
    exists vs', foldM step l vs = Ok vs' /\ zlen vs' = n /\ (forall c, In c l -> zget vs' (fst (fst c)) = Some (V c)) /\ forall i, ~ In i (map (fun c => fst (fst c)) l) -> zget vs' i = zget vs i).
  { induction l as [| c l IH]; intros vs I N L.
    - exists vs. cbn. split; [reflexivity |]. split; [exact L |]. split; [tauto |]. auto.
    - cbn [foldM]. rewrite HS by (apply I; left; reflexivity). specialize (HR c (I c (or_introl eq_refl))).
      destruct (rset_at vs (fst (fst c)) (V c) ltac:(lia)) as (vs1 & E1 & L1 & G1). rewrite E1. cbn [bind]. cbn [map] in N. inversion N as [| x y NI N' EQ]; subst x y.
      destruct (IH vs1 ltac:(intros; apply I; right; assumption) N' ltac:(lia)) as (vs2 & E2 & L2 & G2 & O2). exists vs2. split; [exact E2 |]. split; [exact L2 |]. split.
      + intros c' [<- | Hc]; [| apply G2; exact Hc]. rewrite O2 by exact NI. rewrite G1, Z.eqb_refl. reflexivity.
      + intros i Hi. cbn [map] in Hi. rewrite O2 by (intros X; apply Hi; right; exact X). rewrite G1. destruct (Z.eqb_spec i (fst (fst c))) as [-> |]; [exfalso; apply Hi; left; reflexivity | reflexivity]. }
  destruct (G cells (zrepeat (zrepeat 0%R dim) n) ltac:(auto) ND ltac:(apply zlen_zrepeat; exact Hn)) as (vs & E & L & V1 & _). exists vs. auto.
Qed.
Definition vel_of (dim : Z) (c : Z * mcell * list R) : list R := match cell_velocity dim (snd (fst c)) (snd c) with Ok v => v | _ => [] end.
Lemma estimate_ok dim cells : NoDup (map (fun c => fst (fst c)) cells) -> (forall i g out, In (i, g, out) cells -> 0 <= i < zlen cells /\ wf_cell dim g /\ zlen out = zlen (mc_faces g)) ->
  exists vs, estimate_velocity dim cells = Ok vs /\ zlen vs = zlen cells /\
    forall i g out, In (i, g, out) cells -> exists v, zget vs i = Some v /\ is_vec dim v (mean_velocity g out).
Proof.
  intros ND W. assert (VO : forall i g out, In (i, g, out) cells -> cell_velocity dim g out = Ok (vel_of dim (i, g, out)) /\ is_vec dim (vel_of dim (i, g, out)) (mean_velocity g out)).
  { intros i g out I. destruct (W i g out I) as (_ & WC & L). destruct (cell_velocity_ok dim g out WC L) as (v & E & HV). unfold vel_of. cbn [fst snd]. rewrite E. auto. }
  unfold estimate_velocity.
  destruct (store_all dim cells (vel_of dim) (fun vs c => let '(i, g, out) := c in let* v := cell_velocity dim g out in rset vs i v)) as (vs & E & L & G).
  - intros [[i g] out] vs I. rewrite (proj1 (VO i g out I)). reflexivity.
  - exact ND.
  - intros [[i g] out] I. apply (W i g out I).
  - exists vs. split; [exact E |]. split; [exact L |]. intros i g out I. exists (vel_of dim (i, g, out)). split; [apply (G (i, g, out) I) | apply VO; exact I].
Qed.
Lemma estimate_part_ok dim cells partition mine : 0 < dim -> NoDup (map (fun c => fst (fst c)) cells) -> zlen partition = zlen cells ->
  (forall i g out, In (i, g, out) cells -> 0 <= i < zlen cells /\ (zget partition i = Some mine -> wf_cell dim g /\ zlen out = zlen (mc_faces g))) ->
  exists vs, estimate_velocity_part dim cells partition mine = Ok vs /\ zlen vs = zlen cells /\
    forall i g out, In (i, g, out) cells -> exists v, zget vs i = Some v /\ is_vec dim v (fun k => if Z.eq_dec (nth (Z.to_nat i) partition 0) mine then mean_velocity g out k else 0%R).
Proof.
  intros Hd ND LP W.
  set (V := fun c : Z * mcell * list R => if Z.eq_dec (nth (Z.to_nat (fst (fst c))) partition 0) mine then vel_of dim c else zrepeat 0%R dim).
  assert (PG : forall i, 0 <= i < zlen cells -> zget partition i = Some (nth (Z.to_nat i) partition 0)).
  { intros i Hi. destruct (zget_in_range partition i ltac:(lia)) as [p E]. rewrite E. rewrite zget_nth in E by lia. rewrite (nth_error_nth _ _ 0 E). reflexivity. }
  unfold estimate_velocity_part.
  assert (VO : forall i g out, In (i, g, out) cells -> nth (Z.to_nat i) partition 0 = mine -> cell_velocity dim g out = Ok (vel_of dim (i, g, out)) /\ is_vec dim (vel_of dim (i, g, out)) (mean_velocity g out)).
  { intros i g out I EM. destruct (W i g out I) as (Hi & WC). destruct WC as [WC L]. { rewrite (PG i Hi), EM. reflexivity. }
    destruct (cell_velocity_ok dim g out WC L) as (v & E & HV). unfold vel_of. cbn [fst snd]. rewrite E. auto. }
  match goal with |- context [foldM ?st cells _] => destruct (store_all dim cells V st) as (vs & E & L & G) end.
  - intros [[i g] out] vs I. destruct (W i g out I) as (Hi & _). unfold rget. rewrite (PG i Hi). cbn [bind]. unfold V. cbn [fst snd].
    destruct (Z.eq_dec (nth (Z.to_nat i) partition 0) mine) as [EM | NM].
    + rewrite EM, Z.eqb_refl. cbn [negb]. rewrite (proj1 (VO i g out I EM)). reflexivity.
    + destruct (Z.eqb_spec (nth (Z.to_nat i) partition 0) mine); [contradiction | reflexivity].
  - exact ND.
  - intros [[i g] out] I. apply (W i g out I).
  - exists vs. split; [exact E |]. split; [exact L |]. intros i g out I. exists (V (i, g, out)). split; [apply (G (i, g, out) I) |].
    unfold V. cbn [fst snd]. destruct (Z.eq_dec (nth (Z.to_nat i) partition 0) mine) as [EM | NM].
    + apply VO; assumption.
    + split; [apply zlen_zrepeat; lia |]. intros k Hk. apply nthR_zrepeat0.
Qed.

(* ---- the variant that loops over the faces of the grid *)
Definition cen_at (cens : list (list R)) (c : Z) : list R := nth (Z.to_nat c) cens [].
Lemma cen_get cens c : 0 <= c < zlen cens -> zget cens c = Some (cen_at cens c).
Proof. intros H. destruct (zget_in_range cens c H) as [x E]. rewrite E. unfold cen_at. rewrite zget_nth in E by lia. rewrite (nth_error_nth _ _ [] E). reflexivity. Qed.
Definition vels (dim nc : Z) (vs : list (list R)) (T : Z -> Z -> R) : Prop :=
  zlen vs = nc /\ forall c, 0 <= c < nc -> exists v, zget vs c = Some v /\ is_vec dim v (T c).
Lemma contrib_ok dim cens vol f vs T sgn c0 : 0 < dim -> zlen vol = zlen cens -> (forall c x, zget cens c = Some x -> zlen x = dim) -> (forall c, 0 <= c < zlen vol -> nthR vol c <> 0%R) ->
  zlen (sf_cen f) = dim -> c0 < zlen cens -> vels dim (zlen cens) vs T ->
  exists vs', simple_contrib vol cens f vs (sgn, c0) = Ok vs' /\
    vels dim (zlen cens) vs' (fun c k => T c k + (if c0 =? c then sgn * (sf_flux f * (nthR (sf_cen f) k - nthR (cen_at cens c) k)) / nthR vol c else 0))%R.
Proof.
  intros Hd LV LC VN LF Hc (L & G). unfold simple_contrib. destruct (Z.leb_spec 0 c0) as [H0 | H0].
  - unfold rget. rewrite (cen_get cens c0) by lia. cbn [bind]. rewrite (zget_nthR vol c0) by lia. cbn [bind]. rewrite mdiv_Ok by (apply VN; lia). cbn [bind].
    destruct (G c0 ltac:(lia)) as (v & Ev & Lv & Gv). rewrite Ev. cbn [bind].
    pose proof (LC c0 _ (cen_get cens c0 ltac:(lia))) as Lx.
    set (nv := map _ (combine v _)). destruct (rset_at vs c0 nv ltac:(lia)) as (vs' & E & L' & G'). exists vs'. split; [exact E |]. split; [lia |].
    intros c Hcc. rewrite G'. destruct (Z.eqb_spec c c0) as [-> | N].
    + rewrite Z.eqb_refl. exists nv. split; [reflexivity |]. unfold nv.
      assert (LS : zlen (fv_scale (fv_scale (fv_sub (sf_cen f) (cen_at cens c0)) (sf_flux f / nthR vol c0)) sgn) = dim) by (rewrite !zlen_fv_scale, zlen_fv_sub; lia).
      split; [rewrite zlen_combine_map; lia |]. intros k Hk. rewrite nthR_fv_add by lia. rewrite Gv by exact Hk. f_equal.
      rewrite !nthR_fv_scale by (rewrite ?zlen_fv_scale, zlen_fv_sub; lia). rewrite nthR_fv_sub by lia. field. apply VN. lia.
    + destruct (G c Hcc) as (w & Ew & Lw & Gw). exists w. split; [exact Ew |]. split; [exact Lw |]. intros k Hk. rewrite Gw by exact Hk. destruct (Z.eqb_spec c0 c); [congruence |]. ring.
  - exists vs. split; [reflexivity |]. split; [exact L |]. intros c Hcc. destruct (G c Hcc) as (w & Ew & Lw & Gw). exists w. split; [exact Ew |]. split; [exact Lw |].
    intros k Hk. rewrite Gw by exact Hk. destruct (Z.eqb_spec c0 c); [lia |]. ring.
Qed.
Lemma simple_ok dim cens vol faces : simple_grid dim cens vol faces -> exists vs, estimate_velocity_simple dim cens vol faces = Ok vs /\ zlen vs = zlen cens /\
  forall c x, zget cens c = Some x -> exists v, zget vs c = Some v /\ is_vec dim v (simple_velocity vol faces c x).
Proof.
  intros (Hd & LV & LC & VN & W). unfold estimate_velocity_simple.
  set (term := fun c k i => (orient (nth_sface faces i) c * sf_flux (nth_sface faces i) * (nthR (sf_cen (nth_sface faces i)) k - nthR (cen_at cens c) k))%R).
  destruct (list_loop (fun vs f => foldM (simple_contrib vol cens f) [(1%R, sf_c0 f); ((-1)%R, sf_c1 f)] vs)
    (fun n vs => vels dim (zlen cens) vs (fun c k => Sum n (term c k) / nthR vol c)%R) faces (zrepeat (zrepeat 0%R dim) (zlen cens))) as (vs & E & L & G).
  - split; [apply zlen_zrepeat; unfold zlen; lia |]. intros c Hc. exists (zrepeat 0%R dim). split; [apply zget_zrepeat; exact Hc |].
    split; [apply zlen_zrepeat; lia |]. intros k Hk. rewrite nthR_zrepeat0, Sum_0. unfold Rdiv. ring.
  - intros i f vs Ef I. destruct (W f (zget_In _ _ _ Ef)) as (LF & B0 & B1). cbn [foldM].
    destruct (contrib_ok dim cens vol f vs _ 1 (sf_c0 f) Hd LV LC VN LF B0 I) as (vs1 & E1 & I1). rewrite E1. cbn [bind].
    destruct (contrib_ok dim cens vol f vs1 _ (-1) (sf_c1 f) Hd LV LC VN LF B1 I1) as (vs2 & E2 & I2). rewrite E2. cbn [bind].
    exists vs2. split; [reflexivity |]. destruct I2 as (L2 & G2). split; [exact L2 |]. intros c Hc. destruct (G2 c Hc) as (v & Ev & Lv & Gv). exists v. split; [exact Ev |]. split; [exact Lv |].
    intros k Hk. rewrite Gv by exact Hk. pose proof (zget_Some_range _ _ _ Ef). rewrite Sum_S by lia. unfold term at 3. 
    assert (NF : nth_sface faces i = f). { unfold nth_sface. rewrite zget_nth in Ef by lia. apply nth_error_nth. exact Ef. }
    rewrite NF. unfold orient. assert (nthR vol c <> 0%R) by (apply VN; lia). destruct (sf_c0 f =? c); destruct (sf_c1 f =? c); field; assumption.
  - exists vs. split; [exact E |]. split; [exact L |]. intros c x Ex. pose proof (zget_Some_range _ _ _ Ex) as Hc. destruct (G c Hc) as (v & Ev & Lv & Gv). exists v. split; [exact Ev |]. split; [exact Lv |].
    intros k Hk. rewrite Gv by exact Hk. unfold simple_velocity, term. rewrite (cen_get cens c Hc) in Ex. injection Ex as <-. reflexivity.
Qed.
Lemma simple_uniform dim vol faces c x (N : Z -> Z -> R) (v : Z -> R) : 0 < dim -> nthR vol c <> 0%R ->
  (forall i, 0 <= i < zlen faces -> sf_flux (nth_sface faces i) = dot dim (N i) v) ->
  (forall a b, 0 <= a < dim -> 0 <= b < dim -> Sum (zlen faces) (fun i => orient (nth_sface faces i) c * N i a * (nthR (sf_cen (nth_sface faces i)) b - nthR x b))%R = (nthR vol c * ident a b)%R) ->
  forall k, 0 <= k < dim -> simple_velocity vol faces c x k = v k.
Proof.
  intros Hd V F C k Hk. unfold simple_velocity.
  rewrite (Sum_ext _ _ (fun i => Sum dim (fun a => v a * (orient (nth_sface faces i) c * N i a * (nthR (sf_cen (nth_sface faces i)) k - nthR x k)))%R)).
  2: { intros i Hi. rewrite F by lia. unfold dot. rewrite <- Sum_scal, <- Sum_scal_r. apply Sum_ext. intros a Ha. ring. }
  rewrite Sum_swap. rewrite (Sum_ext _ _ (fun a => nthR vol c * (v a * ident a k))%R).
  2: { intros a Ha. rewrite Sum_scal. rewrite (C a k Ha Hk). ring. }
  rewrite Sum_scal, Sum_ident_r by exact Hk. field. exact V.
Qed.
