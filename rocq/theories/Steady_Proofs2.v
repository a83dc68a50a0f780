From Coq Require Import Lra.
From Verif Require Import BaseFacts RBaseFacts Steady_Model Steady_Spec Steady_Proofs.
Open Scope Z_scope.

Lemma margin_pos : (0 < sat_margin)%R.
Proof. unfold sat_margin. lra. Qed.

(* ---- C37 *)
Definition clampv (lo hi x : R) : R := smin (hi - sat_margin)%R (smax (lo + sat_margin)%R x).
Lemma limits_get lo hi s c x : zget s c = Some x -> zget (init_sat_limits lo hi s) c = Some (clampv (lo c) (hi c) x).
Proof.
  intros H. unfold init_sat_limits. rewrite zget_map.
  pose proof (zget_Some_range _ _ _ H). pose proof (zget_zrange 0 (zlen s) c ltac:(lia)) as Q. rewrite Z.add_0_l in Q.
  rewrite (zget_combine _ _ _ _ _ Q H). reflexivity.
Qed.
Lemma combine_zlen {A B} (l : list A) (l' : list B) : zlen l = zlen l' -> zlen (combine l l') = zlen l.
Proof. unfold zlen. rewrite combine_length. lia. Qed.
Lemma limits_len lo hi s : zlen (init_sat_limits lo hi s) = zlen s.
Proof.
  unfold init_sat_limits. pose proof (zlen_nonneg s).
  rewrite zlen_map, combine_zlen; rewrite zlen_zrange by lia; lia.
Qed.
Lemma clampv_spec lo hi x : let y := clampv lo hi x in
  (y <= hi - sat_margin)%R /\ (lo + sat_margin <= hi - sat_margin -> lo + sat_margin <= y)%R /\
  (lo + sat_margin <= x <= hi - sat_margin -> y = x)%R /\
  (x <= lo + sat_margin <= hi - sat_margin -> y = lo + sat_margin)%R /\
  (hi - sat_margin <= x -> y = hi - sat_margin)%R /\
  (hi - sat_margin <= lo + sat_margin -> y = hi - sat_margin)%R.
Proof. cbv zeta. unfold clampv. pose proof margin_pos. minmax; repeat split; intros; lra. Qed.
Lemma clampv_idem lo hi x : clampv lo hi (clampv lo hi x) = clampv lo hi x.
Proof. unfold clampv. minmax; lra. Qed.
Lemma limits_idem lo hi s : init_sat_limits lo hi (init_sat_limits lo hi s) = init_sat_limits lo hi s.
Proof.
  apply zlist_ext; [now rewrite !limits_len|]. intros i Hi.
  rewrite !limits_len in Hi. destruct (zget_in_range s i Hi) as (x & Hx).
  pose proof (limits_get lo hi s i x Hx) as A. pose proof (limits_get lo hi _ i _ A) as B.
  rewrite A, B. now rewrite clampv_idem.
Qed.

Lemma limits_ok lo hi s : zlen (init_sat_limits lo hi s) = zlen s /\
  init_sat_limits lo hi (init_sat_limits lo hi s) = init_sat_limits lo hi s /\
  forall c x, zget s c = Some x -> exists y, zget (init_sat_limits lo hi s) c = Some y /\
    (y <= hi c - / 10000)%R /\
    (2 * / 10000 <= hi c - lo c -> lo c + / 10000 <= y)%R /\
    (lo c + / 10000 <= x <= hi c - / 10000 -> y = x)%R /\
    (2 * / 10000 <= hi c - lo c -> x <= lo c + / 10000 -> y = lo c + / 10000)%R /\
    (hi c - / 10000 <= x -> y = hi c - / 10000)%R /\
    (hi c - lo c <= 2 * / 10000 -> y = hi c - / 10000)%R /\
    (lo c <= y <= hi c <-> / 10000 <= hi c - lo c)%R.
Proof.
  split; [apply limits_len|]. split; [apply limits_idem|]. intros c x H. exists (clampv (lo c) (hi c) x).
  split; [now apply limits_get|]. pose proof (clampv_spec (lo c) (hi c) x) as Q. cbv zeta in Q.
  unfold sat_margin in Q. destruct Q as (Q1 & Q2 & Q3 & Q4 & Q5 & Q6).
  repeat split; auto; intros; lra.
Qed.

(* ---- C38 *)
Lemma both_ok sw : exists sb, water_to_both sw = Ok sb /\ zlen sb = 2 * zlen sw /\
  (forall i x, zget sw i = Some x -> zget sb (2 * i) = Some x /\ zget sb (2 * i + 1) = Some (1 - x)%R).
Proof.
  unfold water_to_both. pose proof (zlen_nonneg sw) as Hn.
  destruct (foldM_inv (fun sb i =>
      let* s := rget sw i in
      let* sb1 := rset sb (2 * i) s in
      rset sb1 (2 * i + 1) (1 - s)%R)
     (fun l sb => zlen sb = 2 * zlen sw /\ forall i x, In i l -> zget sw i = Some x ->
         zget sb (2 * i) = Some x /\ zget sb (2 * i + 1) = Some (1 - x)%R)
     (zrange 0 (zlen sw)) (zrepeat 0%R (2 * zlen sw))) as (sb & E & L & H).
  - split; [apply zlen_zrepeat; lia|]. intros i x [].
  - intros done i sb Hi (L & H). apply In_zrange in Hi.
    destruct (rget_range sw i ltac:(lia)) as (x & Ex & Gx). rewrite Ex. cbn [bind].
    destruct (rset_exists sb (2 * i) x ltac:(lia)) as (sb1 & E1 & L1 & G1 & K1). rewrite E1. cbn [bind].
    destruct (rset_exists sb1 (2 * i + 1) (1 - x)%R ltac:(lia)) as (sb2 & E2 & L2 & G2 & K2).
    exists sb2. split; auto. split; [lia|]. intros j y Hj Gy. apply in_app_or in Hj.
    destruct (Z.eq_dec j i) as [->|Hne].
    + assert (y = x) by congruence. subst y. rewrite K2 by lia. auto.
    + destruct Hj as [Hj|[Q|[]]]; [|congruence]. rewrite !K2, !K1 by lia. auto.
  - exists sb. split; auto. split; auto. intros i x G. apply H; auto.
    apply In_zrange. apply zget_Some_range in G. lia.
Qed.

Lemma passes n stride offset : 0 < stride -> 0 <= offset < n ->
  (forall di, 0 <= di -> (di < (n - offset + stride - 1) / stride <-> offset + di * stride < n)) /\
  (n mod stride <= offset -> (n - offset + stride - 1) / stride <= n / stride) /\
  (offset < n mod stride -> (n - offset + stride - 1) / stride = n / stride + 1).
Proof.
  intros Hs Ho. pose proof (Z.div_mod n stride ltac:(lia)) as E. pose proof (Z.mod_pos_bound n stride Hs) as B.
  set (q := n / stride) in *. set (r := n mod stride) in *. clearbody q r.
  split; [|split].
  - intros di Hd. pose proof (Z.div_mod (n - offset + stride - 1) stride ltac:(lia)) as F.
    pose proof (Z.mod_pos_bound (n - offset + stride - 1) stride Hs) as C.
    set (k := (n - offset + stride - 1) / stride) in *. set (u := (n - offset + stride - 1) mod stride) in *. clearbody k u.
    split; intros; nia.
  - intros L. enough ((n - offset + stride - 1) / stride < q + 1) by lia. apply Z.div_lt_upper_bound; lia.
  - intros L. symmetry. apply Z.div_unique with (r := r - offset - 1); nia.
Qed.

Lemma destripe_gen {A} (zero : A) (v : list A) stride offset : 0 < stride -> 0 <= offset ->
  (zlen v mod stride <= offset ->
     exists dst, destripe zero v stride offset = Ok dst /\ zlen dst = zlen v / stride /\
       forall di, 0 <= di < zlen v / stride ->
         zget dst di = if offset + di * stride <? zlen v then zget v (offset + di * stride) else Some zero) /\
  (offset < zlen v mod stride -> destripe zero v stride offset = UB).
Proof.
  intros Hs Ho. unfold destripe. destruct (Z.leb_spec stride 0); [lia|].
  pose proof (zlen_nonneg v) as Hn. set (n := if zlen v <=? offset then 0 else (zlen v - offset + stride - 1) / stride).
  assert (Hq : 0 <= zlen v / stride) by (apply Z.div_pos; lia).
  assert (Hpass : 0 <= n /\ forall di, 0 <= di -> (di < n <-> offset + di * stride < zlen v)).
  { subst n. destruct (Z.leb_spec (zlen v) offset).
    - split; [lia|]. intros; nia.
    - destruct (passes (zlen v) stride offset Hs ltac:(lia)) as (P & _). split; auto.
      apply Z.div_pos; lia. }
  assert (Step : forall m, 0 <= m <= n -> m <= zlen v / stride ->
     exists dst, foldM (fun dst di => let* x := rget v (offset + di * stride) in rset dst di x)
          (zrange 0 m) (zrepeat zero (zlen v / stride)) = Ok dst /\ zlen dst = zlen v / stride /\
          (forall di, 0 <= di < zlen v / stride -> zget dst di = if di <? m then zget v (offset + di * stride) else Some zero)).
  { intros m Hm Hm2.
    destruct (foldM_split_inv (fun dst di => let* x := rget v (offset + di * stride) in rset dst di x)
       (fun l dst => zlen dst = zlen v / stride /\
          (forall di, 0 <= di < zlen v / stride -> zget dst di = if di <? zlen l then zget v (offset + di * stride) else Some zero))
       (zrange 0 m) (zrepeat zero (zlen v / stride))) as (dst & E & L & H1).
    - split; [apply zlen_zrepeat; lia|]. intros di Hd. change (zlen (@nil Z)) with 0.
      destruct (Z.ltb_spec di 0); [lia|]. now apply zget_zrepeat.
    - intros done a rest dst Eq (L & H1).
      assert (Ha : a = zlen done).
      { assert (Q : zget (zrange 0 m) (zlen done) = Some a).
        { rewrite Eq, zget_app_r by lia. replace (zlen done - zlen done) with 0 by lia. reflexivity. }
        pose proof (zget_Some_range _ _ _ Q) as B. rewrite zlen_zrange in B by lia.
        rewrite zget_zrange in Q by lia. injection Q. lia. }
      assert (B : 0 <= a < m). { apply In_zrange. rewrite Eq. apply in_or_app; right; left; auto. }
      destruct (rget_range v (offset + a * stride)) as (x & Ex & Gx).
      { split; [nia|]. apply Hpass; lia. }
      rewrite Ex. cbn [bind]. destruct (rset_exists dst a x ltac:(lia)) as (d2 & E2 & L2 & G2 & K2).
      exists d2. split; auto. split; [lia|]. intros di Hd. rewrite zlen_app. change (zlen [a]) with 1.
      destruct (Z.eq_dec di a) as [->|Hne].
      + destruct (Z.ltb_spec a (zlen done + 1)); [|lia]. congruence.
      + rewrite K2 by lia. rewrite H1 by lia. destruct (Z.ltb_spec di (zlen done)), (Z.ltb_spec di (zlen done + 1)); auto; lia.
    - exists dst. split; auto. split; auto. intros di Hd. rewrite H1 by lia. rewrite zlen_zrange by lia. now rewrite Z.sub_0_r. }
  split.
  - intros Hr. assert (Hle : n <= zlen v / stride).
    { subst n. destruct (Z.leb_spec (zlen v) offset); [lia|]. apply (passes (zlen v) stride offset); auto; lia. }
    destruct (Step n ltac:(lia) Hle) as (dst & E & L & G). exists dst. split; auto. split; auto.
    intros di Hd. rewrite G by lia. destruct (proj2 Hpass di ltac:(lia)).
    destruct (Z.ltb_spec di n), (Z.ltb_spec (offset + di * stride) (zlen v)); auto; lia.
  - intros Hr. pose proof (Z.mod_le (zlen v) stride Hn Hs).
    assert (Hle : n = zlen v / stride + 1).
    { subst n. destruct (Z.leb_spec (zlen v) offset); [lia|]. apply (passes (zlen v) stride offset); auto; lia. }
    destruct (Step (zlen v / stride) ltac:(lia) ltac:(lia)) as (dst & E & L & G).
    rewrite Hle. rewrite (zrange_app 0 (zlen v / stride)) by lia. rewrite foldM_app, E. cbn [bind].
    rewrite (zrange_cons (zlen v / stride)) by lia. cbn [foldM].
    destruct (rget_range v (offset + (zlen v / stride) * stride)) as (x & Ex & Gx).
    { split; [nia|]. apply Hpass; lia. }
    rewrite Ex. cbn [bind]. unfold rset. rewrite L. rewrite Z.ltb_irrefl, andb_false_r. reflexivity.
Qed.

Lemma destripe_both sw : exists sb, water_to_both sw = Ok sb /\
  destripe 0%R sb 2 0 = Ok sw /\ destripe 0%R sb 2 1 = Ok (map (fun s => 1 - s)%R sw).
Proof.
  destruct (both_ok sw) as (sb & E & L & G). exists sb. split; auto.
  assert (M : zlen sb mod 2 = 0) by (rewrite L, Z.mul_comm; apply Z.mod_mul; lia).
  assert (D : zlen sb / 2 = zlen sw) by (rewrite L, Z.mul_comm; apply Z.div_mul; lia).
  destruct (destripe_gen 0%R sb 2 0 ltac:(lia) ltac:(lia)) as ((d0 & E0 & L0 & G0) & _); [lia|].
  destruct (destripe_gen 0%R sb 2 1 ltac:(lia) ltac:(lia)) as ((d1 & E1 & L1 & G1) & _); [lia|].
  rewrite E0, E1. split; f_equal; apply zlist_ext; rewrite ?zlen_map; try congruence.
  - intros i Hi. destruct (zget_in_range sw i ltac:(lia)) as (x & Hx). rewrite G0 by lia.
    destruct (Z.ltb_spec (0 + i * 2) (zlen sb)); [|lia]. replace (0 + i * 2) with (2 * i) by lia.
    rewrite Hx. now apply G.
  - intros i Hi. destruct (zget_in_range sw i ltac:(lia)) as (x & Hx). rewrite G1 by lia.
    destruct (Z.ltb_spec (1 + i * 2) (zlen sb)); [|lia]. replace (1 + i * 2) with (2 * i + 1) by lia.
    rewrite zget_map, Hx. now apply G.
Qed.

(* ---- C39 *)
Lemma inflow_Rltb f : Rltb (io_flux f) 0 = inflow f.
Proof. unfold inflow. destruct (Rltb_spec (io_flux f) 0), (Rlt_dec (io_flux f) 0); auto; lra. Qed.
Lemma outflow_inflow f : outflow f = negb (inflow f).
Proof. unfold outflow, inflow. destruct (Rlt_dec (io_flux f) 0); auto. Qed.
Lemma sum_over_app {A} (f : A -> R) l l' : sum_over f (l ++ l') = (sum_over f l + sum_over f l')%R.
Proof. unfold sum_over. now rewrite map_app, Rsum_app. Qed.
Lemma sum_over_1 {A} (f : A -> R) a : sum_over f [a] = f a.
Proof. unfold sum_over. cbn. rewrite Rsum_cons, Rsum_nil. ring. Qed.

Lemma periodic_dec f : periodic_face f \/ ~ periodic_face f.
Proof. unfold periodic_face. destruct (c_type (io_cond f)); auto; right; discriminate. Qed.

Lemma out_pass ff sat faces : (forall f, In f faces -> 0 <= io_cell f < zlen sat) ->
  exists m, foldM (io_out ff sat) faces ((0, 0)%R, []) =
    Ok ((sum_over (fun f => io_flux f * out_frac ff sat f)%R (filter outflow faces),
         sum_over (fun f => io_flux f * (1 - out_frac ff sat f))%R (filter outflow faces)), m) /\
    (forall b x, In (b, x) m <-> exists o, In o faces /\ periodic_face o /\ outflow o = true /\ io_bid o = b /\ x = out_frac ff sat o).
Proof.
  intros Hc.
  destruct (foldM_inv (io_out ff sat) (fun l st =>
     fst st = (sum_over (fun f => io_flux f * out_frac ff sat f)%R (filter outflow l),
         sum_over (fun f => io_flux f * (1 - out_frac ff sat f))%R (filter outflow l)) /\
     (forall b x, In (b, x) (snd st) <-> exists o, In o l /\ periodic_face o /\ outflow o = true /\ io_bid o = b /\ x = out_frac ff sat o))
     faces ((0, 0)%R, [])) as ([s m] & E & H1 & H2).
  - cbn. split; auto. intros b x. split; [tauto|]. intros (o & [] & _).
  - intros done f [s m] Hf (H1 & H2). cbn [fst snd] in *. unfold io_out. rewrite inflow_Rltb.
    destruct (inflow f) eqn:If.
    + exists (s, m). split; auto. cbn [fst snd]. rewrite filter_app. cbn [filter]. rewrite outflow_inflow, If. cbn [negb].
      rewrite app_nil_r. split; auto. intros b x. rewrite H2. split; intros (o & Ho & R).
      * exists o. rewrite in_app_iff. auto.
      * apply in_app_or in Ho. destruct Ho as [Ho|[<-|[]]]; [eauto|].
        rewrite outflow_inflow, If in R. destruct R as (_ & R & _). discriminate.
    + rewrite (proj2 (rget_Ok sat _ _) (zget_nthR sat _ (Hc f Hf))). cbn [bind].
      eexists; split; [reflexivity|]. cbn [fst snd]. rewrite filter_app. cbn [filter]. rewrite outflow_inflow, If. cbn [negb].
      rewrite !sum_over_app, !sum_over_1. rewrite H1. cbn [fst snd]. split; [reflexivity|].
      fold (out_frac ff sat f). intros b x. split.
      * intros I. assert (Q : (periodic_face f /\ b = io_bid f /\ x = out_frac ff sat f) \/ In (b, x) m).
        { unfold periodic_face. destruct (c_type (io_cond f)); auto. destruct I as [I|I]; auto. left.
          injection I as <- <-. auto. }
        destruct Q as [(Q1 & -> & ->)|Q].
        -- exists f. rewrite in_app_iff, outflow_inflow, If. cbn. auto 10.
        -- apply H2 in Q. destruct Q as (o & Ho & R). exists o. rewrite in_app_iff. auto.
      * intros (o & Ho & R1 & R2 & R3 & R4). apply in_app_or in Ho. destruct Ho as [Ho|[<-|[]]].
        -- assert (In (b, x) m) by (apply H2; eauto 10). destruct (c_type (io_cond f)); auto. right; auto.
        -- unfold periodic_face in R1. rewrite R1. left. subst; auto.
  - exists m. rewrite E. split; [|exact H2]. cbn in H1. now rewrite H1.
Qed.

Lemma bid_find_In m b x : bid_find m b = Some x -> In (b, x) m.
Proof.
  induction m as [|[k y] t IH]; cbn; [discriminate|]. destruct (Z.eqb_spec k b); [intros E; injection E as <-; subst; auto|auto].
Qed.
Lemma bid_find_None m b : bid_find m b = None -> forall x, ~ In (b, x) m.
Proof.
  induction m as [|[k y] t IH]; cbn; [tauto|]. destruct (Z.eqb_spec k b); [discriminate|].
  intros E x [Q|Q]; [congruence|]. eapply IH; eauto.
Qed.

Definition infrac_m (ff : Z -> R -> R) (m : list (Z * R)) (f : ioface) : R :=
  match c_type (io_cond f) with
  | Periodic => match bid_find m (io_partner f) with Some x => x | None => 0%R end
  | _ => ff (io_cell f) (c_val (io_cond f))
  end.
Lemma in_pass ff m faces :
  (forall f, In f faces -> inflow f = true -> periodic_face f -> bid_find m (io_partner f) <> None) ->
  foldM (io_in ff m) faces (0, 0)%R =
    Ok (sum_over (fun f => io_flux f * infrac_m ff m f)%R (filter inflow faces),
        sum_over (fun f => io_flux f * (1 - infrac_m ff m f))%R (filter inflow faces)).
Proof.
  intros Hc.
  destruct (foldM_inv (io_in ff m) (fun l st =>
     st = (sum_over (fun f => io_flux f * infrac_m ff m f)%R (filter inflow l),
        sum_over (fun f => io_flux f * (1 - infrac_m ff m f))%R (filter inflow l))) faces (0, 0)%R) as (s & E & ->); auto.
  intros done f s Hf ->. unfold io_in. rewrite inflow_Rltb. rewrite !filter_app, !sum_over_app. cbn [filter].
  destruct (inflow f) eqn:If.
  - rewrite !sum_over_1. cbn [fst snd]. specialize (Hc f Hf If). unfold periodic_face in Hc.
    assert (Ev : (match c_type (io_cond f) with
               | Periodic => match bid_find m (io_partner f) with Some x => Ok x | None => Throw end
               | _ => Ok (ff (io_cell f) (c_val (io_cond f)))
               end) = Ok (infrac_m ff m f)).
    { unfold infrac_m. destruct (c_type (io_cond f)); auto.
      destruct (bid_find m (io_partner f)); auto. exfalso; now apply Hc. }
    rewrite Ev. cbn [bind]. eexists; split; reflexivity.
  - eexists; split; [reflexivity|]. change (filter inflow []) with (@nil ioface). unfold sum_over. cbn [map]. rewrite !Rsum_nil, !Rplus_0_r. auto.
Qed.

Definition partnered (faces : list ioface) (f : ioface) : Prop :=
  inflow f = true -> periodic_face f -> exists o, In o faces /\ periodic_face o /\ outflow o = true /\ io_bid o = io_partner f.

Lemma in_out_ok ff sat faces : (forall f, In f faces -> 0 <= io_cell f < zlen sat) ->
  (forall f, In f faces -> partnered faces f) ->
  exists infr, (forall f, In f faces -> inflow f = true -> in_frac ff sat faces f (infr f)) /\
    in_out_flows ff sat faces =
      Ok ((sum_over (fun f => io_flux f * infr f)%R (filter inflow faces),
           sum_over (fun f => io_flux f * out_frac ff sat f)%R (filter outflow faces)),
          (sum_over (fun f => io_flux f * (1 - infr f))%R (filter inflow faces),
           sum_over (fun f => io_flux f * (1 - out_frac ff sat f))%R (filter outflow faces))).
Proof.
  intros Hc Hp. destruct (out_pass ff sat faces Hc) as (m & E & Hm). exists (infrac_m ff m).
  assert (F : forall f, In f faces -> inflow f = true -> periodic_face f -> bid_find m (io_partner f) <> None).
  { intros f Hf If Pf Q. destruct (Hp f Hf If Pf) as (o & A & B & C & D).
    apply (bid_find_None _ _ Q (out_frac ff sat o)). apply Hm. eauto 10. }
  split.
  - intros f Hf If. split.
    + intros Pf. specialize (F f Hf If Pf). unfold infrac_m. unfold periodic_face in Pf. rewrite Pf.
      destruct (bid_find m (io_partner f)) as [x|] eqn:Ex; [|congruence]. apply bid_find_In in Ex. apply Hm in Ex. exact Ex.
    + intros Nf. unfold infrac_m, periodic_face in *. destruct (c_type (io_cond f)); auto; congruence.
  - unfold in_out_flows. rewrite E. cbn [bind fst snd]. rewrite in_pass by exact F. reflexivity.
Qed.

Lemma in_out_throw ff sat faces f : (forall f, In f faces -> 0 <= io_cell f < zlen sat) ->
  In f faces -> ~ partnered faces f -> in_out_flows ff sat faces = Throw.
Proof.
  intros Hc Hf Np. destruct (out_pass ff sat faces Hc) as (m & E & Hm). unfold in_out_flows. rewrite E. cbn [bind snd].
  assert (Q : inflow f = true /\ periodic_face f /\ bid_find m (io_partner f) = None).
  { destruct (inflow f) eqn:If; [|exfalso; apply Np; unfold partnered; congruence].
    destruct (periodic_dec f) as [Pf|Pf]; [|exfalso; apply Np; unfold partnered; tauto].
    split; auto. split; auto. destruct (bid_find m (io_partner f)) as [x|] eqn:Ex; auto.
    exfalso. apply Np. intros _ _. apply bid_find_In, Hm in Ex. destruct Ex as (o & A & B & C & D & _). eauto 10. }
  destruct Q as (If & Pf & Nf).
  assert (G : forall l st, In f l -> foldM (io_in ff m) l st = Throw).
  { induction l as [|a t IH]; intros st I; [destruct I|]. cbn [foldM].
    destruct I as [->|I].
    - unfold io_in at 1. rewrite inflow_Rltb, If. unfold periodic_face in Pf. rewrite Pf, Nf. reflexivity.
    - assert (Z0 : io_in ff m st a = Throw \/ exists s', io_in ff m st a = Ok s').
      { unfold io_in. destruct (Rltb (io_flux a) 0); [|eauto]. destruct (c_type (io_cond a)); cbn; eauto.
        destruct (bid_find m (io_partner a)); cbn; eauto. }
      destruct Z0 as [->|(s' & ->)]; cbn [bind]; auto. }
  rewrite G by exact Hf. reflexivity.
Qed.

(* ---- C40 *)
Lemma sweep_get n i (g : Z -> R) : 0 <= i < n -> zget (map g (zrange 0 n)) i = Some (g i).
Proof. intros H. rewrite zget_map, zget_zrange by lia. reflexivity. Qed.

Lemma factor_props n : 2 <= n -> sweep_factor n 0 = 0%R /\ sweep_factor n (n - 1) = 1%R /\
  (forall i, sweep_factor n (i + 1) = sweep_factor n i + 1 / IZR (n - 1))%R /\
  (forall i j, i < j -> (sweep_factor n i < sweep_factor n j)%R) /\
  (forall i, 0 <= i < n -> (0 <= sweep_factor n i <= 1)%R).
Proof.
  intros Hn. unfold sweep_factor. destruct (Z.eqb_spec n 1); [lia|].
  assert (P : (0 < IZR (n - 1))%R) by (apply IZR_lt; lia).
  split; [field; lra|]. split; [field; lra|]. split; [intros i; rewrite plus_IZR; field; lra|]. split.
  - intros i j H. apply Rmult_lt_compat_r; [now apply Rinv_0_lt_compat|]. now apply IZR_lt.
  - intros i H. split.
    + apply Rmult_le_pos; [apply IZR_le; lia|]. left; now apply Rinv_0_lt_compat.
    + apply (Rmult_le_reg_r (IZR (n - 1))); auto. unfold Rdiv. rewrite Rmult_assoc, Rinv_l by lra.
      rewrite Rmult_1_r, Rmult_1_l. apply IZR_le; lia.
Qed.

Lemma sat_sweep_ok n lo hi : 2 <= n -> zlen (sat_sweep n lo hi) = n /\
  zget (sat_sweep n lo hi) 0 = Some lo /\ zget (sat_sweep n lo hi) (n - 1) = Some hi /\
  (forall i x y, zget (sat_sweep n lo hi) i = Some x -> zget (sat_sweep n lo hi) (i + 1) = Some y ->
      (y - x = (hi - lo) / IZR (n - 1))%R) /\
  (forall i j x y, (lo < hi)%R -> i < j -> zget (sat_sweep n lo hi) i = Some x -> zget (sat_sweep n lo hi) j = Some y -> (x < y)%R).
Proof.
  intros Hn. destruct (factor_props n Hn) as (F0 & F1 & F2 & F3 & F4). unfold sat_sweep.
  split; [rewrite zlen_map, zlen_zrange; lia|].
  rewrite !sweep_get by lia. rewrite F0, F1. split; [f_equal; ring|]. split; [f_equal; ring|]. split.
  - intros i x y Hx Hy. pose proof (zget_Some_range _ _ _ Hx) as B1. pose proof (zget_Some_range _ _ _ Hy) as B2.
    rewrite zlen_map, zlen_zrange in B1, B2 by lia. rewrite sweep_get in Hx by lia. rewrite sweep_get in Hy by lia.
    injection Hx as <-. injection Hy as <-. rewrite F2. field. apply not_0_IZR. lia.
  - intros i j x y Hl Hij Hx Hy. pose proof (zget_Some_range _ _ _ Hx) as B1. pose proof (zget_Some_range _ _ _ Hy) as B2.
    rewrite zlen_map, zlen_zrange in B1, B2 by lia. rewrite sweep_get in Hx by lia. rewrite sweep_get in Hy by lia.
    injection Hx as <-. injection Hy as <-. specialize (F3 i j Hij). nra.
Qed.

Lemma ln_div_aux a b : (0 < a)%R -> (0 < b)%R -> (ln (a / b) = ln a - ln b)%R.
Proof. intros. unfold Rdiv. rewrite ln_mult, ln_Rinv; auto using Rinv_0_lt_compat; ring. Qed.
Lemma pdrop_sweep_ok n lo hi : 2 <= n -> (0 < lo)%R -> (0 < hi)%R -> zlen (pdrop_sweep n lo hi) = n /\
  zget (pdrop_sweep n lo hi) 0 = Some lo /\ zget (pdrop_sweep n lo hi) (n - 1) = Some hi /\
  (forall i x y, zget (pdrop_sweep n lo hi) i = Some x -> zget (pdrop_sweep n lo hi) (i + 1) = Some y ->
      (0 < x)%R /\ (y = x * Rpower (hi / lo) (/ IZR (n - 1)))%R) /\
  (forall i j x y, (lo < hi)%R -> i < j -> zget (pdrop_sweep n lo hi) i = Some x -> zget (pdrop_sweep n lo hi) j = Some y -> (x < y)%R).
Proof.
  intros Hn Hl Hh. destruct (factor_props n Hn) as (F0 & F1 & F2 & F3 & F4). unfold pdrop_sweep.
  split; [rewrite zlen_map, zlen_zrange; lia|].
  rewrite !sweep_get by lia. rewrite F0, F1.
  split; [f_equal; replace ((1 - 0) * ln lo + 0 * ln hi)%R with (ln lo) by ring; now apply exp_ln|].
  split; [f_equal; replace ((1 - 1) * ln lo + 1 * ln hi)%R with (ln hi) by ring; now apply exp_ln|]. split.
  - intros i x y Hx Hy. pose proof (zget_Some_range _ _ _ Hx) as B1. pose proof (zget_Some_range _ _ _ Hy) as B2.
    rewrite zlen_map, zlen_zrange in B1, B2 by lia. rewrite sweep_get in Hx by lia. rewrite sweep_get in Hy by lia.
    injection Hx as <-. injection Hy as <-. split; [apply exp_pos|]. rewrite F2. unfold Rpower. rewrite <- exp_plus. f_equal.
    rewrite ln_div_aux by assumption. field. apply not_0_IZR. lia.
  - intros i j x y Hlt Hij Hx Hy. pose proof (zget_Some_range _ _ _ Hx) as B1. pose proof (zget_Some_range _ _ _ Hy) as B2.
    rewrite zlen_map, zlen_zrange in B1, B2 by lia. rewrite sweep_get in Hx by lia. rewrite sweep_get in Hy by lia.
    injection Hx as <-. injection Hy as <-. specialize (F3 i j Hij). apply exp_increasing.
    pose proof (ln_increasing lo hi Hl Hlt). nra.
Qed.

(* ---- C41 *)
Lemma last_success_app a b init : last_success (a ++ b) init = last_success b (last_success a init).
Proof. revert init; induction a as [|r a IH]; intros init; cbn; auto. Qed.

Lemma series_len limits run pd : forall before init, zlen (sat_series limits run before init pd) = zlen pd.
Proof.
  unfold zlen. induction pd as [|p t IH]; intros before init; [reflexivity|]. cbn [sat_series length].
  specialize (IH (before ++ [mkRun p (limits init) (fst (run before p (limits init))) (snd (run before p (limits init)))])
     (if fst (run before p (limits init)) then snd (run before p (limits init)) else limits init)). lia.
Qed.
Lemma series_ok limits run : (forall s, limits (limits s) = limits s) -> forall pd before init k r,
  zget (sat_series limits run before init pd) k = Some r ->
  let prev := firstn (Z.to_nat k) (sat_series limits run before init pd) in
  zget pd k = Some (sr_pdrop r) /\
  sr_start r = limits (last_success prev init) /\
  run (before ++ prev) (sr_pdrop r) (sr_start r) = (sr_success r, sr_final r).
Proof.
  intros Hid. induction pd as [|p t IH]; intros before init k r H; cbv zeta.
  { apply zget_Some_range in H. unfold zlen in H; cbn in H; lia. }
  pose proof (zget_Some_range _ _ _ H) as B. cbn [sat_series] in *.
  set (r0 := mkRun p (limits init) (fst (run before p (limits init))) (snd (run before p (limits init)))) in *.
  set (nx := if fst (run before p (limits init)) then snd (run before p (limits init)) else limits init) in *.
  rewrite zget_nth in H by lia. destruct (Z.to_nat k) as [|n] eqn:En.
  - cbn in H. injection H as <-. cbn [firstn]. rewrite app_nil_r. subst r0. cbn [sr_pdrop sr_start sr_success sr_final last_success].
    rewrite zget_nth by lia. rewrite En. cbn. split; auto. split; auto. now destruct (run before p (limits init)).
  - cbn [nth_error] in H. assert (H' : zget (sat_series limits run (before ++ [r0]) nx t) (k - 1) = Some r).
    { rewrite zget_nth by lia. replace (Z.to_nat (k - 1)) with n by lia. auto. }
    specialize (IH _ _ _ _ H'). cbv zeta in IH. replace (Z.to_nat (k - 1)) with n in IH by lia.
    destruct IH as (I1 & I2 & I3). cbn [firstn]. split.
    { rewrite zget_nth in I1 by lia. rewrite zget_nth by lia. rewrite En. replace (Z.to_nat (k - 1)) with n in I1 by lia. auto. }
    split.
    + rewrite I2. cbn [last_success]. subst r0 nx. cbn [sr_success sr_final].
      destruct (fst (run before p (limits init))); auto.
      generalize (firstn n (sat_series limits run (before ++ [mkRun p (limits init) false (snd (run before p (limits init)))]) (limits init) t)).
      intros l. clear - Hid. revert init; induction l as [|x l IHl]; intros init; cbn; auto.
      destruct (sr_success x); auto.
    + rewrite <- app_assoc in I3. exact I3.
Qed.

Lemma manager_ok limits run cfl cl nc : (forall s, limits (limits s) = limits s) -> forall ctl before i s pd,
  zget ctl i = Some (s, pd) ->
  let all := manager_runs limits run cfl cl nc before ctl in
  zlen all = zlen ctl /\
  exists rs, zget all i = Some rs /\ zlen rs = zlen pd /\
    forall k r, zget rs k = Some r ->
      let prev := firstn (Z.to_nat k) rs in
      zget pd k = Some (sr_pdrop r) /\
      sr_start r = limits (last_success prev (start_profile cfl (cl s) nc s)) /\
      run (before ++ concat (firstn (Z.to_nat i) all) ++ prev) (sr_pdrop r) (sr_start r) = (sr_success r, sr_final r).
Proof.
  intros Hid. induction ctl as [|[s0 pd0] t IH]; intros before i s pd H; cbv zeta.
  { apply zget_Some_range in H. unfold zlen in H; cbn in H; lia. }
  assert (Hl : forall ctl before, zlen (manager_runs limits run cfl cl nc before ctl) = zlen ctl).
  { clear. unfold zlen. induction ctl as [|[s0 pd0] t IH]; intros before; [reflexivity|]. cbn [manager_runs length].
    specialize (IH (before ++ sat_series limits run before (start_profile cfl (cl s0) nc s0) pd0)). lia. }
  split; [apply Hl|]. pose proof (zget_Some_range _ _ _ H) as B.
  cbn [manager_runs]. set (rs0 := sat_series limits run before (start_profile cfl (cl s0) nc s0) pd0).
  rewrite zget_nth in H by lia. destruct (Z.to_nat i) as [|n] eqn:En.
  - cbn in H. injection H as -> ->. exists rs0. split; [rewrite zget_nth by lia; rewrite En; reflexivity|].
    split; [apply series_len|]. intros k r Hk. cbn [firstn concat app].
    exact (series_ok limits run Hid pd before _ k r Hk).
  - cbn [nth_error] in H. assert (H' : zget t (i - 1) = Some (s, pd)).
    { rewrite zget_nth by lia. replace (Z.to_nat (i - 1)) with n by lia. auto. }
    specialize (IH (before ++ rs0) _ _ _ H'). cbv zeta in IH. replace (Z.to_nat (i - 1)) with n in IH by lia.
    destruct IH as (_ & rs & G & L & K). exists rs. split.
    { rewrite zget_nth in G by lia. rewrite zget_nth by lia. rewrite En. replace (Z.to_nat (i - 1)) with n in G by lia. auto. }
    split; auto. intros k r Hk. specialize (K k r Hk). cbn [firstn concat]. rewrite <- !app_assoc in *. exact K.
Qed.

(* ---- C42 *)
Lemma row_iff K K' s s' p p' b b' : relperm_row K s p b = relperm_row K' s' p' b' <->
  s = s' /\ p = p' /\ b = b' /\ (forall i j, 0 <= i < 3 -> 0 <= j < 3 -> ~ (i = 1 /\ j = 0) -> K i j = K' i j).
Proof.
  unfold relperm_row. split.
  - intros E. injection E. intros. repeat split; auto. intros i j Hi Hj N.
    assert (Ci : i = 0 \/ i = 1 \/ i = 2) by lia. assert (Cj : j = 0 \/ j = 1 \/ j = 2) by lia.
    destruct Ci as [->|[->| ->]], Cj as [->|[->| ->]]; auto; exfalso; apply N; auto.
  - intros (-> & -> & -> & H). rewrite !H by lia. reflexivity.
Qed.

(* ---- C43 *)
Lemma skip_ws_app l s : forallb isWS l = true -> skip_ws (l ++ s) = skip_ws s.
Proof. induction l as [|[| |] l IH]; cbn; intros; try discriminate; auto. Qed.

Lemma read_nums_row (rnd : R -> R) row rest : sep rest = true ->
  read_nums (length row) (flat_map (fun x => [WS; TNum (rnd x)]) row ++ rest) = Some (map rnd row, rest).
Proof.
  intros Hs. induction row as [|x row IH]; cbn [length read_nums flat_map app map]; auto.
  unfold read_num. cbn [skip_ws]. 
  assert (S : sep (flat_map (fun x => [WS; TNum (rnd x)]) row ++ rest) = true) by (destruct row; auto).
  rewrite S, IH. reflexivity.
Qed.

Definition row_items (rnd : R -> R) (s : R) (row : list R) : list item :=
  [TNum (rnd s); WS; TInt (zlen row)] ++ flat_map (fun x => [WS; TNum (rnd x)]) row ++ [WS].

Lemma read_rows_items rnd l : forall pre, forallb isWS pre = true ->
  read_rows (length l) (pre ++ concat (map (fun sr : R * list R => row_items rnd (fst sr) (snd sr)) l)) =
    Some (map (fun sr : R * list R => (rnd (fst sr), map rnd (snd sr))) l).
Proof.
  induction l as [|[s row] l IH]; intros pre Hp; cbn [length read_rows map concat]; auto.
  unfold read_num. rewrite skip_ws_app by auto. unfold row_items at 1. rewrite <- !app_assoc. cbn [app fst snd skip_ws sep isWS].
  unfold read_int. cbn [skip_ws].
  set (tl := concat (map (fun sr : R * list R => row_items rnd (fst sr) (snd sr)) l)) in *.
  assert (S : sep (flat_map (fun x => [WS; TNum (rnd x)]) row ++ WS :: tl) = true) by (destruct row; auto).
  rewrite S. unfold zlen at 1; rewrite (Nat2Z.id (length row)). rewrite read_nums_row by reflexivity.
  change (WS :: tl) with ([WS] ++ tl). rewrite IH by reflexivity. reflexivity.
Qed.

Lemma combine_range_zip {A B} (l : list A) (l' : list B) : zlen l = zlen l' ->
  exists z : list (A * B), map fst z = l /\ map snd z = l' /\ z = combine l l'.
Proof.
  unfold zlen. intros H. apply Nat2Z.inj in H. exists (combine l l'). split; [|split; auto].
  - revert l' H; induction l as [|a l IH]; intros [|b l'] H; cbn in *; try discriminate; auto. f_equal; auto.
  - revert l' H; induction l as [|a l IH]; intros [|b l'] H; cbn in *; try discriminate; auto. f_equal; auto.
Qed.

Lemma write_rows rnd sats pdrops : zlen sats = zlen pdrops ->
  mapM (fun is =>
      let* row := rget pdrops (fst is) in
      Ok ([TNum (rnd (snd is)); WS; TInt (zlen row)] ++ flat_map (fun x => [WS; TNum (rnd x)]) row ++ [WS]))
    (combine (zrange 0 (zlen sats)) sats)
  = Ok (map (fun sr : R * list R => row_items rnd (fst sr) (snd sr)) (combine sats pdrops)).
Proof.
  intros HL. apply mapM_Ok.
  assert (G : forall k, (k <= length sats)%nat -> Forall2 (fun a b =>
     (let* row := rget pdrops (fst a) in
      Ok ([TNum (rnd (snd a)); WS; TInt (zlen row)] ++ flat_map (fun x => [WS; TNum (rnd x)]) row ++ [WS])) = Ok b)
     (combine (zrange (Z.of_nat k) (zlen sats)) (skipn k sats)) (map (fun sr : R * list R => row_items rnd (fst sr) (snd sr)) (combine (skipn k sats) (skipn k pdrops)))).
  2:{ specialize (G 0%nat ltac:(lia)). exact G. }
  intros k Hk. remember (length sats - k)%nat as m eqn:Em. revert k Hk Em. induction m as [|m IH]; intros k Hk Em.
  - rewrite (skipn_all2 sats) by lia. rewrite zrange_empty by (unfold zlen; lia). constructor.
  - destruct (nth_error sats k) as [s|] eqn:Es; [|apply nth_error_None in Es; lia].
    destruct (nth_error pdrops k) as [row|] eqn:Er; [|apply nth_error_None in Er; unfold zlen in HL; lia].
    assert (S1 : skipn k sats = s :: skipn (S k) sats).
    { clear - Es. revert k Es; induction sats as [|a l IH]; intros [|k] H; cbn in *; try discriminate; auto. congruence. }
    assert (S2 : skipn k pdrops = row :: skipn (S k) pdrops).
    { clear - Er. revert k Er; induction pdrops as [|a l IH]; intros [|k] H; cbn in *; try discriminate; auto. congruence. }
    rewrite S1, S2. rewrite zrange_cons by (unfold zlen; lia). cbn [combine map]. constructor.
    + cbn [fst snd]. unfold rget. rewrite zget_nth by lia. rewrite Nat2Z.id, Er. reflexivity.
    + replace (Z.of_nat k + 1) with (Z.of_nat (S k)) by lia. apply IH; lia.
Qed.

Lemma control_ok rnd sats pdrops : zlen sats = zlen pdrops ->
  exists s, write_control rnd sats pdrops = Ok s /\ read_control s = Some (map rnd sats, map (map rnd) pdrops).
Proof.
  intros HL. unfold write_control. rewrite write_rows by exact HL. cbn [bind]. eexists; split; [reflexivity|].
  unfold read_control, read_int. cbn [app skip_ws sep isWS].
  destruct (combine_range_zip sats pdrops HL) as (z & Z1 & Z2 & Z3). rewrite <- Z3.
  replace (Z.to_nat (zlen sats)) with (length z) by (rewrite <- Z1; unfold zlen; rewrite map_length; lia).
  change (WS :: concat (map (fun sr : R * list R => row_items rnd (fst sr) (snd sr)) z)) with
     ([WS] ++ concat (map (fun sr : R * list R => row_items rnd (fst sr) (snd sr)) z)).
  rewrite read_rows_items by reflexivity. cbn [option_map]. rewrite !map_map. cbn [fst snd].
  rewrite <- Z1, <- Z2, !map_map. reflexivity.
Qed.

Lemma map_fixed (rnd : R -> R) l : map rnd l = l <-> forall x, In x l -> rnd x = x.
Proof.
  split.
  - intros E x H. apply In_zget in H. destruct H as (i & _ & G). pose proof G as G2. rewrite <- E, zget_map, G in G2.
    cbn in G2. congruence.
  - intros H. rewrite <- (map_id l) at 2. apply map_ext_in. auto.
Qed.
Lemma control_lossless rnd sats pdrops : zlen sats = zlen pdrops ->
  ((exists s, write_control rnd sats pdrops = Ok s /\ read_control s = Some (sats, pdrops)) <->
   (forall x, In x sats -> rnd x = x) /\ (forall row x, In row pdrops -> In x row -> rnd x = x)).
Proof.
  intros HL. destruct (control_ok rnd sats pdrops HL) as (s & E & Rd). split.
  - intros (s' & E' & Rd'). rewrite E in E'. injection E' as <-. rewrite Rd in Rd'. injection Rd' as A B.
    split; [now apply map_fixed|]. intros row x Hr Hx.
    apply In_zget in Hr. destruct Hr as (i & _ & G). pose proof G as G2. rewrite <- B, zget_map, G in G2. cbn in G2.
    injection G2 as G2. revert x Hx. now apply map_fixed.
  - intros (A & B). exists s. split; auto. rewrite Rd. f_equal. f_equal; [now apply map_fixed|].
    rewrite <- (map_id pdrops) at 2. apply map_ext_in. intros row Hr. apply map_fixed. eauto.
Qed.

(* ---- mobilities *)
Lemma max_mob_spec l : forall m, (forall x, In x l -> (x <= max_mobility m l)%R) /\ (m <= max_mobility m l)%R /\
  (max_mobility m l = m \/ In (max_mobility m l) l).
Proof.
  unfold max_mobility. induction l as [|a l IH]; intros m; cbn [fold_left].
  - split; [intros x []|]. split; [lra|auto].
  - destruct (IH (smax m a)) as (A & B & C). rewrite smax_Rmax in *. pose proof (Rmax_l m a). pose proof (Rmax_r m a).
    split; [|split].
    + intros x [->|H1]; auto. lra.
    + lra.
    + destruct C as [C|C]; [|right; right; auto]. rewrite C. unfold Rmax in *. destruct (Rle_dec m a); [right; left|left]; auto.
Qed.
Lemma max_all_spec ms : forall m, (forall l x, In l ms -> In x l -> (x <= fold_left max_mobility ms m)%R) /\
  (m <= fold_left max_mobility ms m)%R /\ (fold_left max_mobility ms m = m \/ exists l, In l ms /\ In (fold_left max_mobility ms m) l).
Proof.
  induction ms as [|a ms IH]; intros m; cbn [fold_left].
  - split; [intros l x []|]. split; [lra|auto].
  - destruct (IH (max_mobility m a)) as (A & B & C). destruct (max_mob_spec a m) as (A1 & B1 & C1).
    split; [|split].
    + intros l x [->|Hl] Hx; [|eauto]. specialize (A1 _ Hx). lra.
    + lra.
    + destruct C as [C|(l & Hl & C)]; [|right; exists l; split; auto; right; auto]. rewrite C.
      destruct C1 as [C1|C1]; auto. right. exists a. split; auto. left; auto.
Qed.

Lemma mob_ok t mu con mobs : (0 <= t)%R -> (0 < mu)%R -> (1 <= con)%R ->
  let out := phase_mobilities t mu con mobs in
  zlen out = zlen mobs /\
  (forall c l, zget mobs c = Some l -> exists l', zget out c = Some l' /\ zlen l' = zlen l /\
     forall k x, zget l k = Some x -> exists y, zget l' k = Some y /\ (x <= y)%R /\ (t / mu <= y)%R /\
        (forall x', (exists c' l2, zget mobs c' = Some l2 /\ In x' l2) -> (x' <= con * y)%R) /\
        (y = x \/ y = (t / mu)%R \/ (y = 0)%R \/ exists c' l2 x', zget mobs c' = Some l2 /\ In x' l2 /\ y = (x' / con)%R)) /\
  (forall a b x y, In a out -> In x a -> In b out -> In y b -> (x <= con * y)%R).
Proof.
  intros Ht Hmu Hc. cbv zeta. unfold phase_mobilities.
  destruct (max_all_spec mobs 0%R) as (A & B & C). set (M := fold_left max_mobility mobs 0%R) in *. clearbody M.
  set (T := smax (t / mu)%R (M / con)%R).
  assert (Ic : (0 < / con <= 1)%R). { split; [apply Rinv_0_lt_compat; lra|]. rewrite <- Rinv_1. apply Rinv_le_contravar; lra. }
  assert (HM : (con * (M / con) = M)%R) by (field; lra).
  assert (Hmc : (0 <= M / con <= M)%R) by (unfold Rdiv; nra).
  assert (HT : (t / mu <= T /\ M / con <= T)%R) by (unfold T; rewrite smax_Rmax; split; [apply Rmax_l|apply Rmax_r]).
  assert (HT2 : T = (t / mu)%R \/ T = (M / con)%R).
  { unfold T. rewrite smax_Rmax. unfold Rmax. destruct (Rle_dec _ _); auto. }
  assert (Hd : (0 <= t / mu)%R) by (apply Rmult_le_pos; [lra|left; now apply Rinv_0_lt_compat]).
  split; [apply zlen_map|]. split.
  - intros c l Hl. rewrite zget_map, Hl. cbn [option_map]. eexists; split; [reflexivity|]. unfold threshold_mobility.
    split; [apply zlen_map|]. intros k x Hx. rewrite zget_map, Hx. cbn [option_map]. eexists; split; [reflexivity|].
    rewrite smax_Rmax. pose proof (Rmax_l x T). pose proof (Rmax_r x T). split; auto. split; [lra|]. split.
    + intros x' (c' & l2 & G & I). apply zget_In in G. specialize (A _ _ G I). nra.
    + unfold Rmax. destruct (Rle_dec x T); auto. right. destruct HT2 as [->| ->]; auto. right.
      destruct C as [C|(l2 & I & J)].
      * left. rewrite C. unfold Rdiv. ring.
      * right. apply In_zget in I. destruct I as (c' & _ & G). exists c', l2, M. auto.
  - intros a b x y Ia Ix Ib Iy. apply in_map_iff in Ia. destruct Ia as (l & <- & Il). apply in_map_iff in Ib. destruct Ib as (l2 & <- & Il2).
    unfold threshold_mobility in *. apply in_map_iff in Ix. destruct Ix as (u & <- & Iu). apply in_map_iff in Iy. destruct Iy as (w & <- & Iw).
    rewrite !smax_Rmax. specialize (A _ _ Il Iu). pose proof (Rmax_r w T). pose proof (Rmax_l w T).
    apply Rmax_lub; nra.
Qed.

Lemma last_sat_ok cells sat : (forall c, In c cells -> 0 <= fst c < zlen sat) -> (forall c, In c cells -> (0 < snd c)%R) -> cells <> [] ->
  exists m, last_saturation cells sat = Ok (Some m) /\
    (m * Rsum (map snd cells) = Rsum (map (fun c => snd c * nthR sat (fst c)) cells))%R /\
    (forall lo hi, (forall c, In c cells -> (lo <= nthR sat (fst c) <= hi)%R) -> (lo <= m <= hi)%R).
Proof.
  intros Hc Hp Hn. unfold last_saturation.
  destruct (foldM_inv (fun (ps : R * R) (c : Z * R) => let* s := rget sat (fst c) in Ok ((fst ps + snd c)%R, (snd ps + snd c * s)%R))
     (fun l ps => ps = (Rsum (map snd l), Rsum (map (fun c => snd c * nthR sat (fst c))%R l))) cells (0, 0)%R) as (ps & E & ->).
  - reflexivity.
  - intros done c ps I ->. rewrite (proj2 (rget_Ok sat _ _) (zget_nthR sat _ (Hc c I))). cbn [bind fst snd].
    eexists; split; [reflexivity|]. rewrite !map_app, !Rsum_app. cbn [map]. rewrite !Rsum_cons, !Rsum_nil, !Rplus_0_r. reflexivity.
  - rewrite E. cbn [bind fst snd]. assert (P : (0 < Rsum (map snd cells))%R) by (apply Rsum_map_pos; auto).
    rewrite fdiv_Some by lra. eexists; split; [reflexivity|]. split; [field; lra|].
    intros lo hi H. apply mean_bounds; auto. intros; left; auto.
Qed.

Lemma sum_over_plus {A} (f g : A -> R) l : (sum_over f l + sum_over g l)%R = sum_over (fun x => f x + g x)%R l.
Proof. unfold sum_over. now rewrite Rsum_map_plus. Qed.
Lemma io_out_total ff sat faces st st' : foldM (io_out ff sat) faces st = Ok st' ->
  (fst (fst st') + snd (fst st') = fst (fst st) + snd (fst st) + sum_over io_flux (filter outflow faces))%R.
Proof.
  revert st; induction faces as [|f t IH]; intros st; cbn [foldM].
  - intros E; injection E as <-. unfold sum_over; cbn. rewrite Rsum_nil. ring.
  - destruct (io_out ff sat st f) as [s1| |] eqn:E1; try discriminate. cbn [bind]. intros E. rewrite (IH _ E).
    unfold io_out in E1. rewrite inflow_Rltb in E1. cbn [filter]. rewrite (outflow_inflow f). destruct (inflow f); cbn [negb].
    + injection E1 as <-. ring.
    + destruct (rget sat (io_cell f)); try discriminate. cbn [bind] in E1. injection E1 as <-. cbn [fst snd].
      unfold sum_over. cbn [map]. rewrite Rsum_cons. ring.
Qed.
Lemma io_in_total ff m faces st st' : foldM (io_in ff m) faces st = Ok st' ->
  (fst st' + snd st' = fst st + snd st + sum_over io_flux (filter inflow faces))%R.
Proof.
  revert st; induction faces as [|f t IH]; intros st; cbn [foldM].
  - intros E; injection E as <-. unfold sum_over; cbn. rewrite Rsum_nil. ring.
  - destruct (io_in ff m st f) as [s1| |] eqn:E1; try discriminate. cbn [bind]. intros E. rewrite (IH _ E).
    unfold io_in in E1. rewrite inflow_Rltb in E1. cbn [filter]. destruct (inflow f).
    + match type of E1 with bind ?e _ = _ => destruct e; try discriminate end. cbn [bind] in E1. injection E1 as <-. cbn [fst snd].
      unfold sum_over. cbn [map]. rewrite Rsum_cons. ring.
    + injection E1 as <-. ring.
Qed.
Lemma in_out_total ff sat faces w_in w_out o_in o_out :
  in_out_flows ff sat faces = Ok ((w_in, w_out), (o_in, o_out)) ->
  (w_in + o_in = sum_over io_flux (filter inflow faces))%R /\
  (w_out + o_out = sum_over io_flux (filter outflow faces))%R.
Proof.
  unfold in_out_flows. destruct (foldM (io_out ff sat) faces _) as [o| |] eqn:Eo; try discriminate. cbn [bind].
  destruct (foldM (io_in ff (snd o)) faces _) as [i| |] eqn:Ei; try discriminate. cbn [bind]. intros E. injection E as <- <- <- <-.
  rewrite (io_in_total _ _ _ _ _ Ei), (io_out_total _ _ _ _ _ Eo). cbn [fst snd]. split; ring.
Qed.
Lemma in_out_throw_prop ff sat faces f : (forall f, In f faces -> 0 <= io_cell f < zlen sat) ->
  In f faces -> inflow f = true -> periodic_face f ->
  ~ (exists o, In o faces /\ periodic_face o /\ outflow o = true /\ io_bid o = io_partner f) ->
  in_out_flows ff sat faces = Throw.
Proof. intros A B C D E. apply (in_out_throw ff sat faces f A B). unfold partnered. tauto. Qed.
Lemma sweep_single lo hi : (0 < lo)%R -> sat_sweep 1 lo hi = [lo] /\ pdrop_sweep 1 lo hi = [lo].
Proof.
  intros H. unfold sat_sweep, pdrop_sweep, sweep_factor. change (zrange 0 1) with [0]. cbn [map Z.eqb Pos.eqb]. split; f_equal.
  - ring.
  - replace ((1 - 0) * ln lo + 0 * ln hi)%R with (ln lo) by ring. now apply exp_ln.
Qed.
Lemma manager_prop lo hi run start_from_cl cl num_cells ctl i s pd :
  zget ctl i = Some (s, pd) ->
  let all := manager_runs (init_sat_limits lo hi) run start_from_cl cl num_cells [] ctl in
  zlen all = zlen ctl /\
  exists rs init, zget all i = Some rs /\ zlen rs = zlen pd /\
    (init = repeat s (Z.to_nat num_cells) \/ (start_from_cl = true /\ cl s = Some init)) /\
    (start_from_cl = true -> cl s <> None -> cl s = Some init) /\
    forall k r, zget rs k = Some r ->
      let prev := firstn (Z.to_nat k) rs in
      zget pd k = Some (sr_pdrop r) /\
      sr_start r = init_sat_limits lo hi (last_success prev init) /\
      run (concat (firstn (Z.to_nat i) all) ++ prev) (sr_pdrop r) (sr_start r) = (sr_success r, sr_final r).
Proof.
  intros H. destruct (manager_ok (init_sat_limits lo hi) run start_from_cl cl num_cells (limits_idem lo hi) ctl [] i s pd H) as (L & rs & G & L2 & K).
  cbv zeta. split; auto. exists rs, (start_profile start_from_cl (cl s) num_cells s). split; auto. split; auto. split; [|split; auto].
  - unfold start_profile. destruct start_from_cl; auto. destruct (cl s); auto.
  - intros -> N. unfold start_profile. destruct (cl s); congruence.
Qed.
Lemma row_columns K s p b : let r := fst (relperm_row K s p b) in
  snd (relperm_row K s p b) = b /\ zlen r = 11 /\ zget r 0 = Some p /\ zget r 1 = Some s /\
  zget r 2 = Some (K 0 0) /\ zget r 3 = Some (K 1 1) /\ zget r 4 = Some (K 2 2) /\
  zget r 5 = Some (K 1 2) /\ zget r 6 = Some (K 0 2) /\ zget r 7 = Some (K 0 1) /\
  zget r 8 = Some (K 2 1) /\ zget r 9 = Some (K 2 0) /\ zget r 10 = zget r 5.
Proof. cbv zeta. repeat split. Qed.
Lemma row_refuted : exists K K' s p b, K 1 0 <> K' 1 0 /\ relperm_row K s p b = relperm_row K' s p b.
Proof.
  exists (fun i j => if (i =? 1) && (j =? 0) then 1%R else 0%R), (fun _ _ => 0%R), 0%R, 0%R, true.
  split; [cbn; lra|]. apply row_iff. repeat split; auto. intros i j _ _ N.
  destruct (Z.eqb_spec i 1), (Z.eqb_spec j 0); cbn; auto. exfalso; auto.
Qed.
Lemma mapM_UB {A B} (f : A -> res B) l1 a l2 : (forall x, In x l1 -> exists b, f x = Ok b) -> f a = UB -> mapM f (l1 ++ a :: l2) = UB.
Proof.
  intros H E. induction l1 as [|x l1 IH]; cbn [app mapM].
  - now rewrite E.
  - destruct (H x) as (b & Hb); [left; auto|]. rewrite Hb. cbn [bind]. rewrite IH; auto. intros; apply H; right; auto.
Qed.
Lemma control_short rnd sats pdrops : zlen pdrops < zlen sats -> write_control rnd sats pdrops = UB.
Proof.
  intros H. unfold write_control. pose proof (zlen_nonneg pdrops) as Hn.
  set (l := combine (zrange 0 (zlen sats)) sats).
  assert (Ll : length l = length sats).
  { subst l. rewrite combine_length, zrange_length. unfold zlen. lia. }
  destruct (nth_error l (length pdrops)) as [a|] eqn:Ea; [|apply nth_error_None in Ea; unfold zlen in H; lia].
  assert (F : forall k x, nth_error l k = Some x -> fst x = Z.of_nat k).
  { intros k [i y] Hk. cbn. assert (G : zget l (Z.of_nat k) = Some (i, y)) by (rewrite zget_nth by lia; now rewrite Nat2Z.id).
    apply zget_combine_inv in G. destruct G as (G & _). pose proof (zget_Some_range _ _ _ G) as B. rewrite zlen_zrange in B by lia.
    rewrite zget_zrange in G by lia. injection G. lia. }
  pose proof (nth_error_split l _ Ea) as (l1 & l2 & El & L1). rewrite El. rewrite mapM_UB; [reflexivity| |].
  - intros x Hx. apply In_nth_error in Hx. destruct Hx as (k & Hk).
    assert (Bk : (k < length pdrops)%nat). { rewrite <- L1. apply nth_error_Some. congruence. }
    assert (Q : nth_error l k = Some x) by (rewrite El, nth_error_app1 by lia; auto). apply F in Q.
    destruct (rget_range pdrops (fst x)) as (row & Er & _); [unfold zlen; lia|]. rewrite Er. cbn [bind]. eauto.
  - apply F in Ea. unfold rget. rewrite (proj2 (zget_None_iff pdrops (fst a))) by (unfold zlen in *; lia). reflexivity.
Qed.
