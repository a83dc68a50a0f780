From Verif Require Import Lin_Facts BaseFacts RBaseFacts Matx_Proofs Matx_Proofs3 Mim_Proofs Mim_Proofs2 Fluid_Proofs Fluid_Proofs2 Fluid_Proofs3 Fluid_Proofs4 Rprop_Proofs3 Rprop_Proofs2 Euler_Proofs2 Steady_Proofs Fluid_Spec Fluid_Model.
From Coq Require Import Lra Lia.
Open Scope Z_scope.

(* ---- running minima and maxima *)
Lemma least_0 x0 P f : least x0 0 P f x0.
Proof. split; [lra |]. split; [lia |]. auto. Qed.
Lemma least_skip x0 n P f m : least x0 n P f m -> ~ P n -> least x0 (n + 1) P f m.
Proof.
  intros (A & B & C) N. split; [exact A |]. split.
  - intros i Hi Pi. destruct (Z.eq_dec i n) as [-> |]; [contradiction | apply B; [lia | exact Pi]].
  - destruct C as [C | (i & Hi & Pi & E)]; [auto | right; exists i; split; [lia | auto]].
Qed.
Lemma least_take x0 n (P : Z -> Prop) f m v : 0 <= n -> least x0 n P f m -> P n -> v = f n -> least x0 (n + 1) P f (smin m v).
Proof.
  intros Hn (A & B & C) Pn ->. rewrite smin_Rmin. pose proof (Rmin_l m (f n)). pose proof (Rmin_r m (f n)). split; [lra |]. split.
  - intros i Hi Pi. destruct (Z.eq_dec i n) as [-> |]; [lra |]. specialize (B i ltac:(lia) Pi). lra.
  - unfold Rmin. destruct (Rle_dec m (f n)).
    + destruct C as [C | (i & Hi & Pi & E)]; [auto | right; exists i; split; [lia | auto]].
    + right. exists n. split; [lia | auto].
Qed.
Lemma greatest_0 x0 P f : greatest x0 0 P f x0.
Proof. split; [lra |]. split; [lia |]. auto. Qed.
Lemma greatest_skip x0 n P f m : greatest x0 n P f m -> ~ P n -> greatest x0 (n + 1) P f m.
Proof.
  intros (A & B & C) N. split; [exact A |]. split.
  - intros i Hi Pi. destruct (Z.eq_dec i n) as [-> |]; [contradiction | apply B; [lia | exact Pi]].
  - destruct C as [C | (i & Hi & Pi & E)]; [auto | right; exists i; split; [lia | auto]].
Qed.
Lemma greatest_take x0 n (P : Z -> Prop) f m v : 0 <= n -> greatest x0 n P f m -> P n -> v = f n -> greatest x0 (n + 1) P f (smax m v).
Proof.
  intros Hn (A & B & C) Pn ->. rewrite smax_Rmax. pose proof (Rmax_l m (f n)). pose proof (Rmax_r m (f n)). split; [lra |]. split.
  - intros i Hi Pi. destruct (Z.eq_dec i n) as [-> |]; [lra |]. specialize (B i ltac:(lia) Pi). lra.
  - unfold Rmax. destruct (Rle_dec m (f n)).
    + right. exists n. split; [lia | auto].
    + destruct C as [C | (i & Hi & Pi & E)]; [auto | right; exists i; split; [lia | auto]].
Qed.

(* ---- smallest permeability and largest porosity of the rocks *)
Lemma nthR_rset l i x l' : rset l i x = Ok l' -> 0 <= i < zlen l -> forall k, nthR l' k = if k =? i then x else nthR l k.
Proof.
  intros E H k. destruct (rset_at l i x H) as (l2 & E2 & L & G). rewrite E in E2. injection E2 as <-. unfold nthR. rewrite G. destruct (k =? i); reflexivity.
Qed.
Lemma extremes_ok fl : cells_good fl -> exists ks ps, rock_extremes fl = Ok (ks, ps) /\ zlen ks = zlen (fl_rocks fl) /\ zlen ps = zlen (fl_rocks fl) /\
  forall r, 0 <= r < zlen (fl_rocks fl) -> least 1e100 (zlen (rp_poro (fl_prop fl))) (in_rock fl r) (cell_mean fl) (nthR ks r) /\
    greatest 0 (zlen (rp_poro (fl_prop fl))) (in_rock fl r) (nthR (rp_poro (fl_prop fl))) (nthR ps r).
Proof.
  intros G. unfold rock_extremes. set (n := zlen (fl_rocks fl)). set (nc := zlen (rp_poro (fl_prop fl))).
  assert (Hn : 0 <= n) by (unfold n, zlen; lia).
  match goal with |- exists ks ps, foldM ?step _ ?s0 = _ /\ _ => destruct (zloop step
    (fun c pp => zlen (fst pp) = n /\ zlen (snd pp) = n /\ forall r, 0 <= r < n -> least 1e100 c (in_rock fl r) (cell_mean fl) (nthR (fst pp) r) /\
       greatest 0 c (in_rock fl r) (nthR (rp_poro (fl_prop fl))) (nthR (snd pp) r)) 0 nc s0) as ([ks ps] & E & L1 & L2 & R) end.
  - unfold nc, zlen; lia.
  - cbn [fst snd]. split; [apply zlen_zrepeat; exact Hn |]. split; [apply zlen_zrepeat; exact Hn |]. intros r Hr.
    assert (Z : forall x : R, nthR (zrepeat x n) r = x) by (intros x; apply nthR_get; rewrite zget_zrepeat; destruct (Z.leb_spec 0 r); destruct (Z.ltb_spec r n); cbn; try lia; reflexivity).
    rewrite !Z. split; [apply least_0 | apply greatest_0].
  - intros c [ks ps] Hc (L1 & L2 & R). cbn [fst snd] in *. destruct (G c Hc) as (rk & K & poro & ((r & E1 & E2) & EK & EP) & (SK & MK & MP)).
    pose proof (zget_Some_range _ _ _ E2) as Hr. fold n in Hr.
    unfold rget at 1. rewrite E1. cbn [bind]. rewrite EK. cbn [bind]. rewrite (mean_trace K SK). cbn [bind].
    unfold rget at 1. rewrite (zget_nthR ks r) by lia. cbn [bind].
    destruct (rset_at ks r (smin (nthR ks r) (3 * mean_diag K / 3)%R) ltac:(lia)) as (ks' & Ek & Lk & _). rewrite Ek. cbn [bind].
    unfold rget at 1. rewrite EP. cbn [bind]. unfold rget. rewrite (zget_nthR ps r) by lia. cbn [bind].
    destruct (rset_at ps r (smax (nthR ps r) poro) ltac:(lia)) as (ps' & Ep & Lp & _). rewrite Ep. cbn [bind]. eexists. split; [reflexivity |]. cbn [fst snd].
    split; [lia |]. split; [lia |]. intros r' Hr'. rewrite (nthR_rset _ _ _ _ Ek ltac:(lia)), (nthR_rset _ _ _ _ Ep ltac:(lia)). destruct (R r' Hr') as [RA RB].
    destruct (Z.eqb_spec r' r) as [-> | N].
    + split; [apply least_take | apply greatest_take]; try assumption; try lia.
      * unfold cell_mean. rewrite EK. field.
      * symmetry. apply nthR_get. exact EP.
    + assert (~ in_rock fl r' c). { unfold in_rock. rewrite E1. intros X. injection X as ->. contradiction. }
      split; [apply least_skip | apply greatest_skip]; assumption.
  - exists ks, ps. split; [exact E |]. auto.
Qed.
Lemma rock_flows fl r rk s : zget (fl_rocks fl) r = Some rk -> (0 < fl_mu1 fl)%R -> (0 < fl_mu2 fl)%R -> flows (jr_krw rk s) (jr_kro rk s) ->
  cfl_frac_flows fl r s = Ok (frac_of (jr_krw rk) (jr_kro rk) (fl_mu1 fl) (fl_mu2 fl) s, grav_of (jr_krw rk) (jr_kro rk) (fl_mu1 fl) (fl_mu2 fl) s).
Proof.
  intros E P1 P2 F. pose proof (zget_Some_range _ _ _ E). unfold cfl_frac_flows. destruct (Z.eqb_spec r (-1)); [lia |].
  unfold rget. rewrite E. cbn [bind]. rewrite !mdiv_Ok by lra. cbn [bind]. destruct (mob_pos _ _ _ _ P1 P2 F) as (A & B & C). rewrite !mdiv_Ok by lra. reflexivity.
Qed.
Lemma scalar_mean k : exists E, meye (mnew COrd 3 3) = Ok E /\ shaped (mscale E k) COrd 3 3 /\ mean_diag (mscale E k) = k.
Proof.
  destruct (eye_ok (mnew COrd 3 3) COrd 3 3 _ (holds_new COrd 3 3 ltac:(lia) ltac:(lia))) as (E & EE & H). exists E. split; [exact EE |].
  pose proof (scale_ok E _ _ _ _ k H) as HS. pose proof (holds_shaped _ _ _ _ _ HS) as SS. split; [exact SS |].
  unfold mean_diag. rewrite (Sum_ext 3 _ (fun _ => k)).
  - assert (S3 : Sum 3 (fun _ => k) = (k + k + k)%R) by (replace 3 with (0 + 1 + 1 + 1) by lia; rewrite !Sum_S by lia; rewrite Sum_0; ring).
    rewrite S3. lra.
  - intros i Hi. rewrite (holds_entry _ _ _ _ _ HS i i Hi Hi). unfold ident. rewrite Z.eqb_refl. ring.
Qed.
Lemma rock_dpc fl r rk k p s : zget (fl_rocks fl) r = Some rk -> (0 < k)%R -> (0 < p)%R -> abs_dpc fl r k p s = Ok (Rabs (leverett rk (jr_dJ rk) k p s)).
Proof.
  intros E Hk Hp. pose proof (zget_Some_range _ _ _ E). unfold abs_dpc. destruct (Z.eqb_spec r (-1)); [lia |].
  destruct (scalar_mean k) as (M & EM & SM & MM). rewrite EM. cbn [bind]. unfold rget. rewrite E. cbn [bind].
  rewrite (proj2 (cap_press_ok rk (mscale M k) p s ltac:(split; [exact SM | rewrite MM; auto]))). cbn [bind]. rewrite MM. reflexivity.
Qed.
Lemma rocks_cfl fl : fl_rocks fl <> [] -> (0 < fl_mu1 fl)%R -> (0 < fl_mu2 fl)%R -> cells_good fl ->
  (forall r rk, zget (fl_rocks fl) r = Some rk -> usable (jr_krw rk) (jr_kro rk) /\ exists c, 0 <= c < zlen (rp_poro (fl_prop fl)) /\ in_rock fl r c) ->
  exists a b c kmin pmax fa fb fc, compute_cfl fl = Ok (a, b, c) /\
    (forall r rk, zget (fl_rocks fl) r = Some rk ->
       least 1e100 (zlen (rp_poro (fl_prop fl))) (in_rock fl r) (cell_mean fl) (kmin r) /\
       greatest 0 (zlen (rp_poro (fl_prop fl))) (in_rock fl r) (nthR (rp_poro (fl_prop fl))) (pmax r) /\
       cfl_factors (frac_of (jr_krw rk) (jr_kro rk) (fl_mu1 fl) (fl_mu2 fl)) (grav_of (jr_krw rk) (jr_kro rk) (fl_mu1 fl) (fl_mu2 fl)) (leverett rk (jr_dJ rk) (kmin r) (pmax r)) (fa r) (fb r) (fc r)) /\
    least 1e100 (zlen (fl_rocks fl)) (fun _ => True) fa a /\ least 1e100 (zlen (fl_rocks fl)) (fun _ => True) fb b /\ greatest 0 (zlen (fl_rocks fl)) (fun _ => True) fc c /\
    (0 < a <= 1)%R /\ (0 < b)%R /\ (0 <= c)%R.
Proof.
  intros N P1 P2 G U. unfold compute_cfl. assert (HR : has_rocks fl = true) by (unfold has_rocks; destruct (fl_rocks fl); [contradiction | reflexivity]).
  rewrite HR. cbn [negb]. destruct (extremes_ok fl G) as (ks & ps & E & L1 & L2 & X). rewrite E. cbn [bind fst snd]. set (n := zlen (fl_rocks fl)) in *.
  assert (Hn : 0 < n) by (unfold n; destruct (fl_rocks fl); [contradiction | unfold zlen; cbn; lia]).
  set (S r := single_rock_cfl fl r (nthR ks r) (nthR ps r)).
  assert (SO : forall r rk, zget (fl_rocks fl) r = Some rk -> exists a b c, S r = Ok (a, b, c) /\
    cfl_factors (frac_of (jr_krw rk) (jr_kro rk) (fl_mu1 fl) (fl_mu2 fl)) (grav_of (jr_krw rk) (jr_kro rk) (fl_mu1 fl) (fl_mu2 fl)) (leverett rk (jr_dJ rk) (nthR ks r) (nthR ps r)) a b c /\ (0 < a <= 1)%R /\ (0 < b)%R /\ (0 <= c)%R).
  { intros r rk Er. pose proof (zget_Some_range _ _ _ Er) as Hr. fold n in Hr. destruct (X r Hr) as [XA XB]. destruct (U r rk Er) as [UR (c0 & Hc0 & I0)].
    assert (KP : (0 < nthR ks r)%R).
    { destruct XA as (_ & _ & [-> | (c & Hc & _ & ->)]); [apply big_pos |]. destruct (G c Hc) as (rk' & K & poro & (_ & EK & _) & (_ & MK & _)). unfold cell_mean. rewrite EK. exact MK. }
    assert (PP : (0 < nthR ps r)%R).
    { destruct XB as (_ & XB & _). specialize (XB c0 Hc0 I0). destruct (G c0 Hc0) as (rk' & K & poro & (_ & _ & EP) & (_ & _ & MP)). rewrite (nthR_get _ _ _ EP) in XB. lra. }
    apply single_usable; try assumption.
    - intros s Hs. apply rock_flows; try assumption. apply UR. exact Hs.
    - intros s Hs. apply rock_dpc; assumption.
    - intros ->. lia. }
  set (fa r := match S r with Ok (a, _, _) => a | _ => 0%R end). set (fb r := match S r with Ok (_, b, _) => b | _ => 0%R end). set (fc r := match S r with Ok (_, _, c) => c | _ => 0%R end).
  match goal with |- context [foldM ?step (zrange 0 n) ?s0] => destruct (zloop step
    (fun r acc => let '(a, b, c) := acc in least 1e100 r (fun _ => True) fa a /\ least 1e100 r (fun _ => True) fb b /\ greatest 0 r (fun _ => True) fc c) 0 n s0) as ([[a b] c] & EF & LA & LB & LC) end.
  - lia.
  - split; [apply least_0 |]. split; [apply least_0 | apply greatest_0].
  - intros r [[a b] c] Hr (LA & LB & LC). destruct (zget_in_range (fl_rocks fl) r Hr) as [rk Er]. destruct (SO r rk Er) as (a' & b' & c' & ES & _).
    unfold rget. rewrite (zget_nthR ks r), (zget_nthR ps r) by lia. cbn [bind]. fold (S r). rewrite ES. cbn [bind]. eexists. split; [reflexivity |]. cbn beta iota.
    split; [apply least_take; auto; [lia | unfold fa; rewrite ES; reflexivity] |]. split; [apply least_take; auto; [lia | unfold fb; rewrite ES; reflexivity] |].
    apply greatest_take; auto; [lia | unfold fc; rewrite ES; reflexivity].
  - exists a, b, c, (nthR ks), (nthR ps), fa, fb, fc. split; [exact EF |]. split.
    + intros r rk Er. pose proof (zget_Some_range _ _ _ Er) as Hr. fold n in Hr. destruct (X r Hr) as [XA XB]. split; [exact XA |]. split; [exact XB |].
      destruct (SO r rk Er) as (a' & b' & c' & ES & F & _). unfold fa, fb, fc. rewrite ES. exact F.
    + split; [exact LA |]. split; [exact LB |]. split; [exact LC |].
      destruct (zget_in_range (fl_rocks fl) 0 ltac:(lia)) as [r0 E0]. destruct (SO 0 r0 E0) as (a0 & b0 & c0 & ES0 & _ & A0 & B0 & C0).
      destruct LA as (LA1 & LA2 & LA3). destruct LB as (LB1 & LB2 & LB3). destruct LC as (LC1 & _).
      split; [split |].
      * destruct LA3 as [-> | (i & Hi & _ & ->)]; [apply big_pos |]. destruct (zget_in_range (fl_rocks fl) i Hi) as [ri Ei]. destruct (SO i ri Ei) as (ai & bi & ci & ESi & _ & Ai & _). unfold fa. rewrite ESi. lra.
      * specialize (LA2 0 ltac:(lia) I). unfold fa in LA2. rewrite ES0 in LA2. lra.
      * split; [| exact LC1]. destruct LB3 as [-> | (i & Hi & _ & ->)]; [apply big_pos |]. destruct (zget_in_range (fl_rocks fl) i Hi) as [ri Ei]. destruct (SO i ri Ei) as (ai & bi & ci & ESi & _ & _ & Bi & _). unfold fb. rewrite ESi. lra.
Qed.
