(* The setup functions. *)
From Coq Require Import Permutation.
From Verif Require Import BaseFacts RBaseFacts Bound_Model Bound_Spec Bound_Proofs Bound_Proofs2.
Open Scope Z_scope.

Lemma max_bid_ge fs f : In f fs -> gf_bid f <= max_bid fs.
Proof.
  unfold max_bid. generalize 0. induction fs as [|a fs IH]; intros m []; cbn [fold_left].
  - subst. clear IH. assert (forall fs m, m <= fold_left (fun m f => Z.max m (gf_bid f)) fs m) as G.
    { clear. induction fs as [|a fs IH]; intros m; cbn; [lia|]. specialize (IH (Z.max m (gf_bid a))). lia. }
    specialize (G fs (Z.max m (gf_bid f))). lia.
  - apply IH. assumption.
Qed.

Lemma NoDup_map_transfer {A B C} (f : A -> B) (g : A -> C) l :
  NoDup (map f l) -> (forall a b, In a l -> In b l -> g a = g b -> f a = f b) -> NoDup (map g l).
Proof.
  induction l as [|a l IH]; intros ND H; cbn in *; [constructor|]. inversion ND; subst. constructor.
  - intros Hin. apply in_map_iff in Hin. destruct Hin as [b [E Hb]]. apply H2.
    rewrite (H a b); auto. apply in_map. exact Hb.
  - apply IH; auto.
Qed.

Lemma NoDup_map_inj {A} (k : A -> Z) l a b : NoDup (map k l) -> In a l -> In b l -> k a = k b -> a = b.
Proof.
  intros ND Ha Hb E. apply In_zget in Ha. destruct Ha as [i [Ri Hi]]. apply In_zget in Hb. destruct Hb as [j [Rj Hj]].
  assert (i = j); [|congruence].
  assert (zget (map k l) i = zget (map k l) j) as EE by (rewrite !zget_map, Hi, Hj; cbn; congruence).
  rewrite !zget_nth in EE by lia. assert (Z.to_nat i = Z.to_nat j); [|lia].
  eapply NoDup_nth_error; [exact ND| |exact EE]. rewrite map_length. unfold zlen in *. lia.
Qed.
Lemma zget_inj_map {A} (k : A -> Z) l i j a b : NoDup (map k l) -> zget l i = Some a -> zget l j = Some b -> k a = k b -> i = j.
Proof.
  intros ND Hi Hj E. pose proof (zget_Some_range _ _ _ Hi). pose proof (zget_Some_range _ _ _ Hj).
  assert (zget (map k l) i = zget (map k l) j) as EE by (rewrite !zget_map, Hi, Hj; cbn; congruence).
  rewrite !zget_nth in EE by lia. assert (Z.to_nat i = Z.to_nat j); [|lia].
  eapply NoDup_nth_error; [exact ND| |exact EE]. rewrite map_length. unfold zlen in *. lia.
Qed.

Lemma partners_bids g per tol l areas : unique_ids g -> partners_ok g per tol l areas ->
  NoDup (map b_bid l) /\ (forall f, In f l -> 1 <= b_bid f < zlen l + 1 /\ 0 <= b_canon f < 6).
Proof.
  intros [U1 U2] P. split.
  - eapply NoDup_map_transfer; [apply P|]. intros a b Ha Hb E.
    destruct (po_entries _ _ _ _ _ P a Ha) as [fa [Ea [Ba _]]]. destruct (po_entries _ _ _ _ _ P b Hb) as [fb [Eb [Bb _]]].
    eapply (zget_inj_map gf_bid); eauto. congruence.
  - intros f Hf. destruct (po_entries _ _ _ _ _ P f Hf) as [fa [Ea [Ba [_ [[Hs _] _]]]]]. apply zget_In in Ea.
    pose proof (U2 fa Ea). pose proof (max_bid_ge _ _ Ea). rewrite (po_bid _ _ _ _ _ P) in *. rewrite <- (po_len _ _ _ _ _ P) in *. lia.
Qed.

Lemma partners_sym g per tol l areas : partners_ok g per tol l areas -> unique_candidates l -> pbid_sym l.
Proof.
  intros P U f Hf. destruct (po_partner _ _ _ _ _ P f Hf) as [[_ H]|[o [Ho [G [E1 E2]]]]]; [left; exact H|right].
  exists o. split; [exact Ho|]. split; [exact E2|]. split.
  - apply (po_sym _ _ _ _ _ P U f o Hf Ho E1).
  - intros ->. exact (geo_match_irrefl _ G).
Qed.

Lemma resize_empty n : 0 <= n -> exists b0, bcs_resize n bcs_empty = Ok b0 /\ sized n b0 /\
  (forall i, 0 <= i < n -> zget (t_partner b0) i = Some 0 /\ zget (t_canon b0) i = Some 0 /\
      zget (t_flow b0) i = Some flow_default /\ zget (t_sat b0) i = Some sat_default).
Proof.
  intros Hn. unfold bcs_resize. destruct (Z.ltb_spec n 0); [lia|]. eexists. split; [reflexivity|]. split.
  - unfold sized; cbn. rewrite !vec_resize_len by lia. auto.
  - intros i Hi. cbn. rewrite !vec_resize_get by lia. destruct (Z.ltb_spec i (zlen (@nil Z))); [unfold zlen in *; cbn in *; lia|].
    destruct (Z.ltb_spec i (zlen (@nil cond))); [unfold zlen in *; cbn in *; lia|]. auto.
Qed.
Lemma resize_sized n b : 0 <= n -> exists b0, bcs_resize n b = Ok b0 /\ sized n b0 /\ t_partner b0 = vec_resize n 0 (t_partner b) /\
   t_flow b0 = vec_resize n flow_default (t_flow b).
Proof.
  intros Hn. unfold bcs_resize. destruct (Z.ltb_spec n 0); [lia|]. eexists. split; [reflexivity|]. split; [|split; reflexivity].
  unfold sized; cbn. rewrite !vec_resize_len by lia. auto.
Qed.

Lemma create_periodic_spec srt b g fc sc tol :
  (forall l, Permutation (srt l) l) -> zlen fc = 6 -> zlen sc = 6 -> unique_ids g ->
  (create_periodic srt b g fc sc tol = Throw /\ find_periodic_partners srt g (map is_periodic fc) tol = Throw) \/
  exists l areas b', find_periodic_partners srt g (map is_periodic fc) tol = Ok (l, areas) /\
    partners_ok g (map is_periodic fc) tol l areas /\
    create_periodic srt b g fc sc tol = Ok b' /\ sized (zlen l + 1) b' /\
    (forall f, In f l -> zget (t_canon b') (b_bid f) = Some (b_canon f + 1) /\
       (exists c, zget (t_flow b') (b_bid f) = Some c /\ flow_for fc areas f c) /\
       zget (t_sat b') (b_bid f) = zget sc (b_canon f)) /\
    (unique_candidates l -> forall f, In f l -> zget (t_partner b') (b_bid f) = Some (b_pbid f)).
Proof.
  intros Hs Lf Lc U. unfold create_periodic.
  destruct (find_spec srt g (map is_periodic fc) tol Hs) as [[-> _]|[l [areas [-> P]]]].
  { rewrite zlen_map. exact Lf. }
  { left. split; reflexivity. }
  right. cbn [bind fst snd]. exists l, areas. destruct (partners_bids _ _ _ _ _ U P) as [ND HR].
  pose proof (zlen_nonneg l).
  destruct (resize_empty (zlen l + 1) ltac:(lia)) as [b0 [E0 [S0 Z0]]]. unfold bcs_clear. rewrite E0. cbn [bind].
  destruct (store_partner_loop (zlen l + 1) l b0 S0 ND) as [b1 [-> [S1 [F1 [T1 [C1 P1]]]]]].
  { intros f Hf. apply HR. exact Hf. }
  { intros f Hf. destruct (po_partner _ _ _ _ _ P f Hf) as [[_ Hz]|[o [Ho [_ [_ E2]]]]]; [left; exact Hz|right; eauto]. }
  cbn [bind].
  destruct (store_flow_loop (zlen l + 1) fc areas l b1 S1 Lf (proj1 (po_areas _ _ _ _ _ P)) ND) as [b2 [-> [S2 [T2 [C2 [P2 Fl]]]]]].
  { intros f Hf. specialize (HR f Hf). lia. }
  cbn [bind].
  destruct (store_sat_loop (zlen l + 1) sc l b2 S2 Lc ND) as [b3 [-> [S3 [F3 [C3 [P3 Sl]]]]]].
  { intros f Hf. specialize (HR f Hf). lia. }
  exists b3. split; [reflexivity|]. split; [exact P|]. split; [reflexivity|]. split; [exact S3|]. split.
  - intros f Hf. split; [|split].
    + rewrite C3, C2. apply C1. exact Hf.
    + rewrite F3. apply Fl. exact Hf.
    + apply Sl. exact Hf.
  - intros HU f Hf. rewrite P3, P2. apply P1; [|eapply partners_sym; eauto|exact Hf]. intros i Hi. apply Z0. exact Hi.
Qed.

(* ---------- the periodic type *)
Lemma six_cases s : 0 <= s < 6 -> s = 0 \/ s = 1 \/ s = 2 \/ s = 3 \/ s = 4 \/ s = 5.
Proof. lia. Qed.

Lemma periodic_setup srt g pddir pdrop bdy_sat twodim b :
  (forall l, Permutation (srt l) l) -> 0 <= pddir < 3 -> unique_ids g ->
  let per := [true; true; true; true; negb twodim; negb twodim] in
  (setup_upscaling srt g 2 pddir pdrop bdy_sat twodim b = Throw /\
   find_periodic_partners srt g per tol6 = Throw) \/
  exists l areas b', find_periodic_partners srt g per tol6 = Ok (l, areas) /\
    setup_upscaling srt g 2 pddir pdrop bdy_sat twodim b = Ok b' /\
    (forall f, In f l ->
       zget (t_canon b') (b_bid f) = Some (b_canon f + 1) /\
       zget (t_flow b') (b_bid f) = Some (periodic_flow pddir pdrop twodim (b_canon f)) /\
       zget (t_sat b') (b_bid f) = Some (periodic_sat twodim (b_canon f))) /\
    (unique_candidates l ->
       (forall f, In f l -> zget (t_partner b') (b_bid f) = Some (b_pbid f)) /\
       (forall f o c c', In f l -> In o l -> zget (t_partner b') (b_bid f) = Some (b_bid o) ->
          zget (t_flow b') (b_bid f) = Some c -> zget (t_flow b') (b_bid o) = Some c' ->
          zget (t_partner b') (b_bid o) = Some (b_bid f) /\ geo_match f o /\ c_type c = c_type c' /\ c_val c = (- c_val c')%R)).
Proof.
  intros Hs Hd U per.
  set (FC := [periodic_flow pddir pdrop twodim 0; periodic_flow pddir pdrop twodim 1; periodic_flow pddir pdrop twodim 2;
              periodic_flow pddir pdrop twodim 3; periodic_flow pddir pdrop twodim 4; periodic_flow pddir pdrop twodim 5]).
  set (SC := [periodic_sat twodim 0; periodic_sat twodim 1; periodic_sat twodim 2;
              periodic_sat twodim 3; periodic_sat twodim 4; periodic_sat twodim 5]).
  assert (setup_upscaling srt g 2 pddir pdrop bdy_sat twodim b = create_periodic srt b g FC SC tol6) as ->.
  { assert (pddir = 0 \/ pddir = 1 \/ pddir = 2) as [->|[->| ->]] by lia; destruct twodim; reflexivity. }
  assert (map is_periodic FC = per) as EP.
  { assert (pddir = 0 \/ pddir = 1 \/ pddir = 2) as [->|[->| ->]] by lia; destruct twodim; reflexivity. }
  destruct (create_periodic_spec srt b g FC SC tol6 Hs eq_refl eq_refl U) as [H|[l [areas [b' [E [P [E' [S [H HU]]]]]]]]];
    rewrite EP in *; [left; exact H|right].
  exists l, areas, b'. split; [exact E|]. split; [exact E'|].
  assert (forall s, 0 <= s < 6 -> zget FC s = Some (periodic_flow pddir pdrop twodim s)) as GF.
  { intros s Hs6. destruct (six_cases s Hs6) as [->|[->|[->|[->|[->| ->]]]]]; reflexivity. }
  assert (forall s, 0 <= s < 6 -> zget SC s = Some (periodic_sat twodim s)) as GS.
  { intros s Hs6. destruct (six_cases s Hs6) as [->|[->|[->|[->|[->| ->]]]]]; reflexivity. }
  assert (forall f, In f l ->
       zget (t_canon b') (b_bid f) = Some (b_canon f + 1) /\
       zget (t_flow b') (b_bid f) = Some (periodic_flow pddir pdrop twodim (b_canon f)) /\
       zget (t_sat b') (b_bid f) = Some (periodic_sat twodim (b_canon f))) as HH.
  { intros f Hf. destruct (H f Hf) as [H1 [[c [H2 [c0 [Ec0 Hc]]]] H3]].
    destruct (po_entries _ _ _ _ _ P f Hf) as [_ [_ [_ [_ [[Hs6 _] _]]]]].
    split; [exact H1|]. split; [|rewrite H3; apply GS; exact Hs6].
    rewrite H2. f_equal. rewrite GF in Ec0 by exact Hs6. injection Ec0 as <-.
    destruct (is_neumann (periodic_flow pddir pdrop twodim (b_canon f))) eqn:EN; [|exact Hc].
    destruct Hc as [a [_ ->]]. revert EN. clear. unfold periodic_flow.
    destruct (twodim && (4 <=? b_canon f)); [intros _; cbn; f_equal; unfold Rdiv; ring|].
    destruct (b_canon f =? 2 * pddir); [discriminate|]. destruct (b_canon f =? 2 * pddir + 1); discriminate. }
  split; [exact HH|]. intros UC. split; [apply HU; exact UC|].
  intros f o c c' Hf Ho Hp Hc Hc'.
  destruct (partners_bids _ _ _ _ _ U P) as [ND HR].
  pose proof (HU UC f Hf) as Hpf. rewrite Hpf in Hp. injection Hp as Ep.
  destruct (po_partner _ _ _ _ _ P f Hf) as [[_ Hz]|[o' [Ho' [G [E1 E2]]]]]; [specialize (HR o Ho); lia|].
  assert (o' = o) by (apply (NoDup_map_inj b_bid l); auto; congruence). subst o'.
  split; [|split; [exact G|]].
  - rewrite (HU UC o Ho). f_equal. apply (po_sym _ _ _ _ _ P UC f o Hf Ho E1).
  - destruct (HH f Hf) as [_ [F1 _]]. destruct (HH o Ho) as [_ [F2 _]]. rewrite F1 in Hc. rewrite F2 in Hc'.
    injection Hc as <-. injection Hc' as <-.
    destruct G as [Hop _]. unfold opposite in Hop. destruct (HR f Hf) as [_ R1]. destruct (HR o Ho) as [_ R2].
    rewrite Hop in *. clear - R1 R2 Hd.
    assert (pddir = 0 \/ pddir = 1 \/ pddir = 2) as D by lia.
    destruct (six_cases (b_canon f) R1) as [->|[->|[->|[->|[->| ->]]]]]; destruct D as [->|[->| ->]]; destruct twodim; cbn; split; try reflexivity; ring.
Qed.

(* ---------- illegal types *)
Lemma illegal_type srt g bct pddir pdrop bdy_sat twodim b : ~ (0 <= bct <= 2) ->
  setup_upscaling srt g bct pddir pdrop bdy_sat twodim b = Throw.
Proof.
  intros H. unfold setup_upscaling. destruct (Z.ltb_spec bct 0), (Z.ltb_spec 2 bct); cbn; try reflexivity. lia.
Qed.

(* ---------- fixed type *)
Lemma fixed_setup srt g pddir pdrop bdy_sat twodim b : 0 <= pddir < 3 ->
  exists b', setup_upscaling srt g 0 pddir pdrop bdy_sat twodim b = Ok b' /\
    zlen (t_flow b') = 7 /\ zlen (t_sat b') = 7 /\
    (forall i, 1 <= i <= 6 ->
      zget (t_flow b') i = Some (if i =? 2 * pddir + 1 then mkCond Dirichlet pdrop
                                 else if i =? 2 * pddir + 2 then mkCond Dirichlet 0%R
                                 else mkCond Neumann 0%R) /\
      zget (t_sat b') i = Some (mkCond Dirichlet (if i =? 2 * pddir + 1 then bdy_sat else 1%R))) /\
    (forall i, 0 <= i < 7 -> zget (t_canon b') i = Some i /\ zget (t_partner b') i = Some 0).
Proof.
  intros Hd. unfold setup_upscaling. cbn [Z.ltb Z.compare orb Z.eqb].
  assert (pddir = 0 \/ pddir = 1 \/ pddir = 2) as [->|[->| ->]] by lia;
  (eexists; split; [cbv -[IZR]; reflexivity|]; split; [reflexivity|]; split; [reflexivity|]; split;
   [intros i Hi; assert (i = 1 \/ i = 2 \/ i = 3 \/ i = 4 \/ i = 5 \/ i = 6) as [->|[->|[->|[->|[->| ->]]]]] by lia; split; reflexivity
   |intros i Hi; assert (i = 0 \/ i = 1 \/ i = 2 \/ i = 3 \/ i = 4 \/ i = 5 \/ i = 6) as [->|[->|[->|[->|[->|[->| ->]]]]]] by lia; split; reflexivity]).
Qed.

(* ---------- linear type *)
Lemma linear_setup b g pdrop pddir bdy_sat twodim tol :
  unique_ids g -> 
  let fs := bdy_faces g in let low := box_low fs in let hi := box_hi fs in
  (create_linear b g pdrop pddir bdy_sat twodim tol = Throw /\
     (max_bid fs <> zlen fs \/ exists f, In f fs /\ forall s, ~ on_side tol low hi (gf_cent f) s)) \/
  exists b', create_linear b g pdrop pddir bdy_sat twodim tol = Ok b' /\
    sized (max_bid fs + 1) b' /\
    t_partner b' = vec_resize (max_bid fs + 1) 0 (t_partner b) /\
    forall f, In f fs -> exists s, on_side tol low hi (gf_cent f) s /\
      zget (t_canon b') (gf_bid f) = Some (s + 1) /\
      zget (t_sat b') (gf_bid f) = Some (mkCond Dirichlet bdy_sat) /\
      zget (t_flow b') (gf_bid f) = Some (if twodim && (4 <=? s) then mkCond Neumann 0%R
        else mkCond Dirichlet (pdrop * (1 - (vget (gf_cent f) pddir - low pddir) / (hi pddir - low pddir)))%R).
Proof.
  intros [U1 U2] fs low hi. unfold create_linear. fold fs.
  destruct (Z.eqb_spec (max_bid fs) (zlen fs)) as [Hb|Hb]; cbn [negb]; [|left; split; [reflexivity|left; exact Hb]].
  set (n := max_bid fs + 1). pose proof (zlen_nonneg fs).
  destruct (resize_sized n b ltac:(unfold n; lia)) as [b0 [-> [S0 [P0 _]]]]. cbn [bind]. fold low hi.
  assert (foldM (linear_face low hi tol pdrop pddir bdy_sat twodim) fs b0 = Throw ->
      exists f, In f fs /\ forall s, ~ on_side tol low hi (gf_cent f) s) as HT.
  { assert (forall fs0 b0, sized n b0 -> (forall f, In f fs0 -> In f fs) -> foldM (linear_face low hi tol pdrop pddir bdy_sat twodim) fs0 b0 = Throw ->
      exists f, In f fs0 /\ forall s, ~ on_side tol low hi (gf_cent f) s) as G. 2:{ apply G; auto. }
    induction fs0 as [|f fs0 IH]; intros b1 S1 Hin; cbn [foldM]; [discriminate|].
    unfold linear_face at 1. destruct (side_of tol low hi (gf_cent f)) as [s|] eqn:Es.
    - assert (0 <= gf_bid f < n) as Hf. { assert (In f fs) by (apply Hin; left; reflexivity). pose proof (U2 f H0). pose proof (max_bid_ge _ _ H0). unfold n. lia. }
      destruct (set_canon_ok n b1 (gf_bid f) (s + 1) S1 Hf) as [b2 [-> [S2 _]]]. cbn [bind].
      destruct (set_sat_ok n b2 (gf_bid f) (mkCond Dirichlet bdy_sat) S2 Hf) as [b3 [-> [S3 _]]]. cbn [bind].
      destruct (set_flow_ok n b3 (gf_bid f) (mkCond Dirichlet (pdrop * (1 - (vget (gf_cent f) pddir - low pddir) / (hi pddir - low pddir)))%R) S3 Hf) as [b4 [-> [S4 _]]]. cbn [bind].
      destruct (twodim && (4 <=? s)).
      + destruct (set_flow_ok n b4 (gf_bid f) (mkCond Neumann 0%R) S4 Hf) as [b5 [-> [S5 _]]]. cbn [bind].
        intros E. destruct (IH b5 S5 (fun f H => Hin f (or_intror H)) E) as [q [Hq Q]]. exists q. split; [right|]; assumption.
      + cbn [bind]. intros E. destruct (IH b4 S4 (fun f H => Hin f (or_intror H)) E) as [q [Hq Q]]. exists q. split; [right|]; assumption.
    - intros _. exists f. split; [left; reflexivity|]. apply side_of_none. exact Es. }
  destruct (foldM_no_UB (linear_face low hi tol pdrop pddir bdy_sat twodim)
    (fun done b' => sized n b' /\ t_partner b' = t_partner b0 /\
      forall f, In f done -> exists s, on_side tol low hi (gf_cent f) s /\
      zget (t_canon b') (gf_bid f) = Some (s + 1) /\
      zget (t_sat b') (gf_bid f) = Some (mkCond Dirichlet bdy_sat) /\
      zget (t_flow b') (gf_bid f) = Some (if twodim && (4 <=? s) then mkCond Neumann 0%R
        else mkCond Dirichlet (pdrop * (1 - (vget (gf_cent f) pddir - low pddir) / (hi pddir - low pddir)))%R)) fs b0) as [E|[b' [E [S [Pp HF]]]]].
  - split; [exact S0|]. split; [reflexivity|contradiction].
  - intros done f rest b1 El [S1 [P1 HD]]. unfold linear_face.
    destruct (side_of tol low hi (gf_cent f)) as [s|] eqn:Es; [right|left; reflexivity].
    assert (In f fs) as Hfin by (rewrite El; apply in_or_app; right; left; reflexivity).
    assert (0 <= gf_bid f < n) as Hf. { pose proof (U2 f Hfin). pose proof (max_bid_ge _ _ Hfin). unfold n. lia. }
    destruct (set_canon_ok n b1 (gf_bid f) (s + 1) S1 Hf) as [b2 [-> [S2 [X1 [X2 [X3 [X4 X5]]]]]]]. cbn [bind].
    destruct (set_sat_ok n b2 (gf_bid f) (mkCond Dirichlet bdy_sat) S2 Hf) as [b3 [-> [S3 [Y1 [Y2 [Y3 [Y4 Y5]]]]]]]. cbn [bind].
    destruct (set_flow_ok n b3 (gf_bid f) (mkCond Dirichlet (pdrop * (1 - (vget (gf_cent f) pddir - low pddir) / (hi pddir - low pddir)))%R) S3 Hf) as [b4 [-> [S4 [Z1 [Z2 [Z3 [Z4 Z5]]]]]]]. cbn [bind].
    assert (exists b5, (if twodim && (4 <=? s) then set_flow (gf_bid f) (mkCond Neumann 0%R) b4 else Ok b4) = Ok b5 /\ sized n b5 /\
      t_sat b5 = t_sat b4 /\ t_canon b5 = t_canon b4 /\ t_partner b5 = t_partner b4 /\
      zget (t_flow b5) (gf_bid f) = Some (if twodim && (4 <=? s) then mkCond Neumann 0%R
        else mkCond Dirichlet (pdrop * (1 - (vget (gf_cent f) pddir - low pddir) / (hi pddir - low pddir)))%R) /\
      forall k, k <> gf_bid f -> zget (t_flow b5) k = zget (t_flow b4) k) as [b5 [-> [S5 [W1 [W2 [W3 [W4 W5]]]]]]].
    { destruct (twodim && (4 <=? s)).
      - destruct (set_flow_ok n b4 (gf_bid f) (mkCond Neumann 0%R) S4 Hf) as [b5 Q]. exists b5. exact Q.
      - exists b4. repeat split; try reflexivity; try apply S4. exact Z4. }
    exists b5. split; [reflexivity|]. split; [exact S5|]. split; [congruence|].
    intros f0 Hf0. apply in_app_or in Hf0. destruct Hf0 as [Hf0|[<-|[]]].
    + assert (gf_bid f0 <> gf_bid f) as N0 by (eapply NoDup_split_map; eauto).
      destruct (HD f0 Hf0) as [s0 [D1 [D2 [D3 D4]]]]. exists s0. split; [exact D1|].
      rewrite W2, Z2, Y2, X5 by assumption. split; [exact D2|]. rewrite W1, Z1, Y5, X2 by assumption. split; [exact D3|].
      rewrite W5, Z5, Y1, X1 by assumption. exact D4.
    + exists s. split; [eapply side_of_spec; eauto|]. rewrite W2, Z2, Y2. split; [exact X4|]. rewrite W1, Z1. split; [exact Y4|]. exact W4.
  - left. split; [exact E|]. right. apply HT. exact E.
  - right. exists b'. split; [exact E|]. split; [exact S|]. split; [congruence|exact HF].
Qed.

Lemma linear_profile pdrop x low hi : (low < hi)%R -> (low <= x <= hi)%R ->
  let p := (pdrop * (1 - (x - low) / (hi - low)))%R in
  (x = low -> p = pdrop) /\ (x = hi -> p = 0)%R /\ (0 <= pdrop -> 0 <= p <= pdrop)%R.
Proof.
  intros H Hx p. unfold p. split; [intros ->; field; lra|]. split; [intros ->; field; lra|]. intros Hp.
  assert (0 <= (x - low) / (hi - low) <= 1)%R as Q.
  { split; [apply Rmult_le_pos; [lra|left; apply Rinv_0_lt_compat; lra]|].
    apply (Rmult_le_reg_r (hi - low)); [lra|]. unfold Rdiv. rewrite Rmult_assoc, Rinv_l by lra. lra. }
  split; nra.
Qed.

Lemma linear_prop srt b g pdrop pddir bdy_sat twodim :
  unique_ids g -> 0 <= pddir < 3 -> 
  (forall f d, In f (bdy_faces g) -> 0 <= d < 3 -> (- huge <= vget (gf_cent f) d <= huge)%R) ->
  setup_upscaling srt g 1 pddir pdrop bdy_sat twodim b = Throw \/
  exists b', setup_upscaling srt g 1 pddir pdrop bdy_sat twodim b = Ok b' /\
    (bdy_faces g <> [] -> exists low hi, is_box (bdy_faces g) low hi /\
    forall f, In f (bdy_faces g) -> exists s, on_side (/ 1000000) low hi (gf_cent f) s /\
      zget (t_canon b') (gf_bid f) = Some (s + 1) /\
      zget (t_sat b') (gf_bid f) = Some (mkCond Dirichlet bdy_sat) /\
      (twodim = true /\ 4 <= s -> zget (t_flow b') (gf_bid f) = Some (mkCond Neumann 0%R)) /\
      (twodim = false \/ s < 4 -> (low pddir < hi pddir)%R ->
         let x := vget (gf_cent f) pddir in
         exists p, zget (t_flow b') (gf_bid f) = Some (mkCond Dirichlet p) /\
           (p * (hi pddir - low pddir) = pdrop * (hi pddir - x))%R /\
           (x = low pddir -> p = pdrop) /\ (x = hi pddir -> p = 0)%R /\ ((0 <= pdrop)%R -> (0 <= p <= pdrop)%R))).
Proof.
  intros U Hd HB. unfold setup_upscaling. cbn [Z.ltb Z.compare orb Z.eqb Pos.eqb Pos.compare Pos.compare_cont].
  destruct (linear_setup b g pdrop pddir bdy_sat twodim tol6 U) as [[E _]|[b' [E [S [P H]]]]]; [left; exact E|right].
  exists b'. split; [exact E|]. intros Hne. exists (box_low (bdy_faces g)), (box_hi (bdy_faces g)).
  assert (is_box (bdy_faces g) (box_low (bdy_faces g)) (box_hi (bdy_faces g))) as BX by (apply box_spec; assumption).
  split; [exact BX|]. intros f Hf. destruct (H f Hf) as [s [H1 [H2 [H3 H4]]]]. exists s. split; [exact H1|]. split; [exact H2|]. split; [exact H3|]. split.
  - intros [-> Hs]. rewrite H4. destruct (Z.leb_spec 4 s); [reflexivity|lia].
  - intros Hn Hlt. set (x := vget (gf_cent f) pddir). pose proof (proj1 (BX pddir Hd) f Hf) as BX1.
    destruct (linear_profile pdrop x _ _ Hlt BX1) as [Q1 [Q2 Q3]].
    eexists. split.
    + rewrite H4. replace (twodim && (4 <=? s)) with false; [reflexivity|]. symmetry. apply andb_false_iff.
      destruct Hn as [->|Hn]; [left; reflexivity|right; lia].
    + split; [|split; [exact Q1|split; [exact Q2|exact Q3]]]. fold x. field. lra.
Qed.

Lemma linear_keeps_partners srt b b' g pdrop pddir bdy_sat twodim i p :
  unique_ids g -> setup_upscaling srt g 1 pddir pdrop bdy_sat twodim b = Ok b' ->
  zget (t_partner b) i = Some p -> i <= zlen (bdy_faces g) -> zget (t_partner b') i = Some p.
Proof.
  intros U E Hp Hi. unfold setup_upscaling in E. cbn [Z.ltb Z.compare orb Z.eqb Pos.eqb Pos.compare Pos.compare_cont] in E.
  pose proof (zget_Some_range _ _ _ Hp) as R.
  assert (max_bid (bdy_faces g) = zlen (bdy_faces g)) as EB.
  { unfold create_linear in E. destruct (Z.eqb_spec (max_bid (bdy_faces g)) (zlen (bdy_faces g))); [assumption|discriminate]. }
  destruct (linear_setup b g pdrop pddir bdy_sat twodim tol6 U) as [[E' _]|[b2 [E' [S [P H]]]]]; [congruence|].
  assert (b2 = b') by congruence. subst b2. rewrite P, EB, vec_resize_get by lia.
  destruct (Z.ltb_spec i (zlen (t_partner b))); [exact Hp|lia].
Qed.

(* ---------- total flux over a side *)

(* ---------- region based conditions *)
Lemma region_spec g low high pressure b :
  (forall f, In f g -> 0 <= gf_bid f) ->
  exists b', region_conditions g low high pressure b = Ok b' /\
    forall i, (exists f, In f g /\ gf_bid f = i) ->
      ((exists f, In f g /\ gf_bid f = i /\ i <> 0 /\ 
          (forall d, 0 <= d < 3 -> (vget low d < vget (gf_cent f) d < vget high d)%R)) ->
        zget (t_flow b') i = Some (mkCond Dirichlet pressure)) /\
      (~ (exists f, In f g /\ gf_bid f = i /\ i <> 0 /\ 
          (forall d, 0 <= d < 3 -> (vget low d < vget (gf_cent f) d < vget high d)%R)) ->
        zget (t_flow b') i = Some (match zget (t_flow b) i with Some c => c | None => mkCond Neumann 0%R end)).
Proof.
  intros Hpos. unfold region_conditions.
  set (mb := fold_left _ g 0). set (L := map gf_bid (filter _ g)).
  assert (forall f, In f g -> gf_bid f <= mb) as Hmb.
  { unfold mb. generalize 0. clear. induction g as [|a g IH]; intros m f []; cbn [fold_left].
    - subst. assert (forall g m, m <= fold_left (fun m f => Z.max (gf_bid f) m) g m) as G.
      { clear. induction g as [|a g IH]; intros m; cbn; [lia|]. specialize (IH (Z.max (gf_bid a) m)). lia. }
      specialize (G g (Z.max (gf_bid f) m)). lia.
    - apply IH. assumption. }
  assert (0 <= mb) as Hmb0.
  { unfold mb. assert (forall g m, m <= fold_left (fun m f => Z.max (gf_bid f) m) g m) as G.
      { clear. induction g as [|a g IH]; intros m; cbn; [lia|]. specialize (IH (Z.max (gf_bid a) m)). lia. } apply (G g 0). }
  assert (forall i, In i L <-> exists f, In f g /\ gf_bid f = i /\ i <> 0 /\ 
          (forall d, 0 <= d < 3 -> (vget low d < vget (gf_cent f) d < vget high d)%R)) as HL.
  { intros i. unfold L. rewrite in_map_iff. split.
    - intros [f [<- Hf]]. apply filter_In in Hf. destruct Hf as [Hf Hi]. apply andb_true_iff in Hi. destruct Hi as [H1 H2].
      exists f. split; [exact Hf|]. split; [reflexivity|]. split; [destruct (Z.eqb_spec (gf_bid f) 0); [discriminate|assumption]|].
      unfold is_inside in H2. rewrite !andb_true_iff, !Rltb_true in H2. intros d Hd.
      assert (d = 0 \/ d = 1 \/ d = 2) as [->|[->| ->]] by lia; tauto.
    - intros [f [Hf [<- [H0 Hd]]]]. exists f. split; [reflexivity|]. apply filter_In. split; [exact Hf|]. apply andb_true_iff. split.
      + destruct (Z.eqb_spec (gf_bid f) 0); [contradiction|reflexivity].
      + unfold is_inside. rewrite !andb_true_iff, !Rltb_true. pose proof (Hd 0 ltac:(lia)). pose proof (Hd 1 ltac:(lia)). pose proof (Hd 2 ltac:(lia)). tauto. }
  destruct (resize_sized (mb + 1) b ltac:(lia)) as [b0 [-> [S0 [_ F0]]]]. cbn [bind].
  destruct (foldM_inv (fun b i => set_flow i (mkCond Dirichlet pressure) b)
    (fun done b' => sized (mb + 1) b' /\ (forall i, In i done -> zget (t_flow b') i = Some (mkCond Dirichlet pressure)) /\
        forall i, ~ In i done -> zget (t_flow b') i = zget (t_flow b0) i) L b0) as [b' [E [S [G1 G2]]]].
  - split; [exact S0|]. split; [contradiction|reflexivity].
  - intros done i b1 Hi [S1 [G1 G2]]. apply HL in Hi. destruct Hi as [f [Hf [<- _]]].
    destruct (set_flow_ok (mb + 1) b1 (gf_bid f) (mkCond Dirichlet pressure) S1) as [b2 [E2 [S2 [_ [_ [_ [X1 X2]]]]]]].
    { pose proof (Hmb f Hf). pose proof (Hpos f Hf). lia. }
    exists b2. split; [exact E2|]. split; [exact S2|]. split.
    + intros k Hk. destruct (Z.eq_dec k (gf_bid f)) as [->|Hne]; [exact X1|]. rewrite X2 by exact Hne. apply G1.
      apply in_app_or in Hk. destruct Hk as [Hk|[Hk|[]]]; [exact Hk|congruence].
    + intros k Hk. rewrite X2, G2; auto.
      * intros Hin. apply Hk. apply in_or_app. left; exact Hin.
      * intros ->. apply Hk. apply in_or_app. right; left; reflexivity.
  - exists b'. split; [exact E|]. intros i [f [Hf <-]]. rewrite <- HL. split; [apply G1|].
    intros Hn. rewrite G2 by exact Hn. rewrite F0, vec_resize_get by (pose proof (Hmb f Hf); pose proof (Hpos f Hf); lia).
    destruct (Z.ltb_spec (gf_bid f) (zlen (t_flow b))).
    + destruct (zget_in_range (t_flow b) (gf_bid f)) as [c Ec]; [pose proof (Hpos f Hf); lia|]. rewrite Ec. reflexivity.
    + replace (zget (t_flow b) (gf_bid f)) with (@None cond); [reflexivity|]. symmetry. apply zget_None_iff. lia.
Qed.

(* ---------- concrete grids *)

Lemma box_of_line fs : bdy_faces fs = fs -> (forall f, In f fs -> exists bid x, f = mkf bid x /\ (x = 0 \/ x = 1)%R) ->
  (exists bid, In (mkf bid 0) fs) -> (exists bid, In (mkf bid 1) fs) ->
  forall f, In f fs -> exists s, on_side tol6 (box_low (bdy_faces fs)) (box_hi (bdy_faces fs)) (gf_cent f) s.
Proof.
  intros Eb Hf [b0 H0] [b1 H1] f Hin. rewrite Eb.
  assert (is_box fs (box_low fs) (box_hi fs)) as BX.
  { apply box_spec; [intros ->; contradiction|]. intros f' d Hf' Hd. destruct (Hf f' Hf') as [bid [x [-> Hx]]]. unfold mkf, vget, gf_cent.
    assert (1 <= huge)%R by (unfold huge; apply pow_R1_Rle; lra).
    destruct (d =? 0); cbn [fst snd]; [lra|]. destruct (d =? 1); cbn [fst snd]; lra. }
  destruct (BX 0 ltac:(lia)) as [B1 [[fl [Hfl Efl]] [fh [Hfh Efh]]]].
  pose proof (B1 _ H0) as C0. pose proof (B1 _ H1) as C1. cbn [mkf gf_cent vget Z.eqb fst snd] in C0, C1.
  destruct (Hf _ Hfl) as [? [xl [-> Hxl]]]. destruct (Hf _ Hfh) as [? [xh [-> Hxh]]]. cbn [mkf gf_cent vget Z.eqb fst snd] in Efl, Efh.
  destruct (Hf f Hin) as [bid [xx [-> [-> | ->]]]].
  - exists 0. split; [lia|]. cbn [Z.div Z.div_eucl Z.even mkf gf_cent vget Z.eqb fst snd]. replace (0 / 2) with 0 by reflexivity.
    cbn [vget Z.eqb fst snd]. assert (box_low fs 0 = 0)%R as -> by lra. rewrite Rminus_0_r, Rabs_R0. unfold tol6. lra.
  - exists 1. split; [lia|]. replace (1 / 2) with 0 by reflexivity. cbn [Z.even mkf gf_cent vget Z.eqb fst snd].
    assert (box_hi fs 0 = 1)%R as -> by lra. replace (1 - 1)%R with 0%R by ring. rewrite Rabs_R0. unfold tol6. lra.
Qed.

Lemma two_faces_sides f : In f (bdy_faces two_faces) -> exists s, on_side tol6 (box_low (bdy_faces two_faces)) (box_hi (bdy_faces two_faces)) (gf_cent f) s.
Proof.
  apply (box_of_line two_faces eq_refl).
  - intros f' [<-|[<-|[]]]; eexists; eexists; (split; [reflexivity|]); auto.
  - exists 1. left; reflexivity.
  - exists 2. right; left; reflexivity.
Qed.
Lemma three_faces_sides f : In f (bdy_faces three_faces) -> exists s, on_side tol6 (box_low (bdy_faces three_faces)) (box_hi (bdy_faces three_faces)) (gf_cent f) s.
Proof.
  apply (box_of_line three_faces eq_refl).
  - intros f' [<-|[<-|[<-|[]]]]; eexists; eexists; (split; [reflexivity|]); auto.
  - exists 1. left; reflexivity.
  - exists 3. right; right; left; reflexivity.
Qed.
Lemma two_faces_ids : unique_ids two_faces.
Proof.
  split.
  - cbn. repeat constructor; cbn; intuition lia.
  - cbn. intros f [<-|[<-|[]]]; cbn; lia.
Qed.

(* ---------- statements used for the property file *)
Definition coords_ok (g : list gface) : Prop :=
  forall f d, In f (bdy_faces g) -> 0 <= d < 3 -> (- huge <= vget (gf_cent f) d <= huge)%R.

Lemma sides_prop srt g periodic tol :
  (forall l, Permutation (srt l) l) -> zlen periodic = 6 -> bdy_faces g <> [] ->
  (forall f d, In f (bdy_faces g) -> 0 <= d < 3 -> (- huge <= vget (gf_cent f) d <= huge)%R) ->
  exists low hi, is_box (bdy_faces g) low hi /\
  ((find_periodic_partners srt g periodic tol = Throw /\
     (max_bid (bdy_faces g) <> zlen (bdy_faces g) \/
      exists f, In f (bdy_faces g) /\ forall s, ~ on_side tol low hi (gf_cent f) s)) \/
   exists l areas, find_periodic_partners srt g periodic tol = Ok (l, areas) /\
     zlen l = zlen (bdy_faces g) /\ NoDup (map b_index l) /\
     (forall b, In b l -> exists f, zget (bdy_faces g) (b_index b) = Some f /\
        b_bid b = gf_bid f /\ b_area b = gf_area f /\ on_side tol low hi (gf_cent f) (b_canon b) /\
        (forall s, s < b_canon b -> ~ on_side tol low hi (gf_cent f) s) /\
        (forall d, 0 <= d < 3 -> vget (b_cent b) d = if d =? b_canon b / 2 then 0%R else vget (gf_cent f) d)) /\
     (forall s, 0 <= s < 6 -> zget areas s = Some (total b_area (filter (fun b => b_canon b =? s) l)))).
Proof.
  intros Hs Hp Hne HC. exists (box_low (bdy_faces g)), (box_hi (bdy_faces g)).
  split; [apply box_spec; assumption|].
  destruct (find_spec srt g periodic tol Hs Hp) as [H|[l [areas [E P]]]]; [left; exact H|right].
  exists l, areas. split; [exact E|]. split; [apply P|]. split; [apply P|]. split.
  - intros b Hb. destruct (po_entries _ _ _ _ _ P b Hb) as [f [F1 [F2 [F3 [F4 F5]]]]]. exists f. repeat (split; [assumption|]).
    split; [apply (po_first _ _ _ _ _ P b f Hb F1)|]. intros d Hd. rewrite F5. destruct F4 as [Hs6 _].
    assert (b_canon b / 2 = 0 \/ b_canon b / 2 = 1 \/ b_canon b / 2 = 2) as Hq by (pose proof (Z.div_lt_upper_bound (b_canon b) 2 3); pose proof (Z.div_pos (b_canon b) 2); lia).
    assert (d = 0 \/ d = 1 \/ d = 2) as Hd' by lia.
    destruct Hq as [Hq|[Hq|Hq]]; rewrite Hq; destruct Hd' as [-> | [-> | ->]]; reflexivity.
  - apply P.
Qed.

Lemma find_ok srt g periodic tol l areas : (forall l, Permutation (srt l) l) -> zlen periodic = 6 ->
  find_periodic_partners srt g periodic tol = Ok (l, areas) -> partners_ok g periodic tol l areas.
Proof.
  intros Hs Hp E. destruct (find_spec srt g periodic tol Hs Hp) as [[E' _]|[l' [areas' [E' P]]]]; [congruence|].
  rewrite E in E'. inversion E'; subst. exact P.
Qed.

Lemma pairing_prop srt g periodic tol l areas :
  (forall l, Permutation (srt l) l) -> zlen periodic = 6 ->
  find_periodic_partners srt g periodic tol = Ok (l, areas) ->
  (forall b, In b l -> b_pindex b <> -1 ->
     exists o, In o l /\ geo_match b o /\ b_pindex b = b_index o /\ b_pbid b = b_bid o) /\
  (unique_candidates l -> forall b o, In b l -> In o l -> b_pindex b = b_index o ->
     b_pindex o = b_index b /\ b_pbid o = b_bid b).
Proof.
  intros Hs Hp E. pose proof (find_ok _ _ _ _ _ _ Hs Hp E) as P. split; [|apply P].
  intros b Hb Hn. destruct (po_partner _ _ _ _ _ P b Hb) as [[H _]|H]; [contradiction|exact H].
Qed.

Lemma complete_prop srt g periodic tol l areas :
  (forall l, Permutation (srt l) l) -> zlen periodic = 6 ->
  find_periodic_partners srt g periodic tol = Ok (l, areas) ->
  forall f o, In f l -> In o l -> zget periodic (b_canon f) = Some true -> geo_match f o ->
  exists o', In o' l /\ geo_match f o' /\ b_pindex f = b_index o' /\ b_pbid f = b_bid o'.
Proof.
  intros Hs Hp E f o Hf Ho Hper G. pose proof (find_ok _ _ _ _ _ _ Hs Hp E) as P.
  destruct (po_partner _ _ _ _ _ P f Hf) as [[H _]|H]; [|exact H].
  exfalso. exact (po_complete _ _ _ _ _ P f o Hf Ho Hper G H).
Qed.

(* canonical side of a face of a line grid with x = 0 or x = 1: only sides 2..5 or the x side *)
Lemma three_ok : exists l areas, find_periodic_partners (fun l => l) three_faces [true;true;true;true;true;true] tol6 = Ok (l, areas) /\
   partners_ok three_faces [true;true;true;true;true;true] tol6 l areas.
Proof.
  destruct (find_spec (fun l => l) three_faces [true;true;true;true;true;true] tol6) as [[_ [H|[f [Hf H]]]]|H];
    [intros l; apply Permutation_refl|reflexivity|exfalso; apply H; reflexivity| |exact H].
  destruct (three_faces_sides f Hf) as [s Hs]. exfalso. eapply H; eauto.
Qed.
Lemma two_ok : exists l areas, find_periodic_partners (fun l => l) two_faces [true;true;true;true;true;true] tol6 = Ok (l, areas) /\
   partners_ok two_faces [true;true;true;true;true;true] tol6 l areas.
Proof.
  destruct (find_spec (fun l => l) two_faces [true;true;true;true;true;true] tol6) as [[_ [H|[f [Hf H]]]]|H];
    [intros l; apply Permutation_refl|reflexivity|exfalso; apply H; reflexivity| |exact H].
  destruct (two_faces_sides f Hf) as [s Hs]. exfalso. eapply H; eauto.
Qed.

Lemma line_canon g per l areas : partners_ok g per tol6 l areas -> bdy_faces g = g ->
  (forall f, In f g -> exists bid x, f = mkf bid x /\ (x = 0 \/ x = 1)%R) ->
  (exists bid, In (mkf bid 0) g) -> (exists bid, In (mkf bid 1) g) ->
  forall b bid x, In b l -> zget g (b_index b) = Some (mkf bid x) -> (x = 0 \/ x = 1)%R ->
    b_bid b = bid /\ b_area b = 1%R /\ b_cent b = (0, 0, 0)%R /\ b_canon b = if Rltb x 1 then 0 else 1.
Proof.
  intros P Eb Hf [b0 H0] [b1 H1] b bid x Hb Hg Hx.
  assert (is_box g (box_low g) (box_hi g)) as BX.
  { apply box_spec; [intros ->; contradiction|]. intros f' d Hf' Hd. destruct (Hf f' Hf') as [bid' [x' [-> Hx']]]. unfold mkf, vget, gf_cent.
    assert (1 <= huge)%R by (unfold huge; apply pow_R1_Rle; lra).
    destruct (d =? 0); cbn [fst snd]; [lra|]. destruct (d =? 1); cbn [fst snd]; lra. }
  destruct (BX 0 ltac:(lia)) as [B1 [[fl [Hfl Efl]] [fh [Hfh Efh]]]].
  pose proof (B1 _ H0) as C0. pose proof (B1 _ H1) as C1. cbn [mkf gf_cent vget Z.eqb fst snd] in C0, C1.
  destruct (Hf _ Hfl) as [? [xl [-> Hxl]]]. destruct (Hf _ Hfh) as [? [xh [-> Hxh]]]. cbn [mkf gf_cent vget Z.eqb fst snd] in Efl, Efh.
  assert (box_low g 0 = 0)%R as EL by lra. assert (box_hi g 0 = 1)%R as EH by lra.
  destruct (po_entries _ _ _ _ _ P b Hb) as [f [Ef [E1 [E2 [E3 E4]]]]]. rewrite Eb in *.
  assert (f = mkf bid x) by congruence. subst f. cbn [mkf gf_bid gf_area gf_cent] in *.
  pose proof (po_first _ _ _ _ _ P b (mkf bid x) Hb) as PF. rewrite Eb in PF. specialize (PF Hg). cbn [mkf gf_cent] in PF.
  assert (b_canon b = if Rltb x 1 then 0 else 1) as EC.
  { destruct Hx as [-> | ->].
    - replace (Rltb 0 1) with true by (symmetry; apply Rltb_true; lra). destruct E3 as [R3 _].
      destruct (Z.eq_dec (b_canon b) 0); [assumption|]. exfalso. apply (PF 0); [lia|]. split; [lia|].
      replace (0 / 2) with 0 by reflexivity. cbn [Z.even vget Z.eqb fst snd]. rewrite EL, Rminus_0_r, Rabs_R0. unfold tol6. lra.
    - replace (Rltb 1 1) with false by (symmetry; destruct (Rltb_spec 1 1); [lra|reflexivity]). destruct E3 as [R3 R3'].
      destruct (Z.eq_dec (b_canon b) 0) as [Z0|Z0].
      + rewrite Z0 in R3'. replace (0 / 2) with 0 in R3' by reflexivity. cbn [Z.even vget Z.eqb fst snd] in R3'. rewrite EL, Rminus_0_r, Rabs_R1 in R3'. unfold tol6 in R3'. lra.
      + destruct (Z.eq_dec (b_canon b) 1); [assumption|]. exfalso. apply (PF 1); [lia|]. split; [lia|].
        replace (1 / 2) with 0 by reflexivity. cbn [Z.even vget Z.eqb fst snd]. rewrite EH. replace (1 - 1)%R with 0%R by ring. rewrite Rabs_R0. unfold tol6. lra. }
  split; [exact E1|]. split; [exact E2|]. split; [|exact EC].
  rewrite E4, EC. destruct (Rltb x 1); reflexivity.
Qed.

Lemma three_faces_line f : In f three_faces -> exists bid x, f = mkf bid x /\ (x = 0 \/ x = 1)%R.
Proof. intros [<-|[<-|[<-|[]]]]; eexists; eexists; (split; [reflexivity|]); auto. Qed.
Lemma two_faces_line f : In f two_faces -> exists bid x, f = mkf bid x /\ (x = 0 \/ x = 1)%R.
Proof. intros [<-|[<-|[]]]; eexists; eexists; (split; [reflexivity|]); auto. Qed.

Lemma mkf_match a o : b_area a = 1%R -> b_area o = 1%R -> b_cent a = (0, 0, 0)%R -> b_cent o = (0, 0, 0)%R ->
  opposite (b_canon a) (b_canon o) -> geo_match a o.
Proof.
  intros A1 A2 C1 C2 O. split; [exact O|]. rewrite A1, A2, C1, C2. split.
  - replace (1 - 1)%R with 0%R by ring. rewrite Rabs_R0. lra.
  - unfold vdist. cbn [vget fst snd Z.eqb Pos.eqb]. match goal with |- (sqrt ?x <= _)%R => replace x with 0%R by ring end. rewrite sqrt_0. lra.
Qed.

Lemma pairing_refuted : exists l areas a o,
  find_periodic_partners (fun l => l) three_faces [true;true;true;true;true;true] tol6 = Ok (l, areas) /\
  In a l /\ In o l /\ b_pindex a = b_index o /\ b_pindex o <> b_index a.
Proof.
  destruct three_ok as [l [areas [E P]]].
  assert (forall i bid x, zget three_faces i = Some (mkf bid x) -> (x = 0 \/ x = 1)%R -> exists b, In b l /\ b_index b = i /\
      b_area b = 1%R /\ b_cent b = (0, 0, 0)%R /\ b_canon b = if Rltb x 1 then 0 else 1) as G.
  { intros i bid x Hi Hx. destruct (po_faces _ _ _ _ _ P i _ Hi) as [b [Hb [Eb _]]]. exists b. split; [exact Hb|]. split; [exact Eb|].
    destruct (line_canon three_faces _ l areas P eq_refl three_faces_line) with (b := b) (bid := bid) (x := x) as [_ Q]; auto.
    - exists 1; left; reflexivity. - exists 3; right; right; left; reflexivity. - rewrite Eb. exact Hi. }
  destruct (G 0 1 0%R eq_refl (or_introl eq_refl)) as [a [Ha [Ia [Aa [Ca Na]]]]].
  destruct (G 1 2 0%R eq_refl (or_introl eq_refl)) as [c [Hc [Ic [Ac [Cc Nc]]]]].
  destruct (G 2 3 1%R eq_refl (or_intror eq_refl)) as [o [Ho [Io [Ao [Co No]]]]].
  replace (Rltb 0 1) with true in * by (symmetry; apply Rltb_true; lra).
  replace (Rltb 1 1) with false in * by (symmetry; destruct (Rltb_spec 1 1); [lra|reflexivity]).
  assert (forall b, In b l -> b_canon b = 0 -> geo_match b o -> b_pindex b = b_index o) as Q.
  { intros b Hb N0 M. destruct (po_partner _ _ _ _ _ P b Hb) as [[Q _]|[o' [Ho' [M' [Q _]]]]].
    - exfalso. eapply (po_complete _ _ _ _ _ P b o Hb Ho); [rewrite N0; reflexivity|exact M|exact Q].
    - rewrite Q. destruct M' as [O' _]. unfold opposite in O'. rewrite N0 in O'. cbn in O'.
      destruct (po_entries _ _ _ _ _ P o' Ho') as [f [Ef _]]. pose proof (zget_Some_range _ _ _ Ef) as R. unfold zlen in R; cbn in R.
      assert (b_index o' = 0 \/ b_index o' = 1 \/ b_index o' = 2) as [D|[D|D]] by lia; [| |congruence].
      + assert (o' = a) by (apply (NoDup_map_inj b_index l); auto; [apply P|congruence]). subst. lia.
      + assert (o' = c) by (apply (NoDup_map_inj b_index l); auto; [apply P|congruence]). subst. lia. }
  assert (geo_match a o) as Mao by (apply mkf_match; auto; rewrite Na, No; reflexivity).
  assert (geo_match c o) as Mco by (apply mkf_match; auto; rewrite Nc, No; reflexivity).
  pose proof (Q a Ha Na Mao) as Pa. pose proof (Q c Hc Nc Mco) as Pc.
  destruct (Z.eq_dec (b_pindex o) (b_index a)) as [D|D].
  - exists l, areas, c, o. split; [exact E|]. split; [exact Hc|]. split; [exact Ho|]. split; [exact Pc|]. rewrite D, Ia, Ic. lia.
  - exists l, areas, a, o. auto.
Qed.

Lemma two_partner : exists l areas a o, find_periodic_partners (fun l => l) two_faces [true;true;true;true;true;true] tol6 = Ok (l, areas) /\
   In a l /\ In o l /\ b_bid a = 1 /\ b_bid o = 2 /\ b_pbid a = 2 /\ b_pbid o = 1 /\ unique_candidates l /\ b_canon a = 0 /\ b_canon o = 1.
Proof.
  destruct two_ok as [l [areas [E P]]].
  assert (forall i bid x, zget two_faces i = Some (mkf bid x) -> (x = 0 \/ x = 1)%R -> exists b, In b l /\ b_index b = i /\
      b_bid b = bid /\ b_area b = 1%R /\ b_cent b = (0, 0, 0)%R /\ b_canon b = if Rltb x 1 then 0 else 1) as G.
  { intros i bid x Hi Hx. destruct (po_faces _ _ _ _ _ P i _ Hi) as [b [Hb [Eb _]]]. exists b. split; [exact Hb|]. split; [exact Eb|].
    destruct (line_canon two_faces _ l areas P eq_refl two_faces_line) with (b := b) (bid := bid) (x := x) as [Q0 Q]; auto.
    - exists 1; left; reflexivity. - exists 2; right; left; reflexivity. - rewrite Eb. exact Hi. }
  destruct (G 0 1 0%R eq_refl (or_introl eq_refl)) as [a [Ha [Ia [Ba [Aa [Ca Na]]]]]].
  destruct (G 1 2 1%R eq_refl (or_intror eq_refl)) as [o [Ho [Io [Bo [Ao [Co No]]]]]].
  replace (Rltb 0 1) with true in * by (symmetry; apply Rltb_true; lra).
  replace (Rltb 1 1) with false in * by (symmetry; destruct (Rltb_spec 1 1); [lra|reflexivity]).
  assert (forall b, In b l -> b = a \/ b = o) as All.
  { intros b Hb. destruct (po_entries _ _ _ _ _ P b Hb) as [f [Ef _]]. pose proof (zget_Some_range _ _ _ Ef) as R. unfold zlen in R; cbn in R.
    assert (b_index b = 0 \/ b_index b = 1) as [D|D] by lia; [left|right]; apply (NoDup_map_inj b_index l); auto; try apply P; congruence. }
  assert (unique_candidates l) as UC.
  { intros x y z Hx Hy Hz M1 M2. destruct M1 as [O1 _], M2 as [O2 _]. unfold opposite in *.
    destruct (All y Hy) as [->| ->], (All z Hz) as [->| ->]; try reflexivity; rewrite Na, No in *; destruct (Z.even (b_canon x)); lia. }
  assert (geo_match a o) as Mao by (apply mkf_match; auto; rewrite Na, No; reflexivity).
  destruct (complete_prop (fun l => l) two_faces [true;true;true;true;true;true] tol6 l areas (fun l => Permutation_refl l) eq_refl E a o Ha Ho) as [o' [Ho' [M' [Q1 Q2]]]].
  { rewrite Na. reflexivity. } { exact Mao. }
  assert (o' = o). { destruct (All o' Ho') as [->| ->]; [|reflexivity]. destruct (geo_match_irrefl a M'). } subst o'.
  destruct (po_sym _ _ _ _ _ P UC a o Ha Ho Q1) as [_ Q3].
  exists l, areas, a, o. repeat (split; [first [assumption|congruence]|]). congruence.
Qed.

Lemma stale_partner : exists b1 b2,
  setup_upscaling (fun l => l) two_faces 2 0 1%R 1%R false bcs_empty = Ok b1 /\
  setup_upscaling (fun l => l) two_faces 1 0 1%R 1%R false b1 = Ok b2 /\
  zget (t_partner b2) 1 = Some 2 /\ zget (t_partner b2) 2 = Some 1.
Proof.
  destruct two_partner as [l [areas [a [o [E [Ha [Ho [Ba [Bo [Pa [Po [UC _]]]]]]]]]]]].
  destruct (periodic_setup (fun l => l) two_faces 0 1%R 1%R false bcs_empty (fun l => Permutation_refl l) ltac:(lia) two_faces_ids)
    as [[_ E']|[l' [areas' [b1 [E' [E1 [_ H]]]]]]]; cbn [negb] in E'; rewrite E in E'; [discriminate|].
  inversion E'; subst l' areas'. destruct (H UC) as [Hp _].
  destruct (linear_prop (fun l => l) b1 two_faces 1%R 0 1%R false two_faces_ids ltac:(lia)) as [E2|[b2 [E2 _]]].
  { intros f d Hf Hd. destruct (two_faces_line f Hf) as [bid [x [-> Hx]]]. unfold mkf, vget, gf_cent.
    assert (1 <= huge)%R by (unfold huge; apply pow_R1_Rle; lra).
    destruct (d =? 0); cbn [fst snd]; [lra|]. destruct (d =? 1); cbn [fst snd]; lra. }
  - exfalso. unfold setup_upscaling in E2. cbn [Z.ltb Z.compare orb Z.eqb Pos.eqb Pos.compare Pos.compare_cont] in E2.
    destruct (linear_setup b1 two_faces 1%R 0 1%R false tol6 two_faces_ids) as [[_ [Q|[f [Hf Q]]]]|[b2 [E3 _]]].
    + apply Q. reflexivity.
    + destruct (two_faces_sides f Hf) as [s Hs]. eapply Q; eauto.
    + congruence.
  - exists b1, b2. split; [exact E1|]. split; [exact E2|].
    split; (eapply linear_keeps_partners; [exact two_faces_ids|exact E2| |unfold zlen; cbn; lia]).
    + rewrite <- Ba. rewrite (Hp a Ha). congruence.
    + rewrite <- Bo. rewrite (Hp o Ho). congruence.
Qed.

Lemma side_flux_prop srt b g fc sc tol l areas b' s q :
  (forall l, Permutation (srt l) l) -> zlen fc = 6 -> zlen sc = 6 -> unique_ids g ->
  find_periodic_partners srt g (map is_periodic fc) tol = Ok (l, areas) ->
  create_periodic srt b g fc sc tol = Ok b' ->
  zget fc s = Some (mkCond Neumann q) ->
  let side := filter (fun f => b_canon f =? s) l in
  total b_area side <> 0%R ->
  total (fun f => flow_value b' (b_bid f)) side = q /\
  (forall f, In f side -> zget (t_flow b') (b_bid f) = Some (mkCond Neumann (q * (b_area f / total b_area side))%R)).
Proof.
  intros Hs Lf Lc U E E' Hq side Hne.
  destruct (create_periodic_spec srt b g fc sc tol Hs Lf Lc U) as [[_ X]|[l' [areas' [b2 [E2 [P [E2' [_ [H _]]]]]]]]]; [congruence|].
  assert (l' = l /\ areas' = areas /\ b2 = b') as [-> [-> ->]] by (split; [|split]; congruence).
  assert (0 <= s < 6) as Hs6 by (pose proof (zget_Some_range _ _ _ Hq); lia).
  pose proof (proj2 (po_areas _ _ _ _ _ P) s Hs6) as HA. unfold side_total in HA. fold side in HA.
  assert (forall f, In f side -> zget (t_flow b') (b_bid f) = Some (mkCond Neumann (q * (b_area f / total b_area side))%R)) as HV.
  { intros f Hf. apply filter_In in Hf. destruct Hf as [Hf Hc]. apply Z.eqb_eq in Hc.
    destruct (H f Hf) as [_ [[c [Ec [c0 [Ec0 Hcc]]]] _]]. rewrite Hc, Hq in Ec0. injection Ec0 as <-. cbn [is_neumann c_type c_val] in Hcc.
    destruct Hcc as [a [Ea ->]]. rewrite Hc, HA in Ea. injection Ea as <-. rewrite Ec. f_equal. f_equal. field. exact Hne. }
  split; [|exact HV].
  assert (forall l', (forall f, In f l' -> In f side) -> (total (fun f => flow_value b' (b_bid f)) l' = q / total b_area side * total b_area l')%R) as G.
  { induction l' as [|f l' IH]; intros Hl'; unfold total in *; cbn [fold_right]; [ring|].
    rewrite IH by (intros; apply Hl'; right; assumption). 
    unfold flow_value. rewrite (HV f (Hl' f (or_introl eq_refl))). cbn [c_val]. field. exact Hne. }
  rewrite G by auto. field. exact Hne.
Qed.
