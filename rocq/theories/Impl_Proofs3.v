From Coq Require Import Lra Ranalysis1 Permutation.
From Verif Require Import BaseFacts RBaseFacts Steady_Proofs Euler_Proofs2 Euler_Spec Impl_Model Impl_Spec Impl_Proofs Impl_Proofs2.
Open Scope Z_scope.

(* ---- C58: residual is the balance *)
Lemma cF_flux g u dt c f : cF g u dt c f = (outward g c f * (dt * face_flux g u (chosen g u) f))%R.
Proof.
  unfold cF, flux_connection, cap_flux, face_flux, chosen, outward. cbn [fst snd].
  set (a := first_cell g f). set (b := second_cell g f). set (G := (u_gflux u f + u_trans u f * (u_pc u b - u_pc u a))%R).
  set (P := upwind u (u_dflux u f) G (a, b)). unfold pick. cbn [fst snd]. destruct (a =? c); unfold Rdiv; ring.
Qed.
Lemma source_flux u dt q : snd (source_terms u dt q) = (dt * source_out u q)%R.
Proof.
  unfold source_terms, source_out. destruct (Rltb_spec (- q_flux q) 0), (Rltb_spec 0 (q_flux q)); cbn [snd]; try lra; unfold Rdiv; ring.
Qed.
Lemma Rsum_if {A} (p : A -> bool) (h : A -> R) l : Rsum (map (fun x => if p x then h x else 0%R) l) = Rsum (map h (filter p l)).
Proof. induction l as [|x l IH]; cbn [map filter]; auto. rewrite Rsum_cons, IH. destruct (p x); cbn [map]; rewrite ?Rsum_cons; ring. Qed.

Lemma residual_balance g u dt src c : (cell_resid g u dt c + Rsum (map (fun q => if c =? q_cell q then snd (source_terms u dt q) else 0) src) = balance g u (chosen g u) dt src c)%R.
Proof.
  unfold cell_resid, balance. rewrite (Rsum_map_ext (cF g u dt c) (fun f => dt * (outward g c f * face_flux g u (chosen g u) f))%R) by (intros; rewrite cF_flux; ring).
  rewrite Rsum_map_scale. rewrite (Rsum_if (fun q => c =? q_cell q) (fun q => snd (source_terms u dt q))).
  rewrite (Rsum_map_ext (fun q => snd (source_terms u dt q)) (fun q => dt * source_out u q)%R) by (intros; apply source_flux).
  rewrite Rsum_map_scale. rewrite (filter_ext (fun q => c =? q_cell q) (fun q => q_cell q =? c)) by (intros; apply Z.eqb_sym). ring.
Qed.

Lemma assembled g u dt src : wf_grid g -> (forall q, In q src -> 0 <= q_cell q < t_nc g) ->
  exists s0 s, create_system g = Ok s0 /\ assemble g u dt src s0 = Ok s /\ zlen (y_res s) = t_nc g /\
    (forall c, 0 <= c < t_nc g -> nthR (y_res s) c = balance g u (chosen g u) dt src c).
Proof.
  intros W Hq. destruct (create_ok g W) as (s0 & E & _). destruct (assemble_ok g u dt src s0 W E Hq) as (s & A & B & C & D & F).
  exists s0, s. split; auto. split; auto. split; auto. intros c Hc. rewrite F by auto. apply residual_balance.
Qed.
Lemma pattern_kept g u dt src s0 s : wf_grid g -> (forall q, In q src -> 0 <= q_cell q < t_nc g) ->
  create_system g = Ok s0 -> assemble g u dt src s0 = Ok s ->
  forall c, 0 <= c < t_nc g -> exists row, zget (y_mat s) c = Some row /\ NoDup (map fst row) /\
    forall j, In j (map fst row) <-> j = c \/ exists f, In f (conns g c) /\ j = across g c f.
Proof.
  intros W Hq E A c Hc. destruct (create_ok g W) as (s1 & E1 & _ & _ & _ & P). rewrite E in E1. injection E1 as <-.
  destruct (assemble_ok g u dt src s0 W E Hq) as (s2 & A2 & B & _). rewrite A in A2. injection A2 as <-.
  destruct (P c Hc) as (cs & C1 & C2 & C3). rewrite <- B in C1. unfold cols in C1. rewrite zget_map in C1.
  destruct (zget (y_mat s) c) as [row|]; [|discriminate]. cbn in C1. injection C1 as <-. exists row. auto.
Qed.

(* ---- C58: conservation *)
Lemma Rsum_flat {A B} (h : B -> R) (F : A -> list B) l : Rsum (map h (flat_map F l)) = Rsum (map (fun a => Rsum (map h (F a))) l).
Proof. induction l as [|a l IH]; cbn [flat_map map]; auto. rewrite map_app, Rsum_app, Rsum_cons, IH. reflexivity. Qed.
Lemma Rsum_swap (src : list tsource) (h : tsource -> R) n : 0 <= n -> (forall q, In q src -> 0 <= q_cell q < n) ->
  Rsum (map (fun c => Rsum (map h (filter (fun q => q_cell q =? c) src))) (zrange 0 n)) = Rsum (map h src).
Proof.
  intros Hn. induction src as [|q src IH]; intros Hq.
  - cbn. apply Rsum_map_zero. auto.
  - cbn [map]. rewrite Rsum_cons, <- IH by (intros; apply Hq; right; auto).
    assert (K : Rsum (map (fun c => if q_cell q =? c then h q else 0%R) (zrange 0 n)) = h q).
    { rewrite (Rsum_map_ext _ (fun i => if i =? q_cell q then h q else 0%R)) by (intros; now rewrite Z.eqb_sym).
      pose proof (Rsum_pick (fun _ => h q) (q_cell q) 0 (Z.to_nat n)) as K. rewrite Z2Nat.id in K by lia. cbn [Z.add] in K. rewrite K.
      specialize (Hq q (or_introl eq_refl)). destruct (Z.leb_spec 0 (q_cell q)), (Z.ltb_spec (q_cell q) n); cbn [andb]; auto; lia. }
    rewrite <- K at 1. rewrite <- Rsum_map_plus. apply Rsum_map_ext. intros c _. cbn [filter]. destruct (q_cell q =? c); cbn [map]; rewrite ?Rsum_cons; ring.
Qed.
Definition out_flux g u up (cf : Z * Z) : R := (outward g (fst cf) (snd cf) * face_flux g u up (snd cf))%R.
Lemma total_ok g u up dt src fs (pp : list ((Z * Z) * (Z * Z))) : 0 <= t_nc g -> (forall q, In q src -> 0 <= q_cell q < t_nc g) ->
  (forall f, In f fs -> first_cell g f <> second_cell g f) ->
  Permutation (half_conns g) (both_sides g fs ++ flat_map (fun p => [fst p; snd p]) pp) ->
  Rsum (map (balance g u up dt src) (zrange 0 (t_nc g))) =
  (Rsum (map (fun c => u_pv u c * u_ds u c) (zrange 0 (t_nc g))) + dt * Rsum (map (source_out u) src)
   + dt * Rsum (map (fun p => out_flux g u up (fst p) + out_flux g u up (snd p)) pp))%R.
Proof.
  intros Hn Hq Hf HP.
  assert (S1 : Rsum (map (fun c => Rsum (map (fun f => outward g c f * face_flux g u up f)%R (conns g c))) (zrange 0 (t_nc g))) =
               Rsum (map (fun p => out_flux g u up (fst p) + out_flux g u up (snd p))%R pp)).
  { transitivity (Rsum (map (out_flux g u up) (half_conns g))).
    - unfold half_conns. rewrite Rsum_flat. apply Rsum_map_ext. intros c _. rewrite map_map. reflexivity.
    - rewrite (Rsum_perm _ _ (Permutation_map _ HP)), map_app, Rsum_app.
      replace (Rsum (map (out_flux g u up) (both_sides g fs))) with 0%R.
      + rewrite Rsum_flat, Rplus_0_l. apply Rsum_map_ext. intros p _. cbn [map]. rewrite !Rsum_cons, Rsum_nil. ring.
      + symmetry. unfold both_sides. rewrite Rsum_flat. apply Rsum_map_zero. intros f Hin. cbn [map]. rewrite !Rsum_cons, Rsum_nil.
        unfold out_flux, outward. cbn [fst snd]. rewrite Z.eqb_refl. destruct (Z.eqb_spec (first_cell g f) (second_cell g f)) as [E|_]; [apply Hf in E; auto; contradiction|]. ring. }
  unfold balance. rewrite !Rsum_map_plus. rewrite (Rsum_map_scale (fun c => Rsum (map (fun f => outward g c f * face_flux g u up f)%R (conns g c)))), S1.
  rewrite (Rsum_map_scale (fun c => Rsum (map (source_out u) (filter (fun q => q_cell q =? c) src)))), Rsum_swap by auto. rewrite ?Rsum_map_plus. ring.
Qed.
Lemma matched_cancel g u p : matched g u p -> u_trans u (snd (fst p)) = u_trans u (snd (snd p)) ->
  (out_flux g u (chosen g u) (fst p) + out_flux g u (chosen g u) (snd p) = 0)%R.
Proof.
  destruct p as ((a & f) & (b & f')). cbn [fst snd]. intros (A & B & N & C & D & E) F.
  unfold out_flux, outward, face_flux, chosen. cbn [fst snd]. rewrite <- A, <- B, <- D, <- E, <- F.
  destruct C as [(-> & ->)|(-> & ->)]; rewrite Z.eqb_refl; destruct (Z.eqb_spec (first_cell g f) (second_cell g f)); try contradiction; ring.
Qed.
Lemma conservation g u dt src fs pp s0 s : wf_grid g -> (forall q, In q src -> 0 <= q_cell q < t_nc g) ->
  (forall f, In f fs -> first_cell g f <> second_cell g f) ->
  (forall p, In p pp -> matched g u p /\ u_trans u (snd (fst p)) = u_trans u (snd (snd p))) ->
  Permutation (half_conns g) (both_sides g fs ++ flat_map (fun p => [fst p; snd p]) pp) ->
  create_system g = Ok s0 -> assemble g u dt src s0 = Ok s ->
  Rsum (map (nthR (y_res s)) (zrange 0 (t_nc g))) =
  (Rsum (map (fun c => u_pv u c * u_ds u c) (zrange 0 (t_nc g))) + dt * Rsum (map (source_out u) src))%R.
Proof.
  intros W Hq Hf Hp HP E A. destruct (assembled g u dt src W Hq) as (s0' & s' & E' & A' & _ & B). rewrite E in E'. injection E' as <-. rewrite A in A'. injection A' as <-.
  rewrite (Rsum_map_ext _ (balance g u (chosen g u) dt src)) by (intros c Hc; apply B; now apply In_zrange).
  pose proof W as (W0 & _). rewrite (total_ok g u (chosen g u) dt src fs pp) by auto.
  rewrite (Rsum_map_zero _ pp); [ring|]. intros p Hin. destruct (Hp p Hin). now apply matched_cancel.
Qed.

(* ---- C59: Jacobian *)
Section derivative.
Context (s : Z -> R) (j : Z).
Lemma change_same i : change s j (s j) i = s i.
Proof. unfold change. destruct (Z.eqb_spec i j) as [->|]; auto. Qed.
Lemma D_change h d i : derivable_pt_lim h (s i) d -> derivable_pt_lim (fun t => h (change s j t i)) (s j) (if i =? j then d else 0%R).
Proof.
  intros H. unfold change. destruct (Z.eqb_spec i j) as [->|]; auto. apply derivable_pt_lim_const.
Qed.
Lemma D_sum {A} (F : A -> R -> R) (D : A -> R) x l : (forall a, In a l -> derivable_pt_lim (F a) x (D a)) ->
  derivable_pt_lim (fun t => Rsum (map (fun a => F a t) l)) x (Rsum (map D l)).
Proof.
  induction l as [|a l IH]; intros H.
  - cbn [map]. rewrite Rsum_nil. apply derivable_pt_lim_const.
  - cbn [map]. rewrite Rsum_cons. apply (derivable_pt_lim_ext (fun t => F a t + Rsum (map (fun a => F a t) l))%R).
    + intros z. now rewrite Rsum_cons.
    + apply (derivable_pt_lim_plus (F a) (fun t => Rsum (map (fun a => F a t) l))); [apply H; left; auto|apply IH; intros; apply H; right; auto].
Qed.
Lemma D_frac A B x A' B' : derivable_pt_lim A x A' -> derivable_pt_lim B x B' -> (A x + B x <> 0)%R ->
  derivable_pt_lim (fun t => A t / (A t + B t))%R x ((A' * (A x + B x) - (A' + B') * A x) / (A x + B x) ^ 2)%R.
Proof.
  intros HA HB N. pose proof (derivable_pt_lim_plus _ _ _ _ _ HA HB) as HS.
  pose proof (derivable_pt_lim_div A (A + B)%F x A' (A' + B') HA HS N) as HD. unfold plus_fct, div_fct, Rsqr in HD.
  replace ((A' * (A x + B x) - (A' + B') * A x) / (A x + B x) ^ 2)%R with ((A' * (A x + B x) - (A' + B') * A x) / ((A x + B x) * (A x + B x)))%R by (field; auto). exact HD.
Qed.
End derivative.

Section jacobian.
Context (g : tgrid) (W : wf_grid g) (l0 l1 pc d0 d1 dpc : Z -> R -> R) (pv trans gflux dflux sold s : Z -> R) (dt : R) (src : list tsource) (j : Z).
Let u := store_of l0 l1 pc d0 d1 dpc pv trans gflux dflux sold s.
Let ut t := store_of l0 l1 pc d0 d1 dpc pv trans gflux dflux sold (change s j t).
Context (HD : forall i, 0 <= i < t_nc g -> derivable_pt_lim (l0 i) (s i) (d0 i (s i)) /\ derivable_pt_lim (l1 i) (s i) (d1 i (s i)) /\ derivable_pt_lim (pc i) (s i) (dpc i (s i))).

Lemma D_face c f : 0 <= c < t_nc g -> In f (conns g c) -> total_mobility g u (chosen g u) f <> 0%R ->
  derivable_pt_lim (fun t => dt * (outward g c f * face_flux g (ut t) (chosen g u) f))%R (s j)
    ((if j =? c then cJ1 g u dt c f else 0) + (if j =? across g c f then cJ2 g u dt c f else 0))%R.
Proof.
  intros Hc Hin MT. destruct (conns_range g W c f Hc Hin) as (Rf & Ra & Rc).
  assert (R1 : 0 <= first_cell g f < t_nc g) by (unfold across in Ra; destruct (Z.eqb_spec (first_cell g f) c); lia).
  assert (R2 : 0 <= second_cell g f < t_nc g) by (unfold across in Ra; destruct (Z.eqb_spec (first_cell g f) c); lia).
  clear Rf Hin. destruct (chosen g u f) as [p0 p1] eqn:EP. unfold total_mobility in MT. rewrite EP in MT. cbn [fst snd] in MT.
  set (a := first_cell g f) in *. set (b := second_cell g f) in *.
  assert (RX : forall p, 0 <= (if Z.eqb p 0 then a else b) < t_nc g) by (intros p; destruct (p =? 0); auto).
  set (x0 := if p0 =? 0 then a else b) in *. set (x1 := if p1 =? 0 then a else b) in *.
  destruct (HD x0 (RX p0)) as (D0 & _). destruct (HD x1 (RX p1)) as (_ & D1 & _). destruct (HD a R1) as (_ & _ & DA). destruct (HD b R2) as (_ & _ & DB).
  apply (D_change s j) in D0. apply (D_change s j) in D1. apply (D_change s j) in DA. apply (D_change s j) in DB.
  pose proof (derivable_pt_lim_minus _ _ _ _ _ DB DA) as E1. apply (derivable_pt_lim_scal _ (trans f)) in E1.
  pose proof (derivable_pt_lim_plus _ _ _ _ _ (derivable_pt_lim_const (gflux f) (s j)) E1) as E2.
  pose proof (derivable_pt_lim_mult _ _ _ _ _ D1 E2) as E3.
  pose proof (derivable_pt_lim_plus _ _ _ _ _ (derivable_pt_lim_const (dflux f) (s j)) E3) as E4.
  assert (N : (l0 x0 (change s j (s j) x0) + l1 x1 (change s j (s j) x1) <> 0)%R) by (rewrite !change_same; exact MT).
  pose proof (D_frac _ _ _ _ _ D0 D1 N) as E5.
  pose proof (derivable_pt_lim_mult _ _ _ _ _ E5 E4) as E6. apply (derivable_pt_lim_scal _ (outward g c f)) in E6. apply (derivable_pt_lim_scal _ dt) in E6.
  eapply derivable_pt_lim_ext with (f := _) in E6.
  - match type of E6 with derivable_pt_lim _ _ ?l => replace (_ + _)%R with l; [exact E6|] end.
    unfold mult_fct, plus_fct, minus_fct, mult_real_fct, fct_cte. rewrite !change_same. clear E1 E2 E3 E4 E5 E6 D0 D1 DA DB N.
    unfold cJ1, cJ2, flux_connection, cap_flux. cbn [fst snd]. fold a b.
    assert (EP' : upwind u (u_dflux u f) (u_gflux u f + u_trans u f * (u_pc u b - u_pc u a))%R (a, b) = (p0, p1)) by exact EP.
    rewrite EP'. cbn [fst snd]. unfold pick. cbn [fst snd]. fold x0 x1.
    unfold outward, across. fold a b. cbn [u u_m0 u_m1 u_d0 u_d1 u_dpc u_pc u_trans u_gflux u_dflux store_of].
    assert (MT' : (l0 x0 (s x0) + l1 x1 (s x1) <> 0)%R) by exact MT. clear MT EP EP' HD RX Ra. subst x0 x1.
    destruct (Z.eqb_spec a c) as [Ea|Ea].
    + rewrite Ea in *. clear Ea a. destruct (Z.eqb_spec j c) as [Ej|Ej], (Z.eqb_spec j b) as [Eb|Eb];
      destruct (p0 =? 0), (p1 =? 0); 
      repeat match goal with |- context [?x =? j] => rewrite (Z.eqb_sym x j) end;
      repeat match goal with |- context [j =? ?x] => destruct (Z.eqb_spec j x); try congruence; try contradiction end; cbn [negb]; try (field; exact MT').
    + destruct Rc as [Rc|Rc]; [contradiction|]. rewrite Rc in *. destruct (Z.eqb_spec j c) as [Ej|Ej], (Z.eqb_spec j a) as [Eb|Eb];
      destruct (p0 =? 0), (p1 =? 0);
      repeat match goal with |- context [?x =? j] => rewrite (Z.eqb_sym x j) end;
      repeat match goal with |- context [j =? ?x] => destruct (Z.eqb_spec j x); try congruence; try contradiction end; cbn [negb]; try (field; exact MT').
  - intros z. unfold mult_fct, plus_fct, minus_fct, mult_real_fct, fct_cte, face_flux. rewrite EP. cbn [fst snd]. fold a b x0 x1. reflexivity.
Qed.
End jacobian.
