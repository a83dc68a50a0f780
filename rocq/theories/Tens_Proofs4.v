From Verif Require Import BaseFacts RBaseFacts Lin_Facts Steady_Proofs Euler_Proofs2 Impl_Proofs Matx_Proofs Hnum_Proofs Hyb_Proofs Hyb_Proofs2 Hyb_Proofs3 Hyb_Proofs4 Hyb_Proofs5 Hyb_Proofs6 Hyb_Proofs7 Hyb_Proofs8 Hyb_Proofs9 Eld_Proofs2 Bound_Proofs Bound_Proofs3 Lsv_Proofs Lsv_Proofs2 Lsv_Proofs4 Lsv_Proofs5 Upb_Proofs Tens_Proofs Tens_Proofs2 Tens_Proofs3 Tens_Spec.
Open Scope Z_scope.

(* ---- admissible fluxes and pressures with given jumps ---- *)
Definition admissible (g : list hcell) (bc : hbc) (w : Z -> Z -> R) : Prop :=
  (forall k, 0 <= k < zlen g -> Sum (nfaces g k) (w k) = 0%R) /\ (forall k r k' r', joined g bc k r k' r' -> w k' r' = (- w k r)%R) /\
  (forall k r q, half g k r -> cond_at g bc k r = Some (CNeumann q) -> w k r = 0%R).
Definition jumps (g : list hcell) (bc : hbc) (l D : Z -> Z -> R) : Prop :=
  (forall k r k' r', joined g bc k r k' r' -> (l k r - D k r)%R = (l k' r' - D k' r')%R) /\
  (exists c, forall k r p, half g k r -> cond_at g bc k r = Some (CDirichlet p) -> (l k r - D k r)%R = c).
Lemma test_flux g bc st w l D p : structured g bc st -> admissible g bc w -> jumps g bc l D ->
  S2 g (fun k r => w k r * (p k - l k r))%R = (- S2 g (fun k r => w k r * D k r))%R.
Proof.
  intros HS (A1 & A2 & A3) (J1 & c & J2).
  rewrite (S2_ext g (fun k r => w k r * (p k - l k r))%R (fun k r => w k r * ((p k - c) - (l k r - c)))%R) by (intros; ring).
  apply (green g bc st w (fun k r => l k r - c)%R D (fun k => p k - c)%R HS A1).
  - intros k r k' r' J. rewrite (A2 k r k' r' J). specialize (J1 k r k' r' J). replace (l k' r' - c - D k' r')%R with (l k r - D k r - c)%R by lra. ring.
  - intros k r Hh Lo. destruct (cond_at g bc k r) as [[q|d|q]|] eqn:E.
    + specialize (J2 k r q Hh E). replace (l k r - c - D k r)%R with 0%R by lra. ring.
    + destruct (Hyb_Proofs.partner_ex g bc _ (HST g bc st HS) k r d (conj Hh E)) as (k' & r' & Pr & (Hh' & _) & _). destruct (Lo k' r'). split; [exact Hh|]. split; [exact Hh'|]. right. exact Pr.
    + rewrite (A3 k r q Hh E). ring.
    + exfalso. destruct (joined_or_loose g bc st k r HS Hh) as [(k' & r' & J)|_]; [exact (Lo k' r' J)|]. unfold cond_at in E. destruct (nbr g k r) as [n|] eqn:En; [|discriminate].
      destruct (HST g bc st HS) as ((_ & _ & Sy & _) & _). destruct (Sy k r n Hh En) as (_ & k' & r' & Hh' & <- & En'). apply (Lo k' r'). split; [exact Hh|]. split; [exact Hh'|]. left. split; assumption.
Qed.
Lemma adm_scal g bc a w : admissible g bc w -> admissible g bc (fun k r => a * w k r)%R.
Proof.
  intros (A1 & A2 & A3). split; [|split].
  - intros k Hk. rewrite Sum_scal, (A1 k Hk). ring.
  - intros k r k' r' J. rewrite (A2 _ _ _ _ J). ring.
  - intros k r q Hh E. rewrite (A3 k r q Hh E). ring.
Qed.
Lemma adm_Sum g bc n (w : Z -> Z -> Z -> R) : (forall i, 0 <= i < n -> admissible g bc (w i)) -> admissible g bc (fun k r => Sum n (fun i => w i k r)).
Proof.
  intros A. split; [|split].
  - intros k Hk. rewrite Sum_swap. apply Sum_zero. intros i Hi. apply (A i Hi). exact Hk.
  - intros k r k' r' J. rewrite <- Sum_opp. apply Sum_ext. intros i Hi. apply (A i Hi). exact J.
  - intros k r q Hh E. apply Sum_zero. intros i Hi. apply (proj2 (proj2 (A i Hi)) k r q Hh E).
Qed.
(* ---- the variational principles ---- *)
Section Principles.
Variables (g : list hcell) (ip : hip) (bc : hbc) (st : hstruct).
Hypothesis HS : structured g bc st.
Hypothesis Sp : ip_spd g ip.
Lemma energy_minus a b : energy g ip (fun k r => a k r - b k r)%R (fun k r => a k r - b k r)%R = (energy g ip a a - 2 * energy g ip a b + energy g ip b b)%R.
Proof.
  transitivity (energy g ip a a - energy g ip a b - energy g ip b a + energy g ip b b)%R; [|rewrite (energy_sym g ip b a Sp); ring].
  unfold energy. rewrite (S2_ext g _ (fun k r => (force g ip a k r * a k r - force g ip a k r * b k r) - (force g ip b k r * a k r - force g ip b k r * b k r))%R); [rewrite !S2_minus; ring|]. intros k r _. rewrite force_minus. ring.
Qed.
Variables (D l : Z -> Z -> R) (p : Z -> R).
Let pi := fun k r => (p k - l k r)%R.
Hypothesis Ad : admissible g bc (force g ip pi).
Hypothesis Ju : jumps g bc l D.
Lemma energy_value : energy g ip pi pi = (- S2 g (fun k r => force g ip pi k r * D k r))%R.
Proof. unfold energy, pi. apply (test_flux g bc st _ l D p HS Ad Ju). Qed.
Lemma trial_pressure l' p' : jumps g bc l' D -> (energy g ip pi pi <= energy g ip (fun k r => p' k - l' k r) (fun k r => p' k - l' k r))%R.
Proof.
  intros Ju'. pose proof (energy_minus pi (fun k r => p' k - l' k r)%R) as E. pose proof (energy_nonneg g ip (fun k r => pi k r - (p' k - l' k r))%R Sp) as N. rewrite E in N.
  assert (X : energy g ip pi (fun k r => p' k - l' k r)%R = energy g ip pi pi) by (rewrite energy_value; apply (test_flux g bc st _ l' D p' HS Ad Ju')). rewrite X in N. lra.
Qed.
Lemma trial_flux eta : admissible g bc (force g ip eta) -> (- 2 * S2 g (fun k r => force g ip eta k r * D k r) - energy g ip eta eta <= energy g ip pi pi)%R.
Proof.
  intros Ae. pose proof (energy_minus eta pi) as E. pose proof (energy_nonneg g ip (fun k r => eta k r - pi k r)%R Sp) as N. rewrite E in N.
  assert (X : energy g ip eta pi = (- S2 g (fun k r => force g ip eta k r * D k r))%R) by (apply (test_flux g bc st _ l D p HS Ae Ju)). rewrite X in N. lra.
Qed.
End Principles.
(* ---- the directions ---- *)
Section Run.
Variables (srt : list bface -> list bface) (g : list hcell) (geo : Z -> mcell) (ip : hip) (bct : Z) (twodim : bool) (low hi : Z -> R).
Hypothesis BK : block srt g geo ip bct twodim low hi.
Hypothesis Hbct : bct = 0 \/ bct = 2.
Hypothesis FM : flow_matrices g ip.
Variable bR : bcs.
Hypothesis BR : box_faces bR (grid_faces g geo) low hi.
Notation gf := (map uf_g (grid_faces g geo)).
Let Hn := bk_n srt g geo ip bct twodim low hi BK.
Let Hb := bk_b srt g geo ip bct twodim low hi BK.
Let Geo := bk_geo srt g geo ip bct twodim low hi BK.
Lemma side_normal_inj s s' : 0 <= s < 6 -> 0 <= s' < 6 -> side_normal s = side_normal s' -> s = s'.
Proof.
  intros Hs Hs' E. assert (s = 0 \/ s = 1 \/ s = 2 \/ s = 3 \/ s = 4 \/ s = 5) as X by lia. assert (s' = 0 \/ s' = 1 \/ s' = 2 \/ s' = 3 \/ s' = 4 \/ s' = 5) as X' by lia.
  destruct X as [-> |[-> |[-> |[-> |[-> | ->]]]]], X' as [-> |[-> |[-> |[-> |[-> | ->]]]]]; try reflexivity; exfalso; unfold side_normal in E; cbn in E; inversion E; lra.
Qed.
Lemma side_same b k r s : box_faces b (grid_faces g geo) low hi -> on_side_of g b k r s -> on_side_of g bR k r s.
Proof.
  intros Bx O. destruct (on_side_geo g geo b low hi Hn Hb Bx k r s O) as (Hs & E & _). destruct O as (Hh & En & Ec). destruct (side_ex g geo bR low hi Hn Hb BR k r Hh En) as (s' & Hs' & O' & E' & _). rewrite E in E'. apply side_normal_inj in E'; [|assumption..]. subst s'. exact O'.
Qed.
Lemma side_back b k r s : box_faces b (grid_faces g geo) low hi -> on_side_of g bR k r s -> on_side_of g b k r s.
Proof.
  intros Bx O. destruct (on_side_geo g geo bR low hi Hn Hb BR k r s O) as (Hs & E & _). destruct O as (Hh & En & Ec). destruct (side_ex g geo b low hi Hn Hb Bx k r Hh En) as (s' & Hs' & O' & E' & _). rewrite E in E'. apply side_normal_inj in E'; [|assumption..]. subst s'. exact O'.
Qed.
Lemma ind_same b s k r : box_faces b (grid_faces g geo) low hi -> half g k r -> Tens_Proofs2.ind g geo b s k r = Tens_Proofs2.ind g geo bR s k r.
Proof.
  intros Bx Hh. destruct (ind_case g geo b low hi Hn Hb Bx s k r Hh) as [(O & ->)|E].
  - symmetry. apply (ind_on g geo bR Hn Hb). apply (side_same b k r s Bx O).
  - rewrite E. destruct (ind_case g geo bR low hi Hn Hb BR s k r Hh) as [(O & _)|E']; [|congruence]. rewrite (ind_on g geo b Hn Hb s k r (side_back b k r s Bx O)) in E. lra.
Qed.
Definition dropat (d k r : Z) : R := (Tens_Proofs2.ind g geo bR (2 * d) k r / 2 - Tens_Proofs2.ind g geo bR (2 * d + 1) k r / 2)%R.
Lemma drop_on d k r s : 0 <= d < 3 -> on_side_of g bR k r s -> dropat d k r = (if s =? 2 * d then 1 / 2 else if s =? 2 * d + 1 then - (1 / 2) else 0)%R.
Proof.
  intros Hd O. destruct (inds g geo bR Hn Hb d s k r Hd O) as (E1 & E2). unfold dropat. rewrite E1, E2. destruct (Z.eqb_spec s (2 * d)), (Z.eqb_spec s (2 * d + 1)); try lia; lra.
Qed.
Lemma drop_inner d k r : half g k r -> nbr g k r <> None -> dropat d k r = 0%R.
Proof. intros Hh N. unfold dropat. rewrite !(ind_inner g geo bR Hn Hb) by assumption. lra. Qed.
Variables (d : Z) (b : bcs) (b0 : bcs) (st : hstruct) (x ps : list R) (vs : list (list R)).
Hypothesis Hd : 0 <= d < 3.
Hypothesis S : setup_upscaling srt gf bct d 1 1 twodim b0 = Ok b.
Hypothesis HS : structured g (hbc_of b) st.
Hypothesis Da : darcy_law g ip st x ps vs.
Hypothesis Co : conserving g (zrepeat 0%R (zlen g)) vs.
Hypothesis Fl : flow_conditions g (hbc_of b) st x vs.
Let Bx := bk_box srt g geo ip bct twodim low hi BK d b0 b Hd S.
Definition contact (k r : Z) : R := nthR x (Hyb_Spec.num st k r).
Definition pdrop (k r : Z) : R := (nthR ps k - contact k r)%R.
Lemma flux_force k r : half g k r -> at2 vs k r = force g ip pdrop k r.
Proof.
  intros Hh. rewrite (Da k r Hh). destruct FM as (_ & G). rewrite (G k (proj1 Hh)). unfold nthR at 1. rewrite zget_zrepeat by apply Hh. unfold force, pdrop, contact. ring.
Qed.
Lemma flux_adm : admissible g (hbc_of b) (at2 vs).
Proof.
  destruct Fl as (F1 & _ & F3 & F4). split; [|split].
  - intros k Hk. rewrite (Co k Hk). unfold nthR. destruct (bk_problem srt g geo ip bct twodim low hi BK d b0 b Hd S) as ((_ & I & _) & _). rewrite zget_zrepeat by (apply I; exact Hk). reflexivity.
  - intros k r k' r' (A & B & [T|Pr]); [specialize (F1 k r k' r' A B T); lra|]. pose proof Pr as (dd & _ & (_ & Ec) & _). destruct (F4 k r k' r' dd Pr Ec) as (_ & E). lra.
  - intros k r q Hh Ec. rewrite (F3 k r q Hh Ec). pose proof (no_outflux srt g geo ip bct twodim low hi BK Hbct d b0 b Hd S k r Hh) as N. unfold outflux_at in N. rewrite Ec in N. exact N.
Qed.
Lemma adm_ext bc w w' : (forall k r, half g k r -> w k r = w' k r) -> admissible g bc w -> admissible g bc w'.
Proof.
  intros E (A1 & A2 & A3). split; [|split].
  - intros k Hk. rewrite <- (A1 k Hk). apply Sum_ext. intros r Hr. symmetry. apply E. split; assumption.
  - intros k r k' r' J. rewrite <- !E; [apply A2; exact J|apply J|apply J].
  - intros k r q Hh Ec. rewrite <- (E k r Hh). apply (A3 k r q Hh Ec).
Qed.
Lemma force_adm : admissible g (hbc_of b) (force g ip pdrop).
Proof. apply (adm_ext _ (at2 vs)); [apply flux_force|exact flux_adm]. Qed.
Lemma twins_num k r k' r' : twins g k r k' r' -> half g k r -> half g k' r' -> Hyb_Spec.num st k r = Hyb_Spec.num st k' r'.
Proof. intros T A B. destruct (HST g _ st HS) as (_ & _ & _ & _ & _ & _ & (_ & _ & I & _)). unfold Hyb_Spec.num. apply I; [assumption..|right; exact T]. Qed.
Lemma side_of k r : half g k r -> nbr g k r = None -> exists s, 0 <= s < 6 /\ on_side_of g bR k r s /\ cond_at g (hbc_of b) k r = Some (side_cond bct d twodim s).
Proof.
  intros Hh En. destruct (side_ex g geo b low hi Hn Hb Bx k r Hh En) as (s & Hs & O & _). exists s. split; [exact Hs|]. split; [apply (side_same b k r s Bx O)|]. apply (conds srt g geo ip bct twodim low hi BK Hbct d b0 b Hd S k r s O).
Qed.
Lemma cond_outer k r c : cond_at g (hbc_of b) k r = Some c -> nbr g k r = None.
Proof. unfold cond_at. destruct (nbr g k r); [discriminate|reflexivity]. Qed.
Lemma drop_periodic k r dd : half g k r -> cond_at g (hbc_of b) k r = Some (CPeriodic dd) -> dropat d k r = (dd / 2)%R.
Proof.
  intros Hh Ec. destruct (side_of k r Hh (cond_outer k r _ Ec)) as (s & Hs & O & Ec'). rewrite Ec in Ec'. injection Ec' as Ec'. rewrite (drop_on d k r s Hd O). revert Ec'. unfold side_cond. destruct (bct =? 0).
  - destruct (s =? 2 * d); [discriminate|]. destruct (s =? 2 * d + 1); discriminate.
  - unfold periodic_flow. destruct (twodim && (4 <=? s)); [discriminate|]. destruct (Z.eqb_spec s (2 * d)); [cbn; intros E; injection E as ->; lra|]. destruct (Z.eqb_spec s (2 * d + 1)); cbn; intros E; injection E as ->; lra.
Qed.
Lemma contact_jumps : jumps g (hbc_of b) contact (dropat d).
Proof.
  destruct Fl as (_ & F2 & _ & F4). split.
  - intros k r k' r' (A & B & [T|Pr]).
    + unfold contact. rewrite (twins_num k r k' r' T A B). rewrite !drop_inner; [reflexivity|exact B| |exact A|]; destruct T as (T1 & T2); congruence.
    + pose proof (Hyb_Proofs.partners_sym g _ _ (HST g _ st HS) k r k' r' Pr) as Pr'. pose proof Pr as (dd & dd' & (_ & Ec) & (_ & Ec') & _). destruct (F4 k r k' r' dd Pr Ec) as (E & _). destruct (F4 k' r' k r dd' Pr' Ec') as (E' & _). unfold contact.
      rewrite (drop_periodic k r dd A Ec), (drop_periodic k' r' dd' B Ec'). lra.
  - exists (1 / 2)%R. intros k r p Hh Ec. unfold contact. rewrite (F2 k r p Hh Ec). destruct (side_of k r Hh (cond_outer k r _ Ec)) as (s & Hs & O & Ec'). rewrite Ec in Ec'. injection Ec' as Ec'. rewrite (drop_on d k r s Hd O). revert Ec'. unfold side_cond. destruct (bct =? 0).
    + destruct (Z.eqb_spec s (2 * d)); [intros E; injection E as ->; lra|]. destruct (Z.eqb_spec s (2 * d + 1)); [|discriminate]. intros E. injection E as ->. lra.
    + unfold periodic_flow. destruct (twodim && (4 <=? s)); [discriminate|]. destruct (s =? 2 * d); [discriminate|]. destruct (s =? 2 * d + 1); discriminate.
Qed.
(* the averages in terms of the energy product *)
Lemma flux_drop w e : 0 <= e < 3 -> S2 g (fun k r => w k r * dropat e k r)%R = ((side_flux g geo bR w (2 * e) - side_flux g geo bR w (2 * e + 1)) / 2)%R.
Proof.
  intros He. unfold side_flux, Rdiv. rewrite <- S2_minus, Rmult_comm, <- S2_scal. apply S2_ext. intros k r _. unfold dropat. lra.
Qed.
Lemma mean_of t e : 0 <= e < 3 -> half_table g t -> (forall k r, half g k r -> at2 t k r = at2 vs k r) ->
  average_velocity b (grid_faces g geo) (List.concat t) e = Ok (Some (- S2 g (fun k r => at2 vs k r * dropat e k r) / side_area g geo bR (2 * e))%R).
Proof.
  intros He Ht Et. rewrite (mean_ok g geo b low hi Hn Hb Bx t e He Ht). do 2 f_equal. rewrite (flux_drop _ e He).
  assert (P := bk_problem srt g geo ip bct twodim low hi BK d b0 b Hd S). destruct P as (W & C & _).
  assert (Ef : forall s, side_flux g geo b (at2 t) s = side_flux g geo bR (at2 vs) s) by (intros s; apply S2_ext; intros k r Hh; rewrite (ind_same b s k r Bx Hh), (Et k r Hh); reflexivity).
  assert (Ea : forall s, side_area g geo b s = side_area g geo bR s) by (intros s; apply S2_ext; intros k r Hh; rewrite (ind_same b s k r Bx Hh); reflexivity).
  rewrite !Ef, !Ea. destruct (side_areas g geo bR low hi Hn Hb BR Geo e W C He) as (-> & _). field. apply Rgt_not_eq. apply (side_area_pos g geo bR low hi Hn Hb BR). lia.
Qed.
End Run.
