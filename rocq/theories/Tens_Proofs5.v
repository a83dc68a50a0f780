From Verif Require Import BaseFacts RBaseFacts Lin_Facts Steady_Proofs Euler_Proofs2 Impl_Proofs Matx_Proofs Hnum_Proofs Hyb_Proofs Hyb_Proofs2 Hyb_Proofs3 Hyb_Proofs4 Hyb_Proofs5 Hyb_Proofs6 Hyb_Proofs7 Hyb_Proofs8 Hyb_Proofs9 Eld_Proofs2 Bound_Proofs Bound_Proofs3 Lsv_Proofs Lsv_Proofs2 Lsv_Proofs4 Lsv_Proofs5 Upb_Proofs Tens_Proofs Tens_Proofs2 Tens_Proofs3 Tens_Proofs4 Tens_Spec.
Open Scope Z_scope.

Lemma Sum3 f : Sum 3 f = (f 0%Z + f 1%Z + f 2%Z)%R.
Proof. rewrite !Sum_pred by lia. rewrite Sum_neg by lia. cbn [Z.sub Z.add Z.opp Z.pos_sub Pos.pred_double]. ring. Qed.
Section Linear.
Variables (g : list hcell) (ip : hip).
Lemma energy_Sum_l n (c : Z -> R) (a : Z -> Z -> Z -> R) b : energy g ip (fun k r => Sum n (fun i => c i * a i k r))%R b = Sum n (fun i => c i * energy g ip (a i) b)%R.
Proof.
  unfold energy. rewrite (S2_ext g _ (fun k r => Sum n (fun i => c i * (force g ip (a i) k r * b k r)))%R).
  - rewrite S2_Sum. apply Sum_ext. intros i _. apply S2_scal.
  - intros k r _. rewrite force_Sum, <- Sum_scal_r. apply Sum_ext. intros i _. rewrite force_scal. ring.
Qed.
Lemma energy_Sum n (c : Z -> R) (a : Z -> Z -> Z -> R) : ip_spd g ip -> energy g ip (fun k r => Sum n (fun i => c i * a i k r))%R (fun k r => Sum n (fun i => c i * a i k r))%R = Sum n (fun i => c i * Sum n (fun j => c j * energy g ip (a i) (a j)))%R.
Proof.
  intros Sp. rewrite energy_Sum_l. apply Sum_ext. intros i _. f_equal. rewrite (energy_sym g ip _ _ Sp), energy_Sum_l. apply Sum_ext. intros j _. f_equal. apply energy_sym, Sp.
Qed.
(* flux of a constant velocity against a linear pressure *)
Lemma cell_energy c q y : closed_cell 3 c -> Sum (zlen (mc_faces c)) (fun r => dot 3 (areavec c r) q * dot 3 y (offset c r))%R = (mc_vol c * dot 3 q y)%R.
Proof.
  intros Cl. unfold dot.
  rewrite (Sum_ext _ _ (fun r => Sum 3 (fun a => Sum 3 (fun b => q a * y b * (areavec c r a * offset c r b))))%R) by (intros r _; rewrite !Sum3; ring).
  rewrite Sum_swap. rewrite (Sum_ext _ _ (fun a => Sum 3 (fun b => q a * y b * (mc_vol c * ident a b)))%R).
  - rewrite !Sum3. unfold ident. cbn. ring.
  - intros a Ha. rewrite Sum_swap. apply Sum_ext. intros b Hb. rewrite Sum_scal, (Cl a b Ha Hb). reflexivity.
Qed.
End Linear.
Section Trial.
Variables (g : list hcell) (geo : Z -> mcell) (ip : hip) (L : Z -> Z -> Z -> R).
Hypothesis Geo : geometry 3 g geo.
Hypothesis PL : permeability g geo ip L.
(* the drops of the linear pressures - y_k . x *)
Definition lin (y : Z -> Z -> R) (k r : Z) : R := pressure_drop 3 (geo k) 0 (fun j => - y k j)%R r.
Lemma lin_offset y k r : lin y k r = dot 3 (y k) (offset (geo k) r).
Proof. unfold lin, pressure_drop, offset, dot. rewrite !Sum3. ring. Qed.
Lemma mvec_opp k y j : mvec 3 (L k) (fun i => - y i)%R j = (- mvec 3 (L k) y j)%R.
Proof. unfold mvec. rewrite !Sum3. ring. Qed.
Lemma lin_force y k r : half g k r -> force g ip (lin y) k r = dot 3 (areavec (geo k) r) (mvec 3 (L k) (y k)).
Proof.
  intros (Hk & Hr). destruct (PL k Hk) as (_ & _ & E). specialize (E 0%R (fun j => - y k j)%R r Hr). unfold mvec at 1 in E. unfold force, lin. rewrite E. unfold darcy_flux, dot. rewrite !Sum3, !mvec_opp. ring.
Qed.
Lemma lin_energy y : energy g ip (lin y) (lin y) = integral_of g geo (fun k => quad 3 (L k) (y k)).
Proof.
  unfold energy, S2, integral_of. apply Sum_ext. intros k Hk. pose proof Geo as (G & _). destruct (G k Hk) as (_ & Cl & E & _). rewrite <- E.
  unfold quad. rewrite (dot_sym 3 (y k)). rewrite <- (cell_energy (geo k) _ (y k) Cl). apply Sum_ext. intros r Hr. rewrite lin_force by (split; [exact Hk|rewrite <- E; exact Hr]). rewrite lin_offset. reflexivity.
Qed.
End Trial.
(* ---- the run ---- *)
Lemma pick3 {A} (a0 a1 a2 : A) (Q : Z -> A -> Prop) : Q 0 a0 -> Q 1 a1 -> Q 2 a2 -> forall d, 0 <= d < 3 -> Q d (if d =? 0 then a0 else if d =? 1 then a1 else a2).
Proof. intros H0 H1 H2 d Hd. assert (d = 0 \/ d = 1 \/ d = 2) as [-> |[-> | ->]] by lia; cbn; assumption. Qed.
Lemma run_family srt g geo ip bct twodim low hi cols : bct = 0 \/ bct = 2 -> upscaled_by srt g geo ip bct twodim low hi cols ->
  block srt g geo ip bct twodim low hi /\ flow_matrices g ip /\ exists st (B : Z -> bcs) (X P : Z -> list R) (V : Z -> list (list R)) (C : Z -> list (option R)), cols = [C 0; C 1; C 2] /\
    forall d, 0 <= d < 3 -> dirn srt g geo ip bct twodim low hi d st (B d) (X d) (P d) (V d) (C d).
Proof.
  intros Hbct (K & ty & mx & nf & b & sv & s & EK & BK & FM & EF & E & <-). split; [exact BK|]. split; [exact FM|].
  destruct (tensor_run srt g geo ip bct twodim low hi BK Hbct K ty mx nf EK FM EF b sv s E) as (st & b0 & b1 & b2 & x0 & x1 & x2 & p0 & p1 & p2 & v0 & v1 & v2 & c0 & c1 & c2 & Ec & D0 & D1 & D2).
  exists st, (fun d => if d =? 0 then b0 else if d =? 1 then b1 else b2), (fun d => if d =? 0 then x0 else if d =? 1 then x1 else x2), (fun d => if d =? 0 then p0 else if d =? 1 then p1 else p2), (fun d => if d =? 0 then v0 else if d =? 1 then v1 else v2), (fun d => if d =? 0 then c0 else if d =? 1 then c1 else c2).
  split; [exact Ec|]. intros d Hd. assert (d = 0 \/ d = 1 \/ d = 2) as [-> |[-> | ->]] by lia; cbn; assumption.
Qed.
Lemma in03 : 0 <= 0 < 3. Proof. lia. Qed.
Section Three.
Variables (srt : list bface -> list bface) (g : list hcell) (geo : Z -> mcell) (ip : hip) (bct : Z) (twodim : bool) (low hi : Z -> R).
Hypothesis BK : block srt g geo ip bct twodim low hi.
Hypothesis Hbct : bct = 0 \/ bct = 2.
Hypothesis FM : flow_matrices g ip.
Variables (st : hstruct) (B : Z -> bcs) (X P : Z -> list R) (V : Z -> list (list R)) (C : Z -> list (option R)).
Hypothesis DN : forall d, 0 <= d < 3 -> dirn srt g geo ip bct twodim low hi d st (B d) (X d) (P d) (V d) (C d).
Notation gf := (map uf_g (grid_faces g geo)).
Let Hn := bk_n srt g geo ip bct twodim low hi BK.
Let Hb := bk_b srt g geo ip bct twodim low hi BK.
Let Geo := bk_geo srt g geo ip bct twodim low hi BK.
Lemma tb_set d : 0 <= d < 3 -> exists b0, setup_upscaling srt gf bct d 1 1 twodim b0 = Ok (B d). Proof. intros Hd. apply (DN d Hd). Qed.
Lemma tb_box d : 0 <= d < 3 -> box_faces (B d) (grid_faces g geo) low hi.
Proof. intros Hd. destruct (tb_set d Hd) as (b0 & S). apply (bk_box srt g geo ip bct twodim low hi BK d b0 (B d) Hd S). Qed.
Let B0 := tb_box 0 in03.
Lemma tb_wf : conforming g /\ counts_agree g.
Proof. destruct (tb_set 0 ltac:(lia)) as (b0 & S). destruct (bk_problem srt g geo ip bct twodim low hi BK 0 b0 (B 0) ltac:(lia) S) as (W & A & _). auto. Qed.
Definition len (d : Z) : R := (hi d - low d)%R.
Definition ar (d : Z) : R := side_area g geo (B 0) (2 * d).
Definition vol : R := block_volume g geo.
Lemma len_pos d : 0 <= d < 3 -> (0 < len d)%R. Proof. intros Hd. unfold len. pose proof BK as (_ & _ & _ & H & _). specialize (H d Hd). lra. Qed.
Lemma ar_pos d : 0 <= d < 3 -> (0 < ar d)%R. Proof. intros Hd. apply (side_area_pos g geo (B 0) low hi Hn Hb B0). lia. Qed.
Lemma ar_len d : 0 <= d < 3 -> (ar d * len d)%R = vol.
Proof. intros Hd. destruct tb_wf as (W & A). apply (side_areas g geo (B 0) low hi Hn Hb B0 Geo d W A Hd). Qed.
Lemma vol_pos : (0 < vol)%R. Proof. rewrite <- (ar_len 0) by lia. apply Rmult_lt_0_compat; [apply ar_pos|apply len_pos]; lia. Qed.
Definition pd (d : Z) : Z -> Z -> R := pdrop st (X d) (P d).
Definition ct (d : Z) : Z -> Z -> R := contact st (X d).
Definition dr (d : Z) : Z -> Z -> R := dropat g geo (B 0) d.
Lemma tb_force d k r : 0 <= d < 3 -> half g k r -> at2 (V d) k r = force g ip (pd d) k r.
Proof. intros Hd Hh. destruct (DN d Hd) as [(b0 & S) HS Da Co Fl _]. apply (flux_force g ip FM st (X d) (P d) (V d) Da k r Hh). Qed.
Lemma tb_adm d : 0 <= d < 3 -> admissible g (hbc_of (B d)) (at2 (V d)).
Proof. intros Hd. destruct (DN d Hd) as [(b0 & S) HS Da Co Fl _]. apply (flux_adm srt g geo ip bct twodim low hi BK Hbct d (B d) b0 st (X d) (V d)); assumption. Qed.
Lemma tb_jumps d : 0 <= d < 3 -> jumps g (hbc_of (B d)) (ct d) (dr d).
Proof. intros Hd. destruct (DN d Hd) as [(b0 & S) HS Da Co Fl _]. apply (contact_jumps srt g geo ip bct twodim low hi BK Hbct (B 0) B0 d (B d) b0 st (X d) (V d)); assumption. Qed.
Lemma tb_side d k r : 0 <= d < 3 -> half g k r -> nbr g k r = None -> exists s, 0 <= s < 6 /\ on_side_of g (B 0) k r s /\ cond_at g (hbc_of (B d)) k r = Some (side_cond bct d twodim s).
Proof. intros Hd. destruct (DN d Hd) as [(b0 & S) HS Da Co Fl _]. apply (Tens_Proofs4.side_of srt g geo ip bct twodim low hi BK Hbct (B 0) B0 d (B d) b0 Hd S). Qed.
Lemma tb_outer d k r c : cond_at g (hbc_of (B d)) k r = Some c -> nbr g k r = None.
Proof. unfold cond_at. destruct (nbr g k r); [discriminate|reflexivity]. Qed.
Lemma tb_st d : 0 <= d < 3 -> structured g (hbc_of (B d)) st. Proof. intros Hd. apply (DN d Hd). Qed.
Lemma tb_joined d e k r k' r' : 0 <= d < 3 -> 0 <= e < 3 -> joined g (hbc_of (B d)) k r k' r' -> joined g (hbc_of (B e)) k r k' r'.
Proof.
  intros Hd He (H1 & H2 & [T|Pr]); (split; [exact H1|split; [exact H2|]]); [left; exact T|right]. destruct (tb_set d Hd) as (b0 & S). destruct (tb_set e He) as (b1 & S'). apply (same_structure srt g geo ip bct twodim low hi BK Hbct d e _ _ _ _ Hd He S S'). exact Pr.
Qed.
Lemma side_uniq k r s s' : on_side_of g (B 0) k r s -> on_side_of g (B 0) k r s' -> s = s'.
Proof. intros (_ & _ & E) (_ & _ & E'). rewrite E in E'. injection E'. lia. Qed.
(* partners lie on opposite sides *)
Lemma partner_side k r k' r' s : partners g (hbc_of (B 0)) k r k' r' -> on_side_of g (B 0) k r s -> exists d, 0 <= d < 3 /\ ((s = 2 * d /\ on_side_of g (B 0) k' r' (2 * d + 1)) \/ (s = 2 * d + 1 /\ on_side_of g (B 0) k' r' (2 * d))).
Proof.
  intros Pr O. destruct (on_side_geo g geo (B 0) low hi Hn Hb B0 k r s O) as (Hs & _). set (d := s / 2). assert (Hd : 0 <= d < 3) by (unfold d; split; [apply Z.div_pos; lia|apply Z.div_lt_upper_bound; lia]).
  assert (J : joined g (hbc_of (B 0)) k r k' r'). { pose proof Pr as (a & a' & (A1 & _) & (A2 & _) & _). split; [exact A1|split; [exact A2|right; exact Pr]]. }
  apply (tb_joined 0 d) in J; [|lia|exact Hd]. assert (Pd : partners g (hbc_of (B d)) k r k' r'). { destruct J as (_ & _ & [T|Q]); [|exact Q]. exfalso. destruct T as (T & _). destruct O as (_ & O & _). congruence. }
  destruct (DN d Hd) as [(b0 & S) HS Da Co Fl _]. pose proof Pd as (dd & dd' & (H1 & E1) & (H2 & E2) & _). pose proof (Hyb_Proofs.partners_sym g _ _ (HST g _ st HS) k r k' r' Pd) as Pd'.
  destruct Fl as (_ & _ & _ & F4). destruct (F4 k r k' r' dd Pd E1) as (X1 & _). destruct (F4 k' r' k r dd' Pd' E2) as (X2 & _).
  pose proof (drop_periodic srt g geo ip bct twodim low hi BK Hbct (B 0) B0 d (B d) b0 Hd S k r dd H1 E1) as Q1. pose proof (drop_periodic srt g geo ip bct twodim low hi BK Hbct (B 0) B0 d (B d) b0 Hd S k' r' dd' H2 E2) as Q2.
  destruct (tb_side d k' r' Hd H2 (tb_outer d k' r' _ E2)) as (s' & Hs' & O' & _).
  rewrite (drop_on srt g geo ip bct twodim low hi BK (B 0) d k r s Hd O) in Q1. rewrite (drop_on srt g geo ip bct twodim low hi BK (B 0) d k' r' s' Hd O') in Q2.
  exists d. split; [exact Hd|]. assert (s = 2 * d \/ s = 2 * d + 1) as [Es|Es] by (unfold d; pose proof (Z.div_mod s 2 ltac:(lia)); pose proof (Z.mod_pos_bound s 2 ltac:(lia)); lia).
  - left. split; [exact Es|]. destruct (Z.eqb_spec s (2 * d)); [|lia]. destruct (Z.eqb_spec s' (2 * d)); [exfalso; lra|]. destruct (Z.eqb_spec s' (2 * d + 1)) as [<-|]; [exact O'|exfalso; lra].
  - right. split; [exact Es|]. destruct (Z.eqb_spec s (2 * d)); [lia|]. destruct (Z.eqb_spec s (2 * d + 1)); [|lia]. destruct (Z.eqb_spec s' (2 * d)) as [<-|]; [exact O'|]. exfalso. destruct (Z.eqb_spec s' (2 * d + 1)); lra.
Qed.
Lemma tb_mean d e t : 0 <= d < 3 -> 0 <= e < 3 -> half_table g t -> (forall k r, half g k r -> at2 t k r = at2 (V d) k r) ->
  average_velocity (B d) (grid_faces g geo) (List.concat t) e = Ok (Some (- S2 g (fun k r => at2 (V d) k r * dr e k r) / ar e)%R).
Proof. intros Hd He. destruct (DN d Hd) as [(b0 & S) HS Da Co Fl _]. apply (mean_of srt g geo ip bct twodim low hi BK (B 0) B0 d (B d) b0 (V d) Hd S). exact He. Qed.
(* a constant velocity *)
Lemma const_flux q e : 0 <= e < 3 -> S2 g (fun k r => dot 3 (areavec (geo k) r) q * dr e k r)%R = (- (q e * ar e))%R.
Proof.
  intros He. unfold dr. rewrite (flux_drop g geo (B 0) (fun k r => dot 3 (areavec (geo k) r) q) e He). destruct (side_w g geo (B 0) low hi Hn Hb B0 Geo q e He) as (-> & ->). destruct tb_wf as (W & A). destruct (side_areas g geo (B 0) low hi Hn Hb B0 Geo e W A He) as (-> & _). unfold ar. field.
Qed.
Lemma const_div q k : 0 <= k < zlen g -> Sum (nfaces g k) (fun r => dot 3 (areavec (geo k) r) q) = 0%R.
Proof.
  intros Hk. pose proof Geo as (G & _). destruct (G k Hk) as (_ & _ & _ & Z0). unfold dot. rewrite Sum_swap. apply Sum_zero. intros a Ha. rewrite Sum_scal_r, (Z0 a Ha). ring.
Qed.
Lemma const_twins q k r k' r' : half g k r -> half g k' r' -> twins g k r k' r' -> dot 3 (areavec (geo k') r') q = (- dot 3 (areavec (geo k) r) q)%R.
Proof. intros H1 H2 T. pose proof Geo as (_ & G). destruct (G k r k' r' H1 H2 T) as (_ & E). unfold dot. rewrite <- Sum_opp. apply Sum_ext. intros a Ha. rewrite (E a Ha). ring. Qed.
Lemma const_side q k r s : on_side_of g (B 0) k r s -> q (s / 2) = 0%R -> dot 3 (areavec (geo k) r) q = 0%R.
Proof.
  intros O E. unfold dot. apply Sum_zero. intros a Ha. rewrite (side_areavec g geo (B 0) low hi Hn Hb B0 Geo k r s a O Ha). destruct (Z.eqb_spec (s / 2) a) as [<-|]; [rewrite E|]; ring.
Qed.
(* a pressure without drops is the same everywhere *)
Lemma flat_const (p : Z -> R) (l : Z -> Z -> R) : (forall k r, half g k r -> p k = l k r) -> (forall k r k' r', half g k r -> half g k' r' -> twins g k r k' r' -> l k r = l k' r') ->
  forall k k', 0 <= k < zlen g -> 0 <= k' < zlen g -> p k = p k'.
Proof.
  intros E T k k' Hk Hk'. pose proof BK as (_ & Cn & _). specialize (Cn k k' Hk Hk'). clear Hk Hk'. induction Cn as [|k r k1 r1 k2 J Lk IH]; [reflexivity|]. apply closed_joined in J. destruct J as (H1 & H2 & Tw). rewrite (E k r H1), (T k r k1 r1 H1 H2 Tw), <- (E k1 r1 H2). exact IH.
Qed.
Lemma ct_twins d k r k' r' : 0 <= d < 3 -> half g k r -> half g k' r' -> twins g k r k' r' -> ct d k r = ct d k' r'.
Proof. intros Hd H1 H2 T. unfold ct, contact. rewrite (twins_num g (B d) st (tb_st d Hd) k r k' r' T H1 H2). reflexivity. Qed.
(* ---- periodic conditions ---- *)
Let Sp : ip_spd g ip := proj1 FM.
Lemma per_side d k r c : bct = 2 -> 0 <= d < 3 -> half g k r -> cond_at g (hbc_of (B d)) k r = Some c -> exists s, 0 <= s < 6 /\ on_side_of g (B 0) k r s /\ c = fcond_of (periodic_flow d 1 twodim s).
Proof.
  intros Hp Hd Hh Ec. destruct (tb_side d k r Hd Hh (tb_outer d k r c Ec)) as (s & Hs & O & Ec'). exists s. split; [exact Hs|]. split; [exact O|]. rewrite Ec in Ec'. injection Ec' as ->. unfold side_cond. rewrite Hp. reflexivity.
Qed.
Lemma per_neumann d s q : fcond_of (periodic_flow d 1 twodim s) = CNeumann q -> twodim = true /\ 4 <= s.
Proof. unfold periodic_flow. destruct (twodim && (4 <=? s)) eqn:Q; [intros _; apply andb_true_iff in Q; destruct Q as (Q1 & Q2); apply Z.leb_le in Q2; auto|]. destruct (s =? 2 * d); try discriminate; destruct (s =? 2 * d + 1); discriminate. Qed.
Lemma per_closed d s : twodim = true -> 4 <= s -> fcond_of (periodic_flow d 1 twodim s) = CNeumann 0.
Proof. intros E Hs. unfold periodic_flow. rewrite E. destruct (Z.leb_spec 4 s); [reflexivity|lia]. Qed.
Lemma per_adm d e w : bct = 2 -> 0 <= d < 3 -> 0 <= e < 3 -> admissible g (hbc_of (B d)) w -> admissible g (hbc_of (B e)) w.
Proof.
  intros Hp Hd He (A1 & A2 & A3). split; [exact A1|]. split.
  - intros k r k' r' J. apply A2. apply (tb_joined e d); assumption.
  - intros k r q Hh Ec. destruct (per_side e k r _ Hp He Hh Ec) as (s & Hs & O & E). symmetry in E. destruct (per_neumann _ _ _ E) as (E2 & Hs4). apply (A3 k r 0%R Hh). destruct (tb_side d k r Hd Hh (tb_outer e k r _ Ec)) as (s' & _ & O' & Ec'). rewrite (side_uniq k r s' s O' O) in Ec'. rewrite Ec'. unfold side_cond. rewrite Hp. cbn [Z.eqb]. rewrite (per_closed d s E2 Hs4). reflexivity.
Qed.
Lemma per_nodir d k r p : bct = 2 -> 0 <= d < 3 -> half g k r -> cond_at g (hbc_of (B d)) k r <> Some (CDirichlet p).
Proof.
  intros Hp Hd Hh Ec. destruct (per_side d k r _ Hp Hd Hh Ec) as (s & _ & _ & E). revert E. unfold periodic_flow. destruct (twodim && (4 <=? s)); [discriminate|]. destruct (s =? 2 * d); [discriminate|]. destruct (s =? 2 * d + 1); discriminate.
Qed.
Lemma per_entry d e : bct = 2 -> 0 <= d < 3 -> 0 <= e < 3 -> (- S2 g (fun k r => at2 (V d) k r * dr e k r))%R = energy g ip (pd d) (pd e).
Proof.
  intros Hp Hd He. unfold energy. rewrite <- (test_flux g (hbc_of (B e)) st (at2 (V d)) (ct e) (dr e) (fun k => nthR (P e) k) (tb_st e He) (per_adm d e _ Hp Hd He (tb_adm d Hd)) (tb_jumps e He)).
  apply S2_ext. intros k r Hh. rewrite (tb_force d k r Hd Hh). reflexivity.
Qed.
Definition kt (i d : Z) : R := (energy g ip (pd d) (pd i) / ar i * len d)%R.
Lemma per_col d : bct = 2 -> 0 <= d < 3 -> C d = [Some (kt 0 d); Some (kt 1 d); Some (kt 2 d)].
Proof.
  intros Hp Hd. destruct (DN d Hd) as [_ _ _ _ _ (t & q & Ht & Et & Eq & ->)]. unfold mean_velocities in Eq. rewrite Hp in Eq. cbn [Z.eqb orb] in Eq. rewrite three in Eq. cbn [mapM] in Eq. rewrite (tb_mean d 0 t Hd ltac:(lia) Ht Et), (tb_mean d 1 t Hd ltac:(lia) Ht Et), (tb_mean d 2 t Hd ltac:(lia) Ht Et) in Eq. cbn [bind] in Eq. rewrite !(per_entry d _ Hp Hd) in Eq by lia. injection Eq as <-. reflexivity.
Qed.
Lemma kt_vol i d : 0 <= i < 3 -> (kt i d * vol)%R = (len d * len i * energy g ip (pd d) (pd i))%R.
Proof. intros Hi. unfold kt. rewrite <- (ar_len i Hi). field. apply Rgt_not_eq, ar_pos, Hi. Qed.
Variable xi : Z -> R.
Definition comb (f : Z -> R) : R := Sum 3 (fun a => xi a * len a * f a)%R.
Definition pX (k : Z) : R := comb (fun a => nthR (P a) k).
Definition lX (k r : Z) : R := comb (fun a => ct a k r).
Definition dX (k r : Z) : R := comb (fun a => dr a k r).
Definition piX (k r : Z) : R := (pX k - lX k r)%R.
Lemma piX_sum k r : piX k r = Sum 3 (fun a => (xi a * len a) * pd a k r)%R.
Proof. unfold piX, pX, lX, comb. rewrite <- Sum_minus. apply Sum_ext. intros a _. unfold pd, pdrop, ct. ring. Qed.
Lemma quad_energy : (quad 3 kt xi * vol)%R = energy g ip piX piX.
Proof.
  rewrite (energy_ext g ip piX piX (fun k r => Sum 3 (fun a => (xi a * len a) * pd a k r)%R) (fun k r => Sum 3 (fun a => (xi a * len a) * pd a k r)%R)) by (intros; apply piX_sum).
  rewrite (energy_Sum g ip 3 (fun a => xi a * len a)%R pd Sp). unfold quad, dot, mvec. rewrite <- Sum_scal_r. apply Sum_ext. intros i Hi. rewrite Rmult_assoc, <- Sum_scal_r, <- !Sum_scal. apply Sum_ext. intros j Hj.
  transitivity (xi i * xi j * (kt i j * vol))%R; [ring|]. rewrite (kt_vol i j Hi), (energy_sym g ip _ _ Sp). ring.
Qed.
Lemma piX_force k r : half g k r -> force g ip piX k r = Sum 3 (fun a => xi a * len a * at2 (V a) k r)%R.
Proof.
  intros Hh. transitivity (force g ip (fun k r => Sum 3 (fun a => (xi a * len a) * pd a k r)%R) k r); [unfold force; apply Sum_ext; intros; rewrite piX_sum; reflexivity|]. rewrite force_Sum. apply Sum_ext. intros a Ha. rewrite force_scal, (tb_force a k r Ha Hh). reflexivity.
Qed.
Lemma piX_adm : bct = 2 -> admissible g (hbc_of (B 0)) (force g ip piX).
Proof.
  intros Hp. apply (adm_ext g _ (fun k r => Sum 3 (fun a => xi a * len a * at2 (V a) k r)%R)); [intros k r Hh; symmetry; apply piX_force, Hh|].
  apply (adm_Sum g _ 3 (fun a k r => xi a * len a * at2 (V a) k r)%R). intros a Ha. apply adm_scal. apply (per_adm a 0); [exact Hp|exact Ha|lia|apply tb_adm, Ha].
Qed.
Lemma piX_jumps : bct = 2 -> jumps g (hbc_of (B 0)) lX dX.
Proof.
  intros Hp. split; [|exists 0%R; intros k r p Hh Ec; destruct (per_nodir 0 k r p Hp ltac:(lia) Hh Ec)].
  intros k r k' r' J. unfold lX, dX, comb. rewrite <- !Sum_minus. apply Sum_ext. intros a Ha. destruct (tb_jumps a Ha) as (Q & _). apply (tb_joined 0 a) in J; [|lia|exact Ha]. specialize (Q k r k' r' J). rewrite <- !Rmult_minus_distr_l, Q. reflexivity.
Qed.
Lemma dX_on d k r s : 0 <= d < 3 -> on_side_of g (B 0) k r s -> s = 2 * d \/ s = 2 * d + 1 -> dX k r = (xi d * len d * (if s =? 2 * d then 1 / 2 else - (1 / 2)))%R.
Proof.
  intros Hd O Hs. unfold dX, comb. rewrite (Sum_pick 3 d); [|exact Hd|].
  - unfold dr. rewrite (drop_on srt g geo ip bct twodim low hi BK (B 0) d k r s Hd O). f_equal. destruct (Z.eqb_spec s (2 * d)); [reflexivity|]. destruct (Z.eqb_spec s (2 * d + 1)); [reflexivity|lia].
  - intros a Ha Na. unfold dr. rewrite (drop_on srt g geo ip bct twodim low hi BK (B 0) a k r s Ha O). destruct (Z.eqb_spec s (2 * a)); [lia|]. destruct (Z.eqb_spec s (2 * a + 1)); [lia|ring].
Qed.
Lemma dX_inner k r : half g k r -> nbr g k r <> None -> dX k r = 0%R.
Proof. intros Hh N. unfold dX, comb. apply Sum_zero. intros a Ha. unfold dr. rewrite (drop_inner srt g geo ip bct twodim low hi BK (B 0) a k r Hh N). ring. Qed.
Lemma lX_twins k r k' r' : half g k r -> half g k' r' -> twins g k r k' r' -> lX k r = lX k' r'.
Proof. intros H1 H2 T. unfold lX, comb. apply Sum_ext. intros a Ha. rewrite (ct_twins a k r k' r' Ha H1 H2 T). reflexivity. Qed.
Lemma per_definite : bct = 2 -> energy g ip piX piX = 0%R -> forall d, 0 <= d < 3 -> (twodim = true -> d < 2) -> xi d = 0%R.
Proof.
  intros Hp E d Hd H2. pose proof (energy_zero g ip piX Sp E) as Z0. destruct (side_inhabited g geo (B 0) low hi Hn Hb B0 (2 * d) ltac:(lia)) as (k & r & O). pose proof O as (Hh & En & _).
  destruct (tb_side 0 k r in03 Hh En) as (s & Hs & O' & Ec). pose proof (side_uniq k r s (2 * d) O' O) as Es. subst s. clear O' Hs.
  assert (exists dd, side_cond bct 0 twodim (2 * d) = CPeriodic dd) as (dd & Ed).
  { unfold side_cond. rewrite Hp. cbn [Z.eqb]. unfold periodic_flow. destruct (twodim && (4 <=? 2 * d)) eqn:Q; [exfalso; apply andb_true_iff in Q; destruct Q as (Q1 & Q2); specialize (H2 Q1); apply Z.leb_le in Q2; lia|]. destruct (2 * d =? 2 * 0); [eexists; reflexivity|]. destruct (2 * d =? 2 * 0 + 1); eexists; reflexivity. }
  rewrite Ed in Ec. destruct (Hyb_Proofs.partner_ex g _ _ (HST g _ st (tb_st 0 in03)) k r dd (conj Hh Ec)) as (k' & r' & Pr & (Hh' & _) & _).
  destruct (partner_side k r k' r' (2 * d) Pr O) as (d' & Hd' & [(Q & O'')|(Q & _)]); [|lia]. assert (d' = d) by lia. subst d'.
  destruct (piX_jumps Hp) as (J & _). specialize (J k r k' r' (conj Hh (conj Hh' (or_intror Pr)))).
  rewrite (dX_on d k r (2 * d) Hd O ltac:(lia)), (dX_on d k' r' (2 * d + 1) Hd O'' ltac:(lia)) in J. rewrite Z.eqb_refl in J. destruct (Z.eqb_spec (2 * d + 1) (2 * d)); [lia|].
  assert (F : forall k r, half g k r -> pX k = lX k r) by (intros k1 r1 H1; specialize (Z0 k1 r1 H1); unfold piX in Z0; lra).
  pose proof (flat_const pX lX F lX_twins k k' (proj1 Hh) (proj1 Hh')) as Fk. rewrite (F k r Hh), (F k' r' Hh') in Fk. assert (xi d * len d = 0)%R as Q0 by lra. apply Rmult_integral in Q0. destruct Q0 as [Q0|Q0]; [exact Q0|]. pose proof (len_pos d Hd). lra.
Qed.
(* bounds *)
Variable L : Z -> Z -> Z -> R.
Hypothesis PL : permeability g geo ip L.
Hypothesis Tr : translates srt g geo twodim low hi.
Definition cenf (k r j : Z) : R := nthR (mf_cen (face (geo k) r)) j.
Lemma per_translate k r k' r' : bct = 2 -> partners g (hbc_of (B 0)) k r k' r' -> exists d, 0 <= d < 3 /\ (
   (on_side_of g (B 0) k r (2 * d) /\ on_side_of g (B 0) k' r' (2 * d + 1) /\ forall j, 0 <= j < 3 -> (cenf k' r' j - cenf k r j = ident d j * len d)%R) \/
   (on_side_of g (B 0) k' r' (2 * d) /\ on_side_of g (B 0) k r (2 * d + 1) /\ forall j, 0 <= j < 3 -> (cenf k r j - cenf k' r' j = ident d j * len d)%R)) /\
   forall j, 0 <= j < 3 -> areavec (geo k') r' j = (- areavec (geo k) r j)%R.
Proof.
  intros Hp Pr. pose proof Pr as (dd & dd' & (Hh & Ec) & (Hh' & Ec') & _). destruct (per_side 0 k r _ Hp in03 Hh Ec) as (s & _ & O & _). destruct (tb_set 0 in03) as (b0 & S). rewrite Hp in S.
  destruct (partner_side k r k' r' s Pr O) as (d & Hd & [(-> & O')|(-> & O')]); exists d; (split; [exact Hd|]).
  - destruct (Tr 0 b0 (B 0) in03 S k r k' r' d Hd O Pr) as (T1 & T2). split; [left; split; [exact O|split; [exact O'|]]|]; intros j Hj; [specialize (T1 j Hj); unfold cenf, len; lra|specialize (T2 j Hj); lra].
  - pose proof (Hyb_Proofs.partners_sym g _ _ (HST g _ st (tb_st 0 in03)) k r k' r' Pr) as Pr'. destruct (Tr 0 b0 (B 0) in03 S k' r' k r d Hd O' Pr') as (T1 & T2). split; [right; split; [exact O'|split; [exact O|]]|]; intros j Hj; [specialize (T1 j Hj); unfold cenf, len; lra|specialize (T2 j Hj); lra].
Qed.
Lemma dot_ident d y a : 0 <= d < 3 -> dot 3 y (fun j => ident d j * a)%R = (y d * a)%R.
Proof. intros Hd. unfold dot, ident. rewrite Sum3. assert (d = 0 \/ d = 1 \/ d = 2) as [-> |[-> | ->]] by lia; cbn; ring. Qed.
Lemma per_trial_jumps : bct = 2 -> jumps g (hbc_of (B 0)) (fun k r => 0 + dot 3 (fun j => - xi j) (nthR (mf_cen (face (geo k) r))))%R dX.
Proof.
  intros Hp. split; [|exists 0%R; intros k r p Hh Ec; destruct (per_nodir 0 k r p Hp ltac:(lia) Hh Ec)].
  intros k r k' r' (Hh & Hh' & [T|Pr]).
  - rewrite !dX_inner; [|exact Hh'|destruct T; congruence|exact Hh|destruct T; congruence]. pose proof Geo as (_ & G). destruct (G k r k' r' Hh Hh' T) as (-> & _). reflexivity.
  - destruct (per_translate k r k' r' Hp Pr) as (d & Hd & [(O & O' & E)|(O' & O & E)] & _); rewrite (dX_on d k r _ Hd O ltac:(lia)), (dX_on d k' r' _ Hd O' ltac:(lia)), Z.eqb_refl; (destruct (Z.eqb_spec (2 * d + 1) (2 * d)); [lia|]);
      pose proof (dot_ident d xi (len d) Hd) as Q; unfold dot in *; rewrite Sum3 in Q; rewrite !Sum3; pose proof (E 0 ltac:(lia)) as E0; pose proof (E 1 ltac:(lia)) as E1; pose proof (E 2 ltac:(lia)) as E2; rewrite <- E0, <- E1, <- E2 in Q; unfold cenf in *; lra.
Qed.
Lemma per_upper : bct = 2 -> (quad 3 kt xi * vol <= integral_of g geo (fun k => quad 3 (L k) xi))%R.
Proof.
  intros Hp. rewrite quad_energy. rewrite <- (lin_energy g geo ip L Geo PL (fun _ => xi)).
  apply (trial_pressure g ip (hbc_of (B 0)) st (tb_st 0 in03) Sp dX lX pX (piX_adm Hp) (piX_jumps Hp) (fun k r => 0 + dot 3 (fun j => - xi j) (nthR (mf_cen (face (geo k) r))))%R (fun k => 0 + dot 3 (fun j => - xi j) (nthR (mc_cen (geo k))))%R (per_trial_jumps Hp)).
Qed.
Lemma per_const_adm q : bct = 2 -> (twodim = true -> q 2 = 0%R) -> admissible g (hbc_of (B 0)) (fun k r => dot 3 (areavec (geo k) r) q).
Proof.
  intros Hp H2. split; [exact (const_div q)|]. split.
  - intros k r k' r' (Hh & Hh' & [T|Pr]); [apply (const_twins q k r k' r' Hh Hh' T)|]. destruct (per_translate k r k' r' Hp Pr) as (d & _ & _ & E). unfold dot. rewrite <- Sum_opp. apply Sum_ext. intros a Ha. rewrite (E a Ha). ring.
  - intros k r p Hh Ec. destruct (per_side 0 k r _ Hp in03 Hh Ec) as (s & Hs & O & E). symmetry in E. destruct (per_neumann _ _ _ E) as (E2 & H4). apply (const_side q k r s O). replace (s / 2) with 2; [apply H2, E2|]. assert (s = 4 \/ s = 5) as [-> | ->] by lia; reflexivity.
Qed.
Lemma const_dX q : S2 g (fun k r => dot 3 (areavec (geo k) r) q * dX k r)%R = (- (vol * dot 3 xi q))%R.
Proof.
  rewrite (S2_ext g _ (fun k r => Sum 3 (fun a => xi a * len a * (dot 3 (areavec (geo k) r) q * dr a k r))%R)) by (intros k r _; unfold dX, comb; rewrite <- Sum_scal; apply Sum_ext; intros; ring).
  rewrite S2_Sum. unfold dot at 2. rewrite <- Sum_scal, <- Sum_opp. apply Sum_ext. intros a Ha. rewrite S2_scal, (const_flux q a Ha), <- (ar_len a Ha). ring.
Qed.
Lemma per_lower q y : bct = 2 -> (twodim = true -> q 2 = 0%R) -> (forall k, 0 <= k < zlen g -> forall i, 0 <= i < 3 -> mvec 3 (L k) (y k) i = q i) ->
  (2 * (vol * dot 3 xi q) - integral_of g geo (fun k => dot 3 q (y k)) <= quad 3 kt xi * vol)%R.
Proof.
  intros Hp H2 Ey. rewrite quad_energy.
  assert (Ef : forall k r, half g k r -> force g ip (lin geo y) k r = dot 3 (areavec (geo k) r) q). { intros k r Hh. rewrite (lin_force g geo ip L PL y k r Hh). unfold dot. apply Sum_ext. intros a Ha. rewrite (Ey k (proj1 Hh) a Ha). reflexivity. }
  assert (Ae : admissible g (hbc_of (B 0)) (force g ip (lin geo y))). { apply (adm_ext g _ (fun k r => dot 3 (areavec (geo k) r) q)); [intros; symmetry; apply Ef; assumption|apply per_const_adm; assumption]. }
  pose proof (trial_flux g ip (hbc_of (B 0)) st (tb_st 0 in03) Sp dX lX pX (piX_jumps Hp) (lin geo y) Ae) as T. rewrite (lin_energy g geo ip L Geo PL y) in T.
  rewrite (S2_ext g _ (fun k r => dot 3 (areavec (geo k) r) q * dX k r)%R) in T by (intros k r Hh; rewrite (Ef k r Hh); reflexivity). rewrite const_dX in T.
  assert (Ei : integral_of g geo (fun k => quad 3 (L k) (y k)) = integral_of g geo (fun k => dot 3 q (y k))). { unfold integral_of. apply Sum_ext. intros k Hk. f_equal. unfold quad, dot. apply Sum_ext. intros i Hi. rewrite (Ey k Hk i Hi). ring. }
  rewrite Ei in T. change (energy g ip (fun k r => pX k - lX k r)%R (fun k r => pX k - lX k r)%R) with (energy g ip piX piX) in T. lra.
Qed.
(* two-dimensional problems: nothing flows along the third axis *)
Lemma per_flat : bct = 2 -> twodim = true -> forall k r, half g k r -> pd 2 k r = 0%R.
Proof.
  intros Hp H2. apply (energy_zero g ip (pd 2) Sp). rewrite <- (per_entry 2 2 Hp ltac:(lia) ltac:(lia)). rewrite (S2_zero g); [ring|]. intros k r Hh. destruct (nbr g k r) eqn:En; [unfold dr; rewrite (drop_inner srt g geo ip bct twodim low hi BK (B 0) 2 k r Hh) by congruence; ring|].
  destruct (tb_side 2 k r ltac:(lia) Hh En) as (s & Hs & O & Ec). destruct (Z.leb_spec 4 s).
  - destruct (tb_adm 2 ltac:(lia)) as (_ & _ & A). rewrite (A k r 0%R Hh); [ring|]. rewrite Ec. unfold side_cond. rewrite Hp. cbn [Z.eqb]. rewrite (per_closed 2 s H2) by assumption. reflexivity.
  - unfold dr. rewrite (drop_on srt g geo ip bct twodim low hi BK (B 0) 2 k r s ltac:(lia) O). destruct (Z.eqb_spec s (2 * 2)); [lia|]. destruct (Z.eqb_spec s (2 * 2 + 1)); [lia|ring].
Qed.
Lemma energy_null a b : (forall k r, half g k r -> b k r = 0%R) -> energy g ip a b = 0%R.
Proof. intros E. unfold energy. apply S2_zero. intros k r Hh. rewrite (E k r Hh). ring. Qed.
Lemma kt_flat d : bct = 2 -> twodim = true -> kt d 2 = 0%R /\ kt 2 d = 0%R.
Proof. intros Hp H2. unfold kt. rewrite (energy_sym g ip (pd 2) _ Sp), !(energy_null _ (pd 2) (per_flat Hp H2)). split; unfold Rdiv; ring. Qed.
(* ---- fixed conditions ---- *)
Lemma fix_entry d : 0 <= d < 3 -> (- S2 g (fun k r => at2 (V d) k r * dr d k r))%R = energy g ip (pd d) (pd d).
Proof.
  intros Hd. unfold energy. rewrite <- (test_flux g (hbc_of (B d)) st (at2 (V d)) (ct d) (dr d) (fun k => nthR (P d) k) (tb_st d Hd) (tb_adm d Hd) (tb_jumps d Hd)).
  apply S2_ext. intros k r Hh. rewrite (tb_force d k r Hd Hh). reflexivity.
Qed.
Lemma fix_col d : bct = 0 -> 0 <= d < 3 -> C d = map (fun i => Some (if i =? d then kt d d else 0%R)) [0; 1; 2].
Proof.
  intros Hp Hd. destruct (DN d Hd) as [_ _ _ _ _ (t & q & Ht & Et & Eq & ->)]. unfold mean_velocities in Eq. rewrite Hp in Eq. cbn [Z.eqb] in Eq. rewrite (tb_mean d d t Hd Hd Ht Et) in Eq. cbn [bind] in Eq. rewrite (fix_entry d Hd) in Eq.
  assert (d = 0 \/ d = 1 \/ d = 2) as [Ed|[Ed|Ed]] by lia; rewrite Ed in Eq |- *; cbn in Eq; injection Eq as <-; cbn; rewrite !Rmult_0_l; reflexivity.
Qed.
Lemma fix_cond d k r s : bct = 0 -> 0 <= d < 3 -> on_side_of g (B 0) k r s -> cond_at g (hbc_of (B d)) k r = Some (if s =? 2 * d then CDirichlet 1 else if s =? 2 * d + 1 then CDirichlet 0 else CNeumann 0).
Proof.
  intros Hp Hd O. pose proof O as (Hh & En & _). destruct (tb_side d k r Hd Hh En) as (s' & _ & O' & Ec). rewrite (side_uniq k r s' s O' O) in Ec. rewrite Ec. unfold side_cond. rewrite Hp. reflexivity.
Qed.
Lemma fix_pos d : bct = 0 -> 0 <= d < 3 -> (0 < energy g ip (pd d) (pd d))%R.
Proof.
  intros Hp Hd. destruct (energy_nonneg g ip (pd d) Sp) as [H|E]; [exact H|exfalso]. symmetry in E. pose proof (energy_zero g ip (pd d) Sp E) as Z0.
  destruct (side_inhabited g geo (B 0) low hi Hn Hb B0 (2 * d) ltac:(lia)) as (k & r & O). destruct (side_inhabited g geo (B 0) low hi Hn Hb B0 (2 * d + 1) ltac:(lia)) as (k' & r' & O').
  pose proof (fix_cond d k r _ Hp Hd O) as Ec. pose proof (fix_cond d k' r' _ Hp Hd O') as Ec'. rewrite Z.eqb_refl in Ec, Ec'. destruct (Z.eqb_spec (2 * d + 1) (2 * d)); [lia|].
  assert (F : forall k r, half g k r -> nthR (P d) k = ct d k r) by (intros k1 r1 H1; specialize (Z0 k1 r1 H1); unfold pd, pdrop in Z0; unfold ct; lra).
  pose proof (flat_const (fun k => nthR (P d) k) (ct d) F (fun k r k' r' => ct_twins d k r k' r' Hd) k k' (proj1 (proj1 O)) (proj1 (proj1 O'))) as Q. cbn in Q. rewrite (F k r (proj1 O)), (F k' r' (proj1 O')) in Q.
  destruct (DN d Hd) as [_ _ _ _ (_ & F2 & _) _]. unfold ct, contact in Q. rewrite (F2 k r _ (proj1 O) Ec), (F2 k' r' _ (proj1 O') Ec') in Q. lra.
Qed.
Lemma fix_nopart d k r k' r' : bct = 0 -> 0 <= d < 3 -> ~ partners g (hbc_of (B d)) k r k' r'.
Proof.
  intros Hp Hd (dd & _ & (Hh & Ec) & _). destruct (tb_side d k r Hd Hh (tb_outer d k r _ Ec)) as (s & _ & O & _). rewrite (fix_cond d k r s Hp Hd O) in Ec. destruct (s =? 2 * d); [discriminate|]. destruct (s =? 2 * d + 1); discriminate.
Qed.
Lemma fix_trial_jumps d : bct = 0 -> 0 <= d < 3 -> jumps g (hbc_of (B d)) (fun k r => 0 + dot 3 (fun j => - (ident d j * / len d)) (nthR (mf_cen (face (geo k) r))))%R (dr d).
Proof.
  intros Hp Hd. pose proof (len_pos d Hd) as Lp.
  assert (Q : forall z : list R, dot 3 (fun j => - (ident d j * / len d))%R (nthR z) = (- (nthR z d * / len d))%R). { intros z. pose proof (dot_ident d (nthR z) (/ len d) Hd) as E. rewrite <- E. unfold dot. rewrite !Sum3. ring. }
  split.
  - intros k r k' r' (Hh & Hh' & [T|Pr]); [|destruct (fix_nopart d k r k' r' Hp Hd Pr)]. unfold dr. rewrite !(drop_inner srt g geo ip bct twodim low hi BK (B 0) d); [|exact Hh'|destruct T; congruence|exact Hh|destruct T; congruence]. pose proof Geo as (_ & G). destruct (G k r k' r' Hh Hh' T) as (-> & _). reflexivity.
  - exists (- ((low d + hi d) / 2 * / len d))%R. intros k r p Hh Ec. destruct (tb_side d k r Hd Hh (tb_outer d k r _ Ec)) as (s & Hs & O & _). rewrite (fix_cond d k r s Hp Hd O) in Ec. rewrite Q. unfold dr. rewrite (drop_on srt g geo ip bct twodim low hi BK (B 0) d k r s Hd O).
    pose proof (side_cen g geo (B 0) low hi Hn Hb B0 Geo k r s O) as Sc. assert (Lq : (len d * / len d = 1)%R) by (apply Rinv_r; lra). unfold len in Lq at 1.
    destruct (Z.eqb_spec s (2 * d)) as [Es|]; [|destruct (Z.eqb_spec s (2 * d + 1)) as [Es|]; [|discriminate]].
    + replace (s / 2) with d in Sc by (rewrite Es, Z.mul_comm, Z.div_mul; lia). rewrite Es, Z.even_mul in Sc. cbn in Sc. rewrite Sc. replace (1 / 2)%R with ((hi d - low d) * / len d / 2)%R by lra. field. lra.
    + replace (s / 2) with d in Sc by (rewrite Es; apply (Z.div_unique _ _ _ 1); lia). rewrite Es, Z.even_add, Z.even_mul in Sc. cbn in Sc. rewrite Sc. replace (1 / 2)%R with ((hi d - low d) * / len d / 2)%R by lra. field. lra.
Qed.
Lemma fix_adm d : 0 <= d < 3 -> admissible g (hbc_of (B d)) (force g ip (pd d)).
Proof. intros Hd. apply (adm_ext g _ (at2 (V d))); [intros; apply tb_force; assumption|apply tb_adm, Hd]. Qed.
Lemma fix_upper d : bct = 0 -> 0 <= d < 3 -> (kt d d * vol <= integral_of g geo (fun k => L k d d))%R.
Proof.
  intros Hp Hd. rewrite (kt_vol d d Hd). pose proof (len_pos d Hd) as Lp.
  pose proof (trial_pressure g ip (hbc_of (B d)) st (tb_st d Hd) Sp (dr d) (ct d) (fun k => nthR (P d) k) (fix_adm d Hd) (tb_jumps d Hd) _ (fun k => 0 + dot 3 (fun j => - (ident d j * / len d)) (nthR (mc_cen (geo k))))%R (fix_trial_jumps d Hp Hd)) as T.
  change (energy g ip (fun k r => nthR (P d) k - ct d k r)%R (fun k r => nthR (P d) k - ct d k r)%R) with (energy g ip (pd d) (pd d)) in T.
  match type of T with (_ <= ?e)%R => change e with (energy g ip (lin geo (fun _ j => ident d j * / len d)%R) (lin geo (fun _ j => ident d j * / len d)%R)) in T end. rewrite (lin_energy g geo ip L Geo PL) in T.
  assert (E : integral_of g geo (fun k => quad 3 (L k) (fun j => ident d j * / len d)%R) = (/ len d * / len d * integral_of g geo (fun k => L k d d))%R).
  { unfold integral_of. rewrite <- Sum_scal. apply Sum_ext. intros k Hk. unfold quad, dot, mvec, ident. rewrite !Sum3. assert (d = 0 \/ d = 1 \/ d = 2) as [Ed|[Ed|Ed]] by lia; rewrite Ed; cbn; ring. }
  rewrite E in T. apply (Rmult_le_compat_l (len d * len d)) in T; [|nra]. eapply Rle_trans; [exact T|]. apply Req_le. field. lra.
Qed.
Lemma fix_const_adm d : bct = 0 -> 0 <= d < 3 -> admissible g (hbc_of (B d)) (fun k r => dot 3 (areavec (geo k) r) (ident d)).
Proof.
  intros Hp Hd. split; [exact (const_div (ident d))|]. split.
  - intros k r k' r' (Hh & Hh' & [T|Pr]); [apply (const_twins _ k r k' r' Hh Hh' T)|destruct (fix_nopart d k r k' r' Hp Hd Pr)].
  - intros k r p Hh Ec. destruct (tb_side d k r Hd Hh (tb_outer d k r _ Ec)) as (s & Hs & O & _). rewrite (fix_cond d k r s Hp Hd O) in Ec. apply (const_side _ k r s O). unfold ident. destruct (Z.eqb_spec s (2 * d)); [discriminate|]. destruct (Z.eqb_spec s (2 * d + 1)); [discriminate|]. destruct (Z.eqb_spec d (s / 2)) as [E|]; [|reflexivity]. exfalso. pose proof (Z.div_mod s 2 ltac:(lia)). pose proof (Z.mod_pos_bound s 2 ltac:(lia)). lia.
Qed.
Lemma fix_lower d y : bct = 0 -> 0 <= d < 3 -> (forall k, 0 <= k < zlen g -> forall i, 0 <= i < 3 -> mvec 3 (L k) (y k) i = ident d i) ->
  (vol <= kt d d * integral_of g geo (fun k => y k d))%R.
Proof.
  intros Hp Hd Ey. set (I := integral_of g geo (fun k => y k d)). pose proof (ar_pos d Hd) as Ap. pose proof (len_pos d Hd) as Lp.
  assert (Ef : forall k r, half g k r -> force g ip (lin geo y) k r = dot 3 (areavec (geo k) r) (ident d)). { intros k r Hh. rewrite (lin_force g geo ip L PL y k r Hh). unfold dot. apply Sum_ext. intros a Ha. rewrite (Ey k (proj1 Hh) a Ha). reflexivity. }
  assert (Ei : energy g ip (lin geo y) (lin geo y) = I). { rewrite (lin_energy g geo ip L Geo PL y). unfold I, integral_of. apply Sum_ext. intros k Hk. f_equal. unfold quad, dot. rewrite (Sum_ext 3 _ (fun i => ident d i * y k i)%R) by (intros i Hi; rewrite (Ey k Hk i Hi); ring). apply Sum_ident_l, Hd. }
  assert (Ip : (0 < I)%R). { rewrite <- Ei. destruct (energy_nonneg g ip (lin geo y) Sp) as [H|E]; [exact H|exfalso]. symmetry in E. pose proof (energy_zero g ip _ Sp E) as Z0. pose proof (const_flux (ident d) d Hd) as Q. rewrite S2_zero in Q; [unfold ident in Q; rewrite Z.eqb_refl in Q; lra|]. intros k r Hh. rewrite <- (Ef k r Hh). unfold force. rewrite Sum_zero; [ring|]. intros c Hc. rewrite (Z0 k c); [ring|]. split; [apply Hh|exact Hc]. }
  set (t := (ar d / I)%R).
  assert (Et : forall k r, half g k r -> force g ip (fun k r => t * lin geo y k r)%R k r = (t * dot 3 (areavec (geo k) r) (ident d))%R) by (intros k r Hh; rewrite force_scal, (Ef k r Hh); reflexivity).
  pose proof (trial_flux g ip (hbc_of (B d)) st (tb_st d Hd) Sp (dr d) (ct d) (fun k => nthR (P d) k) (tb_jumps d Hd) (fun k r => t * lin geo y k r)%R) as T.
  assert (Ad : admissible g (hbc_of (B d)) (force g ip (fun k r => t * lin geo y k r)%R)). { apply (adm_ext g _ (fun k r => t * dot 3 (areavec (geo k) r) (ident d))%R); [intros; symmetry; apply Et; assumption|apply adm_scal, fix_const_adm; assumption]. }
  specialize (T Ad). change (energy g ip (fun k r => nthR (P d) k - ct d k r)%R (fun k r => nthR (P d) k - ct d k r)%R) with (energy g ip (pd d) (pd d)) in T.
  rewrite (S2_ext g _ (fun k r => t * (dot 3 (areavec (geo k) r) (ident d) * dr d k r))%R) in T by (intros k r Hh; rewrite (Et k r Hh); ring). rewrite S2_scal, (const_flux _ d Hd) in T.
  assert (Es : energy g ip (fun k r => t * lin geo y k r)%R (fun k r => t * lin geo y k r)%R = (t * t * I)%R). { rewrite <- Ei. unfold energy. rewrite <- S2_scal. apply S2_ext. intros k r _. rewrite force_scal. ring. }
  rewrite Es in T. unfold ident in T. rewrite Z.eqb_refl in T. unfold kt. rewrite <- (ar_len d Hd).
  assert (Q : (ar d * ar d / I <= energy g ip (pd d) (pd d))%R). { eapply Rle_trans; [|exact T]. apply Req_le. unfold t. field. lra. }
  apply (Rmult_le_compat_r (len d * I / ar d)) in Q; [|apply Rmult_le_pos; [nra|left; apply Rinv_0_lt_compat; exact Ap]].
  eapply Rle_trans; [|eapply Rle_trans; [exact Q|]]; apply Req_le; field; lra.
Qed.
End Three.
