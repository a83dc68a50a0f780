From Verif Require Import BaseFacts RBaseFacts Lin_Facts Steady_Proofs Euler_Proofs2 Impl_Proofs Matx_Proofs Hnum_Proofs Hyb_Proofs Hyb_Proofs2 Hyb_Proofs3 Hyb_Proofs4 Hyb_Proofs5 Hyb_Proofs6 Hyb_Proofs7 Hyb_Proofs8 Hyb_Proofs9 Eld_Proofs2 Bound_Proofs Bound_Proofs3 Lsv_Proofs Lsv_Proofs2 Lsv_Proofs4 Lsv_Proofs5 Upb_Proofs Tens_Proofs Tens_Proofs2 Tens_Proofs3 Tens_Proofs4 Tens_Proofs5 Tens_Spec.
Open Scope Z_scope.

(* ---- pressures with the same jumps and admissible fluxes have the same drops ---- *)
Lemma same_field g ip bc st D l p l' p' : structured g bc st -> ip_spd g ip -> admissible g bc (force g ip (fun k r => p k - l k r)%R) -> admissible g bc (force g ip (fun k r => p' k - l' k r)%R) ->
  jumps g bc l D -> jumps g bc l' D -> forall k r, half g k r -> (p k - l k r)%R = (p' k - l' k r)%R.
Proof.
  intros HS Sp A A' J J' k r Hh. set (a := fun k r => (p k - l k r)%R) in *. set (a' := fun k r => (p' k - l' k r)%R) in *.
  assert (E1 : energy g ip a a = (- S2 g (fun k r => force g ip a k r * D k r))%R) by (apply (test_flux g bc st _ l D p HS A J)).
  assert (E2 : energy g ip a a' = (- S2 g (fun k r => force g ip a k r * D k r))%R) by (apply (test_flux g bc st _ l' D p' HS A J')).
  assert (E3 : energy g ip a' a = (- S2 g (fun k r => force g ip a' k r * D k r))%R) by (apply (test_flux g bc st _ l D p HS A' J)).
  assert (E4 : energy g ip a' a' = (- S2 g (fun k r => force g ip a' k r * D k r))%R) by (apply (test_flux g bc st _ l' D p' HS A' J')).
  pose proof (energy_minus g ip Sp a a') as E. rewrite (energy_sym g ip a' a Sp) in E3. assert (Z0 : energy g ip (fun k r => a k r - a' k r)%R (fun k r => a k r - a' k r)%R = 0%R) by lra.
  pose proof (energy_zero g ip _ Sp Z0 k r Hh) as X. cbv beta in X. unfold a, a' in X. lra.
Qed.
Section Lin.
Variables (srt : list bface -> list bface) (g : list hcell) (geo : Z -> mcell) (twodim : bool) (low hi : Z -> R).
Hypothesis LR : linear_ready g geo low hi.
Notation gf := (map uf_g (grid_faces g geo)).
Notation src := (zrepeat 0%R (zlen g)).
Definition edge (d k r : Z) : R := (1 - (nthR (mf_cen (face (geo k) r)) d - low d) / (hi d - low d))%R.
Definition lin_cond (d s k r : Z) : fcond := if twodim && (4 <=? s) then CNeumann 0 else CDirichlet (edge d k r).
Section Rock.
Variable ip : hip.
Hypothesis BK : block srt g geo ip 1 twodim low hi.
Let Hn := bk_n srt g geo ip 1 twodim low hi BK.
Let Hb := bk_b srt g geo ip 1 twodim low hi BK.
Let Geo := bk_geo srt g geo ip 1 twodim low hi BK.
Lemma box_is d b0 b e : 0 <= d < 3 -> setup_upscaling srt gf 1 d 1 1 twodim b0 = Ok b -> 0 <= e < 3 -> box_low (bdy_faces gf) e = low e /\ box_hi (bdy_faces gf) e = hi e.
Proof.
  intros Hd S He. pose proof (bk_box srt g geo ip 1 twodim low hi BK d b0 b Hd S) as Bx. destruct LR as (_ & Lim).
  assert (Ex : forall s, 0 <= s < 6 -> exists f, In f (bdy_faces gf) /\ vget (gf_cent f) (s / 2) = if Z.even s then low (s / 2)%Z else hi (s / 2)%Z).
  { intros s Hs. destruct Bx as (B1 & B2). destruct (B2 s Hs) as (f & Hf & Ob & Ec). exists (uf_g f). split; [unfold bdy_faces; apply filter_In; split; [apply in_map; exact Hf|exact Ob]|]. destruct (B1 f Hf Ob) as (s' & Hs' & Ec' & _ & _ & Ev). assert (s' = s) by (rewrite Ec in Ec'; injection Ec'; lia). subst s'. exact Ev. }
  assert (IB : is_box (bdy_faces gf) (box_low (bdy_faces gf)) (box_hi (bdy_faces gf))).
  { apply box_spec; [destruct (Ex 0 ltac:(lia)) as (f & Hf & _); intros E; rewrite E in Hf; destruct Hf|]. intros f j Hf Hj. destruct (Lim f j Hf Hj) as (? & ? & ?). lra. }
  destruct (IB e He) as (Bd & (fl & Fl & El) & (fh & Fh & Eh)). destruct (Ex (2 * e) ltac:(lia)) as (f1 & F1 & E1). destruct (Ex (2 * e + 1) ltac:(lia)) as (f2 & F2 & E2).
  replace (2 * e / 2) with e in E1 by (rewrite Z.mul_comm, Z.div_mul; lia). replace ((2 * e + 1) / 2) with e in E2 by (apply (Z.div_unique _ _ _ 1); lia). rewrite Z.even_mul in E1. rewrite Z.even_add, Z.even_mul in E2. cbn [Z.even orb Bool.eqb] in E1, E2.
  pose proof (Bd f1 F1). pose proof (Bd f2 F2). destruct (Lim fl e Fl He) as (_ & ? & _). destruct (Lim fh e Fh He) as (_ & ? & _). split; lra.
Qed.
Lemma lin_conds d b0 b k r : 0 <= d < 3 -> setup_upscaling srt gf 1 d 1 1 twodim b0 = Ok b -> half g k r -> nbr g k r = None -> exists s, 0 <= s < 6 /\ on_side_of g b k r s /\ cond_at g (hbc_of b) k r = Some (lin_cond d s k r).
Proof.
  intros Hd S Hh En. pose proof (bk_box srt g geo ip 1 twodim low hi BK d b0 b Hd S) as Bx. destruct (side_ex g geo b low hi Hn Hb Bx k r Hh En) as (s & Hs & O & _). exists s. split; [exact Hs|]. split; [exact O|].
  destruct (box_is d b0 b d Hd S Hd) as (El & Eh). destruct LR as (U & _). pose proof S as S'. unfold setup_upscaling in S'. cbn [Z.ltb Z.compare orb Z.eqb Pos.eqb Pos.compare Pos.compare_cont] in S'.
  destruct (linear_setup b0 gf 1 d 1 twodim tol6 U) as [(E & _)|(b1 & E & _ & _ & F)]; [congruence|]. assert (b1 = b) by congruence. subst b1.
  assert (Ib : In (uf_g (uf_at g geo k r)) (bdy_faces gf)).
  { unfold bdy_faces. apply filter_In. split; [apply in_map, (In_faces g geo Hn k r Hh)|]. apply (bdry_iff g geo Hn Hb k r Hh) in En. exact En. }
  destruct (F _ Ib) as (s' & _ & Ec & _ & Ef). rewrite (bid_at g geo k r En) in Ec, Ef. destruct O as (_ & _ & Ec'). assert (s' = s) by (rewrite Ec in Ec'; injection Ec'; lia). subst s'.
  unfold cond_at. rewrite En. f_equal. unfold hbc_of. cbn [hb_cond]. rewrite Ef. unfold lin_cond. destruct (twodim && (4 <=? s)); [reflexivity|]. cbn. rewrite El, Eh. unfold edge.
  destruct (face_wf g geo Hn Hb Geo k r Hh) as (L3 & _). rewrite (vec_of_get g geo Hn Hb _ d L3 Hd). f_equal. ring.
Qed.
Lemma lin_outer b k r c : cond_at g (hbc_of b) k r = Some c -> nbr g k r = None.
Proof. unfold cond_at. destruct (nbr g k r); [discriminate|reflexivity]. Qed.
Lemma lin_joined d b0 b k r k' r' : 0 <= d < 3 -> setup_upscaling srt gf 1 d 1 1 twodim b0 = Ok b -> (joined g (hbc_of b) k r k' r' <-> half g k r /\ half g k' r' /\ twins g k r k' r').
Proof.
  intros Hd S. split; [|intros (A & B & T); split; [exact A|split; [exact B|left; exact T]]]. intros (A & B & [T|Pr]); [auto|]. exfalso. destruct Pr as (dd & _ & (_ & Ec) & _).
  destruct (lin_conds d b0 b k r Hd S A (lin_outer b k r _ Ec)) as (s & _ & _ & E). rewrite Ec in E. unfold lin_cond in E. destruct (twodim && (4 <=? s)); discriminate.
Qed.
Lemma lin_bal d b0 b : 0 <= d < 3 -> setup_upscaling srt gf 1 d 1 1 twodim b0 = Ok b -> no_dirichlet g (hbc_of b) -> balanced g (hbc_of b) src.
Proof.
  intros Hd S N. exfalso. pose proof (bk_box srt g geo ip 1 twodim low hi BK d b0 b Hd S) as Bx. destruct (side_inhabited g geo b low hi Hn Hb Bx 0 ltac:(lia)) as (k & r & O). pose proof O as (Hh & En & Ec). destruct (lin_conds d b0 b k r Hd S Hh En) as (s & _ & (_ & _ & Ec') & E).
  assert (s = 0) by (rewrite Ec in Ec'; injection Ec'; lia). subst s. unfold lin_cond in E. rewrite andb_false_r in E. exact (N k r _ Hh E).
Qed.
Lemma lin_same p1 p2 b b1 b2 : 0 <= p1 < 3 -> 0 <= p2 < 3 -> setup_upscaling srt gf 1 p1 1 1 twodim b = Ok b1 -> setup_upscaling srt gf 1 p2 1 1 twodim b1 = Ok b2 -> init_structure g (hbc_of b1) = init_structure g (hbc_of b2).
Proof. intros _ _ S1 S2. apply kinds_structure, rel_kinds. destruct LR as (U & _). eapply linear_rel; eassumption. Qed.
Hypothesis FM : flow_matrices g ip.
(* the jumps of a linear problem: the prescribed pressure on the boundary *)
Definition edge_jump (d k r : Z) : R := match nbr g k r with Some _ => 0%R | None => edge d k r end.
Lemma lin_jumps_of d b0 b l : 0 <= d < 3 -> setup_upscaling srt gf 1 d 1 1 twodim b0 = Ok b ->
  (forall k r k' r', half g k r -> half g k' r' -> twins g k r k' r' -> l k r = l k' r') -> (forall k r p, half g k r -> cond_at g (hbc_of b) k r = Some (CDirichlet p) -> l k r = p) -> jumps g (hbc_of b) l (edge_jump d).
Proof.
  intros Hd S Tw Di. split.
  - intros k r k' r' J. apply (lin_joined d b0 b k r k' r' Hd S) in J. destruct J as (A & B & T). rewrite (Tw k r k' r' A B T). unfold edge_jump. destruct T as (-> & ->). reflexivity.
  - exists 0%R. intros k r p Hh Ec. rewrite (Di k r p Hh Ec). pose proof (lin_outer b k r _ Ec) as En. unfold edge_jump. rewrite En. destruct (lin_conds d b0 b k r Hd S Hh En) as (s & _ & _ & E). rewrite Ec in E. unfold lin_cond in E. destruct (twodim && (4 <=? s)); [discriminate|]. injection E as ->. ring.
Qed.
Section Dir.
Variables (d : Z) (b0 b : bcs) (st : hstruct) (x ps : list R) (vs : list (list R)).
Hypothesis Hd : 0 <= d < 3.
Hypothesis S : setup_upscaling srt gf 1 d 1 1 twodim b0 = Ok b.
Hypothesis HS : structured g (hbc_of b) st.
Hypothesis Da : darcy_law g ip st x ps vs.
Hypothesis Co : conserving g src vs.
Hypothesis Fl : flow_conditions g (hbc_of b) st x vs.
Lemma lin_flux_adm : admissible g (hbc_of b) (at2 vs).
Proof.
  destruct Fl as (F1 & _ & F3 & _). split; [|split].
  - intros k Hk. rewrite (Co k Hk). unfold nthR. destruct (bk_problem srt g geo ip 1 twodim low hi BK d b0 b Hd S) as ((_ & I & _) & _). rewrite zget_zrepeat by (apply I; exact Hk). reflexivity.
  - intros k r k' r' J. apply (lin_joined d b0 b k r k' r' Hd S) in J. destruct J as (A & B & T). specialize (F1 k r k' r' A B T). lra.
  - intros k r q Hh Ec. rewrite (F3 k r q Hh Ec). destruct (lin_conds d b0 b k r Hd S Hh (lin_outer b k r _ Ec)) as (s & _ & _ & E). rewrite Ec in E. unfold lin_cond in E. destruct (twodim && (4 <=? s)); [|discriminate]. injection E as ->. reflexivity.
Qed.
Lemma lin_force_adm : admissible g (hbc_of b) (force g ip (pdrop st x ps)).
Proof. apply (adm_ext g _ (at2 vs)); [intros; apply (flux_force g ip FM st x ps vs Da); assumption|exact lin_flux_adm]. Qed.
Lemma lin_jumps : jumps g (hbc_of b) (contact st x) (edge_jump d).
Proof.
  apply (lin_jumps_of d b0 b _ Hd S); [intros k r k' r' A B T; unfold contact; rewrite (twins_num g b st HS k r k' r' T A B); reflexivity|]. destruct Fl as (_ & F2 & _). exact F2.
Qed.
End Dir.
(* ---- the run ---- *)
Lemma lin_family K ty mx nf bs sv s : exact_solver K -> enough_faces g nf -> flow_tensor K srt g geo ip 1 twodim ty mx nf bs sv = Ok s ->
  exists st (B : Z -> bcs) (X P : Z -> list R) (V : Z -> list (list R)) (C : Z -> list (option R)), ts_cols s = [C 0; C 1; C 2] /\
    forall d, 0 <= d < 3 -> dirn srt g geo ip 1 twodim low hi d st (B d) (X d) (P d) (V d) (C d).
Proof.
  intros EK EF E. destruct (run_tensor srt g geo ip 1 twodim low hi BK K ty mx nf EK FM EF lin_bal lin_same bs sv s E) as (st & b0 & b1 & b2 & x0 & x1 & x2 & p0 & p1 & p2 & v0 & v1 & v2 & c0 & c1 & c2 & Ec & D0 & D1 & D2).
  exists st, (fun d => if d =? 0 then b0 else if d =? 1 then b1 else b2), (fun d => if d =? 0 then x0 else if d =? 1 then x1 else x2), (fun d => if d =? 0 then p0 else if d =? 1 then p1 else p2), (fun d => if d =? 0 then v0 else if d =? 1 then v1 else v2), (fun d => if d =? 0 then c0 else if d =? 1 then c1 else c2).
  split; [exact Ec|]. intros d Hd. assert (d = 0 \/ d = 1 \/ d = 2) as [-> |[-> | ->]] by lia; cbn; assumption.
Qed.
(* entry (i, d) of the tensor *)
Definition lt (bR : bcs) (V : Z -> list (list R)) (i d : Z) : R := (- S2 g (fun k r => at2 (V d) k r * dropat g geo bR i k r) / side_area g geo bR (2 * i) * (hi d - low d))%R.
Lemma lin_col bR d st b x ps V col : box_faces bR (grid_faces g geo) low hi -> 0 <= d < 3 -> dirn srt g geo ip 1 twodim low hi d st b x ps (V d) col -> col = [Some (lt bR V 0 d); Some (lt bR V 1 d); Some (lt bR V 2 d)].
Proof.
  intros BR Hd [(b0 & S) _ _ _ _ (t & q & Ht & Et & Eq & ->)]. unfold mean_velocities in Eq. cbn [Z.eqb Pos.eqb orb] in Eq. rewrite three in Eq. cbn [mapM] in Eq.
  rewrite (mean_of srt g geo ip 1 twodim low hi BK bR BR d b b0 (V d) Hd S t 0 ltac:(lia) Ht Et), (mean_of srt g geo ip 1 twodim low hi BK bR BR d b b0 (V d) Hd S t 1 ltac:(lia) Ht Et), (mean_of srt g geo ip 1 twodim low hi BK bR BR d b b0 (V d) Hd S t 2 ltac:(lia) Ht Et) in Eq. cbn [bind] in Eq. injection Eq as <-. reflexivity.
Qed.
Lemma lin_tensor bR st B X P V C : box_faces bR (grid_faces g geo) low hi -> (forall d, 0 <= d < 3 -> dirn srt g geo ip 1 twodim low hi d st (B d) (X d) (P d) (V d) (C d)) -> tensor_is [C 0; C 1; C 2] (lt bR V).
Proof.
  intros BR D. split; [reflexivity|]. intros d Hd. exists (C d). split; [assert (d = 0 \/ d = 1 \/ d = 2) as [-> |[-> | ->]] by lia; reflexivity|]. rewrite (lin_col bR d st (B d) (X d) (P d) V (C d) BR Hd (D d Hd)). split; [reflexivity|]. intros i Hi. assert (i = 0 \/ i = 1 \/ i = 2) as [-> |[-> | ->]] by lia; reflexivity.
Qed.
(* ---- uniform rock ---- *)
Lemma force_ext a a' k r : (forall c, half g k c -> a k c = a' k c) -> half g k r -> force g ip a k r = force g ip a' k r.
Proof. intros E Hh. unfold force. apply Sum_ext. intros c Hc. rewrite (E c); [reflexivity|]. split; [apply Hh|exact Hc]. Qed.
Variables (L : Z -> Z -> Z -> R) (Lc : Z -> Z -> R).
Hypothesis PL : permeability g geo ip L.
Hypothesis UL : forall c i j, 0 <= c < zlen g -> 0 <= i < 3 -> 0 <= j < 3 -> L c i j = Lc i j.
Hypothesis T2 : twodim = false.
Definition slope (d : Z) (j : Z) : R := (ident d j * / (hi d - low d))%R.
Definition darcy (d : Z) : Z -> R := mvec 3 Lc (slope d).
Definition cell_p (d k : Z) : R := (1 - (nthR (mc_cen (geo k)) d - low d) / (hi d - low d))%R.
Lemma bk_len d : 0 <= d < 3 -> (0 < hi d - low d)%R. Proof. intros Hd. pose proof BK as (_ & _ & _ & H & _). specialize (H d Hd). lra. Qed.
Lemma edge_drop d k r : 0 <= d < 3 -> half g k r -> (cell_p d k - edge d k r)%R = lin geo (fun _ => slope d) k r.
Proof.
  intros Hd Hh. rewrite lin_offset. pose proof (bk_len d Hd). unfold cell_p, edge, dot, slope, offset, ident. rewrite Sum3. assert (d = 0 \/ d = 1 \/ d = 2) as [-> |[-> | ->]] by lia; cbn [Z.eqb Pos.eqb]; field; lra.
Qed.
Lemma edge_force d k r : 0 <= d < 3 -> half g k r -> force g ip (fun k r => cell_p d k - edge d k r)%R k r = dot 3 (areavec (geo k) r) (darcy d).
Proof.
  intros Hd Hh. rewrite (force_ext _ (lin geo (fun _ => slope d)) k r); [|intros c Hc; apply edge_drop; assumption|exact Hh]. rewrite (lin_force g geo ip L PL _ k r Hh). unfold dot. apply Sum_ext. intros i Hi. f_equal. unfold darcy, mvec. apply Sum_ext. intros j Hj. rewrite (UL k i j (proj1 Hh) Hi Hj). reflexivity.
Qed.
Lemma edge_adm d b0 b : 0 <= d < 3 -> setup_upscaling srt gf 1 d 1 1 twodim b0 = Ok b -> admissible g (hbc_of b) (force g ip (fun k r => cell_p d k - edge d k r)%R).
Proof.
  intros Hd S. apply (adm_ext g _ (fun k r => dot 3 (areavec (geo k) r) (darcy d))); [intros; symmetry; apply edge_force; assumption|]. split; [|split].
  - intros k Hk. apply (const_div srt g geo ip 1 twodim low hi BK _ k Hk).
  - intros k r k' r' J. apply (lin_joined d b0 b k r k' r' Hd S) in J. destruct J as (A & B & T). apply (const_twins srt g geo ip 1 twodim low hi BK _ k r k' r' A B T).
  - intros k r q Hh Ec. exfalso. destruct (lin_conds d b0 b k r Hd S Hh (lin_outer b k r _ Ec)) as (s & _ & _ & E). rewrite Ec in E. unfold lin_cond in E. rewrite T2 in E. discriminate.
Qed.
Lemma edge_jumps d b0 b : 0 <= d < 3 -> setup_upscaling srt gf 1 d 1 1 twodim b0 = Ok b -> jumps g (hbc_of b) (edge d) (edge_jump d).
Proof.
  intros Hd S. apply (lin_jumps_of d b0 b _ Hd S).
  - intros k r k' r' A B T. unfold edge. pose proof Geo as (_ & G). destruct (G k r k' r' A B T) as (-> & _). reflexivity.
  - intros k r p Hh Ec. destruct (lin_conds d b0 b k r Hd S Hh (lin_outer b k r _ Ec)) as (s & _ & _ & E). rewrite Ec in E. unfold lin_cond in E. destruct (twodim && (4 <=? s)); [discriminate|]. injection E as ->. reflexivity.
Qed.
Lemma uniform_flux d st b x ps vs col k r : 0 <= d < 3 -> dirn srt g geo ip 1 twodim low hi d st b x ps vs col -> half g k r -> at2 vs k r = dot 3 (areavec (geo k) r) (darcy d).
Proof.
  intros Hd [(b0 & S) HS Da Co Fl _] Hh. rewrite (flux_force g ip FM st x ps vs Da k r Hh), <- (edge_force d k r Hd Hh). apply force_ext; [|exact Hh]. intros c Hc. unfold pdrop.
  apply (same_field g ip (hbc_of b) st (edge_jump d) (contact st x) (fun k => nthR ps k) (edge d) (cell_p d) HS (proj1 FM)); [apply (lin_force_adm d b0 b st x ps vs Hd S Da Co Fl)|apply (edge_adm d b0 b Hd S)|apply (lin_jumps d b0 b st x vs Hd S HS Fl)|apply (edge_jumps d b0 b Hd S)|exact Hc].
Qed.
Lemma uniform_lt bR st B X P V C i d : conforming g -> counts_agree g -> box_faces bR (grid_faces g geo) low hi -> (forall d, 0 <= d < 3 -> dirn srt g geo ip 1 twodim low hi d st (B d) (X d) (P d) (V d) (C d)) -> 0 <= i < 3 -> 0 <= d < 3 -> lt bR V i d = Lc i d.
Proof.
  intros W A BR D Hi Hd. unfold lt. rewrite (S2_ext g (fun k r => at2 (V d) k r * dropat g geo bR i k r)%R (fun k r => dot 3 (areavec (geo k) r) (darcy d) * dropat g geo bR i k r)%R) by (intros k r Hh; rewrite (uniform_flux d st (B d) (X d) (P d) (V d) (C d) k r Hd (D d Hd) Hh); reflexivity).
  rewrite (flux_drop g geo bR _ i Hi). destruct (side_w g geo bR low hi Hn Hb BR Geo (darcy d) i Hi) as (-> & ->). destruct (side_areas g geo bR low hi Hn Hb BR Geo i W A Hi) as (-> & _). pose proof (side_area_pos g geo bR low hi Hn Hb BR (2 * i) ltac:(lia)) as Pa. pose proof (bk_len d Hd) as Pl.
  transitivity (darcy d i * (hi d - low d))%R; [field; lra|]. unfold darcy, mvec, slope, ident. rewrite Sum3. assert (d = 0 \/ d = 1 \/ d = 2) as [Ed|[Ed|Ed]] by lia; rewrite Ed in *; cbn [Z.eqb Pos.eqb]; field; lra.
Qed.
End Rock.
End Lin.
Lemma uniq_tensor cols k k' : tensor_is cols k -> tensor_is cols k' -> forall i d, 0 <= i < 3 -> 0 <= d < 3 -> k i d = k' i d.
Proof.
  intros (_ & T) (_ & T') i d Hi Hd. destruct (T d Hd) as (c & E & _ & F). destruct (T' d Hd) as (c' & E' & _ & F'). rewrite E in E'. injection E' as <-. specialize (F i Hi). specialize (F' i Hi). congruence.
Qed.
Lemma linear_finite srt g geo ip twodim low hi cols : upscaled_by srt g geo ip 1 twodim low hi cols -> linear_ready g geo low hi -> exists k, tensor_is cols k.
Proof.
  intros (K & ty & mx & nf & b & sv & s & EK & BK & FM & EF & E & <-) LR. destruct (lin_family srt g geo twodim low hi LR ip BK FM K ty mx nf b sv s EK EF E) as (st & B & X & P & V & C & -> & D).
  destruct (dn_setup _ _ _ _ _ _ _ _ _ _ _ _ _ _ _ (D 0 ltac:(lia))) as (b0 & S). eexists. apply (lin_tensor srt g geo twodim low hi ip BK (B 0) st B X P V C); [apply (bk_box srt g geo ip 1 twodim low hi BK 0 b0 _ ltac:(lia) S)|exact D].
Qed.
Lemma linear_uniform srt g geo ip low hi cols L Lc k : upscaled_by srt g geo ip 1 false low hi cols -> linear_ready g geo low hi -> permeability g geo ip L ->
  (forall c i j, 0 <= c < zlen g -> 0 <= i < 3 -> 0 <= j < 3 -> L c i j = Lc i j) -> tensor_is cols k -> forall i j, 0 <= i < 3 -> 0 <= j < 3 -> k i j = Lc i j.
Proof.
  intros (K & ty & mx & nf & b & sv & s & EK & BK & FM & EF & E & <-) LR PL UL Tk i j Hi Hj. destruct (lin_family srt g geo false low hi LR ip BK FM K ty mx nf b sv s EK EF E) as (st & B & X & P & V & C & Ec & D). rewrite Ec in Tk.
  destruct (dn_setup _ _ _ _ _ _ _ _ _ _ _ _ _ _ _ (D 0 ltac:(lia))) as (b0 & S). pose proof (bk_box srt g geo ip 1 false low hi BK 0 b0 _ ltac:(lia) S) as BR. destruct (bk_problem srt g geo ip 1 false low hi BK 0 b0 _ ltac:(lia) S) as (W & A & _).
  rewrite (uniq_tensor _ _ _ Tk (lin_tensor srt g geo false low hi ip BK (B 0) st B X P V C BR D) i j Hi Hj). apply (uniform_lt srt g geo false low hi LR ip BK FM L Lc PL UL eq_refl (B 0) st B X P V C i j W A BR D Hi Hj).
Qed.
(* ---- scaling ---- *)
Lemma normal_inj s s' : 0 <= s < 6 -> 0 <= s' < 6 -> side_normal s = side_normal s' -> s = s'.
Proof.
  intros Hs Hs' E. assert (s = 0 \/ s = 1 \/ s = 2 \/ s = 3 \/ s = 4 \/ s = 5) as X by lia. assert (s' = 0 \/ s' = 1 \/ s' = 2 \/ s' = 3 \/ s' = 4 \/ s' = 5) as X' by lia.
  destruct X as [-> |[-> |[-> |[-> |[-> | ->]]]]], X' as [-> |[-> |[-> |[-> |[-> | ->]]]]]; try reflexivity; exfalso; unfold side_normal in E; cbn in E; inversion E; lra.
Qed.
Lemma lin_adm_same srt g geo twodim low hi ip ip' d b0 b b0' b' w : linear_ready g geo low hi -> block srt g geo ip 1 twodim low hi -> block srt g geo ip' 1 twodim low hi -> 0 <= d < 3 ->
  setup_upscaling srt (map uf_g (grid_faces g geo)) 1 d 1 1 twodim b0 = Ok b -> setup_upscaling srt (map uf_g (grid_faces g geo)) 1 d 1 1 twodim b0' = Ok b' -> admissible g (hbc_of b') w -> admissible g (hbc_of b) w.
Proof.
  intros LR BK BK' Hd S S' (A1 & A2 & A3). split; [exact A1|]. split.
  - intros k r k' r' J. apply A2. apply (lin_joined srt g geo twodim low hi LR ip' BK' d b0' b' k r k' r' Hd S'). apply (lin_joined srt g geo twodim low hi LR ip BK d b0 b k r k' r' Hd S). exact J.
  - intros k r q Hh Ec. pose proof (lin_outer g b k r _ Ec) as En. destruct (lin_conds srt g geo twodim low hi LR ip BK d b0 b k r Hd S Hh En) as (s & Hs & O & E). destruct (lin_conds srt g geo twodim low hi LR ip' BK' d b0' b' k r Hd S' Hh En) as (s' & Hs' & O' & E').
    assert (s' = s). { apply (normal_inj s' s Hs' Hs). destruct (on_side_geo g geo b low hi (bk_n srt g geo ip 1 twodim low hi BK) (bk_b srt g geo ip 1 twodim low hi BK) (bk_box srt g geo ip 1 twodim low hi BK d b0 b Hd S) k r s O) as (_ & <- & _). destruct (on_side_geo g geo b' low hi (bk_n srt g geo ip 1 twodim low hi BK) (bk_b srt g geo ip 1 twodim low hi BK) (bk_box srt g geo ip' 1 twodim low hi BK' d b0' b' Hd S') k r s' O') as (_ & <- & _). reflexivity. }
    subst s'. rewrite Ec in E. rewrite <- E in E'. apply (A3 k r q Hh E').
Qed.
Lemma linear_scaling srt g geo ip ip' twodim low hi cols cols' c k k' : (0 < c)%R ->
  (forall a i j, 0 <= a < zlen g -> 0 <= i < nfaces g a -> 0 <= j < nfaces g a -> Bk g ip a i j = (c * Bk g ip' a i j)%R) ->
  upscaled_by srt g geo ip 1 twodim low hi cols -> upscaled_by srt g geo ip' 1 twodim low hi cols' -> linear_ready g geo low hi -> tensor_is cols k -> tensor_is cols' k' ->
  forall i j, 0 <= i < 3 -> 0 <= j < 3 -> k i j = (c * k' i j)%R.
Proof.
  intros Cp E (K & ty & mx & nf & b & sv & s & EK & BK & FM & EF & Er & <-) (K' & ty' & mx' & nf' & bb & sv' & s' & EK' & BK' & FM' & EF' & Er' & <-) LR Tk Tk' i j Hi Hj.
  destruct (lin_family srt g geo twodim low hi LR ip BK FM K ty mx nf b sv s EK EF Er) as (st & B & X & P & V & C & Ec & D). destruct (lin_family srt g geo twodim low hi LR ip' BK' FM' K' ty' mx' nf' bb sv' s' EK' EF' Er') as (st' & B' & X' & P' & V' & C' & Ec' & D'). rewrite Ec in Tk. rewrite Ec' in Tk'.
  destruct (dn_setup _ _ _ _ _ _ _ _ _ _ _ _ _ _ _ (D 0 ltac:(lia))) as (b0 & S). pose proof (bk_box srt g geo ip 1 twodim low hi BK 0 b0 _ ltac:(lia) S) as BR.
  rewrite (uniq_tensor _ _ _ Tk (lin_tensor srt g geo twodim low hi ip BK (B 0) st B X P V C BR D) i j Hi Hj), (uniq_tensor _ _ _ Tk' (lin_tensor srt g geo twodim low hi ip' BK' (B 0) st' B' X' P' V' C' BR D') i j Hi Hj).
  assert (F : forall a k r, half g k r -> force g ip a k r = (c * force g ip' a k r)%R). { intros a e r Hh. unfold force. rewrite <- Sum_scal. apply Sum_ext. intros q Hq. rewrite (E e r q (proj1 Hh) (proj2 Hh) Hq). ring. }
  assert (G : forall k r, half g k r -> at2 (V j) k r = (c * at2 (V' j) k r)%R).
  { intros e r Hh. destruct (D j Hj) as [(u0 & SU) HS Da Co Fl _]. destruct (D' j Hj) as [(u0' & SU') HS' Da' Co' Fl' _]. rewrite (flux_force g ip FM st (X j) (P j) (V j) Da e r Hh), (flux_force g ip' FM' st' (X' j) (P' j) (V' j) Da' e r Hh), <- (F _ e r Hh). apply force_ext; [|exact Hh]. intros q Hq. unfold pdrop.
    apply (same_field g ip (hbc_of (B j)) st (edge_jump g geo low hi j) (contact st (X j)) (fun k => nthR (P j) k) (contact st' (X' j)) (fun k => nthR (P' j) k) HS (proj1 FM)).
    - apply (lin_force_adm srt g geo twodim low hi LR ip BK FM j u0 (B j) st (X j) (P j) (V j) Hj SU Da Co Fl).
    - apply (adm_ext g _ (fun k r => c * force g ip' (pdrop st' (X' j) (P' j)) k r)%R); [intros; symmetry; apply F; assumption|]. apply (lin_adm_same srt g geo twodim low hi ip ip' j u0 (B j) u0' (B' j) _ LR BK BK' Hj SU SU'). apply adm_scal. apply (lin_force_adm srt g geo twodim low hi LR ip' BK' FM' j u0' (B' j) st' (X' j) (P' j) (V' j) Hj SU' Da' Co' Fl').
    - apply (lin_jumps srt g geo twodim low hi LR ip BK j u0 (B j) st (X j) (V j) Hj SU HS Fl).
    - apply (lin_jumps_of srt g geo twodim low hi LR ip BK j u0 (B j) _ Hj SU).
      + intros k0 r0 k1 r1 A0 A1 T. unfold contact. rewrite (twins_num g (B' j) st' HS' k0 r0 k1 r1 T A0 A1). reflexivity.
      + intros k0 r0 p H0 Ec0. pose proof (lin_outer g (B j) k0 r0 _ Ec0) as En. destruct (lin_conds srt g geo twodim low hi LR ip BK j u0 (B j) k0 r0 Hj SU H0 En) as (z & Hz & O & Ez). destruct (lin_conds srt g geo twodim low hi LR ip' BK' j u0' (B' j) k0 r0 Hj SU' H0 En) as (z' & Hz' & O' & Ez').
        assert (z' = z). { apply (normal_inj z' z Hz' Hz). destruct (on_side_geo g geo (B j) low hi (bk_n srt g geo ip 1 twodim low hi BK) (bk_b srt g geo ip 1 twodim low hi BK) (bk_box srt g geo ip 1 twodim low hi BK j u0 (B j) Hj SU) k0 r0 z O) as (_ & <- & _). destruct (on_side_geo g geo (B' j) low hi (bk_n srt g geo ip 1 twodim low hi BK) (bk_b srt g geo ip 1 twodim low hi BK) (bk_box srt g geo ip' 1 twodim low hi BK' j u0' (B' j) Hj SU') k0 r0 z' O') as (_ & <- & _). reflexivity. }
        subst z'. rewrite Ec0 in Ez. rewrite <- Ez in Ez'. destruct Fl' as (_ & F2 & _). apply (F2 k0 r0 p H0 Ez').
    - exact Hq. }
  unfold lt. rewrite (S2_ext g (fun k r => at2 (V j) k r * dropat g geo (B 0%Z) i k r)%R (fun k r => c * (at2 (V' j) k r * dropat g geo (B 0%Z) i k r))%R) by (intros e r Hh; rewrite (G e r Hh); ring). rewrite S2_scal. unfold Rdiv. ring.
Qed.
