From Verif Require Import BaseFacts RBaseFacts Lin_Facts Steady_Proofs Euler_Proofs2 Impl_Proofs Impl_Proofs5 Matx_Proofs Matx_Proofs2 Matx_Proofs3 Mim_Proofs Mim_Proofs2 Hnum_Proofs Hnum_Proofs2 Hyb_Spec Hyb_Proofs Hyb_Proofs2 Hyb_Proofs3.
Open Scope Z_scope.

(* ---- residual of the assembled equations ---- *)
Definition rsd (n : Z) (s : hsys) (x : Z -> R) (i : Z) : R := (Sum n (fun j => sy_val s i j * x j) - nthR (sy_rhs s) i)%R.
Definition sysok (n : Z) (pat : list (list Z)) (s : hsys) : Prop := sy_pat s = pat /\ zlen (sy_rhs s) = n.
Section Sys.
Variables (n : Z) (pat : list (list Z)).
Notation sysok := (sysok n pat). Notation rsd := (rsd n).
Lemma has_ok s i j : sysok s -> phas pat i j -> sy_has s i j = true.
Proof. intros (E & _) (w & G & Hj). unfold sy_has. rewrite E, G. apply existsb_In. exact Hj. Qed.
Lemma add_ok s i j a : sysok s -> phas pat i j -> 0 <= j < n -> exists s', sy_add s i j a = Ok s' /\ sysok s' /\ forall x i', rsd s' x i' = (rsd s x i' + ident i' i * (a * x j))%R.
Proof.
  intros H Hp Hj. unfold sy_add, sy_put. rewrite (has_ok s i j H Hp). eexists. split; [reflexivity|]. split; [exact H|]. intros x i'. unfold rsd. cbn [sy_val sy_rhs].
  unfold ident. destruct (Z.eqb_spec i' i) as [->|Ni].
  - cbn [andb]. replace (Sum n (fun b => (if b =? j then sy_val s i j + a else sy_val s i b) * x b))%R with (Sum n (fun b => sy_val s i b * x b) + a * x j)%R; [ring|].
    rewrite <- (Sum_ident_r n j (fun b => a * x b)%R) by exact Hj. rewrite <- Sum_plus. apply Sum_ext. intros b _. unfold ident. destruct (Z.eqb_spec b j) as [->|]; ring.
  - cbn [andb]. ring.
Qed.
Lemma put_ok s i j a : sy_val s i j = 0%R -> sy_put s i j a = sy_add s i j a.
Proof. intros H. unfold sy_add. rewrite H. f_equal. ring. Qed.
Lemma radd_ok s i a : sysok s -> 0 <= i < n -> exists s', rhs_add s i a = Ok s' /\ sysok s' /\ forall x i', rsd s' x i' = (rsd s x i' - ident i' i * a)%R.
Proof.
  intros (E & L) Hi. unfold rhs_add, rhs_put. rewrite rget_at by lia. cbn [bind]. destruct (rset_exists (sy_rhs s) i (nthR (sy_rhs s) i + a)%R ltac:(lia)) as (r & Er & Lr & G & O). rewrite Er. cbn [bind].
  eexists. split; [reflexivity|]. split; [split; [exact E|cbn; lia]|]. intros x i'. unfold rsd. cbn [sy_val sy_rhs]. unfold ident. destruct (Z.eqb_spec i' i) as [->|Ni].
  - rewrite (nthR_get _ _ _ G). ring.
  - replace (nthR r i') with (nthR (sy_rhs s) i') by (unfold nthR; rewrite O by exact Ni; reflexivity). ring.
Qed.
Lemma rput_ok s i a : sysok s -> 0 <= i < n -> nthR (sy_rhs s) i = 0%R -> rhs_put s i a = rhs_add s i a.
Proof. intros (_ & L) Hi H. unfold rhs_add. rewrite rget_at by lia. cbn [bind]. rewrite H. f_equal. ring. Qed.
(* values and right-hand side from residuals *)
Lemma rsd_0 s i : rsd s (fun _ => 0%R) i = (- nthR (sy_rhs s) i)%R.
Proof. unfold rsd. rewrite (Sum_zero n) by (intros; ring). ring. Qed.
Lemma rsd_e s i j : 0 <= j < n -> (rsd s (ident j) i - rsd s (fun _ => 0) i)%R = sy_val s i j.
Proof. intros Hj. rewrite rsd_0. unfold rsd. rewrite (Sum_ext n _ (fun b => ident j b * sy_val s i b)%R) by (intros; ring). rewrite Sum_ident_l by exact Hj. ring. Qed.
End Sys.

Section Asm.
Variables (g : list hcell) (bc : hbc) (st : hstruct) (ip : hip) (src : list R).
Hypothesis HS : structured g bc st.
Hypothesis HI : ip_shaped g ip.
Hypothesis Hsrc : sources g src.
Notation N := (num st).
Notation total := (nm_total (hs_num st)).
Notation pfn := (pf (hs_pp st)).
Notation repn := (rep (hs_pp st)).
Notation nf := (nfaces g).
Definition gfl (k i : Z) : R := nthR (ip_gflux ip (idx g k)) i.
Definition Fk (k : Z) : Z -> R := Fl (nf k) (Bk g ip k).
Definition Lk (k : Z) : R := Ll (nf k) (Bk g ip k).
Definition Sk (k : Z) : Z -> Z -> R := Sl (nf k) (Bk g ip k).
Definition Gk (k : Z) : R := (nthR src (idx g k) - Sum (nf k) (gfl k))%R.
Definition hk (k r : Z) : R := (gfl k r - qv_of g bc k r + Gk k / Lk k * Fk k r)%R.
Lemma Lk_nz k : 0 <= k < zlen g -> Lk k <> 0%R.
Proof. intros Hk. unfold Lk. rewrite Ll_sum. apply HI. exact Hk. Qed.
(* the value column c of cell k contributes for the contact pressures x *)
Definition yv (k : Z) (x : Z -> R) (c : Z) : R :=
  match cond_at g bc k c with
  | Some (CDirichlet p) => p
  | Some (CPeriodic d) => if pfn (N k c) <? N k c then (x (pfn (N k c)) + d)%R else x (N k c)
  | _ => x (N k c)
  end.
Definition rowres (k r : Z) (x : Z -> R) : R := (Sum (nf k) (fun c => Sk k r c * yv k x c) - hk k r)%R.
(* what row r of cell k adds to the residual of equation i *)
Definition contrib (k r : Z) (x : Z -> R) (i : Z) : R :=
  match cond_at g bc k r with
  | Some (CDirichlet p) => (ident i (N k r) * (Sk k r r * (x (N k r) - p)))%R
  | Some (CPeriodic d) =>
      ((ident i (N k r) - ident i (pfn (N k r))) * (Sk k r r * (x (N k r) - x (pfn (N k r)) - d)) + ident i (repn (N k r)) * rowres k r x)%R
  | _ => (ident i (N k r) * rowres k r x)%R
  end.
Notation sysok := (sysok total (hs_pat st)). Notation rsd := (rsd total).
Lemma nrange k r : half g k r -> 0 <= N k r < total.
Proof. apply (num_range g bc (hs_num st)). apply HS. Qed.
Lemma dir_not_per k r p d : cond_at g bc k r = Some (CDirichlet p) -> ~ periodic g bc k r d.
Proof. intros E (_ & Q). congruence. Qed.
Lemma HMP : forall b v, bm_find (hs_map st) b = Ok v <-> exists d, periodic g bc (fst v) (snd v) d /\ bid g (fst v) (snd v) = b.
Proof. apply HS. Qed.
Lemma pfn_per k r d : periodic g bc k r d -> exists k' r', partners g bc k r k' r' /\ pfn (N k r) = N k' r' /\ half g k' r' /\ repn (N k r) = Z.min (N k r) (N k' r') /\ phas (hs_pat st) (N k r) (N k' r') /\ phas (hs_pat st) (N k' r') (N k r) /\ N k r <> N k' r'.
Proof.
  intros Pd. destruct (partner_ex g bc _ (HST g bc st HS) k r d Pd) as (k' & r' & P & _). exists k', r'. split; [exact P|].
  split; [exact (pf_partner g bc _ _ (HPP g bc st HS) _ _ _ _ P)|]. destruct (partners_half _ _ _ _ _ _ P) as (_ & Hh' & _). split; [exact Hh'|].
  split; [exact (rep_partner g bc _ (HST g bc st HS) (hs_map st) _ (HMP) (HPP g bc st HS) _ _ _ _ P)|]. destruct HS as (ST & _ & _ & _ & _ & Hp & _). destruct (Hp _ _ _ _ P). split; [assumption|]. split; [assumption|]. exact (partners_num g bc _ ST _ _ _ _ P).
Qed.
Lemma rep_other k r : half g k r -> (forall d, cond_at g bc k r <> Some (CPeriodic d)) -> repn (N k r) = N k r.
Proof. intros Hh Np. apply (rep_none g bc _ _ (HPP g bc st HS) k r Hh). intros d (_ & Q). exact (Np d Q). Qed.
Lemma rrange k r : half g k r -> 0 <= repn (N k r) < total.
Proof. exact (rep_range g bc _ (HST g bc st HS) (hs_map st) _ HMP (HPP g bc st HS) k r). Qed.
Lemma prep k r c : half g k r -> half g k c -> phas (hs_pat st) (repn (N k r)) (repn (N k c)).
Proof. apply HS. Qed.

Lemma pgrid k r c : half g k r -> half g k c -> phas (hs_pat st) (N k r) (N k c).
Proof. destruct HS as (_ & _ & _ & _ & H & _). apply H. Qed.

Section Cell.
Variables (k : Z) (M : mat) (e : hext) (rhs : list R).
Hypothesis Hk : 0 <= k < zlen g.
Hypothesis HM : holds M FOrd (nf k) (nf k) (Sk k).
Hypothesis He : forall r, 0 <= r < nf k -> ext_at g bc st k e r.
Hypothesis Lr : zlen rhs = nf k.
Hypothesis Hr : forall r, 0 <= r < nf k -> nthR rhs r = hk k r.
Lemma mg r c : 0 <= r < nf k -> 0 <= c < nf k -> mget M r c = Ok (Sk k r c).
Proof. intros. apply (holds_get M FOrd (nf k) (nf k)); assumption. Qed.
Lemma col_ok s r c : sysok s -> half g k r -> half g k c -> exists s', add_col M e r (repn (N k r)) s (c, N k c) = Ok s' /\ sysok s' /\
  forall x i, rsd s' x i = (rsd s x i + ident i (repn (N k r)) * (Sk k r c * yv k x c))%R.
Proof.
  intros Hs Hh Hc. destruct (He c (proj2 Hc)) as (_ & E2 & E3 & E4). apply rget_Ok in E2, E3, E4. unfold add_col. rewrite E2. cbn [bind]. pose proof (rrange k r Hh) as Rr. pose proof (prep k r c Hh Hc) as Pc.
  rewrite E3, E4. rewrite mg by (apply Hh || apply Hc). cbn [bind].
  unfold ft_of, cv_of, yv. assert (Oth : (forall d, cond_at g bc k c <> Some (CPeriodic d)) -> exists s', sy_add s (repn (N k r)) (N k c) (Sk k r c) = Ok s' /\ sysok s' /\ forall x i, rsd s' x i = (rsd s x i + ident i (repn (N k r)) * (Sk k r c * x (N k c)))%R).
  { intros Np. rewrite (rep_other k c Hc Np) in Pc. apply add_ok; [exact Hs|exact Pc|apply nrange; exact Hc]. }
  destruct (cond_at g bc k c) as [[p|d|q]|] eqn:Ec.
  - destruct (radd_ok total (hs_pat st) s (repn (N k r)) (- (Sk k r c * p)) Hs Rr) as (s' & E & Hs' & R'). exists s'. split; [exact E|]. split; [exact Hs'|]. intros x i. rewrite R'. ring.
  - destruct (pfn_per k c d (conj Hc Ec)) as (k' & r' & P & Epf & Hh' & Er & _). rewrite Er in Pc. rewrite Epf. destruct (Z.ltb_spec (N k' r') (N k c)) as [L|L].
    + rewrite Z.min_r in Pc by lia. destruct (radd_ok total (hs_pat st) s (repn (N k r)) (- (Sk k r c * d)) Hs Rr) as (s1 & E1 & Hs1 & R1). rewrite E1. cbn [bind].
      destruct (add_ok total (hs_pat st) s1 _ _ (Sk k r c) Hs1 Pc (nrange _ _ Hh')) as (s2 & E2' & Hs2 & R2). exists s2. split; [exact E2'|]. split; [exact Hs2|]. intros x i. rewrite R2, R1. ring.
    + rewrite Z.min_l in Pc by lia. apply add_ok; [exact Hs|exact Pc|apply nrange; exact Hc].
  - apply Oth. discriminate.
  - apply Oth. discriminate.
Qed.
Lemma row_zip r n : zget (row g (hs_num st) k) r = Some n -> half g k r /\ n = N k r.
Proof.
  intros G. pose proof (zget_Some_range _ _ _ G) as Hq. rewrite row_len in Hq. split; [split; assumption|]. rewrite row_nth in G by exact Hq. unfold num. congruence.
Qed.
Lemma cols_ok s r : sysok s -> half g k r -> exists s', foldM (add_col M e r (repn (N k r))) (combine (zrange 0 (zlen (row g (hs_num st) k))) (row g (hs_num st) k)) s = Ok s' /\ sysok s' /\
  forall x i, rsd s' x i = (rsd s x i + ident i (repn (N k r)) * Sum (nf k) (fun c => Sk k r c * yv k x c))%R.
Proof.
  intros Hs Hh. destruct (combine_loop (add_col M e r (repn (N k r))) (fun c t => sysok t /\ forall x i, rsd t x i = (rsd s x i + ident i (repn (N k r)) * Sum c (fun c => Sk k r c * yv k x c))%R) (row g (hs_num st) k) s) as (t & E & Ht & Rt).
  - split; [exact Hs|]. intros x i. rewrite Sum_0. ring.
  - intros c n t Gn (Ht & Rt). destruct (row_zip c n Gn) as (Hc & ->). destruct (col_ok t r c Ht Hh Hc) as (t' & E' & Ht' & Rt'). exists t'. split; [exact E'|]. split; [exact Ht'|].
    intros x i. rewrite Rt', Rt, Sum_S by apply Hc. ring.
  - rewrite row_len in Rt. exists t. auto.
Qed.
Lemma rowcontrib_ok s r : sysok s -> half g k r -> (forall p, cond_at g bc k r = Some (CDirichlet p) -> forall x, rsd s x (N k r) = 0%R) ->
  exists s', add_row M e rhs (row g (hs_num st) k) s (r, N k r) = Ok s' /\ sysok s' /\ forall x i, rsd s' x i = (rsd s x i + contrib k r x i)%R.
Proof.
  intros Hs Hh Hd. destruct (He r (proj2 Hh)) as (_ & E2 & E3 & E4). apply rget_Ok in E2, E3, E4. unfold add_row. rewrite E2. cbn [bind]. rewrite E3, E4. rewrite mg by apply Hh. cbn [bind].
  pose proof (nrange k r Hh) as Rn. pose proof (rrange k r Hh) as Rr.
  assert (Prr : phas (hs_pat st) (N k r) (N k r)) by (apply pgrid; assumption).
  (* the row of an interior, Neumann or periodic face *)
  assert (Rest : forall s0, sysok s0 -> exists s', (let* s := foldM (add_col M e r (repn (N k r))) (combine (zrange 0 (zlen (row g (hs_num st) k))) (row g (hs_num st) k)) s0 in let* h := rget rhs r in rhs_add s (repn (N k r)) h) = Ok s' /\ sysok s' /\
    forall x i, rsd s' x i = (rsd s0 x i + ident i (repn (N k r)) * rowres k r x)%R).
  { intros s0 H0. destruct (cols_ok s0 r H0 Hh) as (s1 & E1 & H1 & R1). rewrite E1. cbn [bind]. rewrite rget_at by (rewrite Lr; apply Hh). cbn [bind]. rewrite Hr by apply Hh.
    destruct (radd_ok total (hs_pat st) s1 (repn (N k r)) (hk k r) H1 Rr) as (s2 & E2' & H2 & R2). exists s2. split; [exact E2'|]. split; [exact H2|]. intros x i. rewrite R2, R1. unfold rowres. ring. }
  unfold ft_of, cv_of, contrib in *. destruct (cond_at g bc k r) as [[p|d|q]|] eqn:Ec; cbn [bind].
  - specialize (Hd p eq_refl).
    assert (V0 : sy_val s (N k r) (N k r) = 0%R) by (rewrite <- (rsd_e total s _ _ Rn), !Hd; ring).
    assert (B0 : nthR (sy_rhs s) (N k r) = 0%R) by (pose proof (rsd_0 total s (N k r)) as Q; rewrite Hd in Q; lra).
    rewrite put_ok by exact V0. destruct (add_ok total (hs_pat st) s _ _ (Sk k r r) Hs Prr Rn) as (s1 & E1 & H1 & R1). rewrite E1. cbn [bind].
    assert (B1 : nthR (sy_rhs s1) (N k r) = 0%R) by (pose proof (rsd_0 total s1 (N k r)) as Q; rewrite R1, Hd in Q; lra).
    rewrite (rput_ok total (hs_pat st)) by assumption. destruct (radd_ok total (hs_pat st) s1 (N k r) (Sk k r r * p) H1 Rn) as (s2 & E2' & H2 & R2). exists s2. split; [exact E2'|]. split; [exact H2|].
    intros x i. rewrite R2, R1. ring.
  - destruct (pfn_per k r d (conj Hh Ec)) as (k' & r' & P & Epf & Hh' & Er & P1 & P2 & Nq). pose proof (nrange k' r' Hh') as Rn'. rewrite Epf.
    assert (Prr' : phas (hs_pat st) (N k' r') (N k' r')) by (apply pgrid; assumption).
    destruct (add_ok total (hs_pat st) s _ _ (Sk k r r) Hs Prr Rn) as (s1 & E1 & H1 & R1). rewrite E1. cbn [bind].
    destruct (add_ok total (hs_pat st) s1 _ _ (- Sk k r r) H1 P1 Rn') as (s2 & E2' & H2 & R2). rewrite E2'. cbn [bind].
    destruct (radd_ok total (hs_pat st) s2 (N k r) (Sk k r r * d) H2 Rn) as (s3 & E3' & H3 & R3). rewrite E3'. cbn [bind].
    destruct (add_ok total (hs_pat st) s3 _ _ (- Sk k r r) H3 P2 Rn) as (s4 & E4' & H4 & R4). rewrite E4'. cbn [bind].
    destruct (add_ok total (hs_pat st) s4 _ _ (Sk k r r) H4 Prr' Rn') as (s5 & E5 & H5 & R5). rewrite E5. cbn [bind].
    destruct (radd_ok total (hs_pat st) s5 (N k' r') (- (Sk k r r * d)) H5 Rn') as (s6 & E6 & H6 & R6). rewrite E6. cbn [bind].
    rewrite <- Er. destruct (Rest s6 H6) as (s7 & E7 & H7 & R7). exists s7. split; [exact E7|]. split; [exact H7|]. intros x i. rewrite R7, R6, R5, R4, R3, R2, R1. ring.
  - assert (Er : repn (N k r) = N k r) by (apply rep_other; [exact Hh|rewrite Ec; discriminate]). rewrite Er in Rest. exact (Rest s Hs).
  - assert (Er : repn (N k r) = N k r) by (apply rep_other; [exact Hh|rewrite Ec; discriminate]). rewrite Er in Rest. exact (Rest s Hs).
Qed.
End Cell.
(* equations that a row contributes to *)
Lemma contrib_other k r x k1 r1 p : half g k r -> half g k1 r1 -> cond_at g bc k1 r1 = Some (CDirichlet p) -> ~ (k = k1 /\ r = r1) -> contrib k r x (N k1 r1) = 0%R.
Proof.
  intros Hh H1 E1 Nq. assert (B1 : nbr g k1 r1 = None) by (unfold cond_at in E1; destruct (nbr g k1 r1); [discriminate|reflexivity]).
  assert (Nn : N k1 r1 <> N k r) by (intros Q; apply Nq; destruct (num_bdry g bc _ (HST g bc st HS) _ _ _ _ H1 Hh B1 Q); auto).
  assert (I0 : ident (N k1 r1) (N k r) = 0%R) by (unfold ident; destruct (Z.eqb_spec (N k1 r1) (N k r)); [contradiction|reflexivity]).
  unfold contrib. destruct (cond_at g bc k r) as [[p'|d|q]|] eqn:Ec; rewrite ?I0; try ring.
  destruct (pfn_per k r d (conj Hh Ec)) as (k' & r' & P & Epf & Hh' & Er & _). rewrite Epf, Er.
  assert (Nn' : N k1 r1 <> N k' r').
  { intros Q. destruct (num_bdry g bc _ (HST g bc st HS) _ _ _ _ H1 Hh' B1 Q) as (-> & ->). destruct P as (d1 & d2 & _ & (_ & Pd2) & _). congruence. }
  unfold ident. destruct (Z.eqb_spec (N k1 r1) (N k' r')); [contradiction|]. destruct (Z.eqb_spec (N k1 r1) (N k r)); [contradiction|]. destruct (Z.eqb_spec (N k1 r1) (Z.min (N k r) (N k' r'))); [lia|]. ring.
Qed.
Lemma Sum_contrib_0 k n x k1 r1 p : 0 <= k < zlen g -> n <= nf k -> half g k1 r1 -> cond_at g bc k1 r1 = Some (CDirichlet p) -> (k = k1 -> n <= r1) -> Sum n (fun r => contrib k r x (N k1 r1)) = 0%R.
Proof. intros Hk Hn H1 E1 H. apply Sum_zero. intros r Hr. apply (contrib_other k r x k1 r1 p); [split; [exact Hk|lia]|exact H1|exact E1|]. intros (-> & ->). specialize (H eq_refl). lia. Qed.

(* what is stored for the recovery of pressures and fluxes *)
Definition dynok (k : Z) (d : hdyn) : Prop :=
  zlen (dy_F d) = zlen g /\ zlen (dy_L d) = zlen g /\ zlen (dy_g d) = zlen g /\
  (forall k', 0 <= k' < zlen g -> exists F, zget (dy_F d) k' = Some F /\ zlen F = nf k' /\ (k' < k -> forall r, 0 <= r < nf k' -> nthR F r = Fk k' r)) /\
  (forall k', 0 <= k' < k -> k' < zlen g -> zget (dy_L d) k' = Some (Lk k') /\ zget (dy_g d) k' = Some (Gk k')) /\
  (dy_reg d = true <-> forall k' r p, 0 <= k' < k -> half g k' r -> cond_at g bc k' r <> Some (CDirichlet p)).
Lemma assemble_cell_ok k s d : 0 <= k < zlen g -> sysok s -> dynok k d -> (forall x i, rsd s x i = Sum k (fun k' => Sum (nf k') (fun r => contrib k' r x i))) ->
  exists s' d', assemble_cell bc st ip src (s, d) (cell_at g k) = Ok (s', d') /\ sysok s' /\ dynok (k + 1) d' /\ forall x i, rsd s' x i = Sum (k + 1) (fun k' => Sum (nf k') (fun r => contrib k' r x i)).
Proof.
  intros Hk Hs (D1 & D2 & D3 & D4 & D5 & D6) Rs. unfold assemble_cell. pose proof (HST g bc st HS) as ST. rewrite (cell_no g bc _ ST) by exact Hk. cbn [bind]. rewrite (row_get g bc _ ST) by exact Hk. cbn [bind].
  assert (Hix : 0 <= idx g k < zlen g) by (apply ST; exact Hk). rewrite rget_at by (rewrite Hsrc; exact Hix). cbn [bind]. rewrite row_len.
  destruct (ext_ok g bc st HS k (dy_reg d) Hk) as (e & Ee & Lre & He & Rg). rewrite Ee. cbn [bind].
  destruct (D4 k Hk) as (F & GF & LF & _). rewrite (proj2 (rget_Ok _ _ _) GF). cbn [bind]. destruct (HI k Hk) as (HB & Lg & _). fold (idx g k).
  destruct (contrib_ok (nf k) (Bk g ip k) (ip_binv ip (idx g k)) F (ip_gflux ip (idx g k)) (ex_rhs e) (nthR src (idx g k)) HB) as (M & rhs & F' & Eb & HM & LF' & HF' & Lrh & Hrh); [reflexivity|assumption|assumption|assumption|exact (Lk_nz k Hk)|].
  rewrite Eb. cbn [bind].
  destruct (rset_exists (dy_F d) k F' ltac:(lia)) as (Fs & E1 & M1 & G1 & O1). rewrite E1. cbn [bind]. change (hc_idx (cell_at g k)) with (idx g k).
  destruct (rset_exists (dy_L d) k (Ll (nf k) (Bk g ip k)) ltac:(lia)) as (Ls & E2 & M2 & G2 & O2). rewrite E2. cbn [bind].
  destruct (rset_exists (dy_g d) k (nthR src (idx g k) - Sum (nf k) (nthR (ip_gflux ip (idx g k))))%R ltac:(lia)) as (gs & E3 & M3 & G3 & O3). rewrite E3. cbn [bind].
  unfold add_cell.
  destruct (combine_loop (add_row M e rhs (row g (hs_num st) k)) (fun r t => sysok t /\ forall x i, rsd t x i = (rsd s x i + Sum r (fun r => contrib k r x i))%R) (row g (hs_num st) k) s) as (s' & E & Hs' & R').
  - split; [exact Hs|]. intros. rewrite Sum_0. ring.
  - intros r n t Gn (Ht & Rt). destruct (row_zip k Hk r n Gn) as (Hh & ->).
    destruct (rowcontrib_ok k M e rhs Hk HM He Lrh) with (s := t) (r := r) as (t' & E' & Ht' & R'); [|exact Ht|exact Hh| |].
    + intros q Hq. rewrite Hrh by exact Hq. unfold hk, gfl, Gk, Lk, Fk. rewrite (nthR_get _ _ _ (proj1 (He q Hq))). reflexivity.
    + intros p Ec x. rewrite Rt, Rs. rewrite (Sum_contrib_0 k r x k r p Hk); [|destruct Hh; lia|exact Hh|exact Ec|lia]. rewrite Rplus_0_r. apply Sum_zero. intros k' Hk'. apply (Sum_contrib_0 k' (nf k') x k r p); [lia|lia|exact Hh|exact Ec|lia].
    + exists t'. split; [exact E'|]. split; [exact Ht'|]. intros x i. rewrite R', Rt, Sum_S by apply Hh. ring.
  - rewrite E. cbn [bind]. eexists s', _. split; [reflexivity|]. split; [exact Hs'|]. split.
    + unfold dynok. cbn [dy_F dy_L dy_g dy_reg]. split; [lia|]. split; [lia|]. split; [lia|]. split; [|split].
      * intros k' Hk'. destruct (Z.eq_dec k' k) as [->|Nk]; [exists F'; split; [exact G1|]; split; [exact LF'|intros _; exact HF']|]. rewrite O1 by exact Nk. destruct (D4 k' Hk') as (F0 & A & B & C). exists F0. split; [exact A|]. split; [exact B|]. intros Q. apply C. lia.
      * intros k' Hk' Hl. destruct (Z.eq_dec k' k) as [->|Nk]; [split; assumption|]. rewrite O2, O3 by exact Nk. apply D5; lia.
      * rewrite Rg, D6. split.
        -- intros (A & B) k' r p Hk' Hh. destruct (Z.eq_dec k' k) as [->|Nk]; [apply B; exact Hh|apply A; [lia|exact Hh]].
        -- intros A. split; [intros k' r p Hk' Hh; apply A; [lia|exact Hh]|intros r p Hh; apply A; [lia|exact Hh]].
    + intros x i. rewrite R', Rs, Sum_S, row_len by apply Hk. reflexivity.
Qed.
Lemma nthR_zrepeat_0 n i : nthR (zrepeat 0%R n) i = 0%R. 
Proof. unfold nthR. destruct (zget (zrepeat 0%R n) i) eqn:E; [|reflexivity]. apply zget_In in E. unfold zrepeat in E. apply repeat_spec in E. exact E. Qed.
Theorem assemble_ok : exists s d, assemble g bc st ip src = Ok (s, d) /\ sysok s /\ dynok (zlen g) d /\ forall x i, rsd s x i = Sum (zlen g) (fun k => Sum (nf k) (fun r => contrib k r x i)).
Proof.
  unfold assemble. pose proof (HST g bc st HS) as ST. assert (T0 : 0 <= total) by apply ST. pose proof (zlen_nonneg g) as Z0.
  match goal with |- context[foldM ?f g ?s0] => destruct (list_loop f (fun k (sd : hsys * hdyn) => sysok (fst sd) /\ dynok k (snd sd) /\ forall x i, rsd (fst sd) x i = Sum k (fun k' => Sum (nf k') (fun r => contrib k' r x i))) g s0) as ((s & d) & E & A & B & C) end.
  - cbn [fst snd]. split; [split; [reflexivity|cbn; apply zlen_zrepeat; exact T0]|]. split.
    + unfold dynok. cbn [dy_F dy_L dy_g dy_reg]. rewrite zlen_map, !zlen_zrepeat by exact Z0. split; [apply ST|]. split; [reflexivity|]. split; [reflexivity|]. split; [|split].
      * intros k' Hk'. rewrite zget_map. pose proof (row_get g bc _ ST k' Hk') as Gr. apply rget_Ok in Gr. rewrite Gr. cbn [option_map]. eexists. split; [reflexivity|]. split; [rewrite zlen_map; apply row_len|intros; lia].
      * intros; lia.
      * split; [intros _ ? ? ? Q; lia|reflexivity].
    + intros x i. rewrite Sum_0. unfold rsd. cbn [sy_val sy_rhs]. rewrite nthR_zrepeat_0, (Sum_zero total); [ring|intros; ring].
  - intros k c (s & d) Gc (A & B & C). pose proof (zget_Some_range _ _ _ Gc) as Hk. assert (Ec : cell_at g k = c) by (apply nth_zget; exact Gc). rewrite <- Ec. cbn [fst snd] in *.
    destruct (assemble_cell_ok k s d Hk A B C) as (s' & d' & E' & A' & B' & C'). exists (s', d'). cbn [fst snd]. auto.
  - exists s, d. cbn [fst snd] in *. auto.
Qed.
End Asm.
