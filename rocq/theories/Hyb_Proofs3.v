From Verif Require Import BaseFacts RBaseFacts Lin_Facts Steady_Proofs Euler_Proofs2 Impl_Proofs Impl_Proofs5 Matx_Proofs Matx_Proofs2 Matx_Proofs3 Mim_Proofs Mim_Proofs2 Hnum_Proofs Hnum_Proofs2 Hyb_Spec Hyb_Proofs Hyb_Proofs2.
Open Scope Z_scope.

(* ---- the local matrix and right-hand side ---- *)
Section Local.
Variables (n : Z) (B : Z -> Z -> R).
Definition Fl (i : Z) : R := Sum n (fun l => B l i).
Definition Ll : R := Sum n Fl.
Definition Ul (i j : Z) : R := (B i j - Fl i * Fl j / Ll)%R.
Definition Sl (i j : Z) : R := if j <? i then Ul j i else Ul i j.
Lemma Sl_sym i j : Sl i j = Sl j i.
Proof. unfold Sl. destruct (Z.ltb_spec j i), (Z.ltb_spec i j); try lia; try reflexivity. assert (i = j) as -> by lia. reflexivity. Qed.
Lemma Ll_sum : Ll = Sum n (fun i => Sum n (B i)).
Proof. unfold Ll, Fl. rewrite Sum_swap. reflexivity. Qed.
Lemma Rsum_holds (m : mat) f : holds m FOrd n 1 f -> Rsum (m_data m) = Sum n (fun i => f i 0).
Proof.
  intros (_ & _ & _ & P & _ & L & G). rewrite (Rsum_Sum _ n) by lia. apply Sum_ext. intros i Hi. rewrite <- G by lia. f_equal. lia.
Qed.
Lemma contrib_ok (M : mat) (F gf rhs : list R) q : shaped M FOrd n n -> (forall i j, 0 <= i < n -> 0 <= j < n -> entry M i j = B i j) ->
  zlen F = n -> zlen gf = n -> zlen rhs = n -> Ll <> 0%R ->
  exists M' rhs' F', build_contrib M F gf rhs q = Ok (M', rhs', F', Ll, (q - Sum n (nthR gf))%R) /\ holds M' FOrd n n Sl /\
    zlen F' = n /\ (forall i, 0 <= i < n -> nthR F' i = Fl i) /\
    zlen rhs' = n /\ (forall i, 0 <= i < n -> nthR rhs' i = (nthR gf i - nthR rhs i + (q - Sum n (nthR gf)) / Ll * Fl i)%R).
Proof.
  intros HM HB LF Lg Lr NL. pose proof HM as (_ & Rm & _ & Pn & _). unfold build_contrib. rewrite Rm.
  assert (H1 : holds (mkMat n 1 FOrd (zrepeat 1%R n)) FOrd n 1 (fun _ _ => 1%R)).
  { repeat split; cbn; try lia; [rewrite zlen_zrepeat; lia|]. intros r c Hr Hc. apply nthR_get. apply zget_zrepeat. nia. }
  assert (HB' : holds M FOrd n n B) by (eapply holds_ext; [exact HM|]; intros; apply HB; assumption).
  destruct (TN_ok M _ _ n 1 n _ _ _ 1 0 HB' H1 (vec_holds F n LF)) as (Ft & E & HF). rewrite E. cbn [bind].
  assert (HFl : forall i c, 0 <= i < n -> 0 <= c < 1 -> (1 * mmul n (fun i l => B l i) (fun _ _ => 1) i c + 0 * nthR F i)%R = Fl i).
  { intros i c Hi _. unfold mmul, Fl. rewrite Rmult_0_l, Rplus_0_r, Rmult_1_l. apply Sum_ext. intros. ring. }
  apply (holds_ext _ _ _ _ _ (fun i _ => Fl i)) in HF; [|intros; apply HFl; assumption].
  rewrite (Rsum_holds Ft _ HF). fold Ll. change (Sum n (fun i : Z => Fl i)) with Ll. rewrite (Rsum_Sum gf n Lg). rewrite !mdiv_Ok by exact NL. cbn [bind].
  destruct (sym_update_gen Ft M n 1 _ _ (-1 / Ll) 1 HF HB') as (M' & E2 & H2). rewrite E2. cbn [bind].
  pose proof HF as (_ & _ & _ & _ & _ & Ld & Gd).
  assert (GF : forall i, 0 <= i < n -> nthR (m_data Ft) i = Fl i) by (intros i Hi; rewrite <- (Gd i 0) by lia; f_equal; lia).
  assert (Ldn : zlen (m_data Ft) = n) by lia.
  assert (L1 : zlen (map (fun p => (fst p - snd p)%R) (combine gf rhs)) = n) by (rewrite zlen_map; unfold zlen in *; rewrite combine_length; lia).
  eexists M', _, _. split; [reflexivity|]. split; [|split; [exact Ldn|]; split; [exact GF|]; split].
  - eapply holds_ext; [exact H2|]. intros i j Hi Hj. cbn beta. unfold Sl, Ul, mmul. change 1 with (0 + 1). rewrite !Sum_S, !Sum_0 by lia. change (0 + 1) with 1. unfold Rdiv. destruct (j <? i); ring.
  - rewrite zlen_map. unfold zlen in *. rewrite combine_length. lia.
  - intros i Hi. rewrite (nthR_map2 (fun a b => 1 * a + (q - Sum n (nthR gf)) / Ll * b)%R) by lia. rewrite (nthR_map2 Rminus) by lia. rewrite GF by exact Hi. ring.
Qed.
End Local.

(* ---- boundary conditions of a cell ---- *)
Definition ft_of (g : list hcell) (bc : hbc) (k r : Z) : ftype :=
  match cond_at g bc k r with None => FInternal | Some (CDirichlet _) => FDirichlet | Some (CPeriodic _) => FPeriodic | Some (CNeumann _) => FNeumann end.
Definition cv_of (g : list hcell) (bc : hbc) (k r : Z) : R :=
  match cond_at g bc k r with Some (CDirichlet p) => p | Some (CPeriodic d) => d | _ => 0%R end.
Definition qv_of (g : list hcell) (bc : hbc) (k r : Z) : R := match cond_at g bc k r with Some (CNeumann q) => q | _ => 0%R end.

Section Ext.
Variables (g : list hcell) (bc : hbc) (st : hstruct).
Hypothesis HS : structured g bc st.
Notation N := (num st).
Lemma HST : setting g bc (hs_num st). Proof. apply HS. Qed.
Lemma HPP : (hs_pp st = [] /\ forall k r d, ~ periodic g bc k r d) \/
   (zlen (hs_pp st) = nm_total (hs_num st) /\ (forall k r k' r', partners g bc k r k' r' -> zget (hs_pp st) (num st k r) = Some (num st k' r')) /\
    (forall k r, half g k r -> (forall d, ~ periodic g bc k r d) -> zget (hs_pp st) (num st k r) = Some (-1))).
Proof. apply HS. Qed.
Lemma max_ge k : 0 <= k < zlen g -> nfaces g k <= nm_max (hs_num st).
Proof. intros H. destruct HST as (_ & _ & _ & _ & _ & (M & _) & _). apply M. exact H. Qed.
Definition ext_at (k : Z) (e : hext) (r : Z) : Prop :=
  zget (ex_rhs e) r = Some (qv_of g bc k r) /\ zget (ex_ft e) r = Some (ft_of g bc k r) /\ zget (ex_cond e) r = Some (cv_of g bc k r) /\ zget (ex_pp e) r = Some (pf (hs_pp st) (N k r)).
Lemma ext_ok k reg : 0 <= k < zlen g -> exists e, set_external bc (hs_num st) (hs_map st) (cell_at g k) (nfaces g k) reg = Ok e /\
  zlen (ex_rhs e) = nfaces g k /\ (forall r, 0 <= r < nfaces g k -> ext_at k e r) /\
  (ex_reg e = true <-> reg = true /\ forall r p, half g k r -> cond_at g bc k r <> Some (CDirichlet p)).
Proof.
  intros Hk. pose proof (max_ge k Hk) as Hmx. pose proof (nf_nonneg g k) as Nf0. unfold set_external.
  set (nf := nfaces g k) in *. set (mx := nm_max (hs_num st)) in *.
  match goal with |- exists e, foldM ?step _ ?s0 = _ /\ _ => destruct (combine_loop step (fun r e =>
    zlen (ex_rhs e) = nf /\ zlen (ex_ft e) = mx /\ zlen (ex_cond e) = mx /\ zlen (ex_pp e) = mx /\ (forall q, 0 <= q < r -> q < nf -> ext_at k e q) /\
    (forall q, r <= q < nf -> zget (ex_rhs e) q = Some 0%R /\ zget (ex_ft e) q = Some FInternal /\ zget (ex_cond e) q = Some 0%R /\ zget (ex_pp e) q = Some (-1)) /\
    (ex_reg e = true <-> reg = true /\ forall q p, 0 <= q < r -> half g k q -> cond_at g bc k q <> Some (CDirichlet p))) (hc_faces (cell_at g k)) s0) as (e & E & Lr & _ & _ & _ & A & _ & Rg) end.
  - cbn [ex_rhs ex_ft ex_cond ex_pp ex_reg]. rewrite !zlen_zrepeat by lia. split; [reflexivity|]. split; [reflexivity|]. split; [reflexivity|]. split; [reflexivity|]. split; [intros; lia|].
    split; [intros q Hq; rewrite !zget_zrepeat by lia; auto|]. split; [intros H; split; [exact H|intros; lia]|intros (H & _); exact H].
  - intros r f e Gf (L1 & L2 & L3 & L4 & A & Rest & Rg). pose proof (zget_Some_range _ _ _ Gf) as Hr. fold (nfaces g k) in Hr. fold nf in Hr.
    assert (Hh : half g k r) by (split; assumption). assert (Ef : face_at g k r = f) by (apply nth_zget; exact Gf).
    destruct (Rest r ltac:(lia)) as (Z1 & Z2 & Z3 & Z4). cbn [fst snd].
    assert (En : nbr g k r = hf_nb f) by (unfold nbr; rewrite Ef; reflexivity). assert (Eb : bid g k r = hf_bid f) by (unfold bid; rewrite Ef; reflexivity).
    (* a finished face that is not of Dirichlet type leaves the flag alone *)
    assert (RgN : (forall p, cond_at g bc k r <> Some (CDirichlet p)) -> (ex_reg e = true <-> reg = true /\ forall q p, 0 <= q < r + 1 -> half g k q -> cond_at g bc k q <> Some (CDirichlet p))).
    { intros Nd. rewrite Rg. split; intros (H1 & H2); (split; [exact H1|]); intros q p Hq Hqh; [|apply H2; [lia|exact Hqh]]. destruct (Z.eq_dec q r) as [->|]; [apply Nd|apply H2; [lia|exact Hqh]]. }
    assert (Npf : (forall d, cond_at g bc k r <> Some (CPeriodic d)) -> pf (hs_pp st) (N k r) = -1).
    { intros Np. apply (pf_none g bc (hs_num st) (hs_pp st) HPP k r Hh). intros d (_ & Q). exact (Np d Q). }
    destruct (hf_nb f) eqn:Enb.
    + exists e. split; [reflexivity|]. assert (Ec : cond_at g bc k r = None) by (unfold cond_at; rewrite En; reflexivity).
      split; [exact L1|]. split; [exact L2|]. split; [exact L3|]. split; [exact L4|]. split; [|split; [intros q Hq; apply Rest; lia|apply RgN; rewrite Ec; discriminate]].
      intros q Hq Hq2. destruct (Z.eq_dec q r) as [->|]; [|apply A; lia]. unfold ext_at, qv_of, ft_of, cv_of. rewrite Ec, Npf by (rewrite Ec; discriminate). auto.
    + assert (Ec : cond_at g bc k r = Some (hb_cond bc (hf_bid f))) by (unfold cond_at; rewrite En, Eb; reflexivity).
      destruct (hb_cond bc (hf_bid f)) as [p|d|q] eqn:Ecb.
      * destruct (rset_exists (ex_ft e) r FDirichlet ltac:(lia)) as (ft & E1 & M1 & G1 & O1). rewrite E1. cbn [bind].
        destruct (rset_exists (ex_cond e) r p ltac:(lia)) as (cv & E2 & M2 & G2 & O2). rewrite E2. cbn [bind].
        eexists. split; [reflexivity|]. cbn [ex_rhs ex_ft ex_cond ex_pp ex_reg]. split; [exact L1|]. split; [lia|]. split; [lia|]. split; [exact L4|]. split; [|split].
        -- intros q Hq Hq2. unfold ext_at. cbn [ex_rhs ex_ft ex_cond ex_pp]. destruct (Z.eq_dec q r) as [->|Nq]; [|rewrite O1, O2 by exact Nq; apply A; lia].
           unfold qv_of, ft_of, cv_of. rewrite Ec, Npf by (rewrite Ec; discriminate). auto.
        -- intros q Hq. rewrite O1, O2 by lia. apply Rest. lia.
        -- split; [discriminate|]. intros (_ & H). exfalso. exact (H r p ltac:(lia) Hh Ec).
      * assert (Pd : periodic g bc k r d) by (split; assumption). destruct (partner_ex g bc _ HST k r d Pd) as (k' & r' & P & _). destruct (partners_half _ _ _ _ _ _ P) as (_ & Hh' & _).
        assert (Fm : bm_find (hs_map st) (hb_partner bc (hf_bid f)) = Ok (k', r')). { rewrite <- Ef. apply (find_partner g bc (hs_map st)); [apply HS|exact P]. }
        rewrite Fm. cbn [bind fst snd].
        destruct (rset_exists (ex_ft e) r FPeriodic ltac:(lia)) as (ft & E1 & M1 & G1 & O1). rewrite E1. cbn [bind].
        destruct (rset_exists (ex_cond e) r d ltac:(lia)) as (cv & E2 & M2 & G2 & O2). rewrite E2. cbn [bind].
        rewrite (num_get g bc _ HST) by exact Hh'. cbn [bind]. fold (N k' r').
        destruct (rset_exists (ex_pp e) r (N k' r') ltac:(lia)) as (pq & E3 & M3 & G3 & O3). rewrite E3. cbn [bind].
        eexists. split; [reflexivity|]. cbn [ex_rhs ex_ft ex_cond ex_pp ex_reg]. split; [exact L1|]. split; [lia|]. split; [lia|]. split; [lia|]. split; [|split].
        -- intros q Hq Hq2. unfold ext_at. cbn [ex_rhs ex_ft ex_cond ex_pp]. destruct (Z.eq_dec q r) as [->|Nq]; [|rewrite O1, O2, O3 by exact Nq; apply A; lia].
           unfold qv_of, ft_of, cv_of. rewrite Ec. assert (Epf : pf (hs_pp st) (N k r) = N k' r') by exact (pf_partner g bc (hs_num st) (hs_pp st) HPP k r k' r' P). rewrite Epf. auto.
        -- intros q Hq. rewrite O1, O2, O3 by lia. apply Rest. lia.
        -- apply RgN. rewrite Ec. discriminate.
      * destruct (rset_exists (ex_ft e) r FNeumann ltac:(lia)) as (ft & E1 & M1 & G1 & O1). rewrite E1. cbn [bind].
        destruct (rset_exists (ex_rhs e) r q ltac:(lia)) as (cv & E2 & M2 & G2 & O2). rewrite E2. cbn [bind].
        eexists. split; [reflexivity|]. cbn [ex_rhs ex_ft ex_cond ex_pp ex_reg]. split; [lia|]. split; [lia|]. split; [exact L3|]. split; [exact L4|]. split; [|split].
        -- intros q' Hq Hq2. unfold ext_at. cbn [ex_rhs ex_ft ex_cond ex_pp]. destruct (Z.eq_dec q' r) as [->|Nq]; [|rewrite O1, O2 by exact Nq; apply A; lia].
           unfold qv_of, ft_of, cv_of. rewrite Ec, Npf by (rewrite Ec; discriminate). auto.
        -- intros q' Hq. rewrite O1, O2 by lia. apply Rest. lia.
        -- apply RgN. rewrite Ec. discriminate.
  - exists e. split; [exact E|]. split; [exact Lr|]. split; [intros r Hr; apply A; [unfold nf, nfaces in *; lia|exact (proj2 Hr)]|].
    rewrite Rg. split; intros (H1 & H2); (split; [exact H1|]); intros; [apply H2; [apply H|exact H]|apply H2; exact H0].
Qed.
End Ext.
