From Verif Require Import BaseFacts RBaseFacts Bgrid_Proofs Cap_Spec.
Open Scope Z_scope.

(* ---- neighbours *)
Lemma adj_cons {A} (x : A) l a b : adjacent (x :: l) a b <-> (x = a /\ exists r, l = b :: r) \/ adjacent l a b.
Proof.
  split.
  - intros (p & r & E). destruct p as [|y p]; cbn in E; injection E as -> E.
    + left. split; [reflexivity|]. now exists r.
    + right. now exists p, r.
  - intros [[-> (r & ->)] | (p & r & ->)]; [now exists [], r|now exists (x :: p), r].
Qed.
Lemma adj_nil {A} (a b : A) : ~ adjacent [] a b.
Proof. intros (p & r & E). destruct p; discriminate. Qed.
Lemma adj_one {A} (x a b : A) : ~ adjacent [x] a b.
Proof. intros H. apply adj_cons in H. destruct H as [[_ (r & E)]|H]; [discriminate|]. now apply adj_nil in H. Qed.
Lemma adj_in {A} (t : list A) a b : adjacent t a b -> In a t /\ In b t.
Proof. intros (l & r & ->). split; apply in_or_app; right; [now left|right; now left]. Qed.
Lemma adj_insert {A} (a m b : A) r l : forall x y, adjacent (l ++ a :: m :: b :: r) x y ->
  adjacent (l ++ a :: b :: r) x y \/ (x = a /\ y = m) \/ (x = m /\ y = b).
Proof.
  induction l as [|e l IH]; intros x y H; cbn [app] in *.
  - apply adj_cons in H. destruct H as [[-> (q & E)]|H]; [injection E as -> _; now right; left|].
    apply adj_cons in H. destruct H as [[-> (q & E)]|H]; [injection E as -> _; now right; right|].
    left. apply adj_cons. now right.
  - apply adj_cons in H. destruct H as [[-> (q & E)]|H].
    + left. apply adj_cons. left. split; [reflexivity|]. destruct l as [|z l]; cbn in *; injection E as -> _; eauto.
    + apply IH in H. destruct H as [H|H]; [|now right]. left. apply adj_cons. now right.
Qed.
Lemma ordered_tail {A} e (t : table A) : ordered (e :: t) -> ordered t.
Proof. intros H a b I. apply H. apply adj_cons. now right. Qed.
Lemma ordered_first {A} e l a (r : table A) : ordered (e :: l ++ a :: r) -> (fst e < fst a)%R.
Proof.
  revert e. induction l as [|x l IH]; intros e H; cbn [app] in H.
  - apply H. apply adj_cons. left. eauto.
  - apply Rlt_trans with (fst x); [apply H; apply adj_cons; left; eauto|]. apply IH. now apply ordered_tail in H.
Qed.
Lemma add_between {A} l a b r m (v : R * A) : ordered (l ++ a :: b :: r) -> (fst a < m < fst b)%R -> add_pair (l ++ a :: b :: r) m v = l ++ a :: (m, v) :: b :: r.
Proof.
  intros O M. induction l as [|e l IH]; cbn [app add_pair].
  - rewrite (Rltb_f m (fst a)) by lra. rewrite (Rltb_t (fst a) m) by lra. cbn [add_pair]. now rewrite (Rltb_t m (fst b)) by lra.
  - assert (E : (fst e < fst a)%R) by (eapply ordered_first; exact O). rewrite (Rltb_f m (fst e)) by lra. rewrite (Rltb_t (fst e) m) by lra.
    f_equal. apply IH. now apply ordered_tail in O.
Qed.
Lemma ordered_insert {A} l a b r m (v : R * A) : ordered (l ++ a :: b :: r) -> (fst a < m < fst b)%R -> ordered (l ++ a :: (m, v) :: b :: r).
Proof.
  intros O M x y H. apply adj_insert in H. destruct H as [H|[[-> ->]|[-> ->]]]; [now apply O|cbn; lra|cbn; lra].
Qed.

(* ---- the largest difference *)
Definition gap {A} (a b : R * (R * A)) : R := Rabs (fst (snd b) - fst (snd a)).
Definition middle {A} (a b : R * (R * A)) : R := ((fst a + fst b) / 2)%R.
Lemma gaps_In {A} (t : table A) g : In g (gaps t) <-> exists a b, adjacent t a b /\ g = (middle a b, gap a b).
Proof.
  induction t as [|a t IH]; [split; [intros []|intros (a & b & H & _); now apply adj_nil in H]|]. destruct t as [|b t].
  - split; [intros []|intros (x & y & H & _); now apply adj_one in H].
  - change (gaps (a :: b :: t)) with ((middle a b, gap a b) :: gaps (b :: t)). split.
    + intros [<-|H]; [exists a, b; split; [apply adj_cons; left; eauto|reflexivity]|]. apply IH in H. destruct H as (x & y & H & ->).
      exists x, y. split; [apply adj_cons; now right|reflexivity].
    + intros (x & y & H & ->). apply adj_cons in H. destruct H as [[-> (r & E)]|H]; [injection E as -> _; now left|]. right. apply IH. eauto.
Qed.
Lemma fold_best l : forall b0, let r := fold_left (fun b h => if Rltb (snd b) (snd h) then h else b) l b0 in
  (r = b0 \/ In r l) /\ (snd b0 <= snd r)%R /\ forall g : R * R, In g l -> (snd g <= snd r)%R.
Proof.
  induction l as [|g l IH]; intros b0; cbn [fold_left].
  - split; [now left|]. split; [lra|intros ? []].
  - specialize (IH (if Rltb (snd b0) (snd g) then g else b0)). cbn zeta in IH. destruct IH as (A & B & C). cbn zeta.
    assert (Q : (snd b0 <= snd (if Rltb (snd b0) (snd g) then g else b0))%R /\ (snd g <= snd (if Rltb (snd b0) (snd g) then g else b0))%R).
    { destruct (Rltb (snd b0) (snd g)) eqn:E; [apply Rltb_true in E|apply Rltb_false in E]; lra. }
    split; [|split].
    + destruct A as [A|A]; [|right; now right]. rewrite A at 1. rewrite A. destruct (Rltb (snd b0) (snd g)); [right; left; reflexivity|left; reflexivity].
    + lra.
    + intros h [<-|I]; [lra|now apply C].
Qed.
Lemma missing_ok {A} (t : table A) : 2 <= zlen t -> exists l a b r, t = l ++ a :: b :: r /\ missing t = Ok (middle a b, gap a b) /\
  forall x y, adjacent t x y -> (gap x y <= gap a b)%R.
Proof.
  intros L. unfold missing. destruct (gaps t) as [|g gs] eqn:G.
  - exfalso. destruct t as [|a [|b t]]; [unfold zlen in L; cbn in L; lia|unfold zlen in L; cbn in L; lia|discriminate].
  - rewrite <- G. pose proof (fold_best (gaps t) (fst g, 0%R)) as F. cbn zeta in F. remember (fold_left _ (gaps t) (fst g, 0%R)) as best eqn:E. clear E.
    destruct F as (A1 & B1 & C1). cbn [snd] in B1.
    assert (I : In best (gaps t)).
    { destruct A1 as [A1|A1]; [|exact A1]. assert (Ig : In g (gaps t)) by (rewrite G; now left). specialize (C1 _ Ig). rewrite A1 in C1. cbn in C1.
      apply gaps_In in Ig as Ig'. destruct Ig' as (a & b & _ & Eg). assert (0 <= snd g)%R by (rewrite Eg; cbn; apply Rabs_pos).
      rewrite A1. replace (fst g, 0%R) with g; [exact Ig|]. rewrite (surjective_pairing g) at 1. f_equal. lra. }
    apply gaps_In in I. destruct I as (a & b & (l & r & Et) & Eb). exists l, a, b, r. split; [exact Et|]. split; [now rewrite Eb|].
    intros x y H. assert (Q : In (middle x y, gap x y) (gaps t)) by (apply gaps_In; eauto). specialize (C1 _ Q). rewrite Eb in C1. exact C1.
Qed.

(* ---- the loop *)
Section Loop.
  Context {A : Type} (f : R -> res (R * A)) (lo hi bound : R).
  Hypothesis lohi : (lo < hi)%R.
  Definition tinv (t : table A) : Prop :=
    ordered t /\ (forall e, In e t -> (lo <= fst e <= hi)%R /\ f (fst e) = Ok (snd e)) /\
    (1 <= zlen t -> exists v, In (hi, v) t) /\ (2 <= zlen t -> exists v, In (lo, v) t).
  Lemma zlen_0 {B} (t : list B) : zlen t = 0 -> t = [].
  Proof. destruct t; [reflexivity|unfold zlen; cbn [length]; lia]. Qed.
  Lemma zlen_1 {B} (t : list B) : zlen t = 1 -> exists x, t = [x].
  Proof. destruct t as [|x [|y t]]; unfold zlen; cbn [length]; try lia. eauto. Qed.
  Lemma tinv_0 : tinv [].
  Proof.
    split; [|split; [|split]].
    - intros a b H. now apply adj_nil in H.
    - intros e [].
    - unfold zlen. cbn. lia.
    - unfold zlen. cbn. lia.
  Qed.
  Lemma tinv_1 v : f hi = Ok v -> tinv (add_pair [] hi v).
  Proof.
    intros H. cbn. split; [|split; [|split]].
    - intros a b I. now apply adj_one in I.
    - intros e [<-|[]]. cbn. split; [lra|exact H].
    - intros _. exists v. now left.
    - unfold zlen. cbn. lia.
  Qed.
  Lemma tinv_2 e v : tinv [e] -> f lo = Ok v -> tinv (add_pair [e] lo v) /\ zlen (add_pair [e] lo v) = 2.
  Proof.
    intros (O & P & H1 & _) H. destruct (H1 ltac:(unfold zlen; cbn; lia)) as (w & [E|[]]). subst e. cbn [add_pair fst]. rewrite (Rltb_t lo hi) by assumption.
    split; [|reflexivity]. split; [|split; [|split]].
    - intros a b I. apply adj_cons in I. destruct I as [[<- (r & E)]|I]; [injection E as <- _; exact lohi|now apply adj_one in I].
    - intros e [<-|[<-|[]]]; cbn; (split; [lra|]); [exact H|]. apply (P (hi, w)). now left.
    - intros _. exists w. right. now left.
    - intros _. exists v. now left.
  Qed.
  Lemma tinv_3 l a b r v : tinv (l ++ a :: b :: r) -> f (middle a b) = Ok v ->
    (fst a < middle a b < fst b)%R /\ add_pair (l ++ a :: b :: r) (middle a b) v = l ++ a :: (middle a b, v) :: b :: r /\
    tinv (l ++ a :: (middle a b, v) :: b :: r).
  Proof.
    intros (O & P & H1 & H2) H. assert (Ad : adjacent (l ++ a :: b :: r) a b) by (exists l, r; reflexivity).
    assert (M : (fst a < middle a b < fst b)%R) by (pose proof (O _ _ Ad); unfold middle; lra).
    split; [exact M|]. split; [now apply add_between|]. destruct (adj_in _ _ _ Ad) as [Ia Ib]. destruct (P _ Ia) as [Ra _]. destruct (P _ Ib) as [Rb _].
    assert (L : zlen (l ++ a :: b :: r) >= 2) by (rewrite zlen_app; unfold zlen; cbn [length]; lia).
    assert (Sub : forall e, In e (l ++ a :: b :: r) -> In e (l ++ a :: (middle a b, v) :: b :: r)).
    { intros e I. apply in_app_or in I. apply in_or_app. destruct I as [I|[<-|[<-|I]]]; [now left|right; now left|right; right; right; now left|right; right; right; now right]. }
    split; [now apply ordered_insert|]. split; [|split].
    - intros e I. apply in_app_or in I. destruct I as [I|[<-|[<-|[<-|I]]]].
      + apply P. apply in_or_app. now left.
      + now apply P.
      + cbn [fst snd]. split; [lra|exact H].
      + now apply P.
      + apply P. apply in_or_app. right. right. now right.
    - intros _. destruct (H1 ltac:(lia)) as (w & I). exists w. now apply Sub.
    - intros _. destruct (H2 ltac:(lia)) as (w & I). exists w. now apply Sub.
  Qed.
  (* one round *)
  Lemma neq_lohi : (if Req_EM_T hi lo then true else false) = false.
  Proof. destruct (Req_EM_T hi lo); [lra|reflexivity]. Qed.
  Inductive round : table A -> R -> R -> R -> Prop :=
  | round_0 L : round [] L hi L
  | round_1 e L : round [e] L lo L
  | round_2 l a b r L : (forall x y, adjacent (l ++ a :: b :: r) x y -> (gap x y <= gap a b)%R) -> round (l ++ a :: b :: r) L (middle a b) (gap a b).
  Lemma loop_step n L t : (bound < L)%R -> exists p L', round t L p L' /\
    tab_loop (S n) f lo hi bound L t = (let* v := f p in tab_loop n f lo hi bound L' (add_pair t p v)).
  Proof.
    intros H. cbn [tab_loop]. rewrite (Rltb_t bound L) by assumption. destruct (Req_EM_T hi lo) as [E|_]; [lra|].
    destruct (zlen t =? 0) eqn:E0; [apply Z.eqb_eq in E0; apply zlen_0 in E0; subst; exists hi, L; split; [constructor|reflexivity]|].
    destruct (zlen t =? 1) eqn:E1; [apply Z.eqb_eq in E1; apply zlen_1 in E1; destruct E1 as (e & ->); exists lo, L; split; [constructor|reflexivity]|].
    apply Z.eqb_neq in E0, E1. pose proof (zlen_nonneg t). destruct (missing_ok t ltac:(lia)) as (l & a & b & r & -> & M & G).
    rewrite M. exists (middle a b), (gap a b). split; [now constructor|reflexivity].
  Qed.
  Lemma round_inv t L p L' v : round t L p L' -> tinv t -> f p = Ok v -> tinv (add_pair t p v).
  Proof.
    intros Rd I H. destruct Rd.
    - now apply tinv_1.
    - now apply (tinv_2 e v).
    - destruct (tinv_3 l a b r v I H) as (_ & E & T). now rewrite E.
  Qed.
  Lemma loop_inv n : forall L t t', tinv t -> tab_loop n f lo hi bound L t = Ok (Some t') -> tinv t'.
  Proof.
    induction n as [|n IH]; intros L t t' I H.
    - cbn in H. destruct (Rltb bound L); [discriminate|]. now injection H as <-.
    - destruct (Rlt_dec bound L) as [B|B].
      + destruct (loop_step n L t B) as (p & L' & Rd & E). rewrite E in H. destruct (f p) as [v| |] eqn:F; try discriminate. cbn [bind] in H.
        eapply IH; [|exact H]. eapply round_inv; eauto.
      + cbn in H. rewrite (Rltb_f bound L) in H by lra. now injection H as <-.
  Qed.
  (* resolution *)
  Definition fine (t : table A) (L : R) : Prop := (zlen t <= 2 /\ (bound < L)%R) \/ forall x y, adjacent t x y -> (gap x y <= L)%R.
  Lemma round_fine t L p L' v : monotone f lo hi -> round t L p L' -> tinv t -> f p = Ok v -> (bound < L)%R -> fine (add_pair t p v) L'.
  Proof.
    intros Mo Rd I H B. destruct Rd as [L|e L|l a b r L G].
    - left. split; [unfold zlen; cbn; lia|exact B].
    - left. split; [|exact B]. destruct (tinv_2 e v I H) as [_ E]. lia.
    - right. destruct (tinv_3 l a b r v I H) as (M & E & _). rewrite E. intros x y Hxy. apply adj_insert in Hxy.
      assert (Ad : adjacent (l ++ a :: b :: r) a b) by (exists l, r; reflexivity). destruct I as (_ & P & _). destruct (adj_in _ _ _ Ad) as [Ia Ib].
      destruct (P _ Ia) as [Ra Fa]. destruct (P _ Ib) as [Rb Fb]. destruct v as [s z]. destruct a as [pa [sa za]]. destruct b as [pb [sb zb]]. cbn [fst snd] in *.
      destruct Hxy as [Hxy|Hxy]; [now apply G|]. unfold gap. cbn [fst snd].
      assert (C : (sb <= s <= sa \/ sa <= s <= sb)%R).
      { destruct Mo as [Mo|Mo]; [left|right]; split; [eapply (Mo _ pb s z sb zb)|eapply (Mo pa _ sa za s z)|eapply (Mo pa _ sa za s z)|eapply (Mo _ pb s z sb zb)]; try exact H; try exact Fa; try exact Fb; lra. }
      destruct Hxy as [[-> ->]|[-> ->]]; cbn [fst snd]; unfold Rabs; repeat destruct (Rcase_abs _); lra.
  Qed.
  Lemma loop_fine n : monotone f lo hi -> forall L t t', tinv t -> fine t L -> tab_loop n f lo hi bound L t = Ok (Some t') ->
    forall x y, adjacent t' x y -> (gap x y <= bound)%R.
  Proof.
    intros Mo. induction n as [|n IH]; intros L t t' I Fi H.
    - cbn in H. destruct (Rltb bound L) eqn:B; [discriminate|]. apply Rltb_false in B. injection H as <-. destruct Fi as [[_ C]|Fi]; [lra|]. intros x y Q. specialize (Fi x y Q). lra.
    - destruct (Rlt_dec bound L) as [B|B].
      + destruct (loop_step n L t B) as (p & L' & Rd & E). rewrite E in H. destruct (f p) as [v| |] eqn:F; try discriminate. cbn [bind] in H.
        eapply IH; [| |exact H]; [eapply round_inv; eauto|]. eapply round_fine; eauto.
      + cbn in H. rewrite (Rltb_f bound L) in H by lra. injection H as <-. destruct Fi as [[_ C]|Fi]; [lra|]. intros x y Q. specialize (Fi x y Q). lra.
  Qed.
  (* termination *)
  Section Ends.
    Variable d : R.
    Hypothesis dpos : (0 < d)%R.
    Definition psi (w : R) : R := Rmax 0 (2 * w / d - 1).
    Fixpoint phi (t : table A) : R :=
      match t with a :: ((b :: _) as r) => (psi (fst b - fst a) + phi r)%R | _ => 0%R end.
    Lemma phi_nonneg t : (0 <= phi t)%R.
    Proof.
      induction t as [|a t IH]; [cbn [phi]; lra|]. destruct t as [|b t]; [cbn [phi]; lra|]. change (phi (a :: b :: t)) with (psi (fst b - fst a) + phi (b :: t))%R.
      pose proof (Rmax_l 0 (2 * (fst b - fst a) / d - 1)) as H. change (Rmax 0 (2 * (fst b - fst a) / d - 1)) with (psi (fst b - fst a)) in H. lra.
    Qed.
    Lemma phi_insert (l r : table A) a b m v : phi (l ++ a :: (m, v) :: b :: r) = (phi (l ++ a :: b :: r) - psi (fst b - fst a) + psi (m - fst a) + psi (fst b - m))%R.
    Proof.
      induction l as [|e l IH]; [cbn [app phi fst]; lra|]. destruct l as [|e' l]; cbn [app phi fst] in *; lra.
    Qed.
    Lemma phi_part l r (a b : R * (R * A)) : (psi (fst b - fst a) <= phi (l ++ a :: b :: r))%R.
    Proof.
      assert (P : forall w, (0 <= psi w)%R) by (intros; apply Rmax_l).
      induction l as [|e l IHl].
      - change (phi ([] ++ a :: b :: r)) with (psi (fst b - fst a) + phi (b :: r))%R. pose proof (phi_nonneg (b :: r)). lra.
      - destruct l as [|e' l].
        + change (phi ([e] ++ a :: b :: r)) with (psi (fst a - fst e) + phi ([] ++ a :: b :: r))%R. pose proof (P (fst a - fst e)%R). lra.
        + change (phi ((e :: e' :: l) ++ a :: b :: r)) with (psi (fst e' - fst e) + phi ((e' :: l) ++ a :: b :: r))%R. pose proof (P (fst e' - fst e)%R). lra.
    Qed.
    Lemma psi_half w : (d <= w)%R -> (2 * psi (w / 2) = psi w - 1)%R /\ (1 <= psi w)%R.
    Proof.
      intros H. unfold psi. assert (1 <= w / d)%R by (apply Rmult_le_reg_r with d; [assumption|]; unfold Rdiv; rewrite Rmult_assoc, Rinv_l by lra; lra).
      replace (2 * (w / 2) / d - 1)%R with (w / d - 1)%R by (field; lra). replace (2 * w / d - 1)%R with (2 * (w / d) - 1)%R by (field; lra).
      rewrite !Rmax_right by lra. lra.
    Qed.
    Lemma loop_ends n : (forall p, (lo <= p <= hi)%R -> exists v, f p = Ok v) ->
      (forall p q s a s' b, (lo <= p <= hi)%R -> (lo <= q <= hi)%R -> (Rabs (q - p) < d)%R -> f p = Ok (s, a) -> f q = Ok (s', b) -> (Rabs (s' - s) <= bound)%R) ->
      forall L t, tinv t -> 2 <= zlen t -> (phi t <= INR n)%R -> exists t', tab_loop (S n) f lo hi bound L t = Ok (Some t').
    Proof.
      intros Tot Uc. induction n as [|n IH]; intros L t I Z Ph; (destruct (Rlt_dec bound L) as [B|B]; [|exists t; cbn; now rewrite (Rltb_f bound L) by lra]).
      - destruct (loop_step 0 L t B) as (p & L' & Rd & E). destruct Rd as [L|e L|l a b r L G]; try (unfold zlen in Z; cbn in Z; lia).
        assert (Ad : adjacent (l ++ a :: b :: r) a b) by (exists l, r; reflexivity). pose proof I as (O & P & _). destruct (adj_in _ _ _ Ad) as [Ia Ib].
        destruct (P _ Ia) as [Ra Fa]. destruct (P _ Ib) as [Rb Fb]. pose proof (O _ _ Ad) as Oab.
        destruct (Tot (middle a b)) as (v & Fv); [unfold middle; lra|]. rewrite E, Fv. cbn [bind tab_loop].
        assert (W : (fst b - fst a < d)%R).
        { apply Rnot_le_lt. intros W. destruct (psi_half _ W) as [_ Q]. pose proof (phi_part l r a b). change (INR 0) with 0%R in Ph. lra. }
        assert (Gb : (gap a b <= bound)%R).
        { destruct a as [pa [sa za]]. destruct b as [pb [sb zb]]. cbn [fst snd] in *. unfold gap. cbn [fst snd]. eapply (Uc pa pb); [exact Ra|exact Rb| |exact Fa|exact Fb]. rewrite Rabs_pos_eq; lra. }
        rewrite (Rltb_f bound (gap a b)) by lra. eauto.
      - destruct (loop_step (S n) L t B) as (p & L' & Rd & E). destruct Rd as [L|e L|l a b r L G]; try (unfold zlen in Z; cbn in Z; lia).
        assert (Ad : adjacent (l ++ a :: b :: r) a b) by (exists l, r; reflexivity). pose proof I as (O & P & _). destruct (adj_in _ _ _ Ad) as [Ia Ib].
        destruct (P _ Ia) as [Ra Fa]. destruct (P _ Ib) as [Rb Fb]. pose proof (O _ _ Ad) as Oab.
        destruct (Tot (middle a b)) as (v & Fv); [unfold middle; lra|]. rewrite E, Fv. cbn [bind].
        destruct (tinv_3 l a b r v I Fv) as (M & Ea & I'). rewrite Ea.
        destruct (Rle_dec d (fst b - fst a)) as [W|W].
        + apply IH; [exact I'|rewrite zlen_app; unfold zlen; cbn [length]; lia|]. rewrite phi_insert. destruct (psi_half _ W) as [Q _].
          replace (middle a b - fst a)%R with ((fst b - fst a) / 2)%R by (unfold middle; lra). replace (fst b - middle a b)%R with ((fst b - fst a) / 2)%R by (unfold middle; lra).
          rewrite S_INR in Ph. lra.
        + assert (Gb : (gap a b <= bound)%R).
          { destruct a as [pa [sa za]]. destruct b as [pb [sb zb]]. cbn [fst snd] in *. unfold gap. cbn [fst snd]. eapply (Uc pa pb); [exact Ra|exact Rb| |exact Fa|exact Fb]. rewrite Rabs_pos_eq; lra. }
          cbn [tab_loop]. rewrite (Rltb_f bound (gap a b)) by lra. eauto.
    Qed.
  End Ends.
  (* a jump *)
  Lemma crossing (t : table A) c x y : ordered t -> In x t -> In y t -> (fst x <= c < fst y)%R -> exists a b, adjacent t a b /\ (fst a <= c < fst b)%R.
  Proof.
    revert x. induction t as [|e t IH]; intros x O Ix Iy H; [destruct Ix|]. destruct t as [|e' t].
    - destruct Ix as [<-|[]]. destruct Iy as [<-|[]]. lra.
    - assert (Ad : adjacent (e :: e' :: t) e e') by (apply adj_cons; left; eauto). destruct (Rlt_dec c (fst e')) as [C|C].
      + destruct (Rle_dec (fst e) c) as [D|D]; [now exists e, e'|]. exfalso. destruct Ix as [<-|Ix]; [lra|]. apply in_split in Ix. destruct Ix as (l1 & l2 & E).
        rewrite E in O. apply ordered_first in O. lra.
      + assert (Iy' : In y (e' :: t)) by (destruct Iy as [<-|Iy]; [pose proof (O _ _ Ad); lra|exact Iy]).
        destruct (IH e' (ordered_tail _ _ O) (or_introl eq_refl) Iy') as (a & b & Q & R); [|exists a, b; split; [apply adj_cons; now right|exact R]].
        destruct Iy' as [<-|Iy']; [lra|]. lra.
  Qed.
  Lemma loop_jump n c u v a b : (lo <= c < hi)%R -> (bound < Rabs (v - u))%R ->
    (forall p, f p = Ok (if Rle_dec p c then (u, a) else (v, b))) ->
    forall L t, tinv t -> (bound < L)%R -> tab_loop n f lo hi bound L t = Ok None.
  Proof.
    intros C J F. induction n as [|n IH]; intros L t I B; [cbn; now rewrite (Rltb_t bound L) by assumption|].
    destruct (loop_step n L t B) as (p & L' & Rd & E). rewrite E. destruct (f p) as [w| |] eqn:Fp; try (rewrite F in Fp; discriminate). cbn [bind].
    apply IH; [eapply round_inv; eauto|]. destruct Rd as [L|e L|l x y r L G]; try assumption.
    destruct I as (O & P & H1 & H2). assert (Z : zlen (l ++ x :: y :: r) >= 2) by (rewrite zlen_app; unfold zlen; cbn [length]; lia).
    destruct (H1 ltac:(lia)) as (w1 & I1). destruct (H2 ltac:(lia)) as (w2 & I2).
    destruct (crossing _ c _ _ O I2 I1 C) as (x' & y' & Ad & Cr). specialize (G _ _ Ad). destruct (adj_in _ _ _ Ad) as [Ix Iy].
    destruct (P _ Ix) as [_ Fx]. destruct (P _ Iy) as [_ Fy]. rewrite F in Fx, Fy. destruct (Rle_dec (fst x') c); [|lra]. destruct (Rle_dec (fst y') c); [lra|].
    injection Fx as Ex. injection Fy as Ey. unfold gap in G at 1. rewrite <- Ex, <- Ey in G. cbn [fst] in G. lra.
  Qed.
End Loop.
