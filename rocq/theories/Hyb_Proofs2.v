From Verif Require Import BaseFacts RBaseFacts Impl_Proofs Impl_Proofs5 Mim_Proofs Hnum_Proofs Hnum_Proofs2 Hyb_Spec Hyb_Proofs.
Open Scope Z_scope.

(* ---- row sizes and non-zero structure ---- *)
Section Cap.
Variable n : Z.
(* the row sizes leave room for the connections Q *)
Definition fits (sz : list Z) (Q : Z -> Z -> Prop) : Prop :=
  zlen sz = n /\ exists L : Z -> list Z, (forall i, 0 <= i < n -> zget sz i = Some (zlen (L i))) /\ forall i j, Q i j -> In j (L i).
Lemma fits_weak sz (Q Q' : Z -> Z -> Prop) : fits sz Q -> (forall i j, Q' i j -> Q i j) -> fits sz Q'.
Proof. intros (L & Lr & A & B) H. split; [exact L|]. exists Lr. split; [exact A|]. intros i j Hq. apply B, H, Hq. Qed.
Lemma incr_fits sz Q i (X : list Z) w : fits sz Q -> 0 <= i < n -> zlen X = w -> exists sz', incr sz i w = Ok sz' /\ fits sz' (fun a b => Q a b \/ (a = i /\ In b X)).
Proof.
  intros (L & Lr & A & B) Hi Hw. unfold incr. rewrite (proj2 (rget_Ok _ _ _) (A i Hi)). cbn [bind]. destruct (rset_exists sz i (zlen (Lr i) + w) ltac:(lia)) as (sz' & E & L' & G & O). exists sz'. split; [exact E|]. split; [lia|].
  exists (fun j => if j =? i then Lr i ++ X else Lr j). split.
  - intros j Hj. destruct (Z.eqb_spec j i) as [->|Nj]; [rewrite G, zlen_app; congruence|rewrite O by exact Nj; apply A; exact Hj].
  - intros a b [H|(-> & H)]; [|rewrite Z.eqb_refl; apply in_or_app; right; exact H]. destruct (Z.eqb_spec a i) as [->|Na]; [apply in_or_app; left|]; apply B; exact H.
Qed.
Definition phas (pat : list (list Z)) (i j : Z) : Prop := exists row, zget pat i = Some row /\ In j row.
Definition patok (pat : list (list Z)) (Q : Z -> Z -> Prop) : Prop :=
  zlen pat = n /\ (forall i row, zget pat i = Some row -> NoDup row) /\ forall i j, phas pat i j -> Q i j.
Lemma existsb_In j l : existsb (Z.eqb j) l = true <-> In j l.
Proof. rewrite existsb_exists. split; [intros (x & H & E); apply Z.eqb_eq in E; subst; exact H|intros H; exists j; split; [exact H|apply Z.eqb_refl]]. Qed.
Lemma addindex_ok sz Q pat i j : fits sz Q -> patok pat Q -> 0 <= i < n -> Q i j -> exists pat', addindex sz pat i j = Ok pat' /\ patok pat' Q /\
  (forall a b, phas pat a b -> phas pat' a b) /\ phas pat' i j.
Proof.
  intros (L & Lr & A & B) (Lp & Nd & Pq) Hi Hq. unfold addindex. destruct (zget_in_range pat i ltac:(lia)) as (row & G). rewrite (proj2 (rget_Ok _ _ _) G). cbn [bind]. destruct (existsb (Z.eqb j) row) eqn:Ex.
  - exists pat. split; [reflexivity|]. split; [repeat split; assumption|]. split; [auto|]. exists row. split; [exact G|apply existsb_In; exact Ex].
  - assert (Nin : ~ In j row) by (intros H; apply existsb_In in H; congruence). rewrite (proj2 (rget_Ok _ _ _) (A i Hi)). cbn [bind].
    assert (Len : zlen row < zlen (Lr i)).
    { assert (Q1 : (length (j :: row) <= length (Lr i))%nat).
      { apply NoDup_incl_length; [constructor; [exact Nin|exact (Nd _ _ G)]|]. intros x [<-|Hx]; [apply B; exact Hq|]. apply B, Pq. exists row. auto. }
      cbn in Q1. unfold zlen. lia. }
    apply Z.ltb_lt in Len. rewrite Len. destruct (rset_exists pat i (row ++ [j]) ltac:(lia)) as (pat' & E & L' & G' & O'). exists pat'. split; [exact E|].
    assert (Hh : forall a b, phas pat' a b <-> phas pat a b \/ (a = i /\ b = j)).
    { intros a b. destruct (Z.eq_dec a i) as [->|Na].
      - split.
        + intros (w & Gw & Hw). rewrite G' in Gw. injection Gw as <-. apply in_app_or in Hw. destruct Hw as [Hw|[<-|[]]]; [left; exists row; auto|right; auto].
        + intros [(w & Gw & Hw)|(_ & ->)]; exists (row ++ [j]); (split; [exact G'|apply in_or_app]); [left|right; left; reflexivity]. rewrite G in Gw. injection Gw as <-. exact Hw.
      - split; [intros (w & Gw & Hw); rewrite O' in Gw by exact Na; left; exists w; auto|]. intros [(w & Gw & Hw)|(Q1 & _)]; [|contradiction]. exists w. rewrite O' by exact Na. auto. }
    split; [|split; [intros a b H; apply Hh; left; exact H|apply Hh; right; auto]]. split; [lia|]. split.
    + intros a w Gw. destruct (Z.eq_dec a i) as [->|Na]; [|rewrite O' in Gw by exact Na; exact (Nd _ _ Gw)]. rewrite G' in Gw. injection Gw as <-. apply (Permutation.Permutation_NoDup (l := j :: row)); [apply Permutation.Permutation_cons_append|constructor; [exact Nin|exact (Nd _ _ G)]].
    + intros a b H. apply Hh in H. destruct H as [H|(-> & ->)]; [apply Pq; exact H|exact Hq].
Qed.
End Cap.
Lemma zlen_remove (l : list Z) f : NoDup l -> In f l -> zlen (remove Z.eq_dec f l) = zlen l - 1.
Proof.
  induction l as [|x l IH]; [intros _ []|]. intros Nd H. inversion Nd as [|? ? Nx Nl]; subst. cbn [remove]. destruct (Z.eq_dec f x) as [->|Nf].
  - rewrite notin_remove by exact Nx. rewrite zlen_cons. lia.
  - destruct H as [->|H]; [congruence|]. rewrite !zlen_cons, IH by assumption. lia.
Qed.

Section Struct2.
Variables (g : list hcell) (bc : hbc) (nm : numbering).
Hypothesis ST : setting g bc nm.
Notation N := (entry_of (nm_cf nm)).
Notation total := (nm_total nm).
Notation row := (row g nm).
Lemma tot0 : 0 <= total. Proof. apply ST. Qed.
Lemma cf_len : zlen (nm_cf nm) = zlen g. Proof. apply ST. Qed.
Lemma cf_row k w : zget (nm_cf nm) k = Some w -> 0 <= k < zlen g /\ w = row k.
Proof.
  intros H. pose proof (zget_Some_range _ _ _ H) as Hk. rewrite cf_len in Hk. split; [exact Hk|]. pose proof (row_get g bc nm ST k Hk) as Q. apply rget_Ok in Q. congruence.
Qed.
Lemma row_range k i : 0 <= k < zlen g -> In i (row k) -> 0 <= i < total.
Proof. intros Hk Hi. apply (In_row g nm k i Hk) in Hi. destruct Hi as (r & Hh & ->). apply (num_range g bc nm ST). exact Hh. Qed.

(* connections through cells *)
Definition Qg (a b : Z) : Prop := (a = b /\ 0 <= a < total) \/ exists k, 0 <= k < zlen g /\ In a (row k) /\ In b (row k).
Lemma alloc_grid_ok : exists sz, alloc_grid nm = Ok sz /\ fits total sz Qg.
Proof.
  unfold alloc_grid. pose proof tot0 as T0.
  match goal with |- context[foldM ?st (nm_cf nm) ?s0] => destruct (list_loop st (fun k sz => fits total sz (fun a b => (a = b /\ 0 <= a < total) \/ exists k', 0 <= k' < k /\ k' < zlen g /\ In a (row k') /\ In b (row k'))) (nm_cf nm) s0) as (sz & E & F) end.
  - split; [apply zlen_zrepeat; exact T0|]. exists (fun i => [i]). split; [intros i Hi; rewrite zget_zrepeat by exact Hi; reflexivity|]. intros i j [(-> & _)|(k' & Q & _)]; [left; reflexivity|lia].
  - intros k w sz Gw F. destruct (cf_row k w Gw) as (Hk & ->).
    match goal with |- context[foldM ?st (row k) sz] => destruct (list_loop st (fun r sz => fits total sz (fun a b => ((a = b /\ 0 <= a < total) \/ exists k', 0 <= k' < k /\ k' < zlen g /\ In a (row k') /\ In b (row k')) \/ exists r', 0 <= r' < r /\ zget (row k) r' = Some a /\ In b (row k) /\ b <> a)) (row k) sz) as (sz' & E' & F') end.
    + eapply fits_weak; [exact F|]. intros i j [H|(r' & Q & _)]; [exact H|lia].
    + intros r i t Gi Ft. destruct (incr_fits total t _ i (remove Z.eq_dec i (row k)) (zlen (row k) - 1) Ft) as (t' & Et & Ft').
      * eapply row_range; [exact Hk|eapply zget_In; exact Gi].
      * apply zlen_remove; [apply (row_NoDup g bc nm ST); exact Hk|eapply zget_In; exact Gi].
      * exists t'. split; [exact Et|]. eapply fits_weak; [exact Ft'|]. intros a b [H|(r' & Hr & Ga & Hb & Nab)]; [left; left; exact H|]. destruct (Z.eq_dec r' r) as [->|Nr].
        -- right. assert (a = i) by congruence. subst a. split; [reflexivity|]. apply in_in_remove; assumption.
        -- left. right. exists r'. split; [lia|]. auto.
    + exists sz'. split; [exact E'|]. eapply fits_weak; [exact F'|]. intros a b [H|(k' & Hk' & Hk2 & Ha & Hb)]; [left; left; exact H|]. destruct (Z.eq_dec k' k) as [->|Nk].
      * destruct (Z.eq_dec a b) as [->|Nab]; [left; left; split; [reflexivity|exact (row_range _ _ Hk Hb)]|]. right. apply In_zget in Ha. destruct Ha as (r' & Hr' & Ga). exists r'. split; [exact Hr'|]. split; [exact Ga|]. split; [exact Hb|congruence].
      * left. right. exists k'. split; [lia|auto].
  - exists sz. split; [exact E|]. eapply fits_weak; [exact F|]. intros a b [H|(k & Hk & Ha & Hb)]; [left; exact H|]. right. exists k. rewrite cf_len. repeat split; try lia; assumption.
Qed.

Variables (m : bmap) (pp : list Z).
Hypothesis Hm : forall b v, bm_find m b = Ok v <-> exists d, periodic g bc (fst v) (snd v) d /\ bid g (fst v) (snd v) = b.
Hypothesis Hpp : (pp = [] /\ forall k r d, ~ periodic g bc k r d) \/
  (zlen pp = total /\ (forall k r k' r', partners g bc k r k' r' -> zget pp (N k r) = Some (N k' r')) /\
   (forall k r, half g k r -> (forall d, ~ periodic g bc k r d) -> zget pp (N k r) = Some (-1))).
(* the number of the periodic partner, -1 if there is none *)
Definition pf (i : Z) : Z := nth (Z.to_nat i) pp (-1).
Lemma pf_partner k r k' r' : partners g bc k r k' r' -> pf (N k r) = N k' r'.
Proof. intros P. destruct Hpp as [(_ & H)|(_ & H & _)]; [exfalso; destruct P as (d & d' & Pd & _); exact (H _ _ _ Pd)|]. apply nth_zget. apply H. exact P. Qed.
Lemma pf_none k r : half g k r -> (forall d, ~ periodic g bc k r d) -> pf (N k r) = -1.
Proof. intros Hh H. unfold pf. destruct Hpp as [(-> & _)|(_ & _ & Q)]; [destruct (Z.to_nat (N k r)); reflexivity|]. apply nth_zget. apply Q; assumption. Qed.
Lemma per_dec k r : half g k r -> (exists k' r', partners g bc k r k' r') \/ (forall d, ~ periodic g bc k r d).
Proof.
  intros Hh. destruct (per_face bc (face_at g k r)) eqn:E.
  - left. apply (per_face_iff g bc k r Hh) in E. destruct E as (d & Pd). destruct (partner_ex g bc nm ST k r d Pd) as (k' & r' & P & _). exists k', r'. exact P.
  - right. intros d Pd. assert (Q : per_face bc (face_at g k r) = true) by (apply per_face_iff; [exact Hh|exists d; exact Pd]). congruence.
Qed.
Lemma pp_get k r : m <> [] -> half g k r -> rget pp (N k r) = Ok (pf (N k r)).
Proof.
  intros Nm Hh. apply rget_Ok. destruct Hpp as [(_ & H)|(L & H & H')].
  - exfalso. destruct (map_case m) as [->|((b, (k0, r0)) & m0 & ->)]; [congruence|]. assert (F : bm_find ((b, (k0, r0)) :: m0) b = Ok (k0, r0)) by (unfold bm_find; cbn; rewrite Z.eqb_refl; reflexivity).
    apply Hm in F. destruct F as (d & Pd & _). exact (H _ _ _ Pd).
  - destruct (per_dec k r Hh) as [(k' & r' & P)|Np]; [rewrite (pf_partner _ _ _ _ P); apply H; exact P|rewrite pf_none by assumption; apply H'; assumption].
Qed.
(* connections through a periodic pair *)
Definition Qp (k r k' r' a b : Z) : Prop :=
  (a = N k r /\ In b (row k')) \/ (b = N k r /\ In a (row k')) \/ (b = N k r /\ exists i, In i (row k') /\ replaced (N k r) i (pf i) = true /\ a = pf i).
Definition Qb (a b : Z) : Prop := Qg a b \/ exists k r k' r', partners g bc k r k' r' /\ N k r < N k' r' /\ Qp k r k' r' a b.
Lemma replaced_range k i d : 0 <= k < zlen g -> In i (row k) -> replaced d i (pf i) = true -> exists r k' r', half g k r /\ i = N k r /\ partners g bc k r k' r' /\ pf i = N k' r' /\ N k' r' < i /\ N k' r' <> d.
Proof.
  intros Hk Hi Hr. apply (In_row g nm k i Hk) in Hi. destruct Hi as (r & Hh & ->). unfold replaced in Hr. destruct (per_dec k r Hh) as [(k' & r' & P)|Np]; [|rewrite pf_none in Hr by assumption; discriminate].
  exists r, k', r'. rewrite (pf_partner _ _ _ _ P) in *. apply andb_prop in Hr. destruct Hr as (H1 & H2). apply andb_prop in H1. destruct H1 as (H0 & H1). apply Z.ltb_lt in H2. apply Bool.negb_true_iff, Z.eqb_neq in H1. auto 8.
Qed.
Lemma alloc_bc_ok sz : fits total sz Qg -> exists sz', alloc_bc g bc nm m pp sz = Ok sz' /\ fits total sz' Qb.
Proof.
  intros F. unfold alloc_bc. destruct (map_case m) as [Em|(e0 & m0 & Em)].
  { rewrite Em. exists sz. split; [reflexivity|]. eapply fits_weak; [exact F|]. intros a b [H|(k & r & k' & r' & (d & d' & Pd & _) & _)]; [exact H|]. exfalso. exact (map_nil g bc m Hm Em _ _ _ Pd). }
  assert (Nm : m <> []) by (rewrite Em; discriminate).
  assert (EE : forall A (x y : A), match m with [] => x | _ :: _ => y end = y) by (intros; rewrite Em; reflexivity). rewrite EE.
  match goal with |- context[each_face ?st g sz] => destruct (each_face_ok st (fun k0 r0 sz => fits total sz (fun a b => Qg a b \/ exists k r k' r', partners g bc k r k' r' /\ N k r < N k' r' /\ before k r k0 r0 /\ Qp k r k' r' a b)) g sz) as (sz' & E & F') end.
  - eapply fits_weak; [exact F|]. intros a b [H|(k & r & k' & r' & P & _ & [Q|(_ & Q)] & _)]; [exact H| |]; destruct (partners_half _ _ _ _ _ _ P) as (((? & _) & (? & _)) & _); lia.
  - intros k r t Hh Ft. destruct (per_face bc (face_at g k r)) eqn:Ef.
    + apply (per_face_iff g bc k r Hh) in Ef. destruct Ef as (d & Pd). destruct (partner_ex g bc nm ST k r d Pd) as (k' & r' & P & Pd' & _). rewrite (per_pair_ok g bc nm ST m Hm _ _ _ _ P). cbn [bind].
      assert (Hk' : 0 <= k' < zlen g) by apply Pd'.
      destruct (Z.ltb_spec (N k r) (N k' r')) as [Lt|Ge].
      * rewrite (row_get g bc nm ST) by exact Hk'. cbn [bind].
        destruct (incr_fits total t _ (N k r) (row k') (zlen (row k')) Ft (num_range g bc nm ST k r Hh) eq_refl) as (t1 & E1 & F1). rewrite E1. cbn [bind].
        match goal with |- context[foldM ?st (row k') t1] => destruct (list_loop st (fun q s => fits total s (fun a b => (Qg a b \/ exists k0 r0 k0' r0', partners g bc k0 r0 k0' r0' /\ N k0 r0 < N k0' r0' /\ before k0 r0 k r /\ Qp k0 r0 k0' r0' a b) \/ (a = N k r /\ In b (row k')) \/
           exists q', 0 <= q' < q /\ b = N k r /\ exists i, zget (row k') q' = Some i /\ (a = i \/ (replaced (N k r) i (pf i) = true /\ a = pf i)))) (row k') t1) as (t2 & E2 & F2) end.
        -- eapply fits_weak; [exact F1|]. intros a b [H|[H|(q' & Q & _)]]; [left; exact H|right; exact H|lia].
        -- intros q i s Gi Fs. assert (Hi : In i (row k')) by (eapply zget_In; exact Gi). pose proof Hi as Hi2. apply (In_row g nm k' i Hk') in Hi2. destruct Hi2 as (c & Hc & Ei). assert (Gp : rget pp i = Ok (pf i)) by (rewrite Ei; apply pp_get; assumption). rewrite Gp. cbn [bind].
           destruct (replaced (N k r) i (pf i)) eqn:Er.
           ++ destruct (replaced_range k' i _ Hk' Hi Er) as (r2 & k3 & r3 & _ & _ & P3 & Epf & _). destruct (partners_half _ _ _ _ _ _ P3) as (_ & H3 & _).
              destruct (incr_fits total s _ (pf i) [N k r] 1 Fs) as (s1 & Es1 & Fs1); [rewrite Epf; apply (num_range g bc nm ST); exact H3|reflexivity|]. rewrite Es1. cbn [bind].
              destruct (incr_fits total s1 _ i [N k r] 1 Fs1) as (s2 & Es2 & Fs2); [exact (row_range _ _ Hk' Hi)|reflexivity|]. exists s2. split; [exact Es2|]. eapply fits_weak; [exact Fs2|].
              intros a b [H|[H|(q' & Hq & Eb & i' & Gi' & Ha)]]; [left; left; left; exact H|left; left; right; left; exact H|]. destruct (Z.eq_dec q' q) as [->|Nq].
              ** assert (i' = i) by congruence. subst i'. destruct Ha as [->|(_ & ->)]; [right|left; right]; (split; [reflexivity|left; congruence]).
              ** left; left; right; right. exists q'. split; [lia|]. split; [exact Eb|]. exists i'. auto.
           ++ cbn [bind]. destruct (incr_fits total s _ i [N k r] 1 Fs) as (s2 & Es2 & Fs2); [exact (row_range _ _ Hk' Hi)|reflexivity|]. exists s2. split; [exact Es2|]. eapply fits_weak; [exact Fs2|].
              intros a b [H|[H|(q' & Hq & Eb & i' & Gi' & Ha)]]; [left; left; exact H|left; right; left; exact H|]. destruct (Z.eq_dec q' q) as [->|Nq].
              ** assert (i' = i) by congruence. subst i'. destruct Ha as [->|(Q & _)]; [right; split; [reflexivity|left; congruence]|congruence].
              ** left; right; right. exists q'. split; [lia|]. split; [exact Eb|]. exists i'. auto.
        -- exists t2. split; [exact E2|]. eapply fits_weak; [exact F2|]. intros a b [H|(k1 & r1 & k1' & r1' & P1 & L1 & B1 & Q1)]; [left; left; exact H|]. apply before_step in B1. destruct B1 as [B1|(-> & ->)]; [left; right; exists k1, r1, k1', r1'; auto|].
           destruct (partners_fun g bc nm ST _ _ _ _ _ _ P1 P) as (-> & ->). destruct Q1 as [Q1|[(-> & Ha)|(-> & i & Hi & Hr & ->)]]; [right; left; exact Q1| |].
           ++ right; right. apply In_zget in Ha. destruct Ha as (q & Hq & Gq). exists q. split; [exact Hq|]. split; [reflexivity|]. exists a. auto.
           ++ right; right. apply In_zget in Hi. destruct Hi as (q & Hq & Gq). exists q. split; [exact Hq|]. split; [reflexivity|]. exists i. auto.
      * exists t. split; [reflexivity|]. eapply fits_weak; [exact Ft|]. intros a b [H|(k1 & r1 & k1' & r1' & P1 & L1 & B1 & Q1)]; [left; exact H|]. apply before_step in B1. destruct B1 as [B1|(-> & ->)]; [right; exists k1, r1, k1', r1'; auto|].
        destruct (partners_fun g bc nm ST _ _ _ _ _ _ P1 P) as (-> & ->). lia.
    + exists t. split; [reflexivity|]. eapply fits_weak; [exact Ft|]. intros a b [H|(k1 & r1 & k1' & r1' & P1 & L1 & B1 & Q1)]; [left; exact H|]. apply before_step in B1. destruct B1 as [B1|(-> & ->)]; [right; exists k1, r1, k1', r1'; auto|].
      exfalso. destruct P1 as (d & d' & Pd & _). assert (Q : per_face bc (face_at g k r) = true) by (apply per_face_iff; [exact Hh|exists d; exact Pd]). congruence.
  - intros k t Hk Ft. eapply fits_weak; [exact Ft|]. intros a b [H|(k1 & r1 & k1' & r1' & P1 & L1 & B1 & Q1)]; [left; exact H|right]. exists k1, r1, k1', r1'. split; [exact P1|]. split; [exact L1|]. split; [|exact Q1].
    apply (before_next g _ _ k); [apply (partners_half _ _ _ _ _ _ P1)|exact B1].
  - exists sz'. split; [exact E|]. eapply fits_weak; [exact F'|]. intros a b [H|(k & r & k' & r' & P & L & Q)]; [left; exact H|]. right. exists k, r, k', r'. split; [exact P|]. split; [exact L|]. split; [|exact Q]. apply before_all. apply (partners_half _ _ _ _ _ _ P).
Qed.
Variable sz : list Z.
Hypothesis Fz : fits total sz Qb.
Notation patok := (patok total).
Lemma set_grid_ok : exists pat, set_grid sz nm (zrepeat [] total) = Ok pat /\ patok pat Qb /\ forall k r c, half g k r -> half g k c -> phas pat (N k r) (N k c).
Proof.
  unfold set_grid.
  match goal with |- context[foldM ?st (nm_cf nm) ?s0] => destruct (list_loop st (fun k pat => patok pat Qb /\ forall k' a b, 0 <= k' < k -> k' < zlen g -> In a (row k') -> In b (row k') -> phas pat a b) (nm_cf nm) s0) as (pat & E & F & H) end.
  - split; [|intros; lia]. split; [apply zlen_zrepeat; exact tot0|]. pose proof tot0 as T0.
    assert (Z0 : forall i w, zget (zrepeat (@nil Z) total) i = Some w -> w = []).
    { intros i w G. pose proof (zget_Some_range _ _ _ G) as Hi. rewrite zlen_zrepeat in Hi by exact T0. rewrite zget_zrepeat in G by exact Hi. congruence. }
    split; [intros i w G; rewrite (Z0 _ _ G); constructor|]. intros i j (w & G & Hj). rewrite (Z0 _ _ G) in Hj. destruct Hj.
  - intros k w pat Gw (F & H). destruct (cf_row k w Gw) as (Hk & ->).
    match goal with |- context[foldM ?st (row k) pat] => destruct (list_loop st (fun r p => patok p Qb /\ (forall a b, phas pat a b -> phas p a b) /\ forall r' a b, 0 <= r' < r -> zget (row k) r' = Some a -> In b (row k) -> phas p a b) (row k) pat) as (p1 & E1 & F1 & M1 & H1) end.
    + split; [exact F|]. split; [auto|]. intros; lia.
    + intros r i p Gi (Fp & Mp & Hp). assert (Hi : In i (row k)) by (eapply zget_In; exact Gi).
      match goal with |- context[foldM ?st (row k) p] => destruct (list_loop st (fun c q => patok q Qb /\ (forall a b, phas p a b -> phas q a b) /\ forall c' b, 0 <= c' < c -> zget (row k) c' = Some b -> phas q i b) (row k) p) as (p2 & E2 & F2 & M2 & H2) end.
      * split; [exact Fp|]. split; [auto|]. intros; lia.
      * intros c j q Gj (Fq & Mq & Hq). assert (Hj : In j (row k)) by (eapply zget_In; exact Gj).
        destruct (addindex_ok total sz Qb q i j Fz Fq) as (q' & Eq & Fq' & Mq' & Hij); [exact (row_range _ _ Hk Hi)|left; right; exists k; auto|]. exists q'. split; [exact Eq|]. split; [exact Fq'|]. split; [intros; apply Mq', Mq; assumption|].
        intros c' b Hc Gb. destruct (Z.eq_dec c' c) as [->|]; [assert (b = j) by congruence; subst b; exact Hij|apply Mq', (Hq c'); [lia|exact Gb]].
      * exists p2. split; [exact E2|]. split; [exact F2|]. split; [intros; apply M2, Mp; assumption|]. intros r' a b Hr Ga Hb. destruct (Z.eq_dec r' r) as [->|].
        -- assert (a = i) by congruence. subst a. apply In_zget in Hb. destruct Hb as (c & Hc & Gc). apply (H2 c); assumption.
        -- apply M2, (Hp r'); [lia|exact Ga|exact Hb].
    + exists p1. split; [exact E1|]. split; [exact F1|]. intros k' a b Hk' Hk2 Ha Hb. destruct (Z.eq_dec k' k) as [->|].
      * apply In_zget in Ha. destruct Ha as (r & Hr & Ga). apply (H1 r); assumption.
      * apply M1, (H k'); [lia|exact Hk2|exact Ha|exact Hb].
  - exists pat. split; [exact E|]. split; [exact F|]. intros k r c Hr Hc. apply (H k); [rewrite cf_len; apply Hr|apply Hr| |]; apply (In_row g nm k _ (proj1 Hr)); [exists r|exists c]; auto.
Qed.
(* the degree of freedom that stands for ii0 in the connections of dof1 *)
Definition stand (d i : Z) : Z := if replaced d i (pf i) then pf i else i.
Lemma stand_Qb k r k' r' i : partners g bc k r k' r' -> N k r < N k' r' -> In i (row k') ->
  Qb (N k r) (stand (N k r) i) /\ Qb (stand (N k r) i) (N k r) /\ Qb (N k' r') (stand (N k r) i) /\ Qb (stand (N k r) i) (N k' r') /\ 0 <= stand (N k r) i < total.
Proof.
  intros P L Hi. destruct (partners_half _ _ _ _ _ _ P) as (Hh & Hh' & _). pose proof (proj1 Hh') as Hk'. assert (In2 : In (N k' r') (row k')) by (apply (In_row g nm k' _ Hk'); exists r'; auto).
  unfold stand. destruct (replaced (N k r) i (pf i)) eqn:Er.
  - destruct (replaced_range k' i _ Hk' Hi Er) as (c & k3 & r3 & Hc & Ei & P3 & Epf & L3 & N3). pose proof (partners_sym g bc nm ST _ _ _ _ P3) as P3'. destruct (partners_half _ _ _ _ _ _ P3) as (_ & H3 & _).
    assert (L3' : N k3 r3 < N k' c) by lia. rewrite Epf.
    assert (Rd : replaced (N k3 r3) (N k' r') (pf (N k' r')) = true).
    { rewrite (pf_partner _ _ _ _ (partners_sym g bc nm ST _ _ _ _ P)). unfold replaced. pose proof (num_range g bc nm ST k r Hh). apply andb_true_intro. split; [apply andb_true_intro; split; apply Bool.negb_true_iff, Z.eqb_neq; lia|apply Z.ltb_lt; exact L]. }
    repeat split.
    + right. exists k3, r3, k', c. split; [exact P3'|]. split; [exact L3'|]. right; right. split; [reflexivity|]. exists (N k' r'). split; [exact In2|]. split; [exact Rd|]. symmetry. apply pf_partner. apply (partners_sym g bc nm ST). exact P.
    + right. exists k, r, k', r'. split; [exact P|]. split; [exact L|]. right; right. split; [reflexivity|]. exists i. auto.
    + right. exists k3, r3, k', c. split; [exact P3'|]. split; [exact L3'|]. right; left. auto.
    + right. exists k3, r3, k', c. split; [exact P3'|]. split; [exact L3'|]. left. auto.
    + apply (num_range g bc nm ST). exact H3.
    + apply (num_range g bc nm ST). exact H3.
  - repeat split.
    + right. exists k, r, k', r'. split; [exact P|]. split; [exact L|]. left; auto.
    + right. exists k, r, k', r'. split; [exact P|]. split; [exact L|]. right; left; auto.
    + left; right. exists k'. auto.
    + left; right. exists k'. auto.
    + apply (row_range _ _ Hk' Hi).
    + apply (row_range _ _ Hk' Hi).
Qed.
Lemma set_bc_ok pat : patok pat Qb -> exists pat', set_bc g bc nm m pp sz pat = Ok pat' /\ patok pat' Qb /\ (forall a b, phas pat a b -> phas pat' a b) /\
  forall k r k' r' i, partners g bc k r k' r' -> N k r < N k' r' -> In i (row k') ->
    phas pat' (N k r) (stand (N k r) i) /\ phas pat' (stand (N k r) i) (N k r) /\ phas pat' (N k' r') (stand (N k r) i) /\ phas pat' (stand (N k r) i) (N k' r').
Proof.
  intros F. unfold set_bc. destruct (map_case m) as [Em|(e0 & m0 & Em)].
  { rewrite Em. exists pat. split; [reflexivity|]. split; [exact F|]. split; [auto|]. intros k r k' r' i (d & d' & Pd & _). exfalso. exact (map_nil g bc m Hm Em _ _ _ Pd). }
  assert (Nm : m <> []) by (rewrite Em; discriminate).
  assert (EE : forall A (x y : A), match m with [] => x | _ :: _ => y end = y) by (intros; rewrite Em; reflexivity). rewrite EE.
  match goal with |- context[each_face ?st g pat] => destruct (each_face_ok st (fun k0 r0 p => patok p Qb /\ (forall a b, phas pat a b -> phas p a b) /\ forall k r k' r' i, partners g bc k r k' r' -> N k r < N k' r' -> In i (row k') -> before k r k0 r0 ->
    phas p (N k r) (stand (N k r) i) /\ phas p (stand (N k r) i) (N k r) /\ phas p (N k' r') (stand (N k r) i) /\ phas p (stand (N k r) i) (N k' r')) g pat) as (p & E & Fp & Mp & Hp) end.
  - split; [exact F|]. split; [auto|]. intros k r k' r' i P _ _ [Q|(_ & Q)]; destruct (partners_half _ _ _ _ _ _ P) as (((? & _) & (? & _)) & _); lia.
  - intros k r p Hh (Fp & Mp & Hp). destruct (per_face bc (face_at g k r)) eqn:Ef.
    + apply (per_face_iff g bc k r Hh) in Ef. destruct Ef as (d & Pd). destruct (partner_ex g bc nm ST k r d Pd) as (k' & r' & P & Pd' & _). rewrite (per_pair_ok g bc nm ST m Hm _ _ _ _ P). cbn [bind].
      assert (Hk' : 0 <= k' < zlen g) by apply Pd'.
      destruct (Z.ltb_spec (N k r) (N k' r')) as [Lt|Ge].
      * rewrite (row_get g bc nm ST) by exact Hk'. cbn [bind].
        match goal with |- context[foldM ?st (row k') p] => destruct (list_loop st (fun q t => patok t Qb /\ (forall a b, phas p a b -> phas t a b) /\ forall q' i, 0 <= q' < q -> zget (row k') q' = Some i ->
           phas t (N k r) (stand (N k r) i) /\ phas t (stand (N k r) i) (N k r) /\ phas t (N k' r') (stand (N k r) i) /\ phas t (stand (N k r) i) (N k' r')) (row k') p) as (t & Et & Ft & Mt & Ht) end.
        -- split; [exact Fp|]. split; [auto|]. intros; lia.
        -- intros q i t Gi (Ft & Mt & Ht). assert (Hi : In i (row k')) by (eapply zget_In; exact Gi). pose proof Hi as Hi2. apply (In_row g nm k' i Hk') in Hi2. destruct Hi2 as (c & Hc & Ei). assert (Gp : rget pp i = Ok (pf i)) by (rewrite Ei; apply pp_get; assumption). rewrite Gp. cbn [bind]. fold (stand (N k r) i).
           destruct (stand_Qb k r k' r' i P Lt Hi) as (Q1 & Q2 & Q3 & Q4 & Rs). pose proof (num_range g bc nm ST k r Hh) as R1. pose proof (num_range g bc nm ST k' r' (proj1 Pd')) as R2.
           destruct (addindex_ok total sz Qb t _ _ Fz Ft R1 Q1) as (t1 & E1 & F1 & M1 & H1). rewrite E1. cbn [bind].
           destruct (addindex_ok total sz Qb t1 _ _ Fz F1 Rs Q2) as (t2 & E2 & F2 & M2 & H2). rewrite E2. cbn [bind].
           destruct (addindex_ok total sz Qb t2 _ _ Fz F2 R2 Q3) as (t3 & E3 & F3 & M3 & H3). rewrite E3. cbn [bind].
           destruct (addindex_ok total sz Qb t3 _ _ Fz F3 Rs Q4) as (t4 & E4 & F4 & M4 & H4). rewrite E4. exists t4. split; [reflexivity|]. split; [exact F4|]. split; [intros; apply M4, M3, M2, M1, Mt; assumption|].
           intros q' j Hq Gj. destruct (Z.eq_dec q' q) as [->|].
           ++ assert (j = i) by congruence. subst j. repeat split; auto.
           ++ destruct (Ht q' j ltac:(lia) Gj) as (A1 & A2 & A3 & A4). repeat split; auto.
        -- exists t. split; [exact Et|]. split; [exact Ft|]. split; [intros; apply Mt, Mp; assumption|]. intros k1 r1 k1' r1' i P1 L1 Hi Bf. apply before_step in Bf. destruct Bf as [Bf|(-> & ->)].
           ++ destruct (Hp _ _ _ _ i P1 L1 Hi Bf) as (A1 & A2 & A3 & A4). repeat split; auto.
           ++ destruct (partners_fun g bc nm ST _ _ _ _ _ _ P1 P) as (-> & ->). apply In_zget in Hi. destruct Hi as (q & Hq & Gq). apply (Ht q i Hq Gq).
      * exists p. split; [reflexivity|]. split; [exact Fp|]. split; [exact Mp|]. intros k1 r1 k1' r1' i P1 L1 Hi Bf. apply before_step in Bf. destruct Bf as [Bf|(-> & ->)]; [apply (Hp _ _ _ _ i P1 L1 Hi Bf)|].
        destruct (partners_fun g bc nm ST _ _ _ _ _ _ P1 P) as (-> & ->). lia.
    + exists p. split; [reflexivity|]. split; [exact Fp|]. split; [exact Mp|]. intros k1 r1 k1' r1' i P1 L1 Hi Bf. apply before_step in Bf. destruct Bf as [Bf|(-> & ->)]; [apply (Hp _ _ _ _ i P1 L1 Hi Bf)|].
      exfalso. destruct P1 as (d & d' & Pd & _). assert (Q : per_face bc (face_at g k r) = true) by (apply per_face_iff; [exact Hh|exists d; exact Pd]). congruence.
  - intros k p Hk (Fp & Mp & Hp). split; [exact Fp|]. split; [exact Mp|]. intros k1 r1 k1' r1' i P1 L1 Hi Bf. apply (Hp _ _ _ _ i P1 L1 Hi). apply (before_next g _ _ k); [apply (partners_half _ _ _ _ _ _ P1)|exact Bf].
  - exists p. split; [exact E|]. split; [exact Fp|]. split; [exact Mp|]. intros k r k' r' i P L Hi. apply (Hp _ _ _ _ i P L Hi). apply before_all. apply (partners_half _ _ _ _ _ _ P).
Qed.
(* the degree of freedom that carries the equation of face r of cell k *)
Definition rep (n : Z) : Z := if pf n =? -1 then n else Z.min n (pf n).
Lemma rep_partner k r k' r' : partners g bc k r k' r' -> rep (N k r) = Z.min (N k r) (N k' r').
Proof.
  intros P. unfold rep. rewrite (pf_partner _ _ _ _ P). destruct (partners_half _ _ _ _ _ _ P) as (_ & H' & _). pose proof (num_range g bc nm ST k' r' H'). destruct (Z.eqb_spec (N k' r') (-1)); [lia|reflexivity].
Qed.
Lemma rep_none k r : half g k r -> (forall d, ~ periodic g bc k r d) -> rep (N k r) = N k r.
Proof. intros Hh Np. unfold rep. rewrite pf_none by assumption. reflexivity. Qed.
Lemma rep_range k r : half g k r -> 0 <= rep (N k r) < total.
Proof.
  intros Hh. pose proof (num_range g bc nm ST k r Hh). destruct (per_dec k r Hh) as [(k' & r' & P)|Np]; [|rewrite rep_none by assumption; assumption].
  rewrite (rep_partner _ _ _ _ P). destruct (partners_half _ _ _ _ _ _ P) as (_ & H' & _). pose proof (num_range g bc nm ST k' r' H'). lia.
Qed.
Section Pat.
Variable pat : list (list Z).
Hypothesis Hg : forall k r c, half g k r -> half g k c -> phas pat (N k r) (N k c).
Hypothesis Hb : forall k r k' r' i, partners g bc k r k' r' -> N k r < N k' r' -> In i (row k') ->
    phas pat (N k r) (stand (N k r) i) /\ phas pat (stand (N k r) i) (N k r) /\ phas pat (N k' r') (stand (N k r) i) /\ phas pat (stand (N k r) i) (N k' r').
Lemma pat_pair k r k' r' : partners g bc k r k' r' -> phas pat (N k r) (N k' r') /\ phas pat (N k' r') (N k r).
Proof.
  assert (G : forall k r k' r', partners g bc k r k' r' -> N k r < N k' r' -> phas pat (N k r) (N k' r') /\ phas pat (N k' r') (N k r)).
  { clear k r k' r'. intros k r k' r' P L. destruct (partners_half _ _ _ _ _ _ P) as (Hh & Hh' & _). assert (In2 : In (N k' r') (row k')) by (apply (In_row g nm k' _ (proj1 Hh')); exists r'; auto).
    destruct (Hb _ _ _ _ _ P L In2) as (A1 & A2 & _). assert (Es : stand (N k r) (N k' r') = N k' r').
    { unfold stand. rewrite (pf_partner _ _ _ _ (partners_sym g bc nm ST _ _ _ _ P)). unfold replaced. rewrite Z.eqb_refl, Bool.andb_false_r. reflexivity. }
    rewrite Es in *. auto. }
  intros P. pose proof (partners_num g bc nm ST _ _ _ _ P) as Nq. destruct (Z_lt_le_dec (N k r) (N k' r')) as [L|L]; [apply G; assumption|]. destruct (G _ _ _ _ (partners_sym g bc nm ST _ _ _ _ P) ltac:(lia)). auto.
Qed.
Lemma pat_rep k r c : half g k r -> half g k c -> phas pat (rep (N k r)) (rep (N k c)).
Proof.
  (* a face whose partner represents it *)
  assert (Up : forall r c kp rp, half g k c -> partners g bc k r kp rp -> N kp rp < N k r -> phas pat (N kp rp) (rep (N k c)) /\ phas pat (rep (N k c)) (N kp rp)).
  { clear r c. intros r c kp rp Hc P L. pose proof (partners_sym g bc nm ST _ _ _ _ P) as P'. destruct (partners_half _ _ _ _ _ _ P) as (Hh & Hp & Bh & _). pose proof (num_range g bc nm ST kp rp Hp) as Rp.
    destruct (Z.eq_dec c r) as [->|Ncr].
    - rewrite (rep_partner _ _ _ _ P). rewrite Z.min_r by lia. split; apply Hg; assumption.
    - assert (Hi : In (N k c) (row k)) by (apply (In_row g nm k _ (proj1 Hc)); exists c; auto). destruct (Hb _ _ _ _ _ P' L Hi) as (A1 & A2 & _ & _).
      assert (Es : stand (N kp rp) (N k c) = rep (N k c)).
      { destruct (per_dec k c Hc) as [(k3 & r3 & P3)|Np].
        - rewrite (rep_partner _ _ _ _ P3). unfold stand. rewrite (pf_partner _ _ _ _ P3). unfold replaced. destruct (partners_half _ _ _ _ _ _ P3) as (_ & H3 & B3 & B3').
          pose proof (num_range g bc nm ST k3 r3 H3) as R3. pose proof (partners_num g bc nm ST _ _ _ _ P3).
          destruct (Z.eqb_spec (N k3 r3) (-1)); [lia|]. destruct (Z.eqb_spec (N k3 r3) (N kp rp)) as [Q|_].
          + exfalso. destruct (num_bdry g bc nm ST _ _ _ _ H3 Hp B3' Q) as (-> & ->). destruct (partners_fun g bc nm ST _ _ _ _ _ _ (partners_sym g bc nm ST _ _ _ _ P3) P') as (_ & Q2). congruence.
          + cbn [negb andb]. destruct (Z.ltb_spec (N k3 r3) (N k c)); lia.
        - rewrite rep_none by assumption. unfold stand. rewrite pf_none by assumption. reflexivity. }
      rewrite Es in *. auto. }
  intros Hr Hc. destruct (per_dec k r Hr) as [(kp & rp & P)|Np].
  - rewrite (rep_partner _ _ _ _ P). pose proof (partners_num g bc nm ST _ _ _ _ P) as Nq. destruct (Z_lt_le_dec (N kp rp) (N k r)) as [L|L]; [rewrite Z.min_r by lia; apply (Up r c kp rp Hc P L)|].
    rewrite Z.min_l by lia. destruct (per_dec k c Hc) as [(kc & rc & Pc)|Npc]; [|rewrite rep_none by assumption; apply Hg; assumption].
    rewrite (rep_partner _ _ _ _ Pc). destruct (Z_lt_le_dec (N kc rc) (N k c)) as [Lc|Lc]; [|rewrite Z.min_l by lia; apply Hg; assumption]. rewrite Z.min_r by lia. destruct (Up c r kc rc Hr Pc Lc) as (_ & A).
    rewrite (rep_partner _ _ _ _ P), Z.min_l in A by lia. exact A.
  - rewrite rep_none by assumption. destruct (per_dec k c Hc) as [(kc & rc & Pc)|Npc]; [|rewrite rep_none by assumption; apply Hg; assumption].
    rewrite (rep_partner _ _ _ _ Pc). destruct (Z_lt_le_dec (N kc rc) (N k c)) as [Lc|Lc]; [|rewrite Z.min_l by lia; apply Hg; assumption]. rewrite Z.min_r by lia. destruct (Up c r kc rc Hr Pc Lc) as (_ & A).
    rewrite rep_none in A by assumption. exact A.
Qed.
End Pat.
End Struct2.

(* everything the assembly needs to know about the structure *)
Definition structured (g : list hcell) (bc : hbc) (st : hstruct) : Prop :=
  setting g bc (hs_num st) /\
  (forall b v, bm_find (hs_map st) b = Ok v <-> exists d, periodic g bc (fst v) (snd v) d /\ bid g (fst v) (snd v) = b) /\
  ((hs_pp st = [] /\ forall k r d, ~ periodic g bc k r d) \/
   (zlen (hs_pp st) = nm_total (hs_num st) /\ (forall k r k' r', partners g bc k r k' r' -> zget (hs_pp st) (num st k r) = Some (num st k' r')) /\
    (forall k r, half g k r -> (forall d, ~ periodic g bc k r d) -> zget (hs_pp st) (num st k r) = Some (-1)))) /\
  zlen (hs_pat st) = nm_total (hs_num st) /\
  (forall k r c, half g k r -> half g k c -> phas (hs_pat st) (num st k r) (num st k c)) /\
  (forall k r k' r', partners g bc k r k' r' -> phas (hs_pat st) (num st k r) (num st k' r') /\ phas (hs_pat st) (num st k' r') (num st k r)) /\
  (forall k r c, half g k r -> half g k c -> phas (hs_pat st) (rep (hs_pp st) (num st k r)) (rep (hs_pp st) (num st k c))).
Lemma init_ok g bc : conforming g -> counts_agree g -> periodic_ok g bc -> exists st, init_structure g bc = Ok st /\ structured g bc st.
Proof.
  intros W C PO. destruct (numbering_ok g W C) as (nm & En & _). pose proof (setting_ok g bc nm W C PO En) as ST. unfold init_structure. rewrite En. cbn [bind].
  destruct (bc_map_ok g bc nm ST) as (m & Em & Hm). rewrite Em. cbn [bind]. destruct (bc_partners_ok g bc nm ST m Hm) as (pp & Ep & Hpp). rewrite Ep. cbn [bind].
  destruct (alloc_grid_ok g bc nm ST) as (sz0 & E0 & F0). rewrite E0. cbn [bind]. destruct (alloc_bc_ok g bc nm ST m pp Hm Hpp sz0 F0) as (sz & E1 & F1). rewrite E1. cbn [bind].
  destruct (set_grid_ok g bc nm ST m pp Hm sz F1) as (p1 & E2 & F2 & H2). rewrite E2. cbn [bind]. destruct (set_bc_ok g bc nm ST m pp Hm Hpp sz F1 p1 F2) as (p2 & E3 & F3 & M3 & H3). rewrite E3. cbn [bind].
  eexists. split; [reflexivity|]. unfold structured, num. cbn [hs_num hs_map hs_pp hs_pat].
  assert (Hg : forall k r c, half g k r -> half g k c -> phas p2 (entry_of (nm_cf nm) k r) (entry_of (nm_cf nm) k c)) by (intros; apply M3, H2; assumption).
  split; [exact ST|]. split; [exact Hm|]. split; [exact Hpp|]. split; [apply F3|]. split; [exact Hg|]. split; intros; [eapply pat_pair; eassumption|eapply pat_rep; eassumption].
Qed.
