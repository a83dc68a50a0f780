(* Pattern and assembly. *)
From Verif Require Import RBaseFacts BaseFacts Lin_Facts Steady_Proofs Euler_Proofs2 Impl_Proofs5 Mim_Proofs Smat_Proofs Asm_Proofs Asm_Proofs2 Asm_Proofs3 Asm_Spec.
From Coq Require Import Lra.
Open Scope Z_scope.

Lemma Sum_flat n m g : 0 <= n -> 0 <= m -> Sum n (fun j => Sum m (fun l => g (j * m + l))) = Sum (n * m) g.
Proof.
  intros Hn Hm. pattern n. apply natlike_ind; [reflexivity| |exact Hn]. clear n Hn. intros n Hn IH. rewrite <- Z.add_1_r, Sum_S by lia. rewrite IH. rewrite (Sum_split (n * m) ((n + 1) * m)) by nia.
  f_equal. replace ((n + 1) * m - n * m) with m by lia. reflexivity.
Qed.
(* ---- growing patterns *)
Lemma grow {A} (step : list (list Z) -> A -> res (list (list Z))) (P : A -> Z -> Z -> Prop) n l :
  (forall adj x, In x l -> wf_adj adj n -> exists adj', step adj x = Ok adj' /\ wf_adj adj' n /\ forall a b, padj adj' a b <-> padj adj a b \/ P x a b) ->
  forall adj, wf_adj adj n -> exists adj', foldM step l adj = Ok adj' /\ wf_adj adj' n /\ forall a b, padj adj' a b <-> padj adj a b \/ exists x, In x l /\ P x a b.
Proof.
  induction l as [|x l IH]; intros H adj W; cbn [foldM].
  - exists adj. split; [reflexivity|]. split; [exact W|]. intros a b. split; [now left|intros [Hp|(x & [] & _)]; exact Hp].
  - destruct (H adj x (or_introl eq_refl) W) as (a1 & E1 & W1 & P1). rewrite E1. cbn [bind]. destruct (IH (fun adj y Hy => H adj y (or_intror Hy)) a1 W1) as (a2 & E2 & W2 & P2). exists a2. split; [exact E2|]. split; [exact W2|].
    intros a b. rewrite P2, P1. cbn [In]. split; [intros [[Q|Q]|(y & Hy & Q)]; [now left|right; exists x; tauto|right; exists y; tauto]|]. intros [Q|(y & [<-|Hy] & Q)]; [tauto|tauto|right; exists y; tauto].
Qed.
(* ---- matrices with something added *)
Definition madd (m m' : smat) (g : Z -> Z -> R) : Prop :=
  wf_smat m' /\ dims m' (sm_n m) (sm_m m) /\ (forall a b, stored m' a b <-> stored m a b) /\ forall a b, 0 <= a -> 0 <= b -> coef m' a b = (coef m a b + g a b)%R.
Lemma madd_ext m m' g g' : (forall a b, 0 <= a -> 0 <= b -> g a b = g' a b) -> madd m m' g -> madd m m' g'.
Proof. intros H (W & D & S & C). split; [exact W|]. split; [exact D|]. split; [exact S|]. intros a b Ha Hb. rewrite C, H by assumption. reflexivity. Qed.
Lemma madd_zero m g : wf_smat m -> (forall a b, 0 <= a -> 0 <= b -> g a b = 0%R) -> madd m m g.
Proof. intros W H. split; [exact W|]. split; [split; reflexivity|]. split; [tauto|]. intros a b Ha Hb. rewrite H by assumption. ring. Qed.
Lemma madd_trans m m1 m2 g h : madd m m1 g -> madd m1 m2 h -> madd m m2 (fun a b => g a b + h a b)%R.
Proof.
  intros (W & [D1 D2] & S & C) (W2 & [D3 D4] & S2 & C2). split; [exact W2|]. split; [split; congruence|]. split; [intros a b; rewrite S2; apply S|]. intros a b Ha Hb. rewrite C2, C by assumption. ring.
Qed.
Lemma mfold {A} (step : smat -> A -> res smat) (g : A -> Z -> Z -> R) (Q : Z -> Z -> Prop) l :
  (forall m x, In x l -> wf_smat m -> (forall a b, Q a b -> stored m a b) -> exists m', step m x = Ok m' /\ madd m m' (g x)) ->
  forall m, wf_smat m -> (forall a b, Q a b -> stored m a b) -> exists m', foldM step l m = Ok m' /\ madd m m' (fun a b => Rsum (map (fun x => g x a b) l)).
Proof.
  induction l as [|x l IH]; intros H m W HQ; cbn [foldM].
  - exists m. split; [reflexivity|]. apply madd_zero; [exact W|reflexivity].
  - destruct (H m x (or_introl eq_refl) W HQ) as (m1 & E1 & A1). rewrite E1. cbn [bind]. destruct (IH (fun m y Hy => H m y (or_intror Hy)) m1 (proj1 A1)) as (m2 & E2 & A2); [intros a b Hab; apply A1, HQ; exact Hab|].
    exists m2. split; [exact E2|]. eapply madd_ext; [|exact (madd_trans _ _ _ _ _ A1 A2)]. intros a b _ _. cbn [map]. rewrite Rsum_cons. reflexivity.
Qed.
(* the handler with something added *)
Definition sadd (s s' : asm) (g : Z -> Z -> R) (h : Z -> R) : Prop :=
  as_mpcs s' = as_mpcs s /\ as_fixed s' = as_fixed s /\ as_meqn s' = as_meqn s /\ as_neq s' = as_neq s /\ madd (as_A s) (as_A s') g /\
  zlen (as_b s') = zlen (as_b s) /\ forall e, 0 <= e -> nthR (as_b s') e = (nthR (as_b s) e + h e)%R.
Lemma sadd_ext s s' g g' h h' : (forall a b, 0 <= a -> 0 <= b -> g a b = g' a b) -> (forall a, 0 <= a -> h a = h' a) -> sadd s s' g h -> sadd s s' g' h'.
Proof.
  intros H1 H2 (E1 & E2 & E3 & E4 & MA & L & B). split; [exact E1|]. split; [exact E2|]. split; [exact E3|]. split; [exact E4|]. split; [eapply madd_ext; eassumption|]. split; [exact L|]. intros e He. rewrite B, H2 by exact He. reflexivity.
Qed.
Lemma sadd_trans s s1 s2 g g' h h' : sadd s s1 g h -> sadd s1 s2 g' h' -> sadd s s2 (fun a b => g a b + g' a b)%R (fun a => h a + h' a)%R.
Proof.
  intros (E1 & E2 & E3 & E4 & MA & L & B) (F1 & F2 & F3 & F4 & MA2 & L2 & B2). split; [congruence|]. split; [congruence|]. split; [congruence|]. split; [congruence|]. split; [eapply madd_trans; eassumption|]. split; [congruence|].
  intros e He. rewrite B2, B by exact He. ring.
Qed.
Lemma sadd_zero s g h : wf_smat (as_A s) -> (forall a b, 0 <= a -> 0 <= b -> g a b = 0%R) -> (forall a, 0 <= a -> h a = 0%R) -> sadd s s g h.
Proof. intros W Hg Hh. repeat (split; [reflexivity|]). split; [apply madd_zero; assumption|]. split; [reflexivity|]. intros e He. rewrite Hh by exact He. ring. Qed.
(* a handler ready for a cell: sizes and pattern *)
Definition ready (s0 s : asm) (Q : Z -> Z -> Prop) : Prop :=
  as_mpcs s = as_mpcs s0 /\ as_fixed s = as_fixed s0 /\ as_meqn s = as_meqn s0 /\ as_neq s = as_neq s0 /\ zlen (as_b s) = as_neq s0 /\ wf_smat (as_A s) /\ forall a b, Q a b -> stored (as_A s) a b.
Lemma ready_sadd s0 s s' Q g h : ready s0 s Q -> sadd s s' g h -> ready s0 s' Q.
Proof.
  intros (R1 & R2 & R3 & R4 & R5 & R6 & R7) (E1 & E2 & E3 & E4 & MA & L & B). split; [congruence|]. split; [congruence|]. split; [congruence|]. split; [congruence|]. split; [congruence|]. split; [apply MA|]. intros a b Hab. apply MA. apply R7. exact Hab.
Qed.
Lemma sfold {A} (step : asm -> A -> res asm) (g : A -> Z -> Z -> R) (h : A -> Z -> R) s0 Q l :
  (forall s x, In x l -> ready s0 s Q -> exists s', step s x = Ok s' /\ sadd s s' (g x) (h x)) ->
  forall s, ready s0 s Q -> exists s', foldM step l s = Ok s' /\ sadd s s' (fun a b => Rsum (map (fun x => g x a b) l)) (fun a => Rsum (map (fun x => h x a) l)).
Proof.
  induction l as [|x l IH]; intros H s RD; cbn [foldM].
  - exists s. split; [reflexivity|]. apply sadd_zero; [apply RD|reflexivity|reflexivity].
  - destruct (H s x (or_introl eq_refl) RD) as (s1 & E1 & A1). rewrite E1. cbn [bind]. destruct (IH (fun s y Hy => H s y (or_intror Hy)) s1 (ready_sadd _ _ _ _ _ _ RD A1)) as (s2 & E2 & A2).
    exists s2. split; [exact E2|]. eapply sadd_ext; [| |exact (sadd_trans _ _ _ _ _ _ _ A1 A2)]; intros; cbn [map]; rewrite Rsum_cons; reflexivity.
Qed.

Section Cells.
Variables (dim nodes neq : Z) (M : mpcmap) (eqn : list Z).
Hypothesis HD : 0 < dim.
Hypothesis LEN : zlen eqn = nodes * dim.
Hypothesis RNG : forall d q, zget eqn d = Some q -> -1 <= q < neq.
Hypothesis MR : forall k x c, couples dim M k x c -> 0 <= x < nodes * dim.
Lemma eq_of_get d : 0 <= d < nodes * dim -> rget eqn d = Ok (eq_of eqn d) /\ -1 <= eq_of eqn d < neq.
Proof using LEN RNG. clear MR. intros H. unfold eq_of. destruct (rget_range eqn d) as (q & E & E'); [lia|]. rewrite E, E'. split; [reflexivity|]. apply (RNG d). exact E'. Qed.
Lemma dof_eqs_ok n l : 0 <= n < nodes -> 0 <= l < dim -> exists es, dof_eqs dim M eqn n l = Ok es /\
  (forall f, Rsum (map (fun x => if fst x =? f then snd x else 0%R) es) = trans dim M eqn (n * dim + l) f) /\
  (forall x, In x es -> -1 <= fst x < neq) /\ forall e, (exists x, In x es /\ fst x = e) <-> acts dim M eqn (n * dim + l) e.
Proof using HD LEN RNG MR.
  intros Hn Hl. assert (0 <= n * dim + l < nodes * dim) as Hd by nia. unfold dof_eqs, get_mpc, trans, acts. destruct (mm_find M (n * dim + l)) as [p|] eqn:Ep.
  - assert (forall m, In m (mp_master p) -> 0 <= dof_key dim m < nodes * dim) as Hm by (intros m Hm; apply (MR (n * dim + l) _ (md_coeff m)); exists p, m; tauto).
    exists (map (fun m => (eq_of eqn (dof_key dim m), md_coeff m)) (mp_master p)). split.
    + apply mapM_all_Ok. intros m Hi. rewrite (proj1 (eq_of_get _ (Hm m Hi))). reflexivity.
    + split; [intros f; rewrite map_map; reflexivity|]. split.
      * intros x Hx. apply in_map_iff in Hx. destruct Hx as (m & <- & Hi). apply (eq_of_get _ (Hm m Hi)).
      * intros e. split; [intros (x & Hx & <-); apply in_map_iff in Hx; destruct Hx as (m & <- & Hi); exists m; tauto|]. intros (m & Hi & <-). eexists. split; [apply in_map_iff; exists m; split; [reflexivity|exact Hi]|reflexivity].
  - exists [(eq_of eqn (n * dim + l), 1%R)]. rewrite (proj1 (eq_of_get _ Hd)). split; [reflexivity|]. split; [intros f; cbn [map]; rewrite Rsum_cons, Rsum_nil; cbn [fst snd]; destruct (_ =? f); ring|]. split; [intros x [<-|[]]; apply (eq_of_get _ Hd)|].
    intros e. split; [intros (x & [<-|[]] & <-); reflexivity|]. intros <-. eexists. split; [left; reflexivity|reflexivity].
Qed.
(* a cell *)
Variable verts : list Z.
Hypothesis VR : forall n, In n verts -> 0 <= n < nodes.
Definition cell_acts (e : Z) : Prop := exists a, 0 <= a < zlen verts * dim /\ acts dim M eqn (cell_dof dim verts a) e.
Lemma cell_acts_alt e : cell_acts e <-> exists n l, In n verts /\ 0 <= l < dim /\ acts dim M eqn (n * dim + l) e.
Proof using HD. clear LEN RNG MR VR.
  unfold cell_acts, cell_dof. split.
  - intros (a & Ha & H). destruct (dof_split dim (zlen verts) a HD Ha) as (H1 & H2 & H3). destruct (zget_in_range verts (a / dim) H1) as (n & En). rewrite En in H. exists n, (a mod dim). split; [eapply zget_In; exact En|]. tauto.
  - intros (n & l & Hn & Hl & H). apply In_zget in Hn. destruct Hn as (j & Hj & En). exists (j * dim + l). destruct (divmod dim j l Hl) as [D1 D2]. rewrite D1, D2, En. split; [nia|exact H].
Qed.
Lemma node_adjacency_ok row adj : -1 <= row < neq -> wf_adj adj neq -> exists adj', node_adjacency dim M eqn verts row adj = Ok adj' /\ wf_adj adj' neq /\
  forall a b, padj adj' a b <-> padj adj a b \/ (a = row /\ 0 <= row /\ 0 <= b /\ cell_acts b).
Proof.
  intros Hr W. unfold node_adjacency. destruct (Z.eqb_spec row (-1)) as [->|Nr].
  - exists adj. split; [reflexivity|]. split; [exact W|]. intros a b. intuition lia.
  - destruct (grow (fun adj n => foldM (fun adj l =>
      let* es := dof_eqs dim M eqn n l in
      foldM (fun adj e => if fst e =? -1 then Ok adj else adj_insert adj (row, fst e)) es adj) (zrange 0 dim) adj)
      (fun n a b => exists l, In l (zrange 0 dim) /\ a = row /\ 0 <= b /\ acts dim M eqn (n * dim + l) b) neq verts) with (adj := adj) as (adj' & E & W' & P'); [|exact W|].
    + intros ad n Hn Wa. apply (grow _ (fun l a b => a = row /\ 0 <= b /\ acts dim M eqn (n * dim + l) b)); [|exact Wa].
      clear ad Wa. intros ad l Hl Wa. apply In_zrange in Hl. destruct (dof_eqs_ok n l (VR n Hn) Hl) as (es & Ee & _ & Hes & Hac). rewrite Ee. cbn [bind].
      destruct (grow (fun adj e => if fst e =? -1 then Ok adj else adj_insert adj (row, fst e)) (fun (e : Z * R) a b => a = row /\ b = fst e /\ 0 <= fst e) neq es) with (adj := ad) as (ad' & E & W' & P').
      * clear ad Wa. intros ad x Hx Wa. specialize (Hes x Hx). destruct (Z.eqb_spec (fst x) (-1)) as [Ex|Nx].
        -- exists ad. split; [reflexivity|]. split; [exact Wa|]. intros a b. intuition lia.
        -- destruct (adj_insert_ok ad neq row (fst x) Wa ltac:(lia)) as (ad' & E & W' & P'). exists ad'. split; [exact E|]. split; [exact W'|]. intros a b. rewrite P'. intuition lia.
      * exact Wa.
      * exists ad'. split; [exact E|]. split; [exact W'|]. intros a b. rewrite P'. rewrite <- Hac. split; (intros [Q|Q]; [now left|right]).
        -- destruct Q as (x & Hx & -> & -> & H0). split; [reflexivity|]. split; [exact H0|]. exists x. tauto.
        -- destruct Q as (-> & H0 & x & Hx & <-). exists x. tauto.
    + exists adj'. split; [exact E|]. split; [exact W'|]. intros a b. rewrite P', cell_acts_alt. split; (intros [Q|Q]; [now left|right]).
      * destruct Q as (n & Hn & l & Hl & -> & H0 & Ha). apply In_zrange in Hl. split; [reflexivity|]. split; [lia|]. split; [exact H0|]. exists n, l. tauto.
      * destruct Q as (-> & _ & H0 & n & l & Hn & Hl & Ha). exists n. split; [exact Hn|]. exists l. rewrite In_zrange. tauto.
Qed.
Lemma cell_adjacency_ok adj : wf_adj adj neq -> exists adj', foldM (fun adj n => foldM (fun adj k =>
      let* es := dof_eqs dim M eqn n k in
      foldM (fun adj e => node_adjacency dim M eqn verts (fst e) adj) es adj) (zrange 0 dim) adj) verts adj = Ok adj' /\ wf_adj adj' neq /\
  forall a b, padj adj' a b <-> padj adj a b \/ (0 <= a /\ 0 <= b /\ cell_acts a /\ cell_acts b).
Proof.
  intros W. destruct (grow (fun adj n => foldM (fun adj k =>
      let* es := dof_eqs dim M eqn n k in
      foldM (fun adj e => node_adjacency dim M eqn verts (fst e) adj) es adj) (zrange 0 dim) adj)
      (fun n a b => exists l, In l (zrange 0 dim) /\ 0 <= a /\ acts dim M eqn (n * dim + l) a /\ 0 <= b /\ cell_acts b) neq verts) with (adj := adj) as (adj' & E & W' & P'); [|exact W|].
  - intros ad n Hn Wa. apply (grow _ (fun l a b => 0 <= a /\ acts dim M eqn (n * dim + l) a /\ 0 <= b /\ cell_acts b)); [|exact Wa].
    clear ad Wa. intros ad l Hl Wa. apply In_zrange in Hl. destruct (dof_eqs_ok n l (VR n Hn) Hl) as (es & Ee & _ & Hes & Hac). rewrite Ee. cbn [bind].
    destruct (grow (fun adj e => node_adjacency dim M eqn verts (fst e) adj) (fun (e : Z * R) a b => a = fst e /\ 0 <= fst e /\ 0 <= b /\ cell_acts b) neq es) with (adj := ad) as (ad' & E & W' & P').
    + clear ad Wa. intros ad x Hx Wa. apply node_adjacency_ok; [apply Hes; exact Hx|exact Wa].
    + exact Wa.
    + exists ad'. split; [exact E|]. split; [exact W'|]. intros a b. rewrite P'. rewrite <- Hac. split; (intros [Q|Q]; [now left|right]).
      * destruct Q as (x & Hx & -> & H0 & H1 & H2). split; [exact H0|]. split; [exists x; tauto|tauto].
      * destruct Q as (H0 & (x & Hx & <-) & H1 & H2). exists x. tauto.
  - exists adj'. split; [exact E|]. split; [exact W'|]. intros a b. rewrite P', (cell_acts_alt a). split; (intros [Q|Q]; [now left|right]).
    + destruct Q as (n & Hn & l & Hl & H0 & Ha & H1 & H2). apply In_zrange in Hl. split; [exact H0|]. split; [exact H1|]. split; [exists n, l; tauto|exact H2].
    + destruct Q as (H0 & H1 & (n & l & Hn & Hl & Ha) & H2). exists n. split; [exact Hn|]. exists l. rewrite In_zrange. tauto.
Qed.

(* ---- one row *)
Definition delta (row e : Z) : R := if row =? e then 1%R else 0%R.
Lemma terms_sum (es : list (Z * R)) (w : R) f : Rsum (map (fun x => if f =? fst x then (w * snd x)%R else 0%R) es) = (w * Rsum (map (fun x => if fst x =? f then snd x else 0%R) es))%R.
Proof. rewrite <- Rsum_map_scale. apply Rsum_map_ext. intros x _. rewrite (Z.eqb_sym f). destruct (fst x =? f); ring. Qed.
Variable s0 : asm.
Hypothesis SM : as_mpcs s0 = M.
Hypothesis SE : as_meqn s0 = eqn.
Hypothesis SN : as_neq s0 = neq.
Definition Q (a b : Z) : Prop := 0 <= a /\ 0 <= b /\ cell_acts a /\ cell_acts b.
Lemma row_matrix_ok row erow (K : Z -> Z -> R) scale m : 0 <= row < neq -> cell_acts row -> wf_smat m -> (forall a b, Q a b -> stored m a b) ->
  exists m', foldM (fun A j => let* n := rget verts j in
            foldM (fun A l =>
                let* es := dof_eqs dim M eqn n l in
                foldM (fun A e => if fst e =? -1 then Ok A else sm_upd A row (fst e) (fun x => (x + scale * snd e * K erow (j * dim + l)%Z)%R)) es A)
              (zrange 0 dim) A)
          (zrange 0 (zlen verts)) m = Ok m' /\
    madd m m' (fun e f => delta row e * scale * Sum (zlen verts * dim) (fun b => K erow b * trans dim M eqn (cell_dof dim verts b) f))%R.
Proof.
  intros Hr Ha W HQ. destruct (mfold (fun A j => let* n := rget verts j in
            foldM (fun A l =>
                let* es := dof_eqs dim M eqn n l in
                foldM (fun A e => if fst e =? -1 then Ok A else sm_upd A row (fst e) (fun x => (x + scale * snd e * K erow (j * dim + l)%Z)%R)) es A)
              (zrange 0 dim) A)
      (fun j e f => Sum dim (fun l => delta row e * scale * (K erow (j * dim + l)%Z * trans dim M eqn (cell_dof dim verts (j * dim + l)) f))%R) Q (zrange 0 (zlen verts))) with (m := m) as (m' & E & A'); [|exact W|exact HQ|].
  - clear m W HQ. intros m j Hj W HQ. apply In_zrange in Hj. destruct (zget_in_range verts j Hj) as (n & En). rewrite (proj2 (rget_Ok _ _ _) En). cbn [bind]. pose proof (VR n (zget_In _ _ _ En)) as Hn.
    destruct (mfold (fun A l =>
                let* es := dof_eqs dim M eqn n l in
                foldM (fun A e => if fst e =? -1 then Ok A else sm_upd A row (fst e) (fun x => (x + scale * snd e * K erow (j * dim + l)%Z)%R)) es A)
      (fun l e f => delta row e * scale * (K erow (j * dim + l)%Z * trans dim M eqn (n * dim + l) f))%R Q (zrange 0 dim)) with (m := m) as (m' & E & A'); [|exact W|exact HQ|].
    + clear m W HQ. intros m l Hl W HQ. apply In_zrange in Hl. destruct (dof_eqs_ok n l Hn Hl) as (es & Ee & Ht & Hes & Hac). rewrite Ee. cbn [bind].
      destruct (mfold (fun A e => if fst e =? -1 then Ok A else sm_upd A row (fst e) (fun x => (x + scale * snd e * K erow (j * dim + l)%Z)%R))
        (fun (x : Z * R) e f => if f =? fst x then (delta row e * scale * K erow (j * dim + l)%Z * snd x)%R else 0%R) Q es) with (m := m) as (m' & E & A'); [|exact W|exact HQ|].
      * clear m W HQ. intros m x Hx W HQ. specialize (Hes x Hx). destruct (Z.eqb_spec (fst x) (-1)) as [Ex|Nx].
        -- exists m. split; [reflexivity|]. apply madd_zero; [exact W|]. intros a b _ Hb. destruct (Z.eqb_spec b (fst x)); [lia|reflexivity].
        -- assert (stored m row (fst x)) as St.
           { apply HQ. split; [lia|]. split; [lia|]. split; [exact Ha|]. apply cell_acts_alt. exists n, l. split; [eapply zget_In; exact En|]. split; [exact Hl|]. apply Hac. exists x. tauto. }
           destruct (sm_upd_ok m row (fst x) (fun y => (y + scale * snd x * K erow (j * dim + l)%Z)%R) W St) as (m' & E & W' & D' & S' & C'). exists m'. split; [exact E|]. split; [exact W'|]. split; [exact D'|]. split; [exact S'|].
           intros a b _ _. rewrite C'. unfold delta. rewrite (Z.eqb_sym row a). destruct (Z.eqb_spec a row) as [->|Na]; destruct (Z.eqb_spec b (fst x)) as [->|Nb]; cbn [andb]; ring.
      * exists m'. split; [exact E|]. eapply madd_ext; [|exact A']. intros e f _ _. cbv beta. rewrite terms_sum, Ht. ring.
    + exists m'. split; [exact E|]. eapply madd_ext; [|exact A']. intros e f _ _. cbv beta. unfold Sum. apply Rsum_map_ext. intros l Hl. apply In_zrange in Hl. unfold cell_dof. destruct (divmod dim j l Hl) as [D1 D2]. rewrite D1, D2, En. reflexivity.
  - exists m'. split; [exact E|]. eapply madd_ext; [|exact A']. intros e f _ _. cbv beta. change (Rsum (map (fun j => Sum dim (fun l => (delta row e * scale * (K erow (j * dim + l)%Z * trans dim M eqn (cell_dof dim verts (j * dim + l)) f))%R)) (zrange 0 (zlen verts))))
      with (Sum (zlen verts) (fun j => Sum dim (fun l => (fun b => (delta row e * scale * (K erow b * trans dim M eqn (cell_dof dim verts b) f))%R) (j * dim + l)))).
    rewrite Sum_flat; [|apply zlen_nonneg|lia]. rewrite <- Sum_scal. reflexivity.
Qed.
Lemma add_dof_ok s row erow K Sv scale : ready s0 s Q -> -1 <= row < neq -> (0 <= row -> cell_acts row) ->
  exists s', add_dof dim s row erow K Sv verts scale = Ok s' /\
    sadd s s' (fun e f => delta row e * scale * Sum (zlen verts * dim) (fun b => kval K erow b * trans dim M eqn (cell_dof dim verts b) f))%R (fun e => delta row e * scale * sval Sv erow)%R.
Proof.
  intros (R1 & R2 & R3 & R4 & R5 & R6 & R7) Hr Ha. unfold add_dof. destruct (Z.eqb_spec row (-1)) as [->|Nr].
  - exists s. split; [reflexivity|]. apply sadd_zero; [exact R6| |]; intros; unfold delta; destruct (Z.eqb_spec (-1) a); try lia; ring.
  - rewrite R1, R3, SM, SE.
    assert (exists m', match K with
    | None => Ok (as_A s)
    | Some K =>
        foldM (fun A j => let* n := rget verts j in
            foldM (fun A l =>
                let* es := dof_eqs dim M eqn n l in
                foldM (fun A e => if fst e =? -1 then Ok A else sm_upd A row (fst e) (fun x => (x + scale * snd e * K erow (j * dim + l)%Z)%R)) es A)
              (zrange 0 dim) A)
          (zrange 0 (zlen verts)) (as_A s)
    end = Ok m' /\ madd (as_A s) m' (fun e f => delta row e * scale * Sum (zlen verts * dim) (fun b => kval K erow b * trans dim M eqn (cell_dof dim verts b) f))%R) as (m' & Em & Am).
    { destruct K as [K|].
      - apply (row_matrix_ok row erow K scale (as_A s)); [lia|apply Ha; lia|exact R6|exact R7].
      - exists (as_A s). split; [reflexivity|]. apply madd_zero; [exact R6|]. intros a b _ _. cbn [kval]. rewrite Sum_zero; [ring|intros; ring]. }
    rewrite Em. cbn [bind]. destruct Sv as [f|].
    + rewrite rget_at by lia. cbn [bind]. destruct (rset_exists (as_b s) row (nthR (as_b s) row + scale * f erow)%R) as (b' & Eb & _); [lia|]. rewrite Eb. cbn [bind]. destruct (rset_nthR _ _ _ _ Eb) as (L & _ & G & _).
      eexists. split; [reflexivity|]. unfold sadd. cbn [as_mpcs as_fixed as_meqn as_neq as_A as_b]. split; [congruence|]. split; [reflexivity|]. split; [congruence|]. split; [reflexivity|]. split; [exact Am|]. split; [exact L|].
      intros e _. rewrite G. cbn [sval]. unfold delta. rewrite (Z.eqb_sym row e). destruct (Z.eqb_spec e row) as [->|Ne]; ring.
    + cbn [bind]. eexists. split; [reflexivity|]. unfold sadd. cbn [as_mpcs as_fixed as_meqn as_neq as_A as_b]. split; [congruence|]. split; [reflexivity|]. split; [congruence|]. split; [reflexivity|]. split; [exact Am|]. split; [reflexivity|].
      intros e _. cbn [sval]. ring.
Qed.
(* a node all of whose dofs are fixed has no equations and no constraints *)
Hypothesis FIX : forall n d v l, fx_find (as_fixed s0) n = Some (d, v) -> d = 7 -> In n verts -> 0 <= l < dim -> mm_find M (n * dim + l) = None /\ eq_of eqn (n * dim + l) = -1.
Lemma add_element_ok s K Sv : ready s0 s Q -> exists s', add_element dim s K Sv verts = Ok s' /\
  sadd s s' (fun e f => Sum (zlen verts * dim) (fun a => Sum (zlen verts * dim) (fun b => trans dim M eqn (cell_dof dim verts a) e * kval K a b * trans dim M eqn (cell_dof dim verts b) f)))%R
    (fun e => Sum (zlen verts * dim) (fun a => trans dim M eqn (cell_dof dim verts a) e * sval Sv a))%R.
Proof.
  intros RD. set (row := fun a f => Sum (zlen verts * dim) (fun b => kval K a b * trans dim M eqn (cell_dof dim verts b) f)%R).
  set (G := fun a e f => (trans dim M eqn (cell_dof dim verts a) e * row a f)%R). set (H := fun a e => (trans dim M eqn (cell_dof dim verts a) e * sval Sv a)%R).
  destruct (sfold (fun s i => let* n := rget verts i in
      if match fx_find (as_fixed s) n with Some (d, _) => d =? 7 | None => false end then Ok s else
      foldM (fun s k =>
          let* es := dof_eqs dim (as_mpcs s) (as_meqn s) n k in
          foldM (fun s e => add_dof dim s (fst e) (i * dim + k) K Sv verts (snd e)) es s) (zrange 0 dim) s)
      (fun i e f => Sum dim (fun k => G (i * dim + k) e f)) (fun i e => Sum dim (fun k => H (i * dim + k) e)) s0 Q (zrange 0 (zlen verts))) with (s := s) as (s' & E & A'); [|exact RD|].
  - clear s RD. intros s i Hi RD. apply In_zrange in Hi. destruct (zget_in_range verts i Hi) as (n & En). rewrite (proj2 (rget_Ok _ _ _) En). cbn [bind]. pose proof (zget_In _ _ _ En) as Hin. pose proof (VR n Hin) as Hn.
    assert (forall k, 0 <= k < dim -> cell_dof dim verts (i * dim + k) = n * dim + k) as CD by (intros k Hk; unfold cell_dof; destruct (divmod dim i k Hk) as [D1 D2]; rewrite D1, D2, En; reflexivity).
    destruct (match fx_find (as_fixed s) n with Some (d, _) => d =? 7 | None => false end) eqn:EF.
    + exists s. split; [reflexivity|]. destruct (fx_find (as_fixed s) n) as [[d v]|] eqn:Ef; [|discriminate]. apply Z.eqb_eq in EF. destruct RD as (R1 & R2 & R3 & R4 & R5 & R6 & R7). rewrite R2 in Ef.
      assert (forall k e, 0 <= k < dim -> 0 <= e -> trans dim M eqn (cell_dof dim verts (i * dim + k)) e = 0%R) as TZ.
      { intros k e Hk He. rewrite CD by exact Hk. destruct (FIX n d v k Ef EF Hin Hk) as [F1 F2]. unfold trans. rewrite F1, F2. destruct (Z.eqb_spec (-1) e); [lia|reflexivity]. }
      apply sadd_zero; [exact R6| |]; intros; apply Sum_zero; intros k Hk; unfold G, H; rewrite TZ by assumption; ring.
    + destruct (sfold (fun s k =>
          let* es := dof_eqs dim (as_mpcs s) (as_meqn s) n k in
          foldM (fun s e => add_dof dim s (fst e) (i * dim + k) K Sv verts (snd e)) es s)
        (fun k e f => G (i * dim + k) e f) (fun k e => H (i * dim + k) e) s0 Q (zrange 0 dim)) with (s := s) as (s' & E & A'); [|exact RD|].
      * clear s RD EF. intros s k Hk RD. apply In_zrange in Hk. pose proof RD as (R1 & R2 & R3 & R4 & R5 & R6 & R7). rewrite R1, R3, SM, SE. destruct (dof_eqs_ok n k Hn Hk) as (es & Ee & Ht & Hes & Hac). rewrite Ee. cbn [bind].
        destruct (sfold (fun s e => add_dof dim s (fst e) (i * dim + k) K Sv verts (snd e))
          (fun (x : Z * R) e f => (delta (fst x) e * snd x * row (i * dim + k)%Z f)%R) (fun (x : Z * R) e => (delta (fst x) e * snd x * sval Sv (i * dim + k)%Z)%R) s0 Q es) with (s := s) as (s' & E & A'); [|exact RD|].
        -- clear s RD R1 R2 R3 R4 R5 R6 R7. intros s x Hx RD. apply add_dof_ok; [exact RD|apply Hes; exact Hx|]. intros _. apply cell_acts_alt. exists n, k. split; [exact Hin|]. split; [exact Hk|]. apply Hac. exists x. tauto.
        -- exists s'. split; [exact E|]. eapply sadd_ext; [| |exact A']; intros; cbv beta; unfold G, H; rewrite CD by exact Hk; rewrite <- Ht; rewrite <- Rsum_map_scale_r; apply Rsum_map_ext; intros x _; unfold delta; destruct (fst x =? a); ring.
      * exists s'. split; [exact E|]. exact A'.
  - exists s'. split; [exact E|]. eapply sadd_ext; [| |exact A']; intros; cbv beta.
    + change (Rsum (map (fun i => Sum dim (fun k => G (i * dim + k) a b)) (zrange 0 (zlen verts)))) with (Sum (zlen verts) (fun i => Sum dim (fun k => (fun c => G c a b) (i * dim + k)))). rewrite Sum_flat; [|apply zlen_nonneg|lia].
      apply Sum_ext. intros c _. unfold G, row. rewrite <- Sum_scal. apply Sum_ext. intros; ring.
    + change (Rsum (map (fun i => Sum dim (fun k => H (i * dim + k) a)) (zrange 0 (zlen verts)))) with (Sum (zlen verts) (fun i => Sum dim (fun k => (fun c => H c a) (i * dim + k)))). rewrite Sum_flat; [|apply zlen_nonneg|lia]. reflexivity.
Qed.
End Cells.
