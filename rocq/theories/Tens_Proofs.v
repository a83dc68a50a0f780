From Verif Require Import BaseFacts RBaseFacts Lin_Facts Steady_Proofs Euler_Proofs2 Impl_Proofs Matx_Proofs Hnum_Proofs Hyb_Proofs Hyb_Proofs2 Hyb_Proofs3 Hyb_Proofs4 Hyb_Proofs5 Hyb_Proofs6 Hyb_Proofs7 Eld_Proofs2 Tens_Spec.
From Verif Require Ieul_Proofs4 Impl_Proofs5.
Open Scope Z_scope.

(* ---- sums over the half faces of a grid ---- *)
Definition halves (g : list hcell) : list (Z * Z) := List.concat (map (fun k => map (fun r => (k, r)) (zrange 0 (nfaces g k))) (zrange 0 (zlen g))).
Lemma In_halves g k r : In (k, r) (halves g) <-> half g k r.
Proof.
  unfold halves. rewrite in_concat. split.
  - intros (l & Hl & Hi). apply in_map_iff in Hl. destruct Hl as (k' & <- & Hk). apply in_map_iff in Hi. destruct Hi as (r' & E & Hr). injection E as -> ->. apply In_zrange in Hk, Hr. split; assumption.
  - intros (Hk & Hr). exists (map (fun r => (k, r)) (zrange 0 (nfaces g k))). split; [apply in_map_iff; exists k; split; [reflexivity|apply In_zrange; exact Hk]|apply in_map_iff; exists r; split; [reflexivity|apply In_zrange; exact Hr]].
Qed.
Lemma NoDup_concat_keys {A B} (h : A -> list B) (key : B -> A) l : NoDup l -> (forall a, In a l -> NoDup (h a) /\ forall b, In b (h a) -> key b = a) -> NoDup (List.concat (map h l)).
Proof.
  induction l as [|a l IH]; intros ND H; [constructor|]. inversion ND as [|? ? Nin ND']; subst. cbn [map List.concat]. destruct (H a (or_introl eq_refl)) as (Na & Ka). apply NoDup_app'; [exact Na|apply IH; [exact ND'|intros a' Ha'; apply H; right; exact Ha']|].
  intros b Hb Hb'. apply in_concat in Hb'. destruct Hb' as (m & Hm & Hbm). apply in_map_iff in Hm. destruct Hm as (a' & <- & Ha'). destruct (H a' (or_intror Ha')) as (_ & Ka'). apply Nin. rewrite <- (Ka b Hb), (Ka' b Hbm). exact Ha'.
Qed.
Lemma NoDup_halves g : NoDup (halves g).
Proof.
  apply (NoDup_concat_keys _ fst); [apply zrange_NoDup|]. intros k _. split; [apply Impl_Proofs5.NoDup_map_inj; [apply zrange_NoDup|intros x y _ _ E; congruence]|]. intros b Hb. apply in_map_iff in Hb. destruct Hb as (r & <- & _). reflexivity.
Qed.
Lemma Rsum_concat (ls : list (list R)) : Rsum (List.concat ls) = Rsum (map Rsum ls).
Proof. induction ls as [|l ls IH]; [reflexivity|]. cbn [List.concat map]. rewrite Rsum_app, Rsum_cons, IH. reflexivity. Qed.
Lemma S2_halves g f : S2 g f = Rsum (map (fun p => f (fst p) (snd p)) (halves g)).
Proof.
  unfold S2, Sum, halves. rewrite concat_map, Rsum_concat, !map_map. f_equal. apply map_ext. intros k. rewrite map_map. reflexivity.
Qed.
(* terms that cancel in pairs *)
Lemma cancel {A} (L : list A) (J : A -> A -> Prop) (f : A -> R) : NoDup L -> (forall x, In x L -> exists y, In y L /\ J x y) -> (forall x y, In x L -> In y L -> J x y -> J y x) -> (forall x y z, In x L -> J x y -> J x z -> y = z) ->
  (forall x y, In x L -> J x y -> f y = (- f x)%R) -> Rsum (map f L) = 0%R.
Proof.
  intros ND Tot Sy Fu Op.
  assert (F : exists L', Forall2 (fun x y => In y L /\ J x y) L L').
  { assert (G : forall M, (forall x, In x M -> In x L) -> exists L', Forall2 (fun x y => In y L /\ J x y) M L').
    { induction M as [|x M IH]; intros H; [exists []; constructor|]. destruct (Tot x (H x (or_introl eq_refl))) as (y & Hy). destruct IH as (L' & HL); [intros z Hz; apply H; right; exact Hz|]. exists (y :: L'). constructor; assumption. }
    apply G. auto. }
  destruct F as (L' & F).
  assert (P : Permutation L' L).
  { apply NoDup_Permutation_bis.
    - assert (G : forall M M', Forall2 (fun x y => In y L /\ J x y) M M' -> (forall x, In x M -> In x L) -> NoDup M -> NoDup M').
      { induction 1 as [|x y M M' (Hy & Hj) FF IH]; intros HM NM; [constructor|]. inversion NM as [|? ? Nx NM']; subst. constructor; [|apply IH; [intros z Hz; apply HM; right; exact Hz|exact NM']].
        intros Hin. apply Nx. assert (exists z, In z M /\ J z y) as (z & Hz & Jz).
        { clear - FF Hin. induction FF as [|a b M M' (Ha & Hb) FF IH]; [destruct Hin|]. destruct Hin as [-> |Hin]; [exists a; split; [left; reflexivity|exact Hb]|]. destruct (IH Hin) as (z & Hz & Jz). exists z. split; [right; exact Hz|exact Jz]. }
        assert (x = z) as ->; [|exact Hz]. apply (Fu y); [exact Hy| |]; apply Sy; auto; apply HM; [left; reflexivity|right; exact Hz]. }
      apply (G L L' F); auto.
    - clear - F. induction F; cbn; lia.
    - assert (G : forall M M', Forall2 (fun x y => In y L /\ J x y) M M' -> forall y, In y M' -> In y L).
      { induction 1 as [|a b M M' (Ha & Hb) FF IH]; intros y Hy; [destruct Hy|]. destruct Hy as [<- |Hy]; [exact Ha|apply IH; exact Hy]. }
      exact (G L L' F). }
  assert (E : Rsum (map f L') = (- Rsum (map f L))%R).
  { assert (G : forall M M', Forall2 (fun x y => In y L /\ J x y) M M' -> (forall x, In x M -> In x L) -> Rsum (map f M') = (- Rsum (map f M))%R).
    { induction 1 as [|x y M M' (Hy & Hj) FF IH]; intros HM; [cbn; rewrite Rsum_nil; ring|]. cbn [map]. rewrite !Rsum_cons, IH by (intros z Hz; apply HM; right; exact Hz). rewrite (Op x y (HM x (or_introl eq_refl)) Hj). ring. }
    apply (G L L' F); auto. }
  rewrite (Rsum_perm _ _ (Permutation_map f P)) in E. lra.
Qed.

(* ---- terms of opposite sign on joined faces ---- *)
Definition loose (g : list hcell) (bc : hbc) (k r : Z) : Prop := forall k' r', ~ joined g bc k r k' r'.
Lemma joined_or_loose g bc st k r : structured g bc st -> half g k r -> (exists k' r', joined g bc k r k' r') \/ loose g bc k r.
Proof.
  intros HS Hh. pose proof (HST g bc st HS) as ST. destruct (nbr g k r) as [c|] eqn:En.
  - left. destruct ST as ((_ & _ & Sy & _) & _). destruct (Sy k r c Hh En) as (_ & k' & r' & Hh' & <- & En'). exists k', r'. split; [exact Hh|]. split; [exact Hh'|]. left. split; assumption.
  - destruct (cond_at g bc k r) as [[p|d|q]|] eqn:Ec.
    2:{ left. destruct (partner_ex g bc _ ST k r d (conj Hh Ec)) as (k' & r' & P & _). exists k', r'. split; [exact Hh|]. split; [apply (partners_half g bc _ _ _ _ P)|right; exact P]. }
    all: right; intros k' r' (_ & _ & [(T & _)|(d1 & d2 & (_ & P) & _)]); congruence.
Qed.
Lemma odd_sum g bc st f : structured g bc st -> (forall k r k' r', joined g bc k r k' r' -> f k' r' = (- f k r)%R) -> (forall k r, half g k r -> loose g bc k r -> f k r = 0%R) -> S2 g f = 0%R.
Proof.
  intros HS Od Ze. rewrite S2_halves.
  apply (cancel _ (fun p q => joined g bc (fst p) (snd p) (fst q) (snd q) \/ (loose g bc (fst p) (snd p) /\ half g (fst p) (snd p) /\ q = p)) _ (NoDup_halves g)).
  - intros (k & r) Hp. apply In_halves in Hp. destruct (joined_or_loose g bc st k r HS Hp) as [(k' & r' & J)|Lo].
    + exists (k', r'). split; [apply In_halves; apply J|left; exact J].
    + exists (k, r). split; [apply In_halves; exact Hp|right; auto].
  - intros (k & r) (k' & r') Hp Hq [J|(Lo & Hh & E)]; [left; apply (joined_sym g bc st HS); exact J|right; injection E as -> ->; auto].
  - intros (k & r) (k' & r') (k2 & r2) Hp [J|(Lo & Hh & E)] [J2|(Lo2 & Hh2 & E2)]; cbn [fst snd] in *.
    + destruct (joined_fun g bc st HS _ _ _ _ _ _ J J2) as (-> & ->). reflexivity.
    + destruct (Lo2 _ _ J).
    + destruct (Lo _ _ J2).
    + congruence.
  - intros (k & r) (k' & r') Hp [J|(Lo & Hh & E)]; cbn [fst snd] in *; [apply Od; exact J|]. injection E as -> ->. rewrite (Ze k r Hh Lo). ring.
Qed.
(* summation by parts *)
Lemma green g bc st (v l D : Z -> Z -> R) (p : Z -> R) : structured g bc st ->
  (forall k, 0 <= k < zlen g -> Sum (nfaces g k) (v k) = 0%R) ->
  (forall k r k' r', joined g bc k r k' r' -> (v k' r' * (l k' r' - D k' r'))%R = (- (v k r * (l k r - D k r)))%R) ->
  (forall k r, half g k r -> loose g bc k r -> (v k r * (l k r - D k r))%R = 0%R) ->
  S2 g (fun k r => v k r * (p k - l k r))%R = (- S2 g (fun k r => v k r * D k r))%R.
Proof.
  intros HS Cn Od Ze. pose proof (odd_sum g bc st (fun k r => v k r * (l k r - D k r))%R HS Od Ze) as E.
  assert (E0 : S2 g (fun k r => v k r * p k)%R = 0%R). { unfold S2. apply Sum_zero. intros k Hk. rewrite Sum_scal_r, (Cn k Hk). ring. }
  rewrite (S2_ext g (fun k r => v k r * (p k - l k r))%R (fun k r => v k r * p k - (v k r * (l k r - D k r) + v k r * D k r))%R) by (intros; ring).
  rewrite S2_minus, S2_plus, E0, E. ring.
Qed.
(* ---- the energy product of two fields of pressure drops ---- *)
Section Energy.
Variables (g : list hcell) (ip : hip).
Definition force (pi : Z -> Z -> R) (k r : Z) : R := Sum (nfaces g k) (fun c => Bk g ip k r c * pi k c)%R.
Definition energy (a b : Z -> Z -> R) : R := S2 g (fun k r => force a k r * b k r)%R.
Lemma energy_sym a b : ip_spd g ip -> energy a b = energy b a.
Proof.
  intros Sp. unfold energy, S2. apply Sum_ext. intros k Hk. destruct (Sp k Hk) as (_ & Sy & _). unfold force.
  rewrite (Sum_ext _ (fun r => Sum (nfaces g k) (fun c => Bk g ip k r c * a k c) * b k r)%R (fun r => Sum (nfaces g k) (fun c => Bk g ip k r c * a k c * b k r))%R) by (intros; rewrite Sum_scal_r; reflexivity).
  rewrite Sum_swap. apply Sum_ext. intros c Hc. rewrite <- Sum_scal_r. apply Sum_ext. intros r Hr. rewrite (Sy r c Hr Hc). ring.
Qed.
Lemma energy_ext a b a' b' : (forall k r, half g k r -> a k r = a' k r) -> (forall k r, half g k r -> b k r = b' k r) -> energy a b = energy a' b'.
Proof. intros Ha Hb. apply S2_ext. intros k r Hh. rewrite (Hb k r Hh). f_equal. apply Sum_ext. intros c Hc. rewrite (Ha k c); [reflexivity|]. split; [apply Hh|exact Hc]. Qed.
Lemma force_plus a b k r : force (fun k r => a k r + b k r)%R k r = (force a k r + force b k r)%R.
Proof. unfold force. rewrite <- Sum_plus. apply Sum_ext. intros. ring. Qed.
Lemma force_scal t a k r : force (fun k r => t * a k r)%R k r = (t * force a k r)%R.
Proof. unfold force. rewrite <- Sum_scal. apply Sum_ext. intros. ring. Qed.
Lemma force_minus a b k r : force (fun k r => a k r - b k r)%R k r = (force a k r - force b k r)%R.
Proof. unfold force. rewrite <- Sum_minus. apply Sum_ext. intros. ring. Qed.
Lemma force_Sum n a k r : force (fun k r => Sum n (fun i => a i k r)) k r = Sum n (fun i => force (a i) k r).
Proof. unfold force. rewrite Sum_swap. apply Sum_ext. intros c _. rewrite <- Sum_scal. reflexivity. Qed.
Lemma energy_quad a : energy a a = Sum (zlen g) (fun k => quad (nfaces g k) (Bk g ip k) (a k)).
Proof. unfold energy, S2, quad, dot, mvec, force. apply Sum_ext. intros k _. apply Sum_ext. intros r _. ring. Qed.
Lemma quad_zero n B x : (forall i, 0 <= i < n -> x i = 0%R) -> quad n B x = 0%R.
Proof. intros H. unfold quad, dot. apply Sum_zero. intros i Hi. rewrite (H i Hi). ring. Qed.
Lemma all_zero_dec n (x : Z -> R) : (forall i, 0 <= i < n -> x i = 0%R) \/ exists i, 0 <= i < n /\ x i <> 0%R.
Proof.
  destruct (Z.ltb_spec 0 n) as [Hn|Hn]; [|left; intros; lia]. pattern n. apply (Zlt_lower_bound_ind _ 0); [|lia]. clear n Hn. intros n IH Hn. destruct (Z.eq_dec n 0) as [->|]; [left; intros; lia|].
  destruct (IH (n - 1) ltac:(lia)) as [H|(i & Hi & Hx)]; [|right; exists i; split; [lia|exact Hx]]. destruct (Req_EM_T (x (n - 1)) 0) as [E|E]; [left|right; exists (n - 1); split; [lia|exact E]]. intros i Hi. destruct (Z.eq_dec i (n - 1)) as [->|]; [exact E|apply H; lia].
Qed.
Lemma positive_nonneg n B : positive_form n B -> nonneg_form n B.
Proof. intros P x. destruct (all_zero_dec n x) as [H|H]; [rewrite (quad_zero n B x H); lra|apply Rlt_le, P, H]. Qed.
Lemma energy_nonneg a : ip_spd g ip -> (0 <= energy a a)%R.
Proof. intros Sp. rewrite energy_quad. apply Sum_nonneg. intros k Hk. destruct (Sp k Hk) as (_ & _ & P). apply (positive_nonneg _ _ P). Qed.
Lemma Sum_nonneg_zero n f : (forall i, 0 <= i < n -> (0 <= f i)%R) -> Sum n f = 0%R -> forall i, 0 <= i < n -> f i = 0%R.
Proof.
  intros Hf E i Hi. assert (Sum n (fun j => if j =? i then f i else 0)%R <= Sum n f)%R as H. { apply Sum_le. intros j Hj. destruct (Z.eqb_spec j i) as [->|]; [lra|apply Hf; exact Hj]. }
  rewrite (Sum_pick n i) in H; [rewrite Z.eqb_refl in H; specialize (Hf i Hi); lra|exact Hi|]. intros j _ Nj. destruct (Z.eqb_spec j i); [contradiction|reflexivity].
Qed.
Lemma energy_zero a : ip_spd g ip -> energy a a = 0%R -> forall k r, half g k r -> a k r = 0%R.
Proof.
  intros Sp E k r (Hk & Hr). rewrite energy_quad in E. assert (Q : quad (nfaces g k) (Bk g ip k) (a k) = 0%R).
  { apply (Sum_nonneg_zero (zlen g) (fun k => quad (nfaces g k) (Bk g ip k) (a k))); [|exact E|exact Hk]. intros j Hj. destruct (Sp j Hj) as (_ & _ & P). apply (positive_nonneg _ _ P). }
  destruct (Req_EM_T (a k r) 0) as [Z|Z]; [exact Z|]. destruct (Sp k Hk) as (_ & _ & P). assert (0 < quad (nfaces g k) (Bk g ip k) (a k))%R by (apply P; exists r; auto). lra.
Qed.
End Energy.
