(* Proofs about material loading. *)
From Verif Require Import BaseFacts RBaseFacts Mim_Proofs Rprop_Proofs3 Shape_Proofs2 Steady_Proofs Euler_Proofs2 Mload_Spec.
Open Scope Z_scope.

(* ---- moduli *)
Lemma min_at_ok l : l <> [] -> exists i, min_at l = Ok i /\ 0 <= i < zlen l /\ forall x, In x l -> (nthR l i <= x)%R.
Proof.
  destruct l as [|x0 t]; [congruence|intros _]. unfold min_at.
  assert (G : forall pre t, let l := (x0 :: pre) ++ t in forall m i, zget l i = Some m -> (forall x, In x (x0 :: pre) -> (m <= x)%R) ->
    exists i', snd (fold_left (fun st p => if Rltb (snd p) (fst st) then (snd p, fst p) else st) (combine (zrange (zlen (x0 :: pre)) (zlen l)) t) (m, i)) = i' /\
      0 <= i' < zlen l /\ forall x, In x l -> (nthR l i' <= x)%R).
  { intros pre t'. revert pre. induction t' as [|y t' IH]; intros pre l m i Ei Hm.
    - replace (combine _ _) with (@nil (Z * R)) by (destruct (zrange _ _); reflexivity). cbn [fold_left snd]. exists i. split; [reflexivity|].
      split; [apply zget_Some_range in Ei; exact Ei|]. intros x Hx. unfold l in Hx. rewrite app_nil_r in Hx. unfold nthR. rewrite Ei. exact (Hm x Hx).
    - assert (Ey : zget l (zlen (x0 :: pre)) = Some y). { unfold l. rewrite zget_app_r by lia. rewrite Z.sub_diag. reflexivity. }
      pose proof (zget_Some_range _ _ _ Ey) as Hy. rewrite zrange_cons by lia. cbn [combine fold_left fst snd].
      assert (El : l = (x0 :: pre ++ [y]) ++ t') by (unfold l; cbn; rewrite <- app_assoc; reflexivity).
      assert (Ez : zlen (x0 :: pre ++ [y]) = zlen (x0 :: pre) + 1) by (unfold zlen; cbn [length]; rewrite app_length; cbn [length]; lia).
      specialize (IH (pre ++ [y])). cbn zeta in IH. rewrite <- El, Ez in IH.
      destruct (Rltb y m) eqn:C; [apply Rltb_true in C|apply Rltb_false in C].
      + apply IH; [exact Ey|]. intros x [<-|Hx]; [specialize (Hm x0 (or_introl eq_refl)); lra|]. apply in_app_iff in Hx. destruct Hx as [Hx|[<-|[]]]; [specialize (Hm x (or_intror Hx)); lra|lra].
      + apply IH; [exact Ei|]. intros x [<-|Hx]; [exact (Hm x0 (or_introl eq_refl))|]. apply in_app_iff in Hx. destruct Hx as [Hx|[<-|[]]]; [exact (Hm x (or_intror Hx))|lra]. }
  destruct (G [] t x0 0 eq_refl) as (i & E & Hi & Hm); [intros x [<-|[]]; lra|]. exists i. cbn [app] in *. change (zlen [x0]) with 1 in E. rewrite <- E at 1. split; [reflexivity|]. split; assumption.
Qed.
Lemma rget_nth l i : 0 <= i < zlen l -> rget l i = Ok (nthR l i).
Proof.
  intros H. destruct (zget_in_range l i H) as (x & E). rewrite (proj2 (rget_Ok _ _ _) E). unfold nthR. rewrite E. reflexivity.
Qed.
Lemma In_nthR (l : list R) x : In x l <-> exists i, 0 <= i < zlen l /\ nthR l i = x.
Proof.
  split.
  - intros H. apply In_zget in H. destruct H as (i & Hi & E). exists i. split; [exact Hi|]. unfold nthR. rewrite E. reflexivity.
  - intros (i & Hi & <-). destruct (zget_in_range l i Hi) as (y & E). unfold nthR. rewrite E. exact (zget_In _ _ _ E).
Qed.
Lemma no_auxetic_ok Emod Poiss : no_auxetic Emod Poiss = Ok (Emod, Poiss) <-> Poiss <> [] /\ forall x, In x Poiss -> (0 <= x)%R.
Proof.
  unfold no_auxetic. destruct Poiss as [|p t] eqn:Ep; [cbn; split; [discriminate|intros [H _]; congruence]|]. rewrite <- Ep.
  destruct (min_at_ok Poiss) as (i & E & Hi & Hm); [congruence|]. rewrite E. cbn [bind]. rewrite (rget_nth Poiss i Hi). cbn [bind].
  destruct (Rltb (nthR Poiss i) 0) eqn:C; [apply Rltb_true in C|apply Rltb_false in C].
  - split; [destruct (rget Emod i); discriminate|]. intros [_ H]. specialize (H _ (proj2 (In_nthR _ _) (ex_intro _ i (conj Hi eq_refl)))). lra.
  - split; [|reflexivity]. intros _. split; [congruence|]. intros x Hx. specialize (Hm x Hx). lra.
Qed.
Lemma no_auxetic_inv Emod Poiss r : no_auxetic Emod Poiss = Ok r -> r = (Emod, Poiss).
Proof.
  unfold no_auxetic. destruct (min_at Poiss) as [i| |]; cbn [bind]; try discriminate. destruct (rget Poiss i) as [nu| |]; cbn [bind]; try discriminate.
  destruct (Rltb nu 0); [destruct (rget Emod i); discriminate|]. intros [= <-]. reflexivity.
Qed.
Lemma no_auxetic_throws Emod Poiss x : zlen Poiss <= zlen Emod -> In x Poiss -> (x < 0)%R -> no_auxetic Emod Poiss = Throw.
Proof.
  intros L Hx Hneg. unfold no_auxetic. destruct (min_at_ok Poiss) as (i & E & Hi & Hm); [intros ->; destruct Hx|]. rewrite E. cbn [bind]. rewrite (rget_nth Poiss i Hi). cbn [bind].
  specialize (Hm x Hx). rewrite (proj2 (Rltb_true _ _)) by lra. rewrite (rget_nth Emod i) by lia. reflexivity.
Qed.
Lemma from_lame_ok l g : (l + g <> 0)%R -> exists E nu, from_lame l g = Ok (E, nu) /\ lame_of E nu l g.
Proof.
  intros H. unfold from_lame. rewrite !mdiv_ok by exact H. cbn [bind]. eexists _, _. split; [reflexivity|]. split; field; exact H.
Qed.
Lemma from_bulk_ok k g : (3 * k + g <> 0)%R -> exists E nu, from_bulk k g = Ok (E, nu) /\ bulk_of E nu k g.
Proof.
  intros H. unfold from_bulk. rewrite !mdiv_ok by exact H. cbn [bind]. eexists _, _. split; [reflexivity|]. split; field; exact H.
Qed.
Lemma convert_ok f (P : R -> R -> R -> R -> Prop) (D : R -> R -> Prop) a g :
  (forall x y, D x y -> exists E nu, f x y = Ok (E, nu) /\ P E nu x y) -> zlen a <= zlen g -> (forall i, 0 <= i < zlen a -> D (nthR a i) (nthR g i)) ->
  exists E nu, convert f a g = Ok (E, nu) /\ zlen E = zlen a /\ zlen nu = zlen a /\ forall i, 0 <= i < zlen a -> P (nthR E i) (nthR nu i) (nthR a i) (nthR g i).
Proof.
  intros Hf L HD. unfold convert. pose proof (zlen_nonneg a) as H0.
  assert (T : forall i, In i (zrange 0 (zlen a)) -> exists b, (let* x := rget a i in let* y := rget g i in f x y) = Ok b /\ P (fst b) (snd b) (nthR a i) (nthR g i)).
  { intros i Hi. apply In_zrange in Hi. rewrite (rget_nth a i Hi). cbn [bind]. rewrite (rget_nth g i) by lia. cbn [bind].
    destruct (Hf _ _ (HD i Hi)) as (E & nu & Ef & HP). exists (E, nu). split; assumption. }
  set (F := fun i => let* x := rget a i in let* y := rget g i in f x y) in *.
  assert (M : exists r, mapM F (zrange 0 (zlen a)) = Ok r /\ zlen r = zlen a /\ forall i, 0 <= i < zlen a -> exists b, zget r i = Some b /\ P (fst b) (snd b) (nthR a i) (nthR g i)).
  { destruct (mapM_exists F (zrange 0 (zlen a))) as (r & Er); [intros i Hi; destruct (T i Hi) as (b & Eb & _); eauto|]. exists r. split; [exact Er|].
    apply mapM_Ok in Er. pose proof (Forall2_length' _ _ _ Er) as Lr. split; [unfold zlen in *; rewrite zrange_length in Lr; lia|].
    intros i Hi. assert (Ez : zget (zrange 0 (zlen a)) i = Some i) by (rewrite zget_zrange by lia; f_equal; lia).
    destruct (Forall2_zget _ _ _ Er i i Ez) as (b & Eb & Hb). exists b. split; [exact Eb|].
    destruct (T i (proj2 (In_zrange _ _ _) Hi)) as (b' & Eb' & HP). unfold F in Hb. rewrite Eb' in Hb. injection Hb as <-. exact HP. }
  destruct M as (r & Er & Lr & Vr). rewrite Er. cbn [bind]. exists (map fst r), (map snd r). split; [reflexivity|].
  split; [unfold zlen; rewrite map_length; exact Lr|]. split; [unfold zlen; rewrite map_length; exact Lr|].
  intros i Hi. destruct (Vr i Hi) as (b & Eb & HP). unfold nthR at 1 2. rewrite !zget_map, Eb. exact HP.
Qed.
Lemma moduli_given d n E nu : dk_young d = Some E -> dk_poisson d = Some nu -> (moduli (Some d) n = Ok (E, nu) <-> nu <> [] /\ forall x, In x nu -> (0 <= x)%R) /\
  (forall r, moduli (Some d) n = Ok r -> r = (E, nu)) /\ (zlen nu <= zlen E -> (exists x, In x nu /\ (x < 0)%R) -> moduli (Some d) n = Throw).
Proof.
  intros HE Hn. unfold moduli. rewrite HE, Hn. split; [apply no_auxetic_ok|]. split; [apply no_auxetic_inv|]. intros L (x & Hx & Hneg). exact (no_auxetic_throws E nu x L Hx Hneg).
Qed.
Lemma moduli_lame d n l g : dk_young d = None \/ dk_poisson d = None -> dk_lame d = Some l -> dk_shear d = Some g -> l <> [] -> zlen l <= zlen g ->
  (forall i, 0 <= i < zlen l -> (nthR l i + nthR g i <> 0)%R) ->
  exists E nu, zlen E = zlen l /\ zlen nu = zlen l /\ (forall i, 0 <= i < zlen l -> lame_of (nthR E i) (nthR nu i) (nthR l i) (nthR g i)) /\
    ((forall x, In x nu -> (0 <= x)%R) -> moduli (Some d) n = Ok (E, nu)) /\ ((exists x, In x nu /\ (x < 0)%R) -> moduli (Some d) n = Throw).
Proof.
  intros HN Hl Hg Ne L D. destruct (convert_ok from_lame lame_of (fun x y => x + y <> 0)%R l g from_lame_ok L D) as (E & nu & C & LE & Ln & V).
  exists E, nu. split; [exact LE|]. split; [exact Ln|]. split; [exact V|].
  assert (Eq : moduli (Some d) n = no_auxetic E nu). { unfold moduli. rewrite Hl, Hg, C. destruct HN as [-> | ->]; [|destruct (dk_young d)]; reflexivity. } rewrite Eq. split.
  - intros H. apply no_auxetic_ok. split; [|exact H]. intros ->. destruct l; [congruence|]. unfold zlen in Ln. cbn [length] in Ln. lia.
  - intros (x & Hx & Hneg). apply (no_auxetic_throws E nu x); [lia|exact Hx|exact Hneg].
Qed.
Lemma moduli_bulk d n k g : dk_young d = None \/ dk_poisson d = None -> dk_lame d = None -> dk_bulk d = Some k -> dk_shear d = Some g -> k <> [] -> zlen k <= zlen g ->
  (forall i, 0 <= i < zlen k -> (3 * nthR k i + nthR g i <> 0)%R) ->
  exists E nu, zlen E = zlen k /\ zlen nu = zlen k /\ (forall i, 0 <= i < zlen k -> bulk_of (nthR E i) (nthR nu i) (nthR k i) (nthR g i)) /\
    ((forall x, In x nu -> (0 <= x)%R) -> moduli (Some d) n = Ok (E, nu)) /\ ((exists x, In x nu /\ (x < 0)%R) -> moduli (Some d) n = Throw).
Proof.
  intros HN Hl Hk Hg Ne L D. destruct (convert_ok from_bulk bulk_of (fun x y => 3 * x + y <> 0)%R k g from_bulk_ok L D) as (E & nu & C & LE & Ln & V).
  exists E, nu. split; [exact LE|]. split; [exact Ln|]. split; [exact V|].
  assert (Eq : moduli (Some d) n = no_auxetic E nu). { unfold moduli. rewrite Hl, Hk, Hg, C. destruct HN as [-> | ->]; [|destruct (dk_young d)]; reflexivity. } rewrite Eq. split.
  - intros H. apply no_auxetic_ok. split; [|exact H]. intros ->. destruct k; [congruence|]. unfold zlen in Ln. cbn [length] in Ln. lia.
  - intros (x & Hx & Hneg). apply (no_auxetic_throws E nu x); [lia|exact Hx|exact Hneg].
Qed.
(* nothing is refused or checked for these *)
Lemma moduli_perm d n E nu : dk_young d = None \/ dk_poisson d = None -> dk_shear d = None -> dk_permx d = Some E -> dk_poro d = Some nu -> moduli (Some d) n = Ok (E, nu).
Proof.
  intros HN Hs HE Hn. unfold moduli. rewrite Hs, HE, Hn. destruct HN as [-> | ->]; [|destruct (dk_young d)]; destruct (dk_lame d), (dk_bulk d); reflexivity.
Qed.
Lemma moduli_none d n : dk_young d = None \/ dk_poisson d = None -> dk_shear d = None -> dk_permx d = None \/ dk_poro d = None -> moduli (Some d) n = Throw.
Proof.
  intros HN Hs HP. unfold moduli. rewrite Hs. destruct HN as [-> | ->]; [|destruct (dk_young d)]; destruct (dk_lame d), (dk_bulk d), HP as [-> | ->]; try reflexivity; destruct (dk_permx d); reflexivity.
Qed.
Lemma scale_ok Escale Emod : Emod <> [] -> (forall x, In x Emod -> (0 < x)%R) -> (0 < Escale)%R ->
  exists Emin, scale_moduli Escale Emod = Ok (map (fun e => e * (Escale / Emin))%R Emod, Some Emin) /\ In Emin Emod /\ (forall x, In x Emod -> (Emin <= x)%R) /\
    In Escale (map (fun e => e * (Escale / Emin))%R Emod) /\ (forall x, In x (map (fun e => e * (Escale / Emin))%R Emod) -> (Escale <= x)%R).
Proof.
  intros Ne Pos He. unfold scale_moduli. rewrite (proj2 (Rltb_true _ _) He). destruct (min_at_ok Emod Ne) as (i & E & Hi & Hm). rewrite E. cbn [bind]. rewrite (rget_nth Emod i Hi). cbn [bind].
  set (mn := nthR Emod i) in *. assert (Im : In mn Emod) by (apply In_nthR; exists i; split; [exact Hi|reflexivity]). pose proof (Pos mn Im) as Pm.
  rewrite mdiv_ok by lra. cbn [bind]. exists mn. split; [reflexivity|]. split; [exact Im|]. split; [exact Hm|]. split.
  - apply in_map_iff. exists mn. split; [field; lra|exact Im].
  - intros x Hx. apply in_map_iff in Hx. destruct Hx as (e & <- & Hin). specialize (Hm e Hin).
    replace Escale with (mn * (Escale / mn))%R at 1 by (field; lra). apply Rmult_le_compat_r; [|exact Hm]. apply Rlt_le, Rdiv_lt_0_compat; lra.
Qed.
Lemma scale_off Escale Emod : (Escale <= 0)%R -> scale_moduli Escale Emod = Ok (Emod, None).
Proof.
  intros H. unfold scale_moduli. rewrite (proj2 (Rltb_false _ _)) by exact H. reflexivity.
Qed.
