From Verif Require Import BaseFacts RBaseFacts Lin_Facts Steady_Proofs Euler_Proofs2 Impl_Proofs Impl_Proofs5 Matx_Proofs Mim_Proofs Hnum_Proofs Hnum_Proofs2 Hyb_Spec Hyb_Proofs Hyb_Proofs2 Hyb_Proofs3 Hyb_Proofs4.
Open Scope Z_scope.

Lemma smax_l a b : (a <= smax a b)%R. Proof. rewrite smax_Rmax. apply Rmax_l. Qed.
Lemma smax_r a b : (b <= smax a b)%R. Proof. rewrite smax_Rmax. apply Rmax_r. Qed.
Lemma smax_cases a b : smax a b = a \/ smax a b = b. Proof. unfold smax. destruct (Rltb a b); auto. Qed.
Definition bz (k' r' k r : Z) : Z := if (k' <? k) || ((k' =? k) && (r' <? r)) then 1 else 0.
Lemma bz_before k' r' k r : bz k' r' k r = 1 /\ before k' r' k r \/ bz k' r' k r = 0 /\ ~ before k' r' k r.
Proof. unfold bz, before. destruct (Z.ltb_spec k' k), (Z.eqb_spec k' k), (Z.ltb_spec r' r); cbn [orb andb]; [left|left|left|left|left|right|right|right]; lia. Qed.
Lemma bz_next g k' r' k : half g k' r' -> bz k' r' (k + 1) 0 = bz k' r' k (nfaces g k).
Proof. intros Hh. pose proof (before_next g k' r' k Hh). destruct (bz_before k' r' (k + 1) 0) as [(-> & ?)|(-> & ?)], (bz_before k' r' k (nfaces g k)) as [(-> & ?)|(-> & ?)]; try reflexivity; exfalso; tauto. Qed.
Lemma bz_same k r : bz k r k (r + 1) = 1 /\ bz k r k r = 0.
Proof. split; [destruct (bz_before k r k (r + 1)) as [(-> & ?)|(_ & Q)]|destruct (bz_before k r k r) as [(_ & Q)|(-> & ?)]]; try reflexivity; exfalso; unfold before in Q; lia. Qed.
Lemma bz_other k' r' k r : ~ (k' = k /\ r' = r) -> bz k' r' k (r + 1) = bz k' r' k r.
Proof. intros Hn. pose proof (before_step k' r' k r). destruct (bz_before k' r' k (r + 1)) as [(-> & ?)|(-> & ?)], (bz_before k' r' k r) as [(-> & ?)|(-> & ?)]; try reflexivity; exfalso; tauto. Qed.
Lemma bz_start g k' r' : half g k' r' -> bz k' r' 0 0 = 0.
Proof. intros ((A & _) & (B & _)). destruct (bz_before k' r' 0 0) as [(_ & Q)|(-> & _)]; [exfalso; unfold before in Q; lia|reflexivity]. Qed.
Lemma bz_end g k' r' : half g k' r' -> bz k' r' (zlen g) 0 = 1.
Proof. intros Hh. destruct (bz_before k' r' (zlen g) 0) as [(-> & _)|(_ & Q)]; [reflexivity|exfalso; apply Q, before_all; exact Hh]. Qed.

Lemma rget2_at (t : list (list R)) g k r : half_table g t -> half g k r -> rget2 t k r = Ok (at2 t k r).
Proof.
  intros (L & Lr) (Hk & Hr). unfold rget2, at2. destruct (zget_in_range t k ltac:(lia)) as (w & Gw). assert (Ew : nth (Z.to_nat k) t [] = w) by (apply nth_zget; exact Gw). specialize (Lr k Hk). rewrite Ew in *.
  unfold rget at 1. rewrite Gw. cbn [bind]. apply rget_at. lia.
Qed.
Lemma rset2_at (t : list (list R)) g k r v : half_table g t -> half g k r -> exists t', rset2 t k r v = Ok t' /\ half_table g t' /\ at2 t' k r = v /\ forall k' r', half g k' r' -> ~ (k' = k /\ r' = r) -> at2 t' k' r' = at2 t k' r'.
Proof.
  intros (L & Lr) (Hk & Hr). unfold rset2. destruct (zget_in_range t k ltac:(lia)) as (w & Gw). assert (Ew : nth (Z.to_nat k) t [] = w) by (apply nth_zget; exact Gw). pose proof (Lr k Hk) as Lk. rewrite Ew in Lk.
  unfold rget. rewrite Gw. cbn [bind]. destruct (rset_exists w r v ltac:(lia)) as (w' & Er & Lw & Gr & Or). rewrite Er. cbn [bind]. destruct (rset_exists t k w' ltac:(lia)) as (t' & Et & Lt & Gt & Ot). exists t'. split; [exact Et|].
  assert (Ek : nth (Z.to_nat k) t' [] = w') by (apply nth_zget; exact Gt).
  assert (Eo : forall k', 0 <= k' < zlen g -> k' <> k -> nth (Z.to_nat k') t' [] = nth (Z.to_nat k') t []).
  { intros k' Hk' Nk. destruct (zget_in_range t k' ltac:(lia)) as (x & Gx). rewrite (nth_zget t k' x [] Gx). apply nth_zget. rewrite Ot by exact Nk. exact Gx. }
  split; [|split].
  - split; [lia|]. intros k' Hk'. destruct (Z.eq_dec k' k) as [->|Nk]; [rewrite Ek; lia|]. rewrite Eo by assumption. apply Lr. exact Hk'.
  - unfold at2. rewrite Ek. apply nthR_get. exact Gr.
  - intros k' r' (Hk' & Hr') Nn. unfold at2. destruct (Z.eq_dec k' k) as [->|Nk]; [|rewrite Eo by assumption; reflexivity]. rewrite Ek, Ew.
    destruct (zget_in_range w r' ltac:(lia)) as (x & Gx). rewrite (nthR_get w r' x Gx). apply nthR_get. rewrite Or by lia. exact Gx.
Qed.

Section Post.
Variables (g : list hcell) (bc : hbc) (st : hstruct) (nfs : Z) (cf : list (list R)).
Hypothesis HS : structured g bc st.
Notation N := (num st).
Notation total := (nm_total (hs_num st)).
Hypothesis Hnf : total <= nfs.
Hypothesis Hcf : half_table g cf.
Notation v := (at2 cf).
Lemma ST : setting g bc (hs_num st). Proof. exact (HST g bc st HS). Qed.
Lemma joined_sym k r k' r' : joined g bc k r k' r' -> joined g bc k' r' k r.
Proof. intros (A & B & [T|P]); (split; [exact B|split; [exact A|]]); [left; split; apply T|right]. apply (partners_sym g bc _ ST). exact P. Qed.
Lemma conf : conforming g. Proof. apply ST. Qed.
Lemma twins_bdry k r k' r' : twins g k r k' r' -> nbr g k r <> None. Proof. intros (E & _). congruence. Qed.
Lemma idx_inj k k' : 0 <= k < zlen g -> 0 <= k' < zlen g -> idx g k = idx g k' -> k = k'.
Proof. intros Hk Hk' E. destruct ST as (_ & _ & C & _). pose proof (C k Hk) as A. pose proof (C k' Hk') as B. rewrite E in A. congruence. Qed.
Lemma joined_fun k r k' r' k2 r2 : joined g bc k r k' r' -> joined g bc k r k2 r2 -> k' = k2 /\ r' = r2.
Proof.
  intros (A & B & J) (_ & B2 & J2). destruct J as [T|P], J2 as [T2|P2].
  - assert (Ei : idx g k' = idx g k2) by (destruct T as (X & _), T2 as (Y & _); congruence). pose proof (idx_inj _ _ (proj1 B) (proj1 B2) Ei). subst k2. split; [reflexivity|]. destruct conf as (_ & _ & _ & U). apply (U k' r' r2 (idx g k) B B2); [apply T|apply T2].
  - exfalso. apply (twins_bdry _ _ _ _ T). apply (partners_half g bc) in P2. apply P2.
  - exfalso. apply (twins_bdry _ _ _ _ T2). apply (partners_half g bc) in P. apply P.
  - exact (partners_fun g bc _ ST _ _ _ _ _ _ P P2).
Qed.
Lemma joined_diff k r k' r' : joined g bc k r k' r' -> ~ (k = k' /\ r = r').
Proof.
  intros (A & B & [T|P]) (-> & ->).
  - destruct conf as (_ & _ & C & _). destruct T as (E & _). destruct (C k' r' _ A E) as (Q & _). apply Q. reflexivity.
  - apply (partners_num g bc _ ST _ _ _ _ P). reflexivity.
Qed.
Definition touches (h h' : Z * Z) (n : Z) : Prop := n = N (fst h) (snd h) \/ n = N (fst h') (snd h').
Lemma joined_same k r k' r' : joined g bc k r k' r' -> forall a b, half g a b -> N a b = N k r -> (a = k /\ b = r) \/ (a = k' /\ b = r').
Proof.
  intros J a b Hh E. pose proof J as (A & B & _). destruct (num_same g bc _ ST a b k r Hh A E) as [?|T]; [left; assumption|]. right. assert (J2 : joined g bc k r a b) by (split; [exact A|split; [exact Hh|left; destruct T; split; assumption]]). destruct (joined_fun _ _ _ _ _ _ J J2); auto.
Qed.
Lemma touch_pair k r k' r' a b a' b' n : joined g bc k r k' r' -> joined g bc a b a' b' -> touches (k, r) (k', r') n -> touches (a, b) (a', b') n ->
  (a = k /\ b = r /\ a' = k' /\ b' = r') \/ (a = k' /\ b = r' /\ a' = k /\ b' = r).
Proof.
  intros J J2 T1 T2. assert (X : forall a b a' b', joined g bc a b a' b' -> N a b = n -> (a = k /\ b = r /\ a' = k' /\ b' = r') \/ (a = k' /\ b = r' /\ a' = k /\ b' = r)).
  { clear T2 J2. intros x y x' y' J2 E. assert (C : (x = k /\ y = r) \/ (x = k' /\ y = r')).
    { destruct T1 as [T|T]; cbn [fst snd] in T; rewrite T in E.
      - apply (joined_same _ _ _ _ J); [apply J2|exact E].
      - destruct (joined_same _ _ _ _ (joined_sym _ _ _ _ J) x y (proj1 J2) E); auto. }
    destruct C as [(-> & ->)|(-> & ->)]; [left|right]; (split; [reflexivity|split; [reflexivity|]]).
    - destruct (joined_fun _ _ _ _ _ _ J J2); auto.
    - destruct (joined_fun _ _ _ _ _ _ (joined_sym _ _ _ _ J) J2); auto. }
  destruct T2 as [T|T]; cbn [fst snd] in T.
  - apply X; [exact J2|auto].
  - destruct (X _ _ _ _ (joined_sym _ _ _ _ J2) (eq_sym T)) as [(-> & -> & -> & ->)|(-> & -> & -> & ->)]; auto.
Qed.
Lemma touch_range k r k' r' n : joined g bc k r k' r' -> touches (k, r) (k', r') n -> 0 <= n < nfs.
Proof. intros (A & B & _) T. pose proof (num_range g bc _ ST k r A). pose proof (num_range g bc _ ST k' r' B). fold (N k r) in *. destruct T as [->| ->]; cbn [fst snd]; unfold num in *; lia. Qed.
Definition shapes (s : fflux) : Prop := zlen (ff_vis s) = nfs /\ zlen (ff_flux s) = nfs.
Lemma put_one s x f n : shapes s -> 0 <= f < nfs -> zget (ff_vis s) f = Some n -> n = 0 \/ n = 1 -> exists s', ff_put s x f = Ok s' /\ shapes s' /\ ff_max s' = ff_max s /\
  zget (ff_vis s') f = Some (n + 1) /\ nthR (ff_flux s') f = (nthR (ff_flux s) f + ff_sign n * x)%R /\ (forall j, j <> f -> zget (ff_vis s') j = zget (ff_vis s) j /\ nthR (ff_flux s') j = nthR (ff_flux s) j).
Proof.
  intros (L1 & L2) Hf G Hn. unfold ff_put. unfold rget at 1. rewrite G. cbn [bind]. replace (negb ((n =? 0) || (n =? 1))) with false by (destruct Hn as [-> | ->]; reflexivity). rewrite (rget_at _ _ ltac:(rewrite L2; exact Hf)). cbn [bind].
  destruct (rset (ff_flux s) f _) as [fl| |] eqn:Er; [|exfalso; destruct (rset_exists (ff_flux s) f (nthR (ff_flux s) f + ff_sign n * x)%R ltac:(lia)) as (? & Q & _); congruence..].
  destruct (rset_nthR _ _ _ _ Er) as (Lf & _ & Gf & _). cbn [bind]. destruct (rset_exists (ff_vis s) f (n + 1) ltac:(lia)) as (vis & Ev & Lv & Gv & Ov). rewrite Ev. cbn [bind]. eexists. split; [reflexivity|]. cbn. split; [split; cbn; lia|]. split; [reflexivity|]. split; [exact Gv|].
  split; [rewrite Gf, Z.eqb_refl; reflexivity|]. intros j Hj. split; [apply Ov; exact Hj|]. rewrite Gf. destruct (Z.eqb_spec j f); [lia|reflexivity].
Qed.
Lemma get_one s x f n : shapes s -> 0 <= f < nfs -> zget (ff_vis s) f = Some n -> n = 0 \/ n = 1 -> exists s', ff_get s x f = Ok (s', (0.5 * ff_sign n * nthR (ff_flux s) f)%R) /\ shapes s' /\ ff_flux s' = ff_flux s /\
  ff_max s' = smax (ff_max s) (Rabs (x - 0.5 * ff_sign n * nthR (ff_flux s) f)) /\ zget (ff_vis s') f = Some (n + 1) /\ (forall j, j <> f -> zget (ff_vis s') j = zget (ff_vis s) j).
Proof.
  intros (L1 & L2) Hf G Hn. unfold ff_get. unfold rget at 1. rewrite G. cbn [bind]. replace (negb ((n =? 0) || (n =? 1))) with false by (destruct Hn as [-> | ->]; reflexivity). rewrite (rget_at _ _ ltac:(rewrite L2; exact Hf)). cbn [bind].
  destruct (rset_exists (ff_vis s) f (n + 1) ltac:(lia)) as (vis & Ev & Lv & Gv & Ov). rewrite Ev. cbn [bind]. eexists. split; [reflexivity|]. cbn. split; [split; cbn; lia|]. auto.
Qed.
(* the partner looked up for a boundary face *)
Lemma pp_ok k r : half g k r -> nbr g k r = None -> (exists k' r', partners g bc k r k' r' /\ pp_partner (hs_pp st) (N k r) = Ok (Some (N k' r'))) \/
  ((forall d, ~ periodic g bc k r d) /\ pp_partner (hs_pp st) (N k r) = Ok None).
Proof.
  intros Hh Nb. destruct (HPP g bc st HS) as [(E & Np)|(L & P & Q)].
  - right. split; [intros d; apply Np|]. rewrite E. reflexivity.
  - assert (C : forall n, pp_partner (hs_pp st) n = let* p := rget (hs_pp st) n in Ok (if p =? -1 then None else Some p)).
    { intros n. pose proof (nrange g bc st HS k r Hh) as Rn. destruct (hs_pp st) eqn:Ep; [change (zlen (@nil Z)) with 0 in L; lia|reflexivity]. }
    rewrite C. destruct (per_dec g bc _ ST k r Hh) as [(k' & r' & Pr)|Np].
    + left. exists k', r'. split; [exact Pr|]. unfold rget. rewrite (P _ _ _ _ Pr). cbn [bind]. pose proof (nrange g bc st HS k' r' (proj1 (proj2 (partners_half g bc _ _ _ _ Pr)))). destruct (Z.eqb_spec (N k' r') (-1)); [lia|reflexivity].
    + right. split; [exact Np|]. unfold rget. rewrite (Q _ _ Hh Np). reflexivity.
Qed.
(* what a visit of half face (k, r) is *)
Inductive kind (k r : Z) : Prop :=
  | k_inner k' r' : twins g k r k' r' -> joined g bc k r k' r' -> (exists c, hf_nb (face_at g k r) = Some c) -> kind k r
  | k_pair k' r' : partners g bc k r k' r' -> joined g bc k r k' r' -> hf_nb (face_at g k r) = None -> pp_partner (hs_pp st) (N k r) = Ok (Some (N k' r')) -> kind k r
  | k_none : (forall k' r', ~ joined g bc k r k' r') -> hf_nb (face_at g k r) = None -> pp_partner (hs_pp st) (N k r) = Ok None -> kind k r.
Lemma kind_of k r : half g k r -> kind k r.
Proof.
  intros Hh. destruct (nbr g k r) as [c|] eqn:Nb.
  - destruct conf as (_ & _ & C & _). destruct (C k r c Hh Nb) as (_ & k' & r' & Hh' & Ei & Nb'). assert (T : twins g k r k' r') by (split; [rewrite Ei; exact Nb|exact Nb']). apply (k_inner k r k' r' T); [split; [exact Hh|split; [exact Hh'|left; exact T]]|exists c; exact Nb].
  - destruct (pp_ok k r Hh Nb) as [(k' & r' & P & E)|(Np & E)].
    + apply (k_pair k r k' r' P); [split; [exact Hh|split; [apply (partners_half g bc _ _ _ _ P)|right; exact P]]|exact Nb|exact E].
    + apply k_none; [|exact Nb|exact E]. intros k' r' (_ & _ & [(T & _)|(d & d' & Pd & _)]); [congruence|exact (Np d Pd)].
Qed.
Definition P1 (k r : Z) (s : fflux) : Prop := shapes s /\ ff_max s = 0%R /\
  forall a b a' b' n, joined g bc a b a' b' -> before a b a' b' -> touches (a, b) (a', b') n ->
    zget (ff_vis s) n = Some (bz a b k r + bz a' b' k r) /\ nthR (ff_flux s) n = (IZR (bz a b k r) * v a b - IZR (bz a' b' k r) * v a' b')%R.
Lemma order k r k' r' : ~ (k = k' /\ r = r') -> before k r k' r' \/ before k' r' k r. Proof. unfold before. lia. Qed.
Lemma before_bz a b k r : before a b k r -> bz a b k r = 1 /\ bz k r a b = 0.
Proof. intros B. split; [destruct (bz_before a b k r) as [(-> & _)|(_ & Q)]|destruct (bz_before k r a b) as [(_ & Q)|(-> & _)]]; try reflexivity; exfalso; [exact (Q B)|unfold before in *; lia]. Qed.
(* the state of the face numbers of the pair of the visited half face *)
Lemma P1_at k r k' r' s n : P1 k r s -> joined g bc k r k' r' -> touches (k, r) (k', r') n ->
  zget (ff_vis s) n = Some (bz k' r' k r) /\ (bz k' r' k r = 0 \/ bz k' r' k r = 1) /\ nthR (ff_flux s) n = (IZR (bz k' r' k r) * v k' r')%R.
Proof.
  intros (_ & _ & H) J T. pose proof (bz_same k r) as (B1 & B0). assert (B01 : bz k' r' k r = 0 \/ bz k' r' k r = 1) by (destruct (bz_before k' r' k r) as [(-> & _)|(-> & _)]; auto).
  destruct (order k r k' r' (joined_diff _ _ _ _ J)) as [B|B].
  - destruct (H _ _ _ _ n J B T) as (A1 & A2). destruct (before_bz _ _ _ _ B) as (_ & Q). rewrite B0, Q in *. split; [exact A1|]. split; [auto|]. rewrite A2. ring.
  - destruct (H _ _ _ _ n (joined_sym _ _ _ _ J) B) as (A1 & A2); [destruct T; [right|left]; assumption|]. destruct (before_bz _ _ _ _ B) as (Q & _). rewrite B0, Q in *. split; [exact A1|]. split; [auto|]. rewrite A2. ring.
Qed.
Lemma P1_next k r k' r' s s' : P1 k r s -> joined g bc k r k' r' -> shapes s' -> ff_max s' = ff_max s ->
  (forall n, touches (k, r) (k', r') n -> zget (ff_vis s') n = Some (bz k' r' k r + 1) /\ nthR (ff_flux s') n = (IZR (bz k' r' k r) * v k' r' + ff_sign (bz k' r' k r) * v k r)%R) ->
  (forall n, ~ touches (k, r) (k', r') n -> zget (ff_vis s') n = zget (ff_vis s) n /\ nthR (ff_flux s') n = nthR (ff_flux s) n) -> P1 k (r + 1) s'.
Proof.
  intros (_ & M0 & H) J Sh Em Ht Ho. split; [exact Sh|]. split; [congruence|]. intros a b a' b' n J2 B T2.
  assert (D : touches (k, r) (k', r') n \/ ~ touches (k, r) (k', r') n) by (unfold touches; lia). pose proof (bz_same k r) as (B1 & B0). destruct D as [T|T].
  - destruct (Ht n T) as (A1 & A2). rewrite A1, A2. destruct (touch_pair _ _ _ _ _ _ _ _ _ J J2 T T2) as [(-> & -> & -> & ->)|(-> & -> & -> & ->)].
    + rewrite B1. destruct (before_bz _ _ _ _ B) as (_ & Q). rewrite (bz_other k' r' k r) by (intros (-> & ->); unfold before in B; lia). rewrite Q. cbn. split; [reflexivity|ring].
    + rewrite B1. destruct (before_bz _ _ _ _ B) as (Q & _). rewrite (bz_other k' r' k r) by (intros (-> & ->); unfold before in B; lia). rewrite Q. cbn. split; [reflexivity|ring].
  - destruct (Ho n T) as (A1 & A2). rewrite A1, A2. destruct (H _ _ _ _ n J2 B T2) as (C1 & C2). rewrite C1, C2.
    rewrite !bz_other; [split; reflexivity| |]; intros (-> & ->); apply T.
    + destruct (joined_fun _ _ _ _ _ _ J (joined_sym _ _ _ _ J2)) as (-> & ->). destruct T2 as [T2|T2]; [right|left]; exact T2.
    + destruct (joined_fun _ _ _ _ _ _ J J2) as (-> & ->). exact T2.
Qed.
Lemma P1_skip k r s : P1 k r s -> (forall k' r', ~ joined g bc k r k' r') -> P1 k (r + 1) s.
Proof.
  intros (Sh & M & H) Nj. split; [exact Sh|]. split; [exact M|]. intros a b a' b' n J B T. rewrite !bz_other; [apply H; assumption| |]; intros (-> & ->); [exact (Nj _ _ (joined_sym _ _ _ _ J))|exact (Nj _ _ J)].
Qed.
Lemma pass1 : 0 <= nfs -> exists s, each_face (post_put st cf) g (mkFF (zrepeat 0%R nfs) (zrepeat 0 nfs) 0) = Ok s /\ P1 (zlen g) 0 s.
Proof.
  intros H0. apply each_face_ok.
  - split; [split; cbn; apply zlen_zrepeat; exact H0|]. split; [reflexivity|]. intros a b a' b' n J B T. pose proof (touch_range _ _ _ _ _ J T) as Rn. cbn [ff_vis ff_flux]. rewrite (bz_start g a b) by apply J. rewrite (bz_start g a' b') by apply J.
    split; [apply zget_zrepeat; exact Rn|]. rewrite (nthR_get _ _ 0%R) by (apply zget_zrepeat; exact Rn). ring.
  - intros k r s Hh Pk. unfold post_put. rewrite (cell_no g bc _ ST) by apply Hh. cbn [bind]. rewrite (num_get g bc _ ST) by exact Hh. cbn [bind]. rewrite (rget2_at cf g) by assumption. cbn [bind]. change (entry_of (nm_cf (hs_num st)) k r) with (N k r).
    destruct (kind_of k r Hh) as [k' r' T J (c & Ec)|k' r' P J En Ep|Nj En Ep].
    + rewrite Ec. assert (Tn : touches (k, r) (k', r') (N k r)) by (left; reflexivity). destruct (P1_at _ _ _ _ _ _ Pk J Tn) as (Gv & B01 & Gx).
      destruct (put_one s (v k r) (N k r) _ (proj1 Pk) (touch_range _ _ _ _ _ J Tn) Gv B01) as (s' & E & Sh & Em & Gv' & Gx' & Ot). exists s'. split; [exact E|].
      assert (En : N k' r' = N k r) by (symmetry; apply ST; [apply J|apply J|right; exact T]).
      apply (P1_next k r k' r' s s' Pk J Sh Em).
      * intros n [->| ->]; cbn [fst snd]; rewrite ?En, Gx', Gx; auto.
      * intros n Nt. apply Ot. intros ->. apply Nt. exact Tn.
    + rewrite En, Ep. cbn [bind]. assert (Tn : touches (k, r) (k', r') (N k r)) by (left; reflexivity). assert (Tn' : touches (k, r) (k', r') (N k' r')) by (right; reflexivity). pose proof (partners_num g bc _ ST _ _ _ _ P) as Nn. fold (N k r) in Nn.
      destruct (P1_at _ _ _ _ _ _ Pk J Tn) as (Gv & B01 & Gx). destruct (P1_at _ _ _ _ _ _ Pk J Tn') as (Gv2 & _ & Gx2).
      destruct (put_one s (v k r) (N k r) _ (proj1 Pk) (touch_range _ _ _ _ _ J Tn) Gv B01) as (s1 & E1 & Sh1 & Em1 & Gv1 & Gx1 & Ot1). rewrite E1. cbn [bind].
      assert (Nn' : N k' r' <> N k r) by (unfold num in *; congruence). destruct (Ot1 _ Nn') as (O1 & O2).
      destruct (put_one s1 (v k r) (N k' r') (bz k' r' k r) Sh1 (touch_range _ _ _ _ _ J Tn') ltac:(rewrite O1; exact Gv2) B01) as (s2 & E2 & Sh2 & Em2 & Gv3 & Gx3 & Ot2). exists s2. split; [exact E2|].
      apply (P1_next k r k' r' s s2 Pk J Sh2 ltac:(congruence)).
      * intros n [->| ->]; cbn [fst snd]; [destruct (Ot2 (N k r) ltac:(congruence)) as (-> & ->); rewrite Gx1, Gx; auto|]. rewrite Gx3, O2, Gx2. auto.
      * intros n Nt. destruct (Ot2 n ltac:(intros ->; apply Nt; exact Tn')) as (-> & ->). apply Ot1. intros ->. apply Nt. exact Tn.
    + rewrite En, Ep. cbn [bind]. exists s. split; [reflexivity|]. apply P1_skip; assumption.
  - intros k s Hk (Sh & M & H). split; [exact Sh|]. split; [exact M|]. intros a b a' b' n J B T. rewrite (bz_next g a b) by apply J. rewrite (bz_next g a' b') by apply J. apply H; assumption.
Qed.
(* second pass *)
Definition newv (t : list (list R)) (k r a b : Z) : Prop :=
  (forall a' b', joined g bc a b a' b' -> before a b k r -> at2 t a b = ((v a b - v a' b') / 2)%R) /\ ((forall a' b', ~ joined g bc a b a' b') \/ ~ before a b k r -> at2 t a b = v a b).
Definition P2 (k r : Z) (sc : fflux * list (list R)) : Prop := let '(s, t) := sc in shapes s /\ half_table g t /\
  (forall a b a' b' n, joined g bc a b a' b' -> before a b a' b' -> touches (a, b) (a', b') n -> zget (ff_vis s) n = Some (bz a b k r + bz a' b' k r) /\ nthR (ff_flux s) n = (v a b - v a' b')%R) /\
  (forall a b, half g a b -> newv t k r a b) /\ (0 <= ff_max s)%R /\
  (forall a b, half g a b -> (Rabs (at2 t a b - v a b) <= ff_max s)%R) /\ (ff_max s = 0%R \/ exists a b, half g a b /\ before a b k r /\ Rabs (at2 t a b - v a b) = ff_max s).
Lemma P2_at k r k' r' s t n : P2 k r (s, t) -> joined g bc k r k' r' -> touches (k, r) (k', r') n ->
  zget (ff_vis s) n = Some (bz k' r' k r) /\ (bz k' r' k r = 0 \/ bz k' r' k r = 1) /\ (0.5 * ff_sign (bz k' r' k r) * nthR (ff_flux s) n = (v k r - v k' r') / 2)%R.
Proof.
  intros (_ & _ & H & _) J T. pose proof (bz_same k r) as (B1 & B0). assert (B01 : bz k' r' k r = 0 \/ bz k' r' k r = 1) by (destruct (bz_before k' r' k r) as [(-> & _)|(-> & _)]; auto).
  destruct (order k r k' r' (joined_diff _ _ _ _ J)) as [B|B].
  - destruct (H _ _ _ _ n J B T) as (A1 & A2). destruct (before_bz _ _ _ _ B) as (_ & Q). rewrite B0, Q in *. split; [exact A1|]. split; [auto|]. rewrite A2. unfold ff_sign. cbn. lra.
  - destruct (H _ _ _ _ n (joined_sym _ _ _ _ J) B) as (A1 & A2); [destruct T; [right|left]; assumption|]. destruct (before_bz _ _ _ _ B) as (Q & _). rewrite B0, Q in *. split; [exact A1|]. split; [auto|]. rewrite A2. unfold ff_sign. cbn. lra.
Qed.
Lemma P2_next k r k' r' s t s' : P2 k r (s, t) -> joined g bc k r k' r' -> shapes s' -> ff_flux s' = ff_flux s -> ff_max s' = smax (ff_max s) (Rabs (v k r - (v k r - v k' r') / 2)) ->
  (forall n, touches (k, r) (k', r') n -> zget (ff_vis s') n = Some (bz k' r' k r + 1)) ->
  (forall n, ~ touches (k, r) (k', r') n -> zget (ff_vis s') n = zget (ff_vis s) n) -> exists t', rset2 t k r ((v k r - v k' r') / 2)%R = Ok t' /\ P2 k (r + 1) (s', t').
Proof.
  intros (_ & HT & H & Hv & M0 & Hm & Ha) J Sh Ef Em Ht Ho. pose proof J as (Hh & Hh' & _). destruct (rset2_at t g k r ((v k r - v k' r') / 2)%R HT Hh) as (t' & Et & HT' & Gt & Ot). exists t'. split; [exact Et|].
  pose proof (bz_same k r) as (B1 & B0). pose proof (smax_l (ff_max s) (Rabs (v k r - (v k r - v k' r') / 2))) as X1. pose proof (smax_r (ff_max s) (Rabs (v k r - (v k r - v k' r') / 2))) as X2. rewrite <- Em in X1, X2.
  assert (Eab : Rabs (at2 t' k r - v k r) = Rabs (v k r - (v k r - v k' r') / 2)) by (rewrite Gt, Rabs_minus_sym; reflexivity).
  split; [exact Sh|]. split; [exact HT'|]. split.
  { intros a b a' b' n J2 B T2. rewrite Ef. assert (D : touches (k, r) (k', r') n \/ ~ touches (k, r) (k', r') n) by (unfold touches; lia). destruct (H _ _ _ _ n J2 B T2) as (C1 & C2). split; [|exact C2]. destruct D as [T|T].
    - rewrite (Ht n T). destruct (touch_pair _ _ _ _ _ _ _ _ _ J J2 T T2) as [(-> & -> & -> & ->)|(-> & -> & -> & ->)]; rewrite B1, (bz_other k' r' k r) by (intros (-> & ->); unfold before in B; lia); f_equal; lia.
    - rewrite (Ho n T), C1. rewrite !bz_other; [reflexivity| |]; intros (-> & ->); apply T.
      + destruct (joined_fun _ _ _ _ _ _ J (joined_sym _ _ _ _ J2)) as (-> & ->). destruct T2 as [T2|T2]; [right|left]; exact T2.
      + destruct (joined_fun _ _ _ _ _ _ J J2) as (-> & ->). exact T2. }
  split.
  { intros a b Hab. destruct (Hv a b Hab) as (V1 & V2). destruct (Z.eq_dec a k) as [Ea|Na]; [destruct (Z.eq_dec b r) as [Eb|Nb]|].
    - subst a b. split; [intros a' b' J2 _; destruct (joined_fun _ _ _ _ _ _ J J2) as (<- & <-); exact Gt|]. intros [Q|Q]; [exfalso; exact (Q _ _ J)|exfalso; apply Q; unfold before; lia].
    - split; [intros a' b' J2 B; rewrite Ot by (assumption || lia); apply V1; [exact J2|unfold before in *; lia]|]. intros Q. rewrite Ot by (assumption || lia). apply V2. destruct Q as [Q|Q]; [left; exact Q|right; unfold before in *; lia].
    - split; [intros a' b' J2 B; rewrite Ot by (assumption || lia); apply V1; [exact J2|unfold before in *; lia]|]. intros Q. rewrite Ot by (assumption || lia). apply V2. destruct Q as [Q|Q]; [left; exact Q|right; unfold before in *; lia]. }
  split; [lra|]. split.
  { intros a b Hab. assert (D : (a = k /\ b = r) \/ ~ (a = k /\ b = r)) by lia. destruct D as [(-> & ->)|D]; [rewrite Eab; exact X2|]. rewrite Ot by assumption. pose proof (Hm a b Hab). lra. }
  assert (Sm : ff_max s' = ff_max s \/ ff_max s' = Rabs (v k r - (v k r - v k' r') / 2)) by (rewrite Em; apply smax_cases).
  destruct Sm as [Sm|Sm].
  - rewrite Sm. destruct Ha as [Ha|(a & b & Hab & Bf & Eq)]; [left; exact Ha|]. right. exists a, b. split; [exact Hab|]. split; [unfold before in *; lia|]. rewrite Ot; [exact Eq|exact Hab|]. intros (-> & ->). unfold before in Bf. lia.
  - right. exists k, r. split; [exact Hh|]. split; [unfold before; lia|]. rewrite Eab. symmetry. exact Sm.
Qed.
Lemma P2_old k r s t : P2 k r (s, t) -> half g k r -> at2 t k r = v k r.
Proof. intros (_ & _ & _ & Hv & _) Hh. apply (Hv k r Hh). right. unfold before. lia. Qed.
Lemma pass2 s0 : P1 (zlen g) 0 s0 -> 0 <= nfs -> exists s t, each_face (post_get st) g (mkFF (ff_flux s0) (zrepeat 0 nfs) (ff_max s0), cf) = Ok (s, t) /\ P2 (zlen g) 0 (s, t).
Proof.
  intros ((_ & Lf) & M0 & H) H0. destruct (each_face_ok (post_get st) P2 g (mkFF (ff_flux s0) (zrepeat 0 nfs) (ff_max s0), cf)) as ((s & t) & E & PP).
  - split; [split; [apply zlen_zrepeat; exact H0|exact Lf]|]. split; [exact Hcf|]. split.
    { intros a b a' b' n J B T. pose proof (touch_range _ _ _ _ _ J T) as Rn. cbn [ff_vis ff_flux]. rewrite (bz_start g a b) by apply J. rewrite (bz_start g a' b') by apply J. split; [apply zget_zrepeat; exact Rn|].
      destruct (H _ _ _ _ n J B T) as (_ & ->). rewrite (bz_end g a b) by apply J. rewrite (bz_end g a' b') by apply J. ring. }
    cbn [ff_max]. rewrite M0. split; [intros a b Hab; split; [intros a' b' _ B; exfalso; destruct Hab as ((? & _) & (? & _)); unfold before in B; lia|reflexivity]|]. split; [lra|]. split; [|left; reflexivity].
    intros a b Hab. rewrite Rminus_eq_0, Rabs_R0. lra.
  - intros k r (s & t) Hh Pk. pose proof (P2_old _ _ _ _ Pk Hh) as Old. unfold post_get. rewrite (cell_no g bc _ ST) by apply Hh. cbn [bind]. rewrite (num_get g bc _ ST) by exact Hh. cbn [bind]. pose proof Pk as (Sh & HT & _). rewrite (rget2_at t g) by assumption. cbn [bind]. rewrite Old. change (entry_of (nm_cf (hs_num st)) k r) with (N k r).
    destruct (kind_of k r Hh) as [k' r' T J (c & Ec)|k' r' P J En Ep|Nj En Ep].
    + rewrite Ec. assert (Tn : touches (k, r) (k', r') (N k r)) by (left; reflexivity). destruct (P2_at _ _ _ _ _ _ _ Pk J Tn) as (Gv & B01 & Gx).
      destruct (get_one s (v k r) (N k r) _ Sh (touch_range _ _ _ _ _ J Tn) Gv B01) as (s' & E & Sh' & Ef & Em & Gv' & Ot). rewrite E. cbn [bind]. rewrite Gx in *.
      assert (En : N k' r' = N k r) by (symmetry; apply ST; [apply J|apply J|right; exact T]).
      destruct (P2_next k r k' r' s t s' Pk J Sh' Ef Em) as (t' & Et & P'); [intros n [->| ->]; cbn [fst snd]; rewrite ?En; exact Gv'|intros n Nt; apply Ot; intros ->; apply Nt; exact Tn|]. rewrite Et. cbn [bind]. eexists. split; [reflexivity|exact P'].
    + rewrite En, Ep. cbn [bind]. assert (Tn : touches (k, r) (k', r') (N k r)) by (left; reflexivity). assert (Tn' : touches (k, r) (k', r') (N k' r')) by (right; reflexivity). pose proof (partners_num g bc _ ST _ _ _ _ P) as Nn. fold (N k r) in Nn.
      assert (Nn' : N k' r' <> N k r) by (unfold num in *; congruence).
      destruct (P2_at _ _ _ _ _ _ _ Pk J Tn) as (Gv & B01 & Gx). destruct (P2_at _ _ _ _ _ _ _ Pk J Tn') as (Gv2 & _ & Gx2).
      destruct (get_one s (v k r) (N k r) _ Sh (touch_range _ _ _ _ _ J Tn) Gv B01) as (s1 & E1 & Sh1 & Ef1 & Em1 & Gv1 & Ot1). rewrite E1. cbn [bind]. rewrite Gx in *.
      destruct (get_one s1 ((v k r - v k' r') / 2)%R (N k' r') _ Sh1 (touch_range _ _ _ _ _ J Tn') ltac:(rewrite (Ot1 _ Nn'); exact Gv2) B01) as (s2 & E2 & Sh2 & Ef2 & Em2 & Gv3 & Ot2). rewrite E2. cbn [bind fst snd].
      rewrite Ef1 in *. rewrite Gx2 in *. destruct (Req_EM_T _ _) as [_|Q]; [|exfalso; apply Q; reflexivity].
      rewrite Rminus_eq_0, Rabs_R0 in Em2. pose proof Pk as (_ & _ & _ & _ & Mp & _).
      assert (Em3 : ff_max s2 = smax (ff_max s) (Rabs (v k r - (v k r - v k' r') / 2))).
      { rewrite Em2, Em1. pose proof (smax_l (ff_max s) (Rabs (v k r - (v k r - v k' r') / 2))) as Z1. set (m := smax _ _) in *. destruct (smax_cases m 0) as [->|Q]; [reflexivity|]. pose proof (smax_l m 0). rewrite Q in *. lra. }
      destruct (P2_next k r k' r' s t s2 Pk J Sh2 ltac:(congruence) Em3) as (t' & Et & P').
      * intros n [->| ->]; cbn [fst snd]; [rewrite Ot2 by congruence; exact Gv1|exact Gv3].
      * intros n Nt. rewrite Ot2 by (intros ->; apply Nt; exact Tn'). apply Ot1. intros ->. apply Nt. exact Tn.
      * rewrite Et. cbn [bind]. eexists. split; [reflexivity|exact P'].
    + rewrite En, Ep. cbn [bind]. eexists. split; [reflexivity|]. destruct Pk as (_ & _ & H2 & Hv & Mp & Hm & Ha). split; [exact Sh|]. split; [exact HT|].
      split; [intros a b a' b' n J B T; rewrite !bz_other; [apply H2; assumption| |]; intros (-> & ->); [exact (Nj _ _ (joined_sym _ _ _ _ J))|exact (Nj _ _ J)]|].
      split; [|split; [exact Mp|split; [exact Hm|]]].
      * intros a b Hab. destruct (Hv a b Hab) as (V1 & V2). split; [intros a' b' J B; apply V1; [exact J|]|].
        { unfold before in *. assert (~ (a = k /\ b = r)) by (intros (-> & ->); exact (Nj _ _ J)). lia. }
        intros [Q|Q]; apply V2; [left; exact Q|right]. unfold before in *. lia.
      * destruct Ha as [Ha|(a & b & Hab & Bf & Eq)]; [left; exact Ha|right]. exists a, b. split; [exact Hab|]. split; [unfold before in *; lia|exact Eq].
  - intros k (s & t) Hk (Sh & HT & H2 & Hv & Mp & Hm & Ha). split; [exact Sh|]. split; [exact HT|]. split; [intros a b a' b' n J B T; rewrite (bz_next g a b) by apply J; rewrite (bz_next g a' b') by apply J; apply H2; assumption|].
    split; [|split; [exact Mp|split; [exact Hm|]]].
    + intros a b Hab. destruct (Hv a b Hab) as (V1 & V2). pose proof (before_next g a b k Hab). split; [intros a' b' J B; apply V1; tauto|]. intros Q. apply V2. tauto.
    + destruct Ha as [Ha|(a & b & Hab & Bf & Eq)]; [left; exact Ha|right]. exists a, b. split; [exact Hab|]. split; [apply (before_next g a b k Hab); exact Bf|exact Eq].
  - exists s, t. split; [exact E|exact PP].
Qed.
Lemma post_ok : exists t m, post_process g st nfs cf = Ok (t, m) /\ half_table g t /\
  (forall k r k' r', joined g bc k r k' r' -> at2 t k r = ((v k r - v k' r') / 2)%R) /\
  (forall k r, half g k r -> (forall k' r', ~ joined g bc k r k' r') -> at2 t k r = v k r) /\
  (0 <= m)%R /\ (forall k r, half g k r -> (Rabs (at2 t k r - v k r) <= m)%R) /\ (m = 0%R \/ exists k r, half g k r /\ Rabs (at2 t k r - v k r) = m).
Proof.
  assert (H0 : 0 <= nfs) by (pose proof (proj2 (proj1 (proj2 (proj2 (proj2 ST))))); lia). unfold post_process. destruct (pass1 H0) as (s0 & E0 & Q1). rewrite E0. cbn [bind]. destruct (pass2 s0 Q1 H0) as (s & t & E1 & (Sh & HT & _ & Hv & M & Hm & Ha)). rewrite E1. cbn [bind snd fst]. exists t, (ff_max s). split; [reflexivity|]. split; [exact HT|].
  split; [intros k r k' r' J; apply (proj1 (Hv k r (proj1 J)) k' r' J); apply before_all; apply J|]. split; [intros k r Hh Nj; apply (Hv k r Hh); left; exact Nj|]. split; [exact M|]. split; [exact Hm|]. destruct Ha as [Ha|(a & b & Hab & _ & Eq)]; [left; exact Ha|right; exists a, b; auto].
Qed.
End Post.
