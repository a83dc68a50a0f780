From Verif Require Import BaseFacts RBaseFacts Steady_Proofs Bound_Proofs2 Bgrid_Proofs Impl_Proofs Sim_Spec.
From Coq Require Import Lra Lia.
Open Scope Z_scope.

(* ------- control and saturation *)
Lemma control_ok p s : si_step (init_control p s) = (match sp_stepsize p with Some x => x | None => si_step s end * 86400)%R /\ si_steps (init_control p s) = match sp_steps p with Some n => n | None => si_steps s end.
Proof. split; reflexivity. Qed.
Lemma step_repeated n p : sp_stepsize p = None -> si_step (Nat.iter n (init_control p) sim_new) = (86400 ^ n)%R.
Proof.
  intros H. induction n as [|n IH]; [reflexivity|]. change (si_step (init_control p (Nat.iter n (init_control p) sim_new)) = (86400 ^ Datatypes.S n)%R). unfold init_control at 1. cbn [si_step]. rewrite H, IH. unfold given, day. cbn [pow]. ring.
Qed.
Lemma saturation_uniform p nc : (sp_from_file p = None \/ sp_from_file p = Some false) -> 0 <= nc -> exists l, init_saturation p nc = Ok l /\ zlen l = nc /\ forall i, 0 <= i < nc -> nthR l i = match sp_sat p with Some x => x | None => 0%R end.
Proof.
  intros H Hn. unfold init_saturation. assert (E : given (sp_from_file p) false = false) by (destruct H as [-> | ->]; reflexivity). rewrite E. eexists. split; [reflexivity|]. split; [now apply zlen_zrepeat|].
  intros i Hi. apply nthR_get. now rewrite zget_zrepeat.
Qed.
Lemma saturation_file p nc l : sp_from_file p = Some true -> (init_saturation p nc = Ok l <-> exists f, sp_file p = Some (Some f) /\ zlen l = nc /\
  match sf_count f with Some n => n = nc /\ l = sf_values f | None => nc = 0 end).
Proof.
  intros H. unfold init_saturation. rewrite H. cbn [given]. destruct (sp_file p) as [[f|]|]; cbn [required bind].
  - destruct (sf_count f) as [n|] eqn:E; cbn [given].
    + destruct (Z.eqb_spec n nc) as [->|N0]; cbn [negb].
      * destruct (Z.eqb_spec (zlen (sf_values f)) nc) as [L|L]; cbn [negb]; split.
        -- intros Q. injection Q as <-. exists f. rewrite E. auto.
        -- intros (f' & Q & L' & D). injection Q as <-. rewrite E in D. destruct D as [_ ->]. reflexivity.
        -- discriminate.
        -- intros (f' & Q & L' & D). injection Q as <-. rewrite E in D. destruct D as [_ ->]. contradiction.
      * split; [discriminate|]. intros (f' & Q & L' & D). injection Q as <-. rewrite E in D. destruct D. contradiction.
    + destruct (Z.eqb_spec 0 nc) as [<-|N0]; cbn [negb].
      * change (zlen (@nil R)) with 0. cbn [Z.eqb negb]. split.
        -- intros Q. injection Q as <-. exists f. rewrite E. auto.
        -- intros (f' & Q & L' & D). destruct l; [reflexivity|]. unfold zlen in L'. cbn [length] in L'. lia.
      * split; [discriminate|]. intros (f' & Q & L' & D). injection Q as <-. rewrite E in D. congruence.
  - split; [discriminate|]. intros (f' & Q & _). discriminate.
  - split; [discriminate|]. intros (f' & Q & _). discriminate.
Qed.

(* ------- sources *)
Definition insideb (b : block) (c : scell) : bool := match box_inside (bl_low b) (bl_high b) (sc_centre c) with Ok x => x | _ => false end.
Lemma box_inside_ok low high pt : zlen low = 3 -> zlen high = 3 -> zlen pt = 3 -> exists x, box_inside low high pt = Ok x /\ (x = true <-> inside low high pt).
Proof.
  intros L H P. unfold box_inside. assert (G : forall l d, zlen l = 3 -> 0 <= d < 3 -> rget l d = Ok (nthR l d)) by (intros l d E Hd; apply rget_Ok, zget_nthR; lia).
  rewrite !G by lia. cbn [bind]. eexists. split; [reflexivity|]. rewrite !andb_true_iff. split.
  - intros (((((A & B) & C) & D) & E) & F). apply Rltb_true in A, B, C, D, E, F. intros d Hd. assert (Q : d = 0 \/ d = 1 \/ d = 2) by lia. destruct Q as [->|[->| ->]]; lra.
  - intros I. pose proof (I 0 ltac:(lia)). pose proof (I 1 ltac:(lia)). pose proof (I 2 ltac:(lia)). repeat split; apply Rltb_true; lra.
Qed.
Lemma insideb_ok b c : block_ok b -> zlen (sc_centre c) = 3 -> box_inside (bl_low b) (bl_high b) (sc_centre c) = Ok (insideb b c) /\ (insideb b c = true <-> inside (bl_low b) (bl_high b) (sc_centre c)).
Proof. intros [A B] C. destruct (box_inside_ok _ _ _ A B C) as (x & E & H). unfold insideb. rewrite E. auto. Qed.
Definition rate_of (density : R) (injection : bool) (c : scell) : R := if injection then (density * sc_vol c)%R else (- (density * sc_vol c))%R.
Lemma block_result b d inj cells : forall t e ps, block_ok b -> (forall c, In c cells -> zlen (sc_centre c) = 3 /\ 0 <= sc_index c < zlen ps) -> NoDup (map sc_index cells) ->
  exists ps', foldM (source_cell b d inj) cells (t, (e, ps)) = Ok ((t + Rsum (map (rate_of d inj) (filter (insideb b) cells)))%R, (e ++ map (fun c => (rate_of d inj c, sc_index c)) (filter (insideb b) cells), ps')) /\
    zlen ps' = zlen ps /\ (forall c, In c cells -> zget ps' (sc_index c) = if insideb b c then Some (rate_of d inj c) else zget ps (sc_index c)) /\
    (forall i, ~ In i (map sc_index cells) -> zget ps' i = zget ps i).
Proof.
  induction cells as [|c cells IH]; intros t e ps B H ND.
  - exists ps. cbn [foldM filter map]. rewrite Rsum_nil, Rplus_0_r, app_nil_r. repeat split; auto. intros c [].
  - destruct (H c (or_introl eq_refl)) as [Lc Ic]. destruct (insideb_ok b c B Lc) as [E _]. cbn [foldM]. unfold source_cell at 1. rewrite E. cbn [bind filter fst snd]. cbn [map] in ND. inversion ND as [|? ? Nc ND']; subst.
    destruct (insideb b c) eqn:Ib.
    + destruct (rset_exists ps (sc_index c) (rate_of d inj c) Ic) as (ps1 & E1 & _). change (if inj then (d * sc_vol c)%R else (- (d * sc_vol c))%R) with (rate_of d inj c). rewrite E1. cbn [bind].
      destruct (rset_inv _ _ _ _ E1) as (_ & L1 & G1 & G2). destruct (IH (t + rate_of d inj c)%R (e ++ [(rate_of d inj c, sc_index c)]) ps1 B) as (ps' & E' & L' & G' & O').
      { intros c' I. rewrite L1. apply H. now right. } { exact ND'. }
      exists ps'. rewrite E'. cbn [map]. rewrite Rsum_cons, <- app_assoc. cbn [app]. split; [f_equal; f_equal; ring|]. split; [lia|]. split.
      * intros c' [<-|I].
        -- rewrite Ib, O' by exact Nc. exact G1.
        -- rewrite G' by exact I. destruct (insideb b c'); [reflexivity|]. apply G2. intros Q. apply Nc. rewrite <- Q. now apply in_map.
      * intros i Ni. rewrite O' by (intros Q; apply Ni; now right). apply G2. intros ->. apply Ni. now left.
    + destruct (IH t e ps B) as (ps' & E' & L' & G' & O'). { intros c' I. apply H. now right. } { exact ND'. }
      exists ps'. cbn [bind]. rewrite E'. split; [reflexivity|]. split; [exact L'|]. split.
      * intros c' [<-|I]; [rewrite Ib; now apply O'|now apply G'].
      * intros i Ni. apply O'. intros Q. apply Ni. now right.
Qed.
Lemma cells_facts cells : cells_ok cells -> (forall c, In c cells -> zlen (sc_centre c) = 3 /\ 0 <= sc_index c < zlen cells) /\ NoDup (map sc_index cells) /\ StronglySorted Z.lt (map sc_index cells).
Proof.
  intros H. assert (E : map sc_index cells = zrange 0 (zlen cells)).
  { apply zlist_ext; [rewrite zlen_map, zlen_zrange by apply zlen_nonneg; lia|]. intros i Hi. rewrite zlen_map in Hi. rewrite zget_map, zget_zrange by lia. destruct (zget_in_range cells i Hi) as [c Ec]. rewrite Ec. cbn [option_map]. now rewrite (proj1 (H i c Ec)). }
  split.
  - intros c I. apply In_zget in I. destruct I as (i & Bi & Ei). destruct (H i c Ei) as [-> Q]. auto.
  - rewrite E. split; [apply zrange_NoDup|]. clear. set (a := 0). set (b := zlen cells). clearbody a b. remember (Z.to_nat (b - a)) as n eqn:En. revert a En. induction n as [|n IH]; intros a En.
    + rewrite zrange_empty by lia. constructor.
    + rewrite zrange_cons by lia. constructor; [apply IH; lia|]. apply Forall_forall. intros x Hx. apply In_zrange in Hx. lia.
Qed.
Definition blockb (o : option block) (c : scell) : bool := match o with Some b => insideb b c | None => false end.
Lemma blockb_ok o c : usable o -> zlen (sc_centre c) = 3 -> (blockb o c = true <-> in_block o c).
Proof. destruct o as [b|]; cbn [usable blockb in_block]; [|intuition discriminate]. intros [B _] L. exact (proj2 (insideb_ok b c B L)). Qed.
Lemma option_result o inj cells e ps : usable o -> cells_ok cells -> zlen ps = zlen cells ->
  exists ps', source_option o inj cells e ps = Ok (Rsum (map (rate_of (density_of o) inj) (filter (blockb o) cells)), (e ++ map (fun c => (rate_of (density_of o) inj c, sc_index c)) (filter (blockb o) cells), ps')) /\
    zlen ps' = zlen ps /\ forall c, In c cells -> zget ps' (sc_index c) = if blockb o c then Some (rate_of (density_of o) inj c) else zget ps (sc_index c).
Proof.
  intros U C L. destruct (cells_facts cells C) as (F1 & F2 & _). unfold source_option. destruct o as [b|].
  - destruct U as [B D]. cbn [density_of blockb]. destruct (bl_density b) as [d|]; [|contradiction]. cbn [required bind]. unfold source_block.
    destruct (block_result b d inj cells 0%R e ps B ltac:(intros c I; rewrite L; auto) F2) as (ps' & E & L' & G & _). exists ps'. rewrite E. split; [now rewrite Rplus_0_l|]. auto.
  - exists ps. assert (F0 : filter (blockb None) cells = []) by (clear; induction cells; [reflexivity|exact IHcells]). rewrite F0. cbn [map]. rewrite Rsum_nil, app_nil_r. auto.
Qed.
Lemma entry_app a b i : entry_sum (a ++ b) i = (entry_sum a i + entry_sum b i)%R.
Proof. unfold entry_sum. now rewrite map_app, Rsum_app. Qed.
Lemma entry_filter (f : scell -> bool) (r : scell -> R) cells c : NoDup (map sc_index cells) -> In c cells -> entry_sum (map (fun c => (r c, sc_index c)) (filter f cells)) (sc_index c) = if f c then r c else 0%R.
Proof.
  intros ND I. unfold entry_sum. rewrite map_map. cbn [fst snd]. induction cells as [|x l IH]; [destruct I|]. cbn [map] in ND. inversion ND as [|? ? Nx ND']; subst. 
  assert (Z0 : forall l', (forall y, In y l' -> sc_index y <> sc_index x) -> Rsum (map (fun y => if sc_index y =? sc_index x then r y else 0%R) (filter f l')) = 0%R).
  { clear. induction l' as [|y l' IH]; intros H; [reflexivity|]. cbn [filter]. destruct (f y); [|apply IH; intros; apply H; now right]. cbn [map]. rewrite Rsum_cons, IH by (intros; apply H; now right). rewrite (proj2 (Z.eqb_neq _ _) (H y (or_introl eq_refl))). lra. }
  destruct I as [<-|I].
  - cbn [filter]. assert (Zl : Rsum (map (fun y => if sc_index y =? sc_index x then r y else 0%R) (filter f l)) = 0%R). { apply Z0. intros y Iy Q. apply Nx. rewrite <- Q. now apply in_map. }
    destruct (f x); [|exact Zl]. cbn [map]. rewrite Rsum_cons, Zl, Z.eqb_refl. lra.
  - cbn [filter]. destruct (f x); [|now apply IH]. cbn [map]. rewrite Rsum_cons, (IH ND' I). rewrite (proj2 (Z.eqb_neq _ _)) by (intros Q; apply Nx; rewrite Q; now apply in_map). lra.
Qed.
Lemma filter_sum (f : scell -> bool) (r : scell -> R) cells g : (forall c, In c cells -> g c = if f c then r c else 0%R) -> Rsum (map r (filter f cells)) = Rsum (map g cells).
Proof.
  intros H. induction cells as [|x l IH]; [reflexivity|]. cbn [filter map]. rewrite Rsum_cons, (H x (or_introl eq_refl)), <- IH by (intros; apply H; now right). destruct (f x); cbn [map]; rewrite ?Rsum_cons; lra.
Qed.
Lemma sources_ok p cells s : usable (sp_inj p) -> usable (sp_prod p) -> cells_ok cells -> exists ti tp s', flex_sources p cells s = Ok ((ti, tp), s') /\
  (forall i c, zget cells i = Some c ->
     (in_block (sp_prod p) c -> nthR (si_psolver s') i = (- (density_of (sp_prod p) * sc_vol c))%R) /\
     (~ in_block (sp_prod p) c -> in_block (sp_inj p) c -> nthR (si_psolver s') i = (density_of (sp_inj p) * sc_vol c)%R) /\
     (~ in_block (sp_prod p) c -> ~ in_block (sp_inj p) c -> nthR (si_psolver s') i = nthR (si_psolver s) i)) /\
  (forall i c x y, zget cells i = Some c -> (in_block (sp_inj p) c -> x = density_of (sp_inj p) * sc_vol c)%R -> (~ in_block (sp_inj p) c -> x = 0%R) ->
     (in_block (sp_prod p) c -> y = density_of (sp_prod p) * sc_vol c)%R -> (~ in_block (sp_prod p) c -> y = 0%R) -> entry_sum (si_inj s') i = (x - y)%R) /\
  (forall f, (forall c, In c cells -> in_block (sp_inj p) c -> f c = density_of (sp_inj p) * sc_vol c)%R -> (forall c, In c cells -> ~ in_block (sp_inj p) c -> f c = 0%R) -> ti = Rsum (map f cells)) /\
  (forall f, (forall c, In c cells -> in_block (sp_prod p) c -> f c = density_of (sp_prod p) * sc_vol c)%R -> (forall c, In c cells -> ~ in_block (sp_prod p) c -> f c = 0%R) -> tp = (- Rsum (map f cells))%R).
Proof.
  intros U1 U2 C. destruct (cells_facts cells C) as (F1 & F2 & _). unfold flex_sources, base_sources. cbn [si_inj si_psolver si_steps si_step si_sat]. pose proof (zlen_nonneg cells) as Ln.
  destruct (option_result (sp_inj p) true cells [] (vec_resize (zlen cells) 0%R (si_psolver s)) U1 C (vec_resize_len _ _ _ Ln)) as (ps1 & E1 & L1 & G1). rewrite E1. cbn [bind fst snd app].
  destruct (option_result (sp_prod p) false cells (map (fun c => (rate_of (density_of (sp_inj p)) true c, sc_index c)) (filter (blockb (sp_inj p)) cells)) ps1 U2 C ltac:(rewrite L1; now apply vec_resize_len)) as (ps2 & E2 & L2 & G2). rewrite E2. cbn [bind fst snd].
  eexists _, _, _. split; [reflexivity|]. cbn [si_psolver si_inj].
  assert (B1 : forall c, In c cells -> (blockb (sp_inj p) c = true <-> in_block (sp_inj p) c)) by (intros c I; apply blockb_ok; [exact U1|apply F1, I]).
  assert (B2 : forall c, In c cells -> (blockb (sp_prod p) c = true <-> in_block (sp_prod p) c)) by (intros c I; apply blockb_ok; [exact U2|apply F1, I]).
  split; [|split; [|split]].
  - intros i c Ec. pose proof (zget_In _ _ _ Ec) as I. destruct (C i c Ec) as [Ei _]. pose proof (zget_Some_range _ _ _ Ec) as Bi. pose proof (G1 c I) as Q1. pose proof (G2 c I) as Q2. rewrite Ei in Q1, Q2. split; [|split].
    + intros H. apply (B2 c I) in H. rewrite H in Q2. exact (nthR_get _ _ _ Q2).
    + intros N0 H. apply (B1 c I) in H. rewrite H in Q1. destruct (blockb (sp_prod p) c) eqn:Q; [exfalso; apply N0; now apply B2|]. rewrite Q1 in Q2. exact (nthR_get _ _ _ Q2).
    + intros N0 N1. destruct (blockb (sp_prod p) c) eqn:Q; [exfalso; apply N0; now apply B2|]. destruct (blockb (sp_inj p) c) eqn:Q'; [exfalso; apply N1; now apply B1|]. rewrite Q1, vec_resize_get in Q2 by lia. unfold nthR. rewrite Q2.
      destruct (Z.ltb_spec i (zlen (si_psolver s))) as [Hi|Hi]; [reflexivity|]. rewrite (proj2 (zget_None_iff (si_psolver s) i)) by lia. reflexivity.
  - intros i c x y Ec X1 X2 Y1 Y2. pose proof (zget_In _ _ _ Ec) as I. destruct (C i c Ec) as [Ei _]. rewrite entry_app. rewrite <- Ei, !entry_filter by assumption. unfold rate_of.
    destruct (blockb (sp_inj p) c) eqn:Q1.
    + rewrite X1 by (apply B1; assumption). destruct (blockb (sp_prod p) c) eqn:Q2; [rewrite Y1 by (apply B2; assumption); lra|]. rewrite Y2; [lra|]. intros H. apply B2 in H; [congruence|exact I].
    + rewrite X2 by (intros H; apply B1 in H; [congruence|exact I]). destruct (blockb (sp_prod p) c) eqn:Q2; [rewrite Y1 by (apply B2; assumption); lra|]. rewrite Y2; [lra|]. intros H. apply B2 in H; [congruence|exact I].
  - intros f A B. apply filter_sum. intros c I. destruct (blockb (sp_inj p) c) eqn:Q1; [now apply A, B1|]. apply B; [exact I|]. intros H. apply B1 in H; [congruence|exact I].
  - intros f A B. transitivity (Rsum (map (fun c => (- f c)%R) cells)).
    + apply filter_sum. intros c I. unfold rate_of. destruct (blockb (sp_prod p) c) eqn:Q1; [rewrite A by (try apply B2; assumption); reflexivity|]. rewrite B; [lra|exact I|]. intros H. apply B2 in H; [congruence|exact I].
    + clear. induction cells as [|x l IH]; [cbn [map]; rewrite Rsum_nil; lra|]. cbn [map]. rewrite !Rsum_cons, IH. lra.
Qed.
Lemma sources_consistent p cells s s' t : usable (sp_inj p) -> usable (sp_prod p) -> cells_ok cells -> si_psolver s = [] -> (forall c, In c cells -> in_block (sp_inj p) c -> ~ in_block (sp_prod p) c) ->
  flex_sources p cells s = Ok (t, s') -> forall i, 0 <= i < zlen cells -> entry_sum (si_inj s') i = nthR (si_psolver s') i.
Proof.
  intros U1 U2 C H0 D E i Hi. destruct (sources_ok p cells s U1 U2 C) as (ti & tp & s2 & E' & A & B & _). rewrite E in E'. injection E' as _ <-. destruct (zget_in_range cells i Hi) as [c Ec]. pose proof (zget_In _ _ _ Ec) as I. destruct (cells_facts cells C) as (F1 & _).
  destruct (A i c Ec) as (A1 & A2 & A3). specialize (B i c).
  destruct (blockb (sp_prod p) c) eqn:Q2.
  - assert (P2 : in_block (sp_prod p) c) by (apply blockb_ok; [exact U2|apply F1, I|exact Q2]). assert (P1 : ~ in_block (sp_inj p) c) by (intros Q; now apply (D c I Q)).
    rewrite A1 by exact P2. rewrite (B 0%R (density_of (sp_prod p) * sc_vol c)%R Ec); [lra|contradiction|reflexivity|reflexivity|contradiction].
  - assert (P2 : ~ in_block (sp_prod p) c) by (intros Q; apply blockb_ok in Q; [congruence|exact U2|apply F1, I]). destruct (blockb (sp_inj p) c) eqn:Q1.
    + assert (P1 : in_block (sp_inj p) c) by (apply blockb_ok; [exact U1|apply F1, I|exact Q1]). rewrite A2 by assumption. rewrite (B (density_of (sp_inj p) * sc_vol c)%R 0%R Ec); [lra|reflexivity|contradiction|contradiction|reflexivity].
    + assert (P1 : ~ in_block (sp_inj p) c) by (intros Q; apply blockb_ok in Q; [congruence|exact U1|apply F1, I]). rewrite A3 by assumption. rewrite H0. rewrite (B 0%R 0%R Ec); [|contradiction|reflexivity|contradiction|reflexivity]. unfold nthR. rewrite (proj2 (zget_None_iff [] i)) by (unfold zlen; cbn [length]; lia). lra.
Qed.
Lemma sorted_app (a b : list Z) : StronglySorted Z.lt (a ++ b) <-> StronglySorted Z.lt a /\ StronglySorted Z.lt b /\ forall x y, In x a -> In y b -> x < y.
Proof.
  induction a as [|x a IH]; cbn [app].
  - split; [intros H; repeat split; auto; [constructor|intros ? ? []]|tauto].
  - split.
    + intros H. inversion H as [|? ? S1 F1]; subst. apply IH in S1. destruct S1 as (A & B & D). rewrite Forall_forall in F1. split; [constructor; [exact A|]|split; [exact B|]].
      * apply Forall_forall. intros y I. apply F1. apply in_or_app. now left.
      * intros u v [<-|I] J; [apply F1, in_or_app; now right|now apply D].
    + intros (A & B & D). inversion A as [|? ? A1 A2]; subst. constructor; [apply IH; repeat split; auto; intros u v I J; apply D; auto; now right|].
      apply Forall_forall. intros y I. apply in_app_or in I. destruct I as [I|I]; [rewrite Forall_forall in A2; now apply A2|apply D; [now left|exact I]].
Qed.
Lemma sorted_filter (f : scell -> bool) l : StronglySorted Z.lt (map sc_index l) -> StronglySorted Z.lt (map sc_index (filter f l)).
Proof.
  induction l as [|x l IH]; [auto|]. cbn [map filter]. intros H. inversion H as [|? ? S1 F1]; subst. destruct (f x); [|auto]. cbn [map]. constructor; [auto|]. apply Forall_forall. intros y I. rewrite Forall_forall in F1. apply F1. apply in_map_iff in I. destruct I as (c & <- & I). apply filter_In in I. apply in_map. tauto.
Qed.
Lemma sources_order p cells s s' t : usable (sp_inj p) -> usable (sp_prod p) -> cells_ok cells -> flex_sources p cells s = Ok (t, s') ->
  (in_order (si_inj s') <-> forall c c', In c cells -> In c' cells -> in_block (sp_inj p) c -> in_block (sp_prod p) c' -> sc_index c < sc_index c').
Proof.
  intros U1 U2 C. destruct (cells_facts cells C) as (F1 & F2 & F3). unfold flex_sources, base_sources. cbn [si_inj si_psolver si_steps si_step si_sat]. pose proof (zlen_nonneg cells) as Ln.
  destruct (option_result (sp_inj p) true cells [] (vec_resize (zlen cells) 0%R (si_psolver s)) U1 C (vec_resize_len _ _ _ Ln)) as (ps1 & E1 & L1 & G1). rewrite E1. cbn [bind fst snd app].
  destruct (option_result (sp_prod p) false cells (map (fun c => (rate_of (density_of (sp_inj p)) true c, sc_index c)) (filter (blockb (sp_inj p)) cells)) ps1 U2 C ltac:(rewrite L1; now apply vec_resize_len)) as (ps2 & E2 & L2 & G2). rewrite E2. cbn [bind fst snd].
  intros Q. injection Q as <- <-. cbn [si_inj]. unfold in_order. rewrite map_app, !map_map. cbn [snd]. rewrite sorted_app. split.
  - intros (_ & _ & H) c c' I I' B B'. apply H; apply in_map, filter_In; split; auto; apply blockb_ok; auto; apply F1; auto.
  - intros H. split; [now apply sorted_filter|]. split; [now apply sorted_filter|]. intros x y Ix Iy. apply in_map_iff in Ix. destruct Ix as (c & <- & Ic). apply in_map_iff in Iy. destruct Iy as (c' & <- & Ic'). apply filter_In in Ic, Ic'. destruct Ic as [Ic Bc]. destruct Ic' as [Ic' Bc']. apply H; auto; apply blockb_ok; auto; apply F1; auto.
Qed.
Lemma density_missing p cells s b : sp_inj p = Some b -> bl_density b = None -> flex_sources p cells s = Throw.
Proof. intros E H. unfold flex_sources, source_option. rewrite E, H. reflexivity. Qed.
