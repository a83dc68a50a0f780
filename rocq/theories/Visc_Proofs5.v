From Verif Require Import BaseFacts RBaseFacts Bgrid_Proofs Steady_Proofs Shape_Proofs2 Relp_Proofs3 Rprop_Proofs3 Cap_Proofs Cap_Proofs2 Cap_Proofs4 Visc_Proofs2 Visc_Proofs3 Visc_Spec.
Open Scope Z_scope.

Lemma nthR_rget l i : 0 <= i < zlen l -> rget l i = Ok (nthR l i).
Proof. intros H. destruct (rget_range l i H) as (v & E & Z1). unfold nthR. now rewrite E, Z1. Qed.
Section Perms.
  Context (x : vin) (ecl : list Z) (pr : vproper x ecl) (ph : Z) (sats : list R) (Ls : zlen sats = zlen (vi_rocks x)).
  Definition cell_vals (c : Z) : R * (R * (R * R)) :=
    let m := vi_minperm x in
    let v d := phase_value x ph sats c d in
    if vi_aniso x then (m, (v 0, (v 1, v 2))) else (v 0, (m, (m, m))).
  Lemma sat_get c : In c ecl -> rget (vi_sat x) c = Ok (vsat x c) /\ 0 <= vsat x c <= zlen (vi_rocks x).
  Proof.
    intros I. assert (H : 0 <= c < zlen (vi_sat x)) by (now apply pr). destruct (zget_in_range _ _ H) as (s & Es). unfold vsat. rewrite Es. split; [now apply rget_Ok|]. apply zget_In in Es. now apply pr.
  Qed.
  Lemma cs_get s : 1 <= s <= zlen (vi_rocks x) -> exists cs, rget (vi_rocks x) (s - 1) = Ok cs /\ forall d, 0 <= d < directions x -> rget cs d = Ok (kr_pair x s d).
  Proof.
    intros Hs. destruct (rget_range (vi_rocks x) (s - 1) ltac:(lia)) as (cs & E & Z1). exists cs. split; [exact E|]. intros d Hd. unfold kr_pair. rewrite Z1.
    assert (zlen cs = directions x) as L by (apply pr, (zget_In _ _ _ Z1)). destruct (rget_range cs d ltac:(lia)) as (p & E2 & Z2). rewrite E2, Z2. reflexivity.
  Qed.
  Lemma cell_vals_ok c : In c ecl -> visc_cell_perm x ph sats c = Ok (cell_vals c).
  Proof.
    intros I. destruct (sat_get c I) as [Es Hs]. destruct pr as (_ & Rc & _ & _ & Lx & Lyz & _ & _). specialize (Rc c I).
    unfold visc_cell_perm, cell_vals, phase_value, cell_perm. rewrite Es. cbn [bind]. destruct (0 <? vsat x c) eqn:Q.
    2:{ destruct (vi_aniso x); reflexivity. }
    apply Z.ltb_lt in Q. rewrite nthR_rget by lia. cbn [bind]. destruct (cs_get (vsat x c) ltac:(lia)) as (cs & Ec & G). rewrite Ec. cbn [bind]. rewrite nthR_rget by lia. cbn [bind].
    unfold directions in G. destruct (vi_aniso x).
    - destruct (Lyz eq_refl) as [Ly Lz]. rewrite (G 0), (G 1), (G 2) by lia. cbn [bind]. rewrite !nthR_rget by lia. reflexivity.
    - rewrite (G 0) by lia. reflexivity.
  Qed.
  Definition all_values : list R := flat_map (fun c => vi_minperm x :: map (phase_value x ph sats c) (zrange 0 (directions x))) ecl.
  Lemma max_step m l v : is_max m l -> is_max (perm_max m v) (l ++ [fst v; fst (snd v); fst (snd (snd v)); snd (snd (snd v))]).
  Proof.
    intros M. unfold perm_max. destruct v as (a & b & c & d). cbn [fst snd].
    assert (K : forall u w, smax u w = Rmax u w) by (intros; apply smax_Rmax). rewrite !K. destruct M as [M1 M2].
    split.
    - unfold Rmax. apply in_or_app. repeat (destruct (Rle_dec _ _)); (left; assumption) || (right; cbn; tauto).
    - intros y I. apply in_app_or in I. destruct I as [I|I].
      + pose proof (M2 y I). pose proof (Rmax_l (Rmax m a) (Rmax (Rmax b c) d)). pose proof (Rmax_l m a). lra.
      + pose proof (Rmax_l (Rmax m a) (Rmax (Rmax b c) d)). pose proof (Rmax_r (Rmax m a) (Rmax (Rmax b c) d)). pose proof (Rmax_r m a). pose proof (Rmax_l (Rmax b c) d). pose proof (Rmax_r (Rmax b c) d). pose proof (Rmax_l b c). pose proof (Rmax_r b c).
        destruct I as [<-|[<-|[<-|[<-|[]]]]]; lra.
  Qed.
  Lemma is_max_same m l l' : (forall y, In y l <-> In y l') -> is_max m l -> is_max m l'.
  Proof. intros H [A B]. split; [now apply H|]. intros y I. apply B, H, I. Qed.
  Lemma max_fold cs m l : is_max m l ->
    is_max (fold_left perm_max (map cell_vals cs) m) (l ++ flat_map (fun c => vi_minperm x :: map (phase_value x ph sats c) (zrange 0 (directions x))) cs).
  Proof.
    revert m l. induction cs as [|c cs IH]; intros m l M; cbn [map fold_left flat_map]; [rewrite app_nil_r; exact M|].
    eapply is_max_same; [|apply IH; apply max_step; exact M].
    intros y. unfold cell_vals, directions. rewrite !in_app_iff. destruct (vi_aniso x); cbn [fst snd].
    - change (zrange 0 3) with [0; 1; 2]. cbn [map In]. tauto.
    - change (zrange 0 1) with [0]. cbn [map In]. tauto.
  Qed.
  Lemma perms_ok : exists m, is_max m (0%R :: all_values) /\ let low := Rmax (m / vi_contrast x) (vi_minperm x) in
    visc_perms x ph sats ecl = Ok (map (fun c => let v d := Rmax low (phase_value x ph sats c d) in
       if vi_aniso x then (v 0, v 1, v 2) else (v 0, v 0, v 0)) ecl).
  Proof.
    exists (fold_left perm_max (map cell_vals ecl) 0%R). split.
    - apply (max_fold ecl 0%R [0%R]). split; [now left|]. intros y [<-|[]]. lra.
    - cbn zeta. unfold visc_perms. rewrite (mapM_all_Ok _ cell_vals) by (intros; now apply cell_vals_ok). cbn [bind].
      rewrite mdiv_ok by (destruct pr as (_ & _ & C & _); lra). cbn [bind]. f_equal. rewrite map_map. apply map_ext. intros c. unfold cell_vals. rewrite !smax_Rmax. destruct (vi_aniso x); cbn [fst snd]; [reflexivity|].
      rewrite (Rmax_right _ (Rmax _ (phase_value x ph sats c 0))) by apply Rmax_l. reflexivity.
  Qed.
End Perms.
Lemma perms_spec x ecl ph sats : vproper x ecl -> zlen sats = zlen (vi_rocks x) ->
  exists m, is_max m (0%R :: flat_map (fun c => vi_minperm x :: map (phase_value x ph sats c) (zrange 0 (directions x))) ecl) /\
    let low := Rmax (m / vi_contrast x) (vi_minperm x) in
    visc_perms x ph sats ecl = Ok (map (fun c => let v d := Rmax low (phase_value x ph sats c d) in
       if vi_aniso x then (v 0, v 1, v 2) else (v 0, v 0, v 0)) ecl).
Proof. intros Pr L. exact (perms_ok x ecl Pr ph sats L). Qed.
Lemma perms_contrast x ecl ph sats ts : vproper x ecl -> zlen sats = zlen (vi_rocks x) -> (1 <= vi_contrast x)%R -> (0 < vi_minperm x)%R ->
  visc_perms x ph sats ecl = Ok ts ->
  forall t t' k k', In t ts -> In t' ts -> In k (diag_entries t) -> In k' (diag_entries t') -> (vi_minperm x <= k)%R /\ (k <= vi_contrast x * k')%R.
Proof.
  intros Pr L C P E t t' k k' It It' Ik Ik'. destruct (perms_spec x ecl ph sats Pr L) as (m & [M1 M2] & Es). cbn zeta in Es. rewrite E in Es. injection Es as ->.
  set (low := Rmax (m / vi_contrast x) (vi_minperm x)) in *.
  assert (Lm : (m <= vi_contrast x * low)%R).
  { apply Rle_trans with (vi_contrast x * (m / vi_contrast x))%R; [right; field; lra|]. apply Rmult_le_compat_l; [lra|apply Rmax_l]. }
  assert (Lp : (vi_minperm x <= low)%R) by apply Rmax_r.
  assert (K : forall t k, In t (map (fun c => let v d := Rmax low (phase_value x ph sats c d) in if vi_aniso x then (v 0, v 1, v 2) else (v 0, v 0, v 0)) ecl) -> In k (diag_entries t) -> (low <= k <= vi_contrast x * low)%R).
  { clear - M2 Lm Lp C P. intros t k It Ik. apply in_map_iff in It. destruct It as (c & <- & Ic).
    assert (G : forall d, 0 <= d < directions x -> (low <= Rmax low (phase_value x ph sats c d) <= vi_contrast x * low)%R).
    { intros d Hd. split; [apply Rmax_l|]. apply Rmax_lub. { rewrite <- (Rmult_1_l low) at 1. apply Rmult_le_compat_r; lra. }
      apply Rle_trans with m; [|exact Lm]. apply M2. right. apply in_flat_map. exists c. split; [exact Ic|]. right. apply in_map. apply In_zrange. lia. }
    unfold directions in G. cbn zeta in Ik. unfold diag_entries in Ik. destruct (vi_aniso x); cbn [fst snd In] in Ik; destruct Ik as [<-|[<-|[<-|[]]]]; apply G; lia. }
  pose proof (K t k It Ik). pose proof (K t' k' It' Ik'). split; [lra|]. apply Rle_trans with (vi_contrast x * low)%R; [lra|]. apply Rmult_le_compat_l; lra.
Qed.
Lemma single_ok x ecl kmin : vproper x ecl ->
  visc_single x kmin ecl = Ok (map (fun c => let v d := Rmax kmin (cell_perm x c d) in (v 0, v 1, v 2)) ecl).
Proof.
  intros Pr. unfold visc_single. apply mapM_all_Ok. intros c I. destruct Pr as (_ & Rc & _ & _ & Lx & Lyz & _ & _). specialize (Rc c I). rewrite nthR_rget by lia. cbn [bind]. unfold cell_perm.
  destruct (vi_aniso x).
  - destruct (Lyz eq_refl) as [Ly Lz]. rewrite !nthR_rget by lia. cbn [bind]. rewrite !smax_Rmax. reflexivity.
  - rewrite smax_Rmax, Rmax_comm. reflexivity.
Qed.
(* raising the saturation of water in every stone type raises its permeability in every rock cell *)
Lemma phase_monotone x ecl sats sats' c d : vproper x ecl -> In c ecl -> 0 <= d < directions x ->
  (forall s d, physical (kr_pair x s d)) -> (forall s, nthR sats s <= nthR sats' s)%R -> (0 <= cell_perm x c d)%R ->
  (phase_value x 0 sats c d <= phase_value x 0 sats' c d)%R /\ (phase_value x 1 sats' c d <= phase_value x 1 sats c d)%R.
Proof.
  intros Pr I Hd Ph Le K. unfold phase_value. destruct (0 <? vsat x c); [|lra].
  destruct (Ph (vsat x c) (if vi_aniso x then d else 0) _ _ (Le (vsat x c - 1))) as [A B]. unfold phase_curve. cbn [Z.eqb].
  split; apply Rmult_le_compat_r; assumption.
Qed.
