From Verif Require Import BaseFacts RBaseFacts Bgrid_Proofs Steady_Proofs Shape_Proofs2 Relp_Proofs3 Cap_Proofs3 Cap_Proofs4 Visc_Spec.
Open Scope Z_scope.

Lemma smax_Rmax a b : smax a b = Rmax a b.
Proof. unfold smax, Rmax. destruct (Rltb_spec a b), (Rle_dec a b); lra. Qed.
Lemma smin_Rmin a b : smin a b = Rmin a b.
Proof. unfold smin, Rmin. destruct (Rltb_spec b a), (Rle_dec a b); lra. Qed.
Lemma kr_limit_pos : (0 < kr_limit)%R.
Proof. unfold kr_limit. lra. Qed.

(* ---- saturation points *)
Lemma sats_len b : zlen (frac_sats b) = 1000.
Proof. unfold frac_sats, zlen. rewrite map_length, zrange_length. reflexivity. Qed.
Lemma sats_get b i : 0 <= i < 1000 -> zget (frac_sats b) i = Some (fst b + IZR i * ((snd b - fst b) / 999))%R.
Proof. intros H. unfold frac_sats. rewrite zget_map, zget_zrange by lia. reflexivity. Qed.
Lemma sats_spec left right :
  zlen (frac_sats (left, right)) = 1000 /\ nthR (frac_sats (left, right)) 0 = left /\ nthR (frac_sats (left, right)) 999 = right /\
  (forall i, 0 <= i < 999 -> (nthR (frac_sats (left, right)) (i + 1)%Z - nthR (frac_sats (left, right)) i = (right - left) / 999)%R) /\
  ((left <= right)%R -> forall i, 0 <= i < 1000 -> (left <= nthR (frac_sats (left, right)) i <= right)%R).
Proof.
  assert (G : forall i, 0 <= i < 1000 -> nthR (frac_sats (left, right)) i = (left + IZR i * ((right - left) / 999))%R).
  { intros i Hi. unfold nthR. rewrite sats_get by lia. reflexivity. }
  split; [apply sats_len|]. split; [rewrite G by lia; lra|]. split; [rewrite G by lia; lra|]. split.
  - intros i Hi. rewrite !G by lia. rewrite plus_IZR. lra.
  - intros H i Hi. rewrite G by lia. assert (0 <= IZR i <= 999)%R by (split; apply IZR_le; lia).
    assert (P : (0 <= (right - left) / 999)%R) by lra. split; [pose proof (Rmult_le_pos (IZR i) _ ltac:(lra) P); lra|].
    assert (IZR i * ((right - left) / 999) <= 999 * ((right - left) / 999))%R by (apply Rmult_le_compat_r; lra). lra.
Qed.

(* ---- flow ratio *)
Lemma ratio_value vw vo wo s : vw <> 0%R -> vo <> 0%R ->
  frac_ratio vw vo wo s = Ok (mobility_ratio (Rmax (cv_eval (fst wo) s) kr_limit) vw (Rmax (cv_eval (snd wo) s) kr_limit) vo).
Proof.
  intros Hw Ho. unfold frac_ratio. rewrite !smax_Rmax. pose proof kr_limit_pos. pose proof (Rmax_r (cv_eval (snd wo) s) kr_limit).
  rewrite mdiv_ok by lra. cbn [bind]. rewrite mdiv_ok by lra. f_equal. unfold mobility_ratio. field. lra.
Qed.
Lemma ratio_pos kw vw ko vo : (0 < kw)%R -> (0 < vw)%R -> (0 < ko)%R -> (0 < vo)%R -> (0 < mobility_ratio kw vw ko vo)%R.
Proof. intros. unfold mobility_ratio. repeat apply Rdiv_lt_0_compat; assumption. Qed.
Lemma ratio_le kw vw ko vo kw' ko' : (0 < kw)%R -> (0 < vw)%R -> (0 < ko')%R -> (0 < vo)%R -> (kw <= kw')%R -> (ko' <= ko)%R ->
  (mobility_ratio kw vw ko vo <= mobility_ratio kw' vw ko' vo)%R.
Proof.
  intros A B C D E F. unfold mobility_ratio. apply Rle_trans with (kw' / vw / (ko / vo))%R.
  - unfold Rdiv. apply Rmult_le_compat_r; [left; apply Rinv_0_lt_compat, Rmult_lt_0_compat; [lra|now apply Rinv_0_lt_compat]|].
    apply Rmult_le_compat_r; [left; now apply Rinv_0_lt_compat|exact E].
  - unfold Rdiv at 1 3. apply Rmult_le_compat_l; [left; apply Rdiv_lt_0_compat; lra|]. apply Rinv_le_contravar; [apply Rdiv_lt_0_compat; lra|].
    unfold Rdiv. apply Rmult_le_compat_r; [left; now apply Rinv_0_lt_compat|exact F].
Qed.
Lemma ratio_lt kw vw ko vo kw' ko' : (0 < kw)%R -> (0 < vw)%R -> (0 < ko')%R -> (0 < vo)%R -> (kw < kw')%R -> (ko' <= ko)%R ->
  (mobility_ratio kw vw ko vo < mobility_ratio kw' vw ko' vo)%R.
Proof.
  intros A B C D E F. apply Rlt_le_trans with (mobility_ratio kw' vw ko vo); [|apply ratio_le; lra].
  unfold mobility_ratio, Rdiv. apply Rmult_lt_compat_r; [apply Rinv_0_lt_compat, Rmult_lt_0_compat; [lra|now apply Rinv_0_lt_compat]|].
  apply Rmult_lt_compat_r; [now apply Rinv_0_lt_compat|exact E].
Qed.
Lemma ratio_spec vw vo wo : (0 < vw)%R -> (0 < vo)%R ->
  (forall s, exists f, frac_ratio vw vo wo s = Ok f /\ (0 < f)%R /\
     f = mobility_ratio (Rmax (cv_eval (fst wo) s) kr_limit) vw (Rmax (cv_eval (snd wo) s) kr_limit) vo) /\
  (physical wo -> forall s s' f f', (s <= s')%R -> frac_ratio vw vo wo s = Ok f -> frac_ratio vw vo wo s' = Ok f' ->
     (f <= f')%R /\ ((cv_eval (fst wo) s < cv_eval (fst wo) s')%R -> (kr_limit < cv_eval (fst wo) s')%R -> (f < f')%R)).
Proof.
  intros Hw Ho. pose proof kr_limit_pos as L. split.
  - intros s. rewrite ratio_value by lra. eexists. split; [reflexivity|]. split; [|reflexivity].
    pose proof (Rmax_r (cv_eval (fst wo) s) kr_limit). pose proof (Rmax_r (cv_eval (snd wo) s) kr_limit). apply ratio_pos; lra.
  - intros P s s' f f' Hs E E'. rewrite ratio_value in E, E' by lra. injection E as <-. injection E' as <-. destruct (P s s' Hs) as [Pw Po].
    pose proof (Rmax_r (cv_eval (fst wo) s) kr_limit). pose proof (Rmax_r (cv_eval (snd wo) s') kr_limit).
    assert (Mo : (Rmax (cv_eval (snd wo) s') kr_limit <= Rmax (cv_eval (snd wo) s) kr_limit)%R) by (apply Rle_max_compat_r; exact Po).
    split; [apply ratio_le; try lra; apply Rle_max_compat_r; exact Pw|]. intros W1 W2. apply ratio_lt; try lra.
    rewrite (Rmax_left (cv_eval (fst wo) s') kr_limit) by lra. apply Rmax_lub_lt; lra.
Qed.
(* the saturation points stay where both relative permeabilities reach the limit *)
Lemma bounds_iso cinv w o b : frac_bounds cinv [(w, o)] = Ok b -> physical (w, o) ->
  (cv_eval w (cinv w kr_limit) = kr_limit) -> (cv_eval o (cinv o kr_limit) = kr_limit) ->
  forall s, (fst b <= s <= snd b)%R -> (kr_limit <= cv_eval w s)%R /\ (kr_limit <= cv_eval o s)%R.
Proof.
  unfold frac_bounds. intros E P Iw Io s Hs. change (rget [(w, o)] 0) with (@Ok (curve * curve) (w, o)) in E. cbn [bind map fst snd phase_min phase_max fold_left] in E. injection E as <-. cbn [fst snd] in *.
  destruct Hs as [H1 H2]. destruct (P _ _ H1) as [P1 _]. destruct (P _ _ H2) as [_ P2]. cbn [fst snd] in *. split.
  - destruct (Rltb_spec (cv_eval w (smin (cv_minx o) (cv_minx w))) kr_limit); lra.
  - destruct (Rltb_spec (cv_eval o (smax (cv_maxx o) (cv_maxx w))) kr_limit); lra.
Qed.
Lemma bounds_value cinv cs wo : zget cs 0 = Some wo ->
  exists left right, frac_bounds cinv cs = Ok (if Rltb (cv_eval (fst wo) left) kr_limit then cinv (fst wo) kr_limit else left,
      if Rltb (cv_eval (snd wo) right) kr_limit then cinv (snd wo) kr_limit else right) /\
    is_min left (map (fun p => cv_minx (fst p)) cs ++ map (fun p => cv_minx (snd p)) cs) /\
    is_max right (map (fun p => cv_maxx (fst p)) cs ++ map (fun p => cv_maxx (snd p)) cs).
Proof.
  intros H. unfold frac_bounds. rewrite (proj2 (rget_Ok _ _ _) H). cbn [bind]. do 2 eexists. split; [reflexivity|].
  assert (Gmin : forall (g : curve * curve -> curve), is_min (phase_min (map g cs)) (map (fun p => cv_minx (g p)) cs)).
  { intros g. destruct cs as [|p t]; [discriminate|]. cbn [map phase_min].
    assert (K : forall t m l, is_min m l -> is_min (fold_left (fun m d => smin m (cv_minx d)) (map g t) m) (l ++ map (fun p => cv_minx (g p)) t)).
    { clear. induction t as [|q t IH]; intros m l M; cbn [map fold_left]; [rewrite app_nil_r; exact M|].
      change (cv_minx (g q) :: map (fun p => cv_minx (g p)) t) with ([cv_minx (g q)] ++ map (fun p => cv_minx (g p)) t). rewrite app_assoc. apply IH.
      assert (smin m (cv_minx (g q)) = smin (cv_minx (g q)) m) as -> by (unfold smin; destruct (Rltb_spec (cv_minx (g q)) m), (Rltb_spec m (cv_minx (g q))); lra). now apply is_min_step. }
    apply (K t _ [cv_minx (g p)]). split; [now left|]. intros y [<-|[]]. lra. }
  assert (Gmax : forall (g : curve * curve -> curve), is_max (phase_max (map g cs)) (map (fun p => cv_maxx (g p)) cs)).
  { intros g. destruct cs as [|p t]; [discriminate|]. cbn [map phase_max].
    assert (K : forall t m l, is_max m l -> is_max (fold_left (fun m d => smax m (cv_maxx d)) (map g t) m) (l ++ map (fun p => cv_maxx (g p)) t)).
    { clear. induction t as [|q t IH]; intros m l M; cbn [map fold_left]; [rewrite app_nil_r; exact M|].
      change (cv_maxx (g q) :: map (fun p => cv_maxx (g p)) t) with ([cv_maxx (g q)] ++ map (fun p => cv_maxx (g p)) t). rewrite app_assoc. apply IH.
      assert (smax m (cv_maxx (g q)) = smax (cv_maxx (g q)) m) as -> by (unfold smax; destruct (Rltb_spec (cv_maxx (g q)) m), (Rltb_spec m (cv_maxx (g q))); lra). now apply is_max_step. }
    apply (K t _ [cv_maxx (g p)]). split; [now left|]. intros y [<-|[]]. lra. }
  destruct (Gmin fst) as [A1 A2]. destruct (Gmin snd) as [B1 B2]. destruct (Gmax fst) as [C1 C2]. destruct (Gmax snd) as [D1 D2].
  split; split.
  - unfold smin. apply in_or_app. destruct (Rltb_spec (phase_min (map fst cs)) (phase_min (map snd cs))); [left|right]; assumption.
  - intros y I. apply in_app_or in I. unfold smin. destruct (Rltb_spec (phase_min (map fst cs)) (phase_min (map snd cs))); destruct I as [I|I]; [pose proof (A2 y I)|pose proof (B2 y I)|pose proof (A2 y I)|pose proof (B2 y I)]; lra.
  - unfold smax. apply in_or_app. destruct (Rltb_spec (phase_max (map snd cs)) (phase_max (map fst cs))); [left|right]; assumption.
  - intros y I. apply in_app_or in I. unfold smax. destruct (Rltb_spec (phase_max (map snd cs)) (phase_max (map fst cs))); destruct I as [I|I]; [pose proof (C2 y I)|pose proof (D2 y I)|pose proof (C2 y I)|pose proof (D2 y I)]; lra.
Qed.
Lemma table_spec vw vo b wo : (0 < vw)%R -> (0 < vo)%R -> exists t, frac_table vw vo b wo = Ok t /\ zlen t = 1000 /\
  forall i, 0 <= i < 1000 -> frac_ratio vw vo wo (nthR (frac_sats b) i) = Ok (nthR t i).
Proof.
  intros Hw Ho. unfold frac_table. destruct (mapM_exists (frac_ratio vw vo wo) (frac_sats b)) as (t & E).
  { intros s _. rewrite ratio_value by lra. eauto. }
  exists t. split; [exact E|]. apply mapM_Ok in E. assert (L : zlen t = 1000) by (unfold zlen; rewrite <- (Forall2_length' _ _ _ E); apply sats_len).
  split; [exact L|]. intros i Hi. destruct (Forall2_zget _ _ _ E i _ (sats_get b i Hi)) as (f & Hf & Ef).
  unfold nthR. rewrite Hf, sats_get by lia. exact Ef.
Qed.
(* isotropic table: exact ratios at saturations between the bounds, increasing *)
Lemma iso_table build cinv vw vo w o : (0 < vw)%R -> (0 < vo)%R -> physical (w, o) ->
  cv_eval w (cinv w kr_limit) = kr_limit -> cv_eval o (cinv o kr_limit) = kr_limit ->
  exists b f, frac_bounds cinv [(w, o)] = Ok b /\ frac_curves build cinv false vw vo [(w, o)] = Ok [build f (frac_sats b)] /\ zlen f = 1000 /\
    ((fst b <= snd b)%R -> forall i, 0 <= i < 1000 ->
       nthR f i = mobility_ratio (cv_eval w (nthR (frac_sats b) i)) vw (cv_eval o (nthR (frac_sats b) i)) vo /\ (0 < nthR f i)%R /\
       forall j, i <= j < 1000 -> (nthR f i <= nthR f j)%R).
Proof.
  intros Hw Ho P Iw Io. destruct (bounds_value cinv [(w, o)] (w, o) eq_refl) as (l & r & E & _).
  set (b := (if Rltb (cv_eval (fst (w, o)) l) kr_limit then cinv (fst (w, o)) kr_limit else l, if Rltb (cv_eval (snd (w, o)) r) kr_limit then cinv (snd (w, o)) kr_limit else r)) in *.
  destruct (table_spec vw vo b (w, o) Hw Ho) as (f & Ef & Lf & Vf). exists b, f. split; [exact E|]. split.
  { unfold frac_curves. rewrite E. cbn [bind]. change (rget [(w, o)] 0) with (@Ok (curve * curve) (w, o)). cbn [bind]. rewrite Ef. reflexivity. }
  split; [exact Lf|]. intros Hb i Hi.
  assert (Bi : forall k, 0 <= k < 1000 -> (fst b <= nthR (frac_sats b) k <= snd b)%R).
  { intros k Hk. pose proof (sats_spec (fst b) (snd b)) as (_ & _ & _ & _ & S). rewrite <- surjective_pairing in S. now apply S. }
  destruct (bounds_iso cinv w o b E P Iw Io _ (Bi i Hi)) as [B1 B2]. pose proof kr_limit_pos.
  pose proof (Vf i Hi) as V. destruct (ratio_spec vw vo (w, o) Hw Ho) as [R1 R2]. destruct (R1 (nthR (frac_sats b) i)) as (g & Eg & Pg & Vg). rewrite V in Eg. injection Eg as <-.
  split. { rewrite Vg. cbn [fst snd]. rewrite !Rmax_left by lra. reflexivity. }
  split; [exact Pg|]. intros j Hj.
  assert (Si : (nthR (frac_sats b) i <= nthR (frac_sats b) j)%R).
  { unfold nthR. rewrite !sats_get by lia. assert (IZR i <= IZR j)%R by (apply IZR_le; lia). assert (0 <= (snd b - fst b) / 999)%R by lra.
    pose proof (Rmult_le_compat_r _ _ _ H1 H0). lra. }
  destruct (R2 P _ _ _ _ Si V (Vf j ltac:(lia))) as [A _]. exact A.
Qed.
(* anisotropic tables: the third curve is a copy of the second *)
Lemma aniso_table build cinv vw vo x y z : (0 < vw)%R -> (0 < vo)%R ->
  exists b f fy, frac_bounds cinv [x; y; z] = Ok b /\
    frac_curves build cinv true vw vo [x; y; z] = Ok [build f (frac_sats b); build fy (frac_sats b); build fy (frac_sats b)] /\
    (forall i, 0 <= i < 1000 -> frac_ratio vw vo x (nthR (frac_sats b) i) = Ok (nthR f i)) /\
    (forall i, 0 <= i < 1000 -> frac_ratio vw vo y (nthR (frac_sats b) i) = Ok (nthR fy i)).
Proof.
  intros Hw Ho. destruct (bounds_value cinv [x; y; z] x eq_refl) as (l & r & E & _).
  match type of E with _ = Ok ?b0 => set (b := b0) in * end.
  destruct (table_spec vw vo b x Hw Ho) as (f & Ef & _ & Vf). destruct (table_spec vw vo b y Hw Ho) as (fy & Efy & _ & Vfy). destruct (table_spec vw vo b z Hw Ho) as (fz & Efz & _ & Vfz).
  exists b, f, fy. split; [exact E|]. split; [|auto]. unfold frac_curves. rewrite E. cbn [bind].
  change (rget [x; y; z] 0) with (@Ok (curve * curve) x). cbn [bind]. rewrite Ef. cbn [bind].
  change (rget [x; y; z] 1) with (@Ok (curve * curve) y). cbn [bind]. rewrite Efy. cbn [bind].
  change (rget [x; y; z] 2) with (@Ok (curve * curve) z). cbn [bind]. rewrite Efz. reflexivity.
Qed.
(* ... so the relative permeabilities in the z direction do not matter beyond their saturation range *)
Lemma z_ignored build cinv vw vo x y z z' : (0 < vw)%R -> (0 < vo)%R ->
  cv_minx (fst z) = cv_minx (fst z') -> cv_maxx (fst z) = cv_maxx (fst z') -> cv_minx (snd z) = cv_minx (snd z') -> cv_maxx (snd z) = cv_maxx (snd z') ->
  frac_curves build cinv true vw vo [x; y; z] = frac_curves build cinv true vw vo [x; y; z'].
Proof.
  intros Hw Ho A B C D. destruct (aniso_table build cinv vw vo x y z Hw Ho) as (b & f & fy & E & F & V & Vy). destruct (aniso_table build cinv vw vo x y z' Hw Ho) as (b' & f' & fy' & E' & F' & V' & Vy').
  rewrite F, F'.
  assert (b = b') as <-.
  { unfold frac_bounds in E, E'. change (rget [x; y; z] 0) with (@Ok (curve * curve) x) in E. change (rget [x; y; z'] 0) with (@Ok (curve * curve) x) in E'. cbn [bind map phase_min phase_max fold_left] in E, E'.
    rewrite A, B, C, D in E. congruence. }
  unfold frac_curves in F, F'. rewrite E in F. rewrite E' in F'. cbn [bind] in F, F'.
  change (rget [x; y; z] 0) with (@Ok (curve * curve) x) in F. change (rget [x; y; z'] 0) with (@Ok (curve * curve) x) in F'. cbn [bind] in F, F'.
  destruct (frac_table vw vo b x) as [g| |]; cbn [bind] in F, F'; try discriminate.
  change (rget [x; y; z] 1) with (@Ok (curve * curve) y) in F. change (rget [x; y; z'] 1) with (@Ok (curve * curve) y) in F'. cbn [bind] in F, F'.
  destruct (frac_table vw vo b y) as [gy| |]; cbn [bind] in F, F'; try discriminate.
  change (rget [x; y; z] 2) with (@Ok (curve * curve) z) in F. change (rget [x; y; z'] 2) with (@Ok (curve * curve) z') in F'. cbn [bind] in F, F'.
  destruct (frac_table vw vo b z) as [gz| |]; cbn [bind] in F; try discriminate. destruct (frac_table vw vo b z') as [gz'| |]; cbn [bind] in F'; try discriminate. congruence.
Qed.
(* range over all stone types *)
Lemma range_spec inv : List.concat inv <> [] -> (forall c, In c (List.concat inv) -> cv_minx c <= dbl_max /\ 0 <= cv_maxx c)%R ->
  is_min (fst (frac_range inv)) (map cv_minx (List.concat inv)) /\ is_max (snd (frac_range inv)) (map cv_maxx (List.concat inv)).
Proof.
  unfold frac_range. intros Ne H.
  assert (K : forall t m n l, (is_min m (dbl_max :: map cv_minx l) -> is_max n (0%R :: map cv_maxx l) ->
    let r := fold_left (fun m c => (smin (fst m) (cv_minx c), smax (snd m) (cv_maxx c))) t (m, n) in
    is_min (fst r) (dbl_max :: map cv_minx (l ++ t)) /\ is_max (snd r) (0%R :: map cv_maxx (l ++ t)))).
  { clear. induction t as [|c t IH]; intros m n l M N; cbn [fold_left fst snd]; [rewrite app_nil_r; auto|].
    change (c :: t) with ([c] ++ t). rewrite app_assoc. apply IH.
    - rewrite map_app. cbn [map]. assert (smin m (cv_minx c) = smin (cv_minx c) m) as -> by (unfold smin; destruct (Rltb_spec (cv_minx c) m), (Rltb_spec m (cv_minx c)); lra).
      apply (is_min_step _ (_ :: _)). exact M.
    - rewrite map_app. cbn [map]. assert (smax n (cv_maxx c) = smax (cv_maxx c) n) as -> by (unfold smax; destruct (Rltb_spec (cv_maxx c) n), (Rltb_spec n (cv_maxx c)); lra).
      apply (is_max_step _ (_ :: _)). exact N. }
  destruct (K (List.concat inv) dbl_max 0%R [] ltac:(split; [now left|intros y [<-|[]]; lra]) ltac:(split; [now left|intros y [<-|[]]; lra])) as [[M1 M2] [N1 N2]]. cbn [app] in *.
  destruct (List.concat inv) as [|c0 t] eqn:Q; [congruence|]. rewrite <- Q in *. assert (I0 : In c0 (List.concat inv)) by (rewrite Q; now left). destruct (H c0 I0) as [Hmin Hmax].
  split; split.
  - destruct M1 as [M1|M1]; [|exact M1]. pose proof (M2 (cv_minx c0) (or_intror (in_map _ _ _ I0))). rewrite <- M1 in H0 |- *. replace dbl_max with (cv_minx c0) by lra. apply in_map, I0.
  - intros y I. apply M2. now right.
  - destruct N1 as [N1|N1]; [|exact N1]. pose proof (N2 (cv_maxx c0) (or_intror (in_map _ _ _ I0))). rewrite <- N1 in H0 |- *. replace 0%R with (cv_maxx c0) by lra. apply in_map, I0.
  - intros y I. apply N2. now right.
Qed.
