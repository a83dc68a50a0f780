From Verif Require Import BaseFacts RBaseFacts Lin_Facts Steady_Proofs Euler_Proofs2 Impl_Proofs Impl_Proofs5 Matx_Proofs Matx_Proofs2 Matx_Proofs3 Mim_Proofs Mim_Proofs2 Hnum_Proofs Hnum_Proofs2 Hyb_Spec Hyb_Proofs Hyb_Proofs2 Hyb_Proofs3 Hyb_Proofs4.
Open Scope Z_scope.

Lemma classic_zero n (z : Z -> R) : (forall i, 0 <= i < n -> z i = 0%R) \/ exists i, 0 <= i < n /\ z i <> 0%R.
Proof.
  destruct (Z_le_gt_dec n 0) as [H|H]; [left; intros; lia|]. revert z. pattern n. apply (natlike_ind); [left; intros; lia| |lia].
  intros m Hm IH z. destruct (IH z) as [A|(i & Hi & Nz)]; [|right; exists i; split; [lia|exact Nz]]. destruct (Req_dec (z m) 0) as [E|E]; [left; intros i Hi; destruct (Z.eq_dec i m) as [->|]; [exact E|apply A; lia]|right; exists m; split; [lia|exact E]].
Qed.
(* ---- the Schur complement of a cell ---- *)
Section Schur.
Variables (n : Z) (B : Z -> Z -> R).
Hypothesis Sy : symmetric n B.
Notation F := (Fl n B). Notation L := (Ll n B).
Lemma F_row i : 0 <= i < n -> Sum n (B i) = F i.
Proof. intros Hi. unfold Fl. apply Sum_ext. intros j Hj. apply Sy; assumption. Qed.
Lemma Sl_eq i j : 0 <= i < n -> 0 <= j < n -> Sl n B i j = (B i j - F i * F j / L)%R.
Proof. intros Hi Hj. unfold Sl, Ul. destruct (j <? i); [|reflexivity]. rewrite (Sy j i) by assumption. unfold Rdiv. ring. Qed.
Definition tz (z : Z -> R) : R := (Sum n (fun i => F i * z i) / L)%R.
Lemma mvec_shift z t i : 0 <= i < n -> mvec n B (fun j => z j - t)%R i = (mvec n B z i - t * F i)%R.
Proof.
  intros Hi. unfold mvec. rewrite (Sum_ext n _ (fun j => B i j * z j - t * B i j)%R) by (intros; ring). rewrite Sum_minus, Sum_scal, F_row by exact Hi. reflexivity.
Qed.
Lemma Fz z : Sum n (fun i => mvec n B z i) = Sum n (fun i => F i * z i)%R.
Proof.
  unfold mvec. rewrite Sum_swap. apply Sum_ext. intros j Hj. rewrite Sum_scal_r. reflexivity.
Qed.
Lemma mvec_Sl z i : 0 <= i < n -> mvec n (Sl n B) z i = (mvec n B z i - F i * tz z)%R.
Proof.
  intros Hi. unfold mvec, tz. rewrite (Sum_ext n _ (fun j => B i j * z j - (F i / L) * (F j * z j))%R) by (intros j Hj; rewrite Sl_eq by assumption; unfold Rdiv; ring).
  rewrite Sum_minus, Sum_scal. unfold Rdiv. ring.
Qed.
Lemma quad_Sl z : L <> 0%R -> quad n (Sl n B) z = quad n B (fun i => z i - tz z)%R.
Proof.
  intros NL. unfold quad, dot. set (t := tz z).
  rewrite (Sum_ext n (fun i => z i * mvec n (Sl n B) z i)%R (fun i => z i * mvec n B z i - t * (F i * z i))%R) by (intros i Hi; rewrite mvec_Sl by exact Hi; fold t; ring).
  rewrite (Sum_ext n (fun i => (z i - t) * mvec n B (fun j => z j - t) i)%R (fun i => (z i * mvec n B z i - t * (F i * z i)) - (t * mvec n B z i - t * t * F i))%R) by (intros i Hi; rewrite mvec_shift by exact Hi; ring).
  rewrite (Sum_minus n (fun i => z i * mvec n B z i - t * (F i * z i))%R (fun i => t * mvec n B z i - t * t * F i)%R).
  rewrite (Sum_minus n (fun i => t * mvec n B z i)%R (fun i => t * t * F i)%R), !Sum_scal, Fz. fold L.
  assert (E : Sum n (fun i => F i * z i)%R = (t * L)%R) by (unfold t, tz; field; exact NL). rewrite E. change (Sum n F) with L. ring.
Qed.
Hypothesis Pd : positive_form n B.
Lemma L_pos : 0 < n -> (0 < L)%R.
Proof.
  intros Hn. assert (Q : (0 < quad n B (fun _ => 1))%R) by (apply Pd; exists 0; split; [lia|lra]). unfold quad, dot in Q.
  rewrite (Sum_ext n _ F) in Q; [exact Q|]. intros i Hi. unfold mvec. rewrite (Sum_ext n _ (B i)) by (intros; ring). rewrite F_row by exact Hi. ring.
Qed.
Lemma quad_nonneg (z : Z -> R) : (0 <= quad n B z)%R /\ (quad n B z = 0%R -> forall i, 0 <= i < n -> z i = 0%R).
Proof.
  destruct (classic_zero n z) as [Hz|(i & Hi & Nz)].
  - split; [|intros _; exact Hz]. unfold quad, dot. rewrite Sum_zero; [lra|]. intros i Hi. rewrite Hz by exact Hi. ring.
  - assert (Q : (0 < quad n B z)%R) by (apply Pd; exists i; auto). split; [lra|intros; lra].
Qed.
End Schur.

(* ---- sums over half faces ---- *)
Section Sums.
Variable g : list hcell.
Notation nf := (nfaces g).
Definition S2 (f : Z -> Z -> R) : R := Sum (zlen g) (fun k => Sum (nf k) (f k)).
Lemma S2_ext f h : (forall k r, half g k r -> f k r = h k r) -> S2 f = S2 h.
Proof. intros H. apply Sum_ext. intros k Hk. apply Sum_ext. intros r Hr. apply H. split; assumption. Qed.
Lemma S2_plus f h : S2 (fun k r => f k r + h k r)%R = (S2 f + S2 h)%R.
Proof. unfold S2. rewrite <- Sum_plus. apply Sum_ext. intros. apply Sum_plus. Qed.
Lemma S2_minus f h : S2 (fun k r => f k r - h k r)%R = (S2 f - S2 h)%R.
Proof. unfold S2. rewrite <- Sum_minus. apply Sum_ext. intros. apply Sum_minus. Qed.
Lemma S2_scal a f : S2 (fun k r => a * f k r)%R = (a * S2 f)%R.
Proof. unfold S2. rewrite <- Sum_scal. apply Sum_ext. intros. apply Sum_scal. Qed.
Lemma S2_zero f : (forall k r, half g k r -> f k r = 0%R) -> S2 f = 0%R.
Proof. intros H. apply Sum_zero. intros k Hk. apply Sum_zero. intros r Hr. apply H. split; assumption. Qed.
Lemma S2_Sum n f : S2 (fun k r => Sum n (fun i => f k r i)) = Sum n (fun i => S2 (fun k r => f k r i)).
Proof. unfold S2. rewrite Sum_swap. apply Sum_ext. intros k Hk. apply Sum_swap. Qed.
Lemma S2_one f k1 r1 : half g k1 r1 -> (forall k r, half g k r -> ~ (k = k1 /\ r = r1) -> f k r = 0%R) -> S2 f = f k1 r1.
Proof.
  intros (Hk & Hr) H. unfold S2. rewrite (Sum_pick _ k1 _ Hk).
  - apply Sum_pick; [exact Hr|]. intros r Hr' Nr. apply H; [split; assumption|]. intros (_ & Q). contradiction.
  - intros k Hk' Nk. apply Sum_zero. intros r Hr'. apply H; [split; assumption|]. intros (Q & _). contradiction.
Qed.
Lemma S2_two f k1 r1 k2 r2 : half g k1 r1 -> half g k2 r2 -> ~ (k1 = k2 /\ r1 = r2) -> (forall k r, half g k r -> ~ (k = k1 /\ r = r1) -> ~ (k = k2 /\ r = r2) -> f k r = 0%R) -> S2 f = (f k1 r1 + f k2 r2)%R.
Proof.
  intros H1 H2 N12 H. set (b := fun k r => (k =? k1) && (r =? r1)).
  assert (Bt : forall k r, b k r = true <-> k = k1 /\ r = r1) by (intros; unfold b; rewrite Bool.andb_true_iff, !Z.eqb_eq; tauto).
  rewrite (S2_ext f (fun k r => (if b k r then f k r else 0) + (if b k r then 0 else f k r))%R) by (intros; destruct (b k r); ring). rewrite S2_plus.
  rewrite (S2_one (fun k r => if b k r then f k r else 0%R) k1 r1 H1), (S2_one (fun k r => if b k r then 0%R else f k r) k2 r2 H2).
  - rewrite (proj2 (Bt k1 r1)) by auto. destruct (b k2 r2) eqn:E; [|reflexivity]. apply Bt in E. destruct E as (-> & ->). exfalso. apply N12. auto.
  - intros k r Hh N2. destruct (b k r) eqn:E; [reflexivity|]. apply H; [exact Hh| |exact N2]. intros Q. apply Bt in Q. congruence.
  - intros k r Hh N1. destruct (b k r) eqn:E; [|reflexivity]. apply Bt in E. contradiction.
Qed.
End Sums.

Section Solve.
Variables (g : list hcell) (bc : hbc) (st : hstruct) (ip : hip) (src : list R) (d : hdyn).
Hypothesis HS : structured g bc st.
Hypothesis HI : ip_shaped g ip.
Hypothesis Hsrc : sources g src.
Hypothesis Hd : dynok g bc ip src (zlen g) d.
Notation N := (num st).
Notation total := (nm_total (hs_num st)).
Notation nf := (nfaces g).
Notation Fk := (Fk g ip). Notation Lk := (Lk g ip). Notation Gk := (Gk g ip src). Notation gfl := (gfl g ip). Notation Bk := (Bk g ip).
(* cell pressure and outflux recovered for contact pressures x *)
Definition prs (x : Z -> R) (k : Z) : R := ((Gk k + Sum (nf k) (fun r => Fk k r * x (N k r))) / Lk k)%R.
Definition flx (x : Z -> R) (k r : Z) : R := (gfl k r + Sum (nf k) (fun c => Bk k r c * (prs x k - x (N k c))))%R.
Lemma recover_ok soln : zlen soln = total -> exists ps vs, recover g st ip d soln = Ok (ps, vs) /\ zlen ps = zlen g /\ half_table g vs /\
  (forall k, 0 <= k < zlen g -> nthR ps k = prs (nthR soln) k) /\ (forall k r, half g k r -> at2 vs k r = flx (nthR soln) k r).
Proof.
  intros Ls. pose proof (HST g bc st HS) as ST. pose proof (zlen_nonneg g) as Z0. unfold recover. destruct Hd as (D1 & D2 & D3 & D4 & D5 & _).
  match goal with |- context[foldM ?f g ?s0] => destruct (list_loop f (fun k (pv : list R * list (list R)) => zlen (fst pv) = zlen g /\ half_table g (snd pv) /\
    (forall k', 0 <= k' < k -> k' < zlen g -> nthR (fst pv) k' = prs (nthR soln) k' /\ forall r, half g k' r -> at2 (snd pv) k' r = flx (nthR soln) k' r)) g s0) as ((ps & vs) & E & A & B & C) end.
  - cbn [fst snd]. split; [apply zlen_zrepeat; exact Z0|]. split; [|intros; lia]. split; [rewrite zlen_map; apply ST|]. intros k Hk.
    pose proof (row_get g bc _ ST k Hk) as Gr. apply rget_Ok in Gr. rewrite (nth_zget _ k (map (fun _ => 0%R) (row g (hs_num st) k))); [rewrite zlen_map; apply row_len|]. rewrite zget_map, Gr. reflexivity.
  - intros k c (ps & vs) Gc (A & (B1 & B2) & C). pose proof (zget_Some_range _ _ _ Gc) as Hk. assert (Ec : cell_at g k = c) by (apply nth_zget; exact Gc). rewrite <- Ec. cbn [fst snd] in *. unfold recover_cell.
    rewrite (cell_no g bc _ ST) by exact Hk. cbn [bind]. rewrite (row_get g bc _ ST) by exact Hk. cbn [bind].
    assert (Em : mapM (rget soln) (row g (hs_num st) k) = Ok (map (nthR soln) (row g (hs_num st) k))).
    { apply mapM_all_Ok. intros n Hn. apply rget_at. rewrite Ls. eapply row_range; [exact ST|exact Hk|exact Hn]. }
    rewrite Em. cbn [bind]. set (pi := map (nthR soln) (row g (hs_num st) k)).
    assert (Lpi : zlen pi = nf k) by (unfold pi; rewrite zlen_map; apply row_len).
    assert (Gpi : forall r, 0 <= r < nf k -> nthR pi r = nthR soln (N k r)) by (intros r Hr; apply nthR_get; unfold pi; rewrite zget_map, row_nth by exact Hr; reflexivity).
    destruct (D4 k Hk) as (F & GF & LF & HF). specialize (HF ltac:(lia)). rewrite (proj2 (rget_Ok _ _ _) GF). cbn [bind].
    destruct (D5 k ltac:(lia) ltac:(lia)) as (GL & GG). rewrite (proj2 (rget_Ok _ _ _) GL), (proj2 (rget_Ok _ _ _) GG). cbn [bind].
    assert (Lc : zlen (map (fun p => (fst p * snd p)%R) (combine F pi)) = nf k) by (rewrite zlen_map; unfold zlen in *; rewrite combine_length; lia).
    assert (Es : Rsum (map (fun p => (fst p * snd p)%R) (combine F pi)) = Sum (nf k) (fun r => Fk k r * nthR soln (N k r))%R).
    { rewrite (Rsum_Sum _ (nf k) Lc). apply Sum_ext. intros r Hr. rewrite (nthR_map2 Rmult) by lia. rewrite HF, Gpi by exact Hr. reflexivity. }
    rewrite Es, mdiv_Ok by (apply (Lk_nz g ip HI k Hk)). cbn [bind]. fold (prs (nthR soln) k).
    destruct (rset_exists ps k (prs (nthR soln) k) ltac:(lia)) as (ps' & E1 & M1 & G1 & O1). rewrite E1. cbn [bind].
    destruct (zget_in_range vs k ltac:(lia)) as (v & Gv). rewrite (proj2 (rget_Ok _ _ _) Gv). cbn [bind]. assert (Lv : zlen v = nf k) by (rewrite <- (B2 k Hk), (nth_zget _ _ _ [] Gv); reflexivity).
    destruct (HI k Hk) as (HB & Lg & _). change (hc_idx (cell_at g k)) with (idx g k).
    set (dx := map (fun x => (prs (nthR soln) k - x)%R) pi). assert (Ldx : zlen dx = nf k) by (unfold dx; rewrite zlen_map; exact Lpi).
    destruct (gemv_ok false _ (nf k) (nf k) _ 1 0 dx v HB Ldx Lv) as (w & E2 & Lw & Gw). rewrite E2. cbn [bind].
    set (v' := map (fun p => (fst p + snd p)%R) (combine (ip_gflux ip (idx g k)) w)). assert (Lv' : zlen v' = nf k) by (unfold v'; rewrite zlen_map; unfold zlen in *; rewrite combine_length; lia).
    destruct (rset_exists vs k v' ltac:(lia)) as (vs' & E3 & M3 & G3 & O3). rewrite E3. cbn [bind]. eexists. split; [reflexivity|]. cbn [fst snd]. split; [lia|]. split; [split; [lia|]|].
    + intros k' Hk'. destruct (Z.eq_dec k' k) as [->|Nk]; [rewrite (nth_zget _ _ _ [] G3); exact Lv'|]. destruct (zget_in_range vs k' ltac:(lia)) as (v0 & G0). rewrite (nth_zget vs' k' v0); [|rewrite O3 by exact Nk; exact G0]. rewrite <- (nth_zget _ _ _ [] G0). apply B2. exact Hk'.
    + intros k' Hk' Hl. destruct (Z.eq_dec k' k) as [->|Nk].
      * split; [apply nthR_get; exact G1|]. intros r (_ & Hr). unfold at2. rewrite (nth_zget _ _ _ [] G3). unfold v'. rewrite (nthR_map2 Rplus) by lia. rewrite Gw by lia. unfold flx. f_equal. rewrite Ldx. unfold mvec. rewrite Rmult_0_l, Rplus_0_r, Rmult_1_l.
        apply Sum_ext. intros c' Hc. unfold dx. rewrite (nthR_get (map _ pi) c' (prs (nthR soln) k - nthR pi c')%R) by (rewrite zget_map, (zget_nthR pi c') by lia; reflexivity). rewrite Gpi by exact Hc. reflexivity.
      * destruct (C k' ltac:(lia) Hl) as (C1 & C2). split; [rewrite <- C1; unfold nthR; rewrite O1 by exact Nk; reflexivity|]. intros r Hr. rewrite <- (C2 r Hr). unfold at2. f_equal. destruct (zget_in_range vs k' ltac:(lia)) as (v0 & G0).
        rewrite (nth_zget vs k' v0 [] G0). apply nth_zget. rewrite O3 by exact Nk. exact G0.
  - exists ps, vs. cbn [fst snd] in *. split; [exact E|]. split; [exact A|]. split; [exact B|]. split; [intros k Hk; apply C; lia|intros k r Hr; apply C; [destruct Hr; lia|destruct Hr; lia|exact Hr]].
Qed.
(* fluxes add up to the source *)
Lemma flx_sum x k : 0 <= k < zlen g -> Sum (nf k) (flx x k) = nthR src (idx g k).
Proof.
  intros Hk. pose proof (Lk_nz g ip HI k Hk) as NL. unfold flx. rewrite (Sum_plus (nf k) (gfl k)).
  rewrite (Sum_swap (nf k) (nf k) (fun r c => Bk k r c * (prs x k - x (N k c)))%R).
  rewrite (Sum_ext (nf k) (fun j => Sum (nf k) (fun i => Bk k i j * (prs x k - x (N k j)))%R) (fun c => prs x k * Fk k c - Fk k c * x (N k c))%R).
  - rewrite Sum_minus, Sum_scal. change (Sum (nf k) (Fk k)) with (Lk k). unfold prs, Gk. field. exact NL.
  - intros c Hc. rewrite Sum_scal_r. unfold Hyb_Proofs4.Fk, Fl. ring.
Qed.
(* the flux in terms of the local equation *)
Hypothesis HP : ip_spd g ip.
Notation rowres := (rowres g bc st ip src). Notation contrib := (contrib g bc st ip src). Notation yv := (yv g bc st). Notation Sk := (Sk g ip).
Lemma flx_rowres x k r : half g k r -> (forall c, half g k c -> yv k x c = x (N k c)) -> flx x k r = (qv_of g bc k r - rowres k r x)%R.
Proof.
  intros Hh Hy. destruct Hh as (Hk & Hr). pose proof (Lk_nz g ip HI k Hk) as NL. destruct (HP k Hk) as (_ & Sy & _).
  unfold rowres, Hyb_Proofs4.rowres. rewrite (Sum_ext (nf k) _ (fun c => Sk k r c * x (N k c))%R) by (intros c Hc; rewrite Hy by (split; assumption); reflexivity).
  change (Sum (nf k) (fun c => Sk k r c * x (N k c))%R) with (mvec (nf k) (Sl (nf k) (Bk k)) (fun c => x (N k c)) r). rewrite mvec_Sl by assumption.
  unfold flx. change (Sum (nf k) (fun c => Bk k r c * (prs x k - x (N k c)))%R) with (mvec (nf k) (Bk k) (fun c => prs x k - x (N k c))%R r).
  assert (E : mvec (nf k) (Bk k) (fun c => prs x k - x (N k c))%R r = (prs x k * Fk k r - mvec (nf k) (Bk k) (fun c => x (N k c)) r)%R).
  { unfold mvec. rewrite (Sum_ext (nf k) _ (fun j => prs x k * Bk k r j - Bk k r j * x (N k j))%R) by (intros; ring). rewrite Sum_minus, Sum_scal, (F_row (nf k) (Bk k) Sy r Hr). reflexivity. }
  rewrite E. unfold hk, prs, tz. fold (Lk k). change (Fl (nf k) (Bk k)) with (Fk k). field. exact NL.
Qed.
Lemma Lk_pos k : 0 <= k < zlen g -> (0 < Lk k)%R.
Proof. intros Hk. destruct (HP k Hk) as (H2 & Sy & Pd). apply L_pos; [exact Sy|exact Pd|lia]. Qed.
Lemma Sk_diag k r : half g k r -> (0 < Sk k r r)%R.
Proof.
  intros (Hk & Hr). destruct (HP k Hk) as (H2 & Sy & Pd). pose proof (Lk_nz g ip HI k Hk) as NL.
  assert (E : quad (nf k) (Sk k) (ident r) = Sk k r r) by (unfold quad, dot; rewrite Sum_ident_l by exact Hr; unfold mvec; rewrite (Sum_ext _ _ (fun j => ident r j * Sk k r j)%R) by (intros; ring); apply Sum_ident_l; exact Hr).
  rewrite <- E. unfold Sk. rewrite quad_Sl by assumption. apply Pd. set (t := tz (nf k) (Bk k) (ident r)).
  destruct (Req_dec t 0) as [Et|Et]; [exists r; split; [exact Hr|unfold ident; rewrite Z.eqb_refl, Et; lra]|].
  exists (if r =? 0 then 1 else 0). destruct (Z.eqb_spec r 0) as [->|N0].
  - split; [lia|]. unfold ident. cbn. lra.
  - split; [lia|]. unfold ident. destruct (Z.eqb_spec r 0); [contradiction|]. lra.
Qed.
Lemma contrib_zero k r x i : half g k r -> i <> N k r -> (forall k' r', partners g bc k r k' r' -> i <> N k' r') -> contrib k r x i = 0%R.
Proof.
  intros Hh Ni Np. assert (I0 : ident i (N k r) = 0%R) by (unfold ident; destruct (Z.eqb_spec i (N k r)); [contradiction|reflexivity]).
  unfold contrib, Hyb_Proofs4.contrib. destruct (cond_at g bc k r) as [[p|dd|q]|] eqn:Ec; rewrite ?I0; try ring.
  destruct (pfn_per g bc st HS k r dd (conj Hh Ec)) as (k' & r' & P & Epf & _ & Er & _). rewrite Epf, Er. specialize (Np k' r' P).
  unfold ident. destruct (Z.eqb_spec i (N k' r')); [contradiction|]. destruct (Z.eqb_spec i (Z.min (N k r) (N k' r'))); [lia|ring].
Qed.
(* the equation of a face on the boundary that is not periodic *)
Lemma eq_single x k r : half g k r -> nbr g k r = None -> (forall dd, ~ periodic g bc k r dd) -> S2 g (fun k' r' => contrib k' r' x (N k r)) = contrib k r x (N k r).
Proof.
  intros Hh Hb Np. apply (S2_one g (fun k' r' => contrib k' r' x (N k r)) k r Hh). intros k1 r1 H1 Nq. apply contrib_zero; [exact H1| |].
  - intros Q. apply Nq. destruct (num_bdry g bc _ (HST g bc st HS) _ _ _ _ Hh H1 Hb Q). auto.
  - intros k' r' P Q. destruct (partners_half _ _ _ _ _ _ P) as (_ & H' & _). destruct (num_bdry g bc _ (HST g bc st HS) _ _ _ _ Hh H' Hb Q) as (-> & ->). destruct P as (_ & d2 & _ & Pd2 & _). exact (Np d2 Pd2).
Qed.
(* of a face between two cells *)
Lemma eq_inner x k r k' r' : half g k r -> half g k' r' -> twins g k r k' r' -> S2 g (fun k1 r1 => contrib k1 r1 x (N k r)) = (rowres k r x + rowres k' r' x)%R.
Proof.
  intros Hh Hh' T. pose proof (HST g bc st HS) as ST. destruct T as (T1 & T2). assert (Eq : N k r = N k' r') by (apply ST; [exact Hh|exact Hh'|right; split; assumption]).
  assert (Nq : ~ (k = k' /\ r = r')). { intros (<- & <-). destruct ST as ((_ & _ & Sy & _) & _). destruct (Sy k r _ Hh T1) as (Q & _). congruence. }
  rewrite (S2_two g (fun k1 r1 => contrib k1 r1 x (N k r)) k r k' r' Hh Hh' Nq).
  - unfold contrib, Hyb_Proofs4.contrib, cond_at. rewrite T1, T2. rewrite <- Eq. unfold ident. rewrite Z.eqb_refl. ring.
  - intros k1 r1 H1 N1 N2. apply contrib_zero; [exact H1| |].
    + intros Q. destruct (num_same g bc _ ST k r k1 r1 Hh H1 Q) as [(-> & ->)|(T3 & T4)]; [apply N1; auto|].
      (* the twin is unique *)
      destruct ST as (W & _). assert (k1 = k') by (apply (idx_inj g W); [apply H1|apply Hh'|congruence]). subst k1. apply N2. split; [reflexivity|]. destruct W as (_ & _ & _ & U). exact (U k' r1 r' _ H1 Hh' T4 T2).
    + intros k2 r2 P Q. destruct (partners_half _ _ _ _ _ _ P) as (_ & H2 & _ & B2). destruct (num_bdry g bc _ ST _ _ _ _ H2 Hh B2 (eq_sym Q)) as (-> & ->). congruence.
Qed.
(* of a periodic pair *)
Lemma eq_pair x k r k' r' dd i : partners g bc k r k' r' -> periodic g bc k r dd -> i = N k r \/ i = N k' r' ->
  S2 g (fun k1 r1 => contrib k1 r1 x i) = ((ident i (N k r) - ident i (N k' r')) * ((Sk k r r + Sk k' r' r') * (x (N k r) - x (N k' r') - dd)) + ident i (Z.min (N k r) (N k' r')) * (rowres k r x + rowres k' r' x))%R.
Proof.
  intros P Pd Hi. pose proof (HST g bc st HS) as ST. destruct (partners_half _ _ _ _ _ _ P) as (Hh & Hh' & Hb & Hb'). pose proof (partners_diff g bc _ ST _ _ _ _ _ P Pd) as Pd'. pose proof (partners_sym g bc _ ST _ _ _ _ P) as P'.
  pose proof (partners_num g bc _ ST _ _ _ _ P) as Nn. assert (Nq : ~ (k = k' /\ r = r')) by (intros (-> & ->); apply Nn; reflexivity).
  rewrite (S2_two g (fun k1 r1 => contrib k1 r1 x i) k r k' r' Hh Hh' Nq).
  - unfold contrib, Hyb_Proofs4.contrib. rewrite (proj2 Pd), (proj2 Pd').
    destruct (pfn_per g bc st HS k r dd Pd) as (k2 & r2 & P2 & Epf & _ & Er & _). destruct (partners_fun g bc _ ST _ _ _ _ _ _ P2 P) as (-> & ->).
    destruct (pfn_per g bc st HS k' r' _ Pd') as (k3 & r3 & P3 & Epf' & _ & Er' & _). destruct (partners_fun g bc _ ST _ _ _ _ _ _ P3 P') as (-> & ->).
    rewrite Epf, Er, Epf', Er', (Z.min_comm (N k' r')). ring.
  - intros k1 r1 H1 N1 N2. assert (M1 : forall k2 r2, half g k2 r2 -> i = N k2 r2 -> (k2 = k /\ r2 = r) \/ (k2 = k' /\ r2 = r')).
    { intros k2 r2 H2 Q. destruct Hi as [Hi|Hi]; rewrite Hi in Q; [left; destruct (num_bdry g bc _ ST _ _ _ _ Hh H2 Hb Q)|right; destruct (num_bdry g bc _ ST _ _ _ _ Hh' H2 Hb' Q)]; auto. }
    apply contrib_zero; [exact H1| |].
    + intros Q. destruct (M1 _ _ H1 Q); contradiction.
    + intros k2 r2 P2 Q. destruct (partners_half _ _ _ _ _ _ P2) as (_ & H2 & _). pose proof (partners_sym g bc _ ST _ _ _ _ P2) as P2'. destruct (M1 _ _ H2 Q) as [(-> & ->)|(-> & ->)].
      * destruct (partners_fun g bc _ ST _ _ _ _ _ _ P2' P) as (-> & ->). apply N2; auto.
      * destruct (partners_fun g bc _ ST _ _ _ _ _ _ P2' P') as (-> & ->). apply N1; auto.
Qed.

Variables (s : hsys) (x : Z -> R).
Hypothesis Hrs : forall x i, rsd total s x i = S2 g (fun k r => contrib k r x i).
Hypothesis Hx : solves s total x.
Lemma res0 k r : half g k r -> S2 g (fun k1 r1 => contrib k1 r1 x (N k r)) = 0%R.
Proof. intros Hh. rewrite <- Hrs. unfold rsd. rewrite Hx by (apply (nrange g bc st HS); exact Hh). ring. Qed.
Lemma sol_dirichlet k r p : half g k r -> cond_at g bc k r = Some (CDirichlet p) -> x (N k r) = p.
Proof.
  intros Hh Ec. pose proof (res0 k r Hh) as Q. rewrite eq_single in Q; [|exact Hh|unfold cond_at in Ec; destruct (nbr g k r); [discriminate|reflexivity]|intros dd (_ & E); congruence].
  unfold contrib, Hyb_Proofs4.contrib in Q. rewrite Ec in Q. unfold ident in Q. rewrite Z.eqb_refl, Rmult_1_l in Q. pose proof (Sk_diag k r Hh). apply Rmult_integral in Q. destruct Q as [Q|Q]; lra.
Qed.
Lemma sol_pair k r k' r' dd : partners g bc k r k' r' -> periodic g bc k r dd -> (x (N k r) - x (N k' r') = dd)%R /\ (rowres k r x + rowres k' r' x = 0)%R.
Proof.
  intros P Pd. destruct (partners_half _ _ _ _ _ _ P) as (Hh & Hh' & _). pose proof (res0 k r Hh) as Q1. pose proof (res0 k' r' Hh') as Q2. rewrite (eq_pair x k r k' r' dd _ P Pd) in Q1 by auto. rewrite (eq_pair x k r k' r' dd _ P Pd) in Q2 by auto.
  pose proof (partners_num g bc _ (HST g bc st HS) _ _ _ _ P) as Nn. fold (N k r) in Nn. fold (N k' r') in Nn. pose proof (Sk_diag k r Hh) as D1. pose proof (Sk_diag k' r' Hh') as D2.
  unfold ident in Q1, Q2. rewrite !Z.eqb_refl in Q1, Q2. destruct (Z.eqb_spec (N k r) (N k' r')); [contradiction|]. destruct (Z.eqb_spec (N k' r') (N k r)); [lia|].
  set (J := (x (N k r) - x (N k' r') - dd)%R) in *. set (a := (Sk k r r + Sk k' r' r')%R) in *. set (w := (rowres k r x + rowres k' r' x)%R) in *. assert (0 < a)%R by (unfold a; lra).
  assert (J = 0 /\ w = 0)%R as (HJ & Hw).
  { destruct (Z.eqb_spec (N k r) (Z.min (N k r) (N k' r'))), (Z.eqb_spec (N k' r') (Z.min (N k r) (N k' r'))); try lia.
    - assert (a * J = 0)%R by lra. split; [apply Rmult_integral in H0; destruct H0; lra|lra].
    - assert (a * J = 0)%R by lra. split; [apply Rmult_integral in H0; destruct H0; lra|lra]. }
  split; [unfold J in HJ; lra|exact Hw].
Qed.
Lemma sol_y k c : half g k c -> yv k x c = x (N k c).
Proof.
  intros Hh. unfold yv, Hyb_Proofs4.yv. destruct (cond_at g bc k c) as [[p|dd|q]|] eqn:Ec; [symmetry; apply sol_dirichlet; assumption| |reflexivity|reflexivity].
  destruct (pfn_per g bc st HS k c dd (conj Hh Ec)) as (k' & r' & P & Epf & _). rewrite Epf. destruct (_ <? _); [|reflexivity]. destruct (sol_pair k c k' r' dd P (conj Hh Ec)) as (J & _). lra.
Qed.
Lemma sol_flx k r : half g k r -> flx x k r = (qv_of g bc k r - rowres k r x)%R.
Proof. intros Hh. apply flx_rowres; [exact Hh|]. intros c Hc. apply sol_y. exact Hc. Qed.
Lemma sol_inner k r k' r' : half g k r -> half g k' r' -> twins g k r k' r' -> (flx x k r + flx x k' r' = 0)%R.
Proof.
  intros Hh Hh' T. pose proof (res0 k r Hh) as Q. rewrite (eq_inner x k r k' r' Hh Hh' T) in Q. rewrite !sol_flx by assumption. destruct T as (T1 & T2). unfold qv_of, cond_at. rewrite T1, T2. lra.
Qed.
Lemma sol_neumann k r q : half g k r -> cond_at g bc k r = Some (CNeumann q) -> flx x k r = q.
Proof.
  intros Hh Ec. pose proof (res0 k r Hh) as Q. rewrite eq_single in Q; [|exact Hh|unfold cond_at in Ec; destruct (nbr g k r); [discriminate|reflexivity]|intros dd (_ & E); congruence].
  rewrite sol_flx by exact Hh. unfold contrib, Hyb_Proofs4.contrib in Q. unfold qv_of. rewrite Ec in *. unfold ident in Q. rewrite Z.eqb_refl in Q. lra.
Qed.
Lemma sol_pair_flx k r k' r' : partners g bc k r k' r' -> (flx x k r + flx x k' r' = 0)%R.
Proof.
  intros P. pose proof P as (dd & d' & Pd & Pd' & _). destruct (sol_pair k r k' r' dd P Pd) as (_ & W). rewrite !sol_flx by (apply Pd || apply Pd'). unfold qv_of. rewrite (proj2 Pd), (proj2 Pd'). lra.
Qed.
End Solve.
