From Verif Require Import BaseFacts RBaseFacts Lin_Facts Steady_Proofs Euler_Proofs2 Matx_Proofs Matx_Proofs3 Eld_Proofs2 Relp_Proofs Relp_Proofs2 Relp_Proofs3 Relp_Proofs4 Visc_Proofs8 Tens_Proofs5 Tens_Proofs6 Tens_Proofs7 Rpc_Spec Rpc_Proofs Rpc_Proofs2.
Open Scope Z_scope.

Lemma pd_det k : symmetric 3 k -> positive_form 3 k -> det3 k <> 0%R.
Proof.
  intros Sy P D. assert (P0 : (0 < k 0%Z 0%Z)%R).
  { pose proof (P (fun i => if i =? 0 then 1 else 0)%R) as Q. rewrite quad3 in Q. cbn in Q. enough (0 < k 0%Z 0%Z * (1 * 1) + k 1%Z 1%Z * (0 * 0) + k 2%Z 2%Z * (0 * 0) + (k 0%Z 1%Z + k 1%Z 0%Z) * (1 * 0) + (k 0%Z 2%Z + k 2%Z 0%Z) * (1 * 0) + (k 1%Z 2%Z + k 2%Z 1%Z) * (0 * 0))%R by lra. apply Q. exists 0. split; [lia|]. cbn. lra. }
  pose proof (Sy 0 1 ltac:(lia) ltac:(lia)) as S1. pose proof (Sy 0 2 ltac:(lia) ltac:(lia)) as S2. pose proof (Sy 1 2 ltac:(lia) ltac:(lia)) as S3.
  assert (P1 : (0 < k 0%Z 0%Z * k 1%Z 1%Z - k 0%Z 1%Z * k 0%Z 1%Z)%R).
  { pose proof (P (fun i => if i =? 0 then - k 0%Z 1%Z else if i =? 1 then k 0%Z 0%Z else 0)%R) as Q. rewrite quad3 in Q. cbn in Q. rewrite <- S1 in Q. apply (Rmult_lt_reg_l (k 0%Z 0%Z)); [exact P0|]. rewrite Rmult_0_r. eapply Rlt_le_trans; [apply Q; exists 1; split; [lia|]; cbn; lra|]. right. ring. }
  pose proof (P (fun i => if i =? 0 then k 0%Z 1%Z * k 1%Z 2%Z - k 0%Z 2%Z * k 1%Z 1%Z else if i =? 1 then k 0%Z 2%Z * k 0%Z 1%Z - k 0%Z 0%Z * k 1%Z 2%Z else k 0%Z 0%Z * k 1%Z 1%Z - k 0%Z 1%Z * k 0%Z 1%Z)%R) as Q. rewrite quad3 in Q. cbn in Q. unfold det3 in D. rewrite <- S1, <- S2, <- S3 in *.
  assert (Q1 : (0 < (k 0%Z 0%Z * k 1%Z 1%Z - k 0%Z 1%Z * k 0%Z 1%Z) * (k 0%Z 0%Z * (k 1%Z 1%Z * k 2%Z 2%Z - k 1%Z 2%Z * k 1%Z 2%Z) - k 0%Z 1%Z * (k 0%Z 1%Z * k 2%Z 2%Z - k 1%Z 2%Z * k 0%Z 2%Z) + k 0%Z 2%Z * (k 0%Z 1%Z * k 1%Z 2%Z - k 1%Z 1%Z * k 0%Z 2%Z)))%R).
  { eapply Rlt_le_trans; [apply Q; exists 2; split; [lia|]; cbn; lra|]. right. ring. }
  rewrite D in Q1. lra.
Qed.
Lemma mm3 f g i j : mmul 3 f g i j = (f i 0%Z * g 0%Z j + f i 1%Z * g 1%Z j + f i 2%Z * g 2%Z j)%R.
Proof. unfold mmul. rewrite Sum3. ring. Qed.
Lemma diag_of v : 0 <= v < 3 -> element_row v = v /\ element_col v = v.
Proof. intros Hv. destruct (three_cases v Hv) as [-> | [-> | ->]]; split; reflexivity. Qed.

Section Fixed.
Context (u : upscaler) (low hi : Z -> R) (inv : list R -> list R) (IV : inverts inv).
Lemma fixed_inv ts d : us_bct u = 0 -> ran u low hi ts d -> zlen (inv d) = 9 /\ forall v, 0 <= v < 3 -> (0 < Visc_Spec.tensor_of d v v)%R /\ Visc_Spec.tensor_of (inv d) v v = (/ Visc_Spec.tensor_of d v v)%R.
Proof.
  intros Hb Rd. pose proof (fixed_ran u low hi ts d Hb Rd) as D. pose proof Rd as (_ & _ & L9 & _).
  pose proof (D 0 0 ltac:(lia) ltac:(lia)) as D00. pose proof (D 1 1 ltac:(lia) ltac:(lia)) as D11. pose proof (D 2 2 ltac:(lia) ltac:(lia)) as D22. cbn [Z.eqb Pos.eqb] in D00, D11, D22.
  assert (Off : forall i j, 0 <= i < 3 -> 0 <= j < 3 -> i <> j -> Visc_Spec.tensor_of d i j = 0%R) by (intros i j Hi Hj N; specialize (D i j Hi Hj); rewrite (proj2 (Z.eqb_neq i j) N) in D; exact D).
  destruct (IV d L9) as (Li & E).
  { unfold det3. rewrite (Off 0 1), (Off 0 2), (Off 1 2), (Off 2 1) by lia. assert (0 < Visc_Spec.tensor_of d 0 0 * (Visc_Spec.tensor_of d 1 1 * Visc_Spec.tensor_of d 2 2))%R by (repeat apply Rmult_lt_0_compat; assumption). lra. }
  split; [exact Li|]. intros v Hv. assert (Pv : (0 < Visc_Spec.tensor_of d v v)%R) by (destruct (three_cases v Hv) as [-> | [-> | ->]]; assumption). split; [exact Pv|].
  destruct (E v v Hv Hv) as (E1 & _). rewrite mm3 in E1. unfold ident in E1. rewrite Z.eqb_refl in E1.
  apply (Rmult_eq_reg_r (Visc_Spec.tensor_of d v v)); [|lra]. rewrite Rinv_l by lra. rewrite <- E1. destruct (three_cases v Hv) as [-> | [-> | ->]]; [rewrite (Off 1 0), (Off 2 0) by lia|rewrite (Off 0 1), (Off 2 1) by lia|rewrite (Off 0 2), (Off 1 2) by lia]; ring.
Qed.
Lemma periodic_inv ts d : us_bct u = 2 -> ran u low hi ts d -> zlen (inv d) = 9 /\ forall i j, 0 <= i < 3 -> 0 <= j < 3 -> mmul 3 (Visc_Spec.tensor_of (inv d)) (Visc_Spec.tensor_of d) i j = ident i j.
Proof.
  intros Hb Rd. destruct (periodic_ran u low hi ts d Hb Rd) as (Sy & P). pose proof Rd as (_ & _ & L9 & _). destruct (IV d L9 (pd_det _ Sy P)) as (Li & E). split; [exact Li|]. intros i j Hi Hj. exact (proj1 (E i j Hi Hj)).
Qed.
End Fixed.

(* what is known after a run, for both kinds of conditions *)
Lemma run_out u h inv pv bct tec both ps ph ds cols : bct = 0 \/ bct = 2 -> tec = 3 \/ tec = 9 -> relperm_run u h inv pv bct tec both ps ph ds cols ->
  exists orth low hi grav tol vols mr, upscaler_ok orth u low hi /\ run_ok u h pv /\ inverts inv /\ us_bct u = bct /\ length vols = length (h_ecl h) /\ minmax_pc h grav tol vols = Ok mr /\
    ran u low hi (map (single_of h mr) (h_ecl h)) ds /\ zlen cols = tec /\ (forall v, 0 <= v < tec -> exists col, zget cols v = Some col /\ zlen col = zlen ps) /\
    forall i p, zget ps i = Some p -> exists ts d row out, point_run u low hi h tec inv ds cols ph i p ts d row out.
Proof.
  intros Hb T (orth & low & hi & grav & tol & vols & mr & thresh & st & st' & UO & RO & IV & <- & AP & LV & MM & ES & EC).
  exists orth, low, hi, grav, tol, vols, mr. do 6 (split; [assumption||reflexivity|]).
  destruct (curves_out orth u low hi UO Hb h pv RO grav tol vols mr LV MM inv tec both thresh ps st ph cols) as (ds' & Rs & (st2 & ES') & LC & CL & PT); try assumption.
  - intros ts d Rd. destruct Hb as [Hb|Hb]; [exact (proj1 (fixed_inv u low hi inv IV ts d Hb Rd))|exact (proj1 (periodic_inv u low hi inv IV ts d Hb Rd))].
  - rewrite ES in ES'. injection ES' as <- _. auto.
Qed.
Lemma fixed_value u low hi h inv ds cols ph i p ts ts' d row out : inverts inv -> us_bct u = 0 -> ran u low hi ts' ds -> point_run u low hi h 3 inv ds cols ph i p ts d row out ->
  forall v, 0 <= v < 3 -> value cols v i = (Visc_Spec.tensor_of d v v / Visc_Spec.tensor_of ds v v)%R.
Proof.
  intros IV Hb Rs (_ & Rd & Lr & Vr & Eo & Vo) v Hv. rewrite (Vo v Hv). destruct (fixed_inv u low hi inv IV ts' ds Hb Rs) as (Li & K).
  destruct (relperm_diagonal (inv ds) row out (fun v => Visc_Spec.tensor_of ds v v) Lr Li) as (_ & Q); [intros w Hw; destruct (K w Hw) as (K1 & K2); split; [lra|exact K2]|exact Eo|]. rewrite (Q v Hv), (Vr v Hv). destruct (diag_of v Hv) as (-> & ->). reflexivity.
Qed.
Lemma periodic_value u low hi h inv ds cols ph i p ts ts' d row out g : inverts inv -> us_bct u = 2 -> ran u low hi ts' ds -> point_run u low hi h 9 inv ds cols ph i p ts d row out -> tensor_at cols i g ->
  forall r c, 0 <= r < 3 -> 0 <= c < 3 -> mmul 3 g (Visc_Spec.tensor_of ds) r c = Visc_Spec.tensor_of d r c.
Proof.
  intros IV Hb Rs (_ & Rd & Lr & Vr & Eo & Vo) G r c Hr Hc. destruct (periodic_inv u low hi inv IV ts' ds Hb Rs) as (Li & K).
  apply (relperm_recovers (inv ds) row (Visc_Spec.tensor_of d) (Visc_Spec.tensor_of ds) out g Lr Li); try assumption.
  - split; [intros v Hv; symmetry; apply Vr; exact Hv|discriminate].
  - split; [intros v Hv; rewrite <- (Vo v Hv); symmetry; apply G; exact Hv|discriminate].
Qed.

(* C199 *)
Lemma run_shape u h inv pv bct tec both ps ph ds cols : bct = 0 /\ tec = 3 \/ bct = 2 /\ tec = 9 -> relperm_run u h inv pv bct tec both ps ph ds cols ->
  zlen cols = tec /\ forall v, 0 <= v < tec -> exists col, zget cols v = Some col /\ zlen col = zlen ps.
Proof. intros H Rn. destruct (run_out u h inv pv bct tec both ps ph ds cols ltac:(lia) ltac:(lia) Rn) as (o & l & hi & g & t & vs & m & _ & _ & _ & _ & _ & _ & _ & A & B & _). auto. Qed.
Lemma fixed_range u h inv pv both ps ph ds cols i p v : relperm_run u h inv pv 0 3 both ps ph ds cols -> zget ps i = Some p -> 0 <= v < 3 ->
  (0 < value cols v i)%R /\ (perms_ok h -> kr_ok h ph p -> (value cols v i <= 1)%R).
Proof.
  intros Rn Hp Hv. destruct (run_out _ _ _ _ _ _ _ _ _ _ _ (or_introl eq_refl) (or_introl eq_refl) Rn) as (orth & low & hi & grav & tol & vols & mr & UO & RO & IV & Hb & LV & MM & Rs & _ & _ & PT). destruct (PT i p Hp) as (ts & d & row & out & PR).
  rewrite (fixed_value u low hi h inv ds cols ph i p ts _ d row out IV Hb Rs PR v Hv). destruct (fixed_inv u low hi inv IV _ ds Hb Rs) as (_ & K). destruct (K v Hv) as (Ks & _). destruct PR as ((M & fl & Ets & IM & F) & Rd & _). destruct (fixed_inv u low hi inv IV _ d Hb Rd) as (_ & Kd). destruct (Kd v Hv) as (Kp & _). split.
  - apply Rdiv_lt_0_compat; assumption.
  - intros PO KO. apply (Rmult_le_reg_r (Visc_Spec.tensor_of ds v v)); [exact Ks|]. replace (Visc_Spec.tensor_of d v v / Visc_Spec.tensor_of ds v v * Visc_Spec.tensor_of ds v v)%R with (Visc_Spec.tensor_of d v v) by (field; lra).
    apply (order_fixed orth u low hi UO _ _ _ _ 1 v Hb Rd Rs); [|exact Hv]. rewrite Ets. exact (phase_below u h pv RO grav tol vols mr LV MM ph p fl M PO KO IM F).
Qed.
Lemma periodic_range u h inv pv both ps ph ds cols i p g : relperm_run u h inv pv 2 9 both ps ph ds cols -> zget ps i = Some p -> tensor_at cols i g ->
  symmetric 3 (Visc_Spec.tensor_of ds) /\ positive_form 3 (Visc_Spec.tensor_of ds) /\
  symmetric 3 (mmul 3 g (Visc_Spec.tensor_of ds)) /\ positive_form 3 (mmul 3 g (Visc_Spec.tensor_of ds)) /\
  (perms_ok h -> kr_ok h ph p -> forall x, (quad 3 (mmul 3 g (Visc_Spec.tensor_of ds)) x <= quad 3 (Visc_Spec.tensor_of ds) x)%R).
Proof.
  intros Rn Hp G. destruct (run_out _ _ _ _ _ _ _ _ _ _ _ (or_intror eq_refl) (or_intror eq_refl) Rn) as (orth & low & hi & grav & tol & vols & mr & UO & RO & IV & Hb & LV & MM & Rs & _ & _ & PT). destruct (PT i p Hp) as (ts & d & row & out & PR).
  pose proof (periodic_value u low hi h inv ds cols ph i p ts _ d row out g IV Hb Rs PR G) as V. destruct (periodic_ran u low hi _ _ Hb Rs) as (S1 & P1). destruct PR as ((M & fl & Ets & IM & F) & Rd & _). destruct (periodic_ran u low hi _ _ Hb Rd) as (S2 & P2). split; [exact S1|]. split; [exact P1|]. split; [|split].
  - intros r c Hr Hc. rewrite !V by assumption. apply S2; assumption.
  - intros x Hx. rewrite (quad_same _ _ x V). apply P2. exact Hx.
  - intros PO KO x. rewrite (quad_same _ _ x V). rewrite <- (Rmult_1_l (quad 3 (Visc_Spec.tensor_of ds) x)). apply (order_periodic orth u low hi UO _ _ _ _ 1 x Hb Rd Rs). rewrite Ets. exact (phase_below u h pv RO grav tol vols mr LV MM ph p fl M PO KO IM F).
Qed.

(* C200 *)
Lemma fixed_increasing u h inv pv both ps ph ds cols i j p q v : relperm_run u h inv pv 0 3 both ps ph ds cols -> zget ps i = Some p -> zget ps j = Some q -> flows_easier h ph p q -> 0 <= v < 3 ->
  (value cols v i <= value cols v j)%R.
Proof.
  intros Rn Hp Hq FE Hv. destruct (run_out _ _ _ _ _ _ _ _ _ _ _ (or_introl eq_refl) (or_introl eq_refl) Rn) as (orth & low & hi & grav & tol & vols & mr & UO & RO & IV & Hb & LV & MM & Rs & _ & _ & PT). destruct (PT i p Hp) as (ts & d & row & out & PR). destruct (PT j q Hq) as (ts' & d' & row' & out' & PR').
  rewrite (fixed_value u low hi h inv ds cols ph i p ts _ d row out IV Hb Rs PR v Hv), (fixed_value u low hi h inv ds cols ph j q ts' _ d' row' out' IV Hb Rs PR' v Hv).
  destruct (fixed_inv u low hi inv IV _ ds Hb Rs) as (_ & K). destruct (K v Hv) as (Ks & _). destruct PR as ((M & fl & Ets & IM & F) & Rd & _). destruct PR' as ((M' & fl' & Ets' & IM' & F') & Rd' & _).
  unfold Rdiv. apply Rmult_le_compat_r; [left; apply Rinv_0_lt_compat; exact Ks|]. rewrite <- (Rmult_1_l (Visc_Spec.tensor_of d' v v)). apply (order_fixed orth u low hi UO _ _ _ _ 1 v Hb Rd Rd'); [|exact Hv]. rewrite Ets, Ets'. exact (phase_order u h pv RO ph p q fl fl' M M' IM F IM' F' FE).
Qed.
Lemma periodic_increasing u h inv pv both ps ph ds cols i j p q g g' : relperm_run u h inv pv 2 9 both ps ph ds cols -> zget ps i = Some p -> zget ps j = Some q -> flows_easier h ph p q -> tensor_at cols i g -> tensor_at cols j g' ->
  forall x, (quad 3 (mmul 3 g (Visc_Spec.tensor_of ds)) x <= quad 3 (mmul 3 g' (Visc_Spec.tensor_of ds)) x)%R.
Proof.
  intros Rn Hp Hq FE G G' x. destruct (run_out _ _ _ _ _ _ _ _ _ _ _ (or_intror eq_refl) (or_intror eq_refl) Rn) as (orth & low & hi & grav & tol & vols & mr & UO & RO & IV & Hb & LV & MM & Rs & _ & _ & PT). destruct (PT i p Hp) as (ts & d & row & out & PR). destruct (PT j q Hq) as (ts' & d' & row' & out' & PR').
  rewrite (quad_same _ _ x (periodic_value u low hi h inv ds cols ph i p ts _ d row out g IV Hb Rs PR G)), (quad_same _ _ x (periodic_value u low hi h inv ds cols ph j q ts' _ d' row' out' g' IV Hb Rs PR' G')).
  destruct PR as ((M & fl & Ets & IM & F) & Rd & _). destruct PR' as ((M' & fl' & Ets' & IM' & F') & Rd' & _).
  rewrite <- (Rmult_1_l (quad 3 (Visc_Spec.tensor_of d') x)). apply (order_periodic orth u low hi UO _ _ _ _ 1 x Hb Rd Rd'). rewrite Ets, Ets'. exact (phase_order u h pv RO ph p q fl fl' M M' IM F IM' F' FE).
Qed.
Lemma pressure_order h ph (up : bool) p q : monotone_curves h ph up -> (p <= q)%R -> if up then flows_easier h ph q p else flows_easier h ph p q.
Proof.
  intros H L. assert (Sat : forall c, In c (Relp_Spec.rock_cells h) -> (local_sat h q c <= local_sat h p c)%R).
  { intros c Hc. destruct (H c Hc) as (Fc & _). unfold local_sat. apply Fc. apply Rmult_le_compat_l; [|lra]. unfold scaling. destruct (h_aniso h); [lra|apply sqrt_pos]. }
  assert (Main : forall c d, In c (Relp_Spec.rock_cells h) -> given_dir h d -> exists cu, (if up then rising cu else falling cu) /\ (0 <= cell_k h c d)%R /\ forall x, cell_kr h ph x c d = cv_eval cu (local_sat h x c)).
  { intros c d Hc Hd. destruct (H c Hc) as (_ & K). destruct (K d Hd) as (N & cu & E & Mo). exists cu. split; [exact Mo|]. split; [exact N|]. intros x. unfold cell_kr. rewrite E. reflexivity. }
  destruct up; intros c d Hc Hd; destruct (Main c d Hc Hd) as (cu & Mo & N & E); rewrite !E; (apply Rmult_le_compat_r; [exact N|]); apply Mo, Sat, Hc.
Qed.
Lemma fixed_pressure u h inv pv both ps ph (up : bool) ds cols i j p q v : relperm_run u h inv pv 0 3 both ps ph ds cols -> zget ps i = Some p -> zget ps j = Some q -> monotone_curves h ph up -> (p <= q)%R -> 0 <= v < 3 ->
  if up then (value cols v j <= value cols v i)%R else (value cols v i <= value cols v j)%R.
Proof.
  intros Rn Hp Hq Mo L Hv. pose proof (pressure_order h ph up p q Mo L) as FE. destruct up; [exact (fixed_increasing _ _ _ _ _ _ _ _ _ _ _ _ _ v Rn Hq Hp FE Hv)|exact (fixed_increasing _ _ _ _ _ _ _ _ _ _ _ _ _ v Rn Hp Hq FE Hv)].
Qed.
Lemma periodic_pressure u h inv pv both ps ph (up : bool) ds cols i j p q g g' x : relperm_run u h inv pv 2 9 both ps ph ds cols -> zget ps i = Some p -> zget ps j = Some q -> monotone_curves h ph up -> (p <= q)%R -> tensor_at cols i g -> tensor_at cols j g' ->
  if up then (quad 3 (mmul 3 g' (Visc_Spec.tensor_of ds)) x <= quad 3 (mmul 3 g (Visc_Spec.tensor_of ds)) x)%R else (quad 3 (mmul 3 g (Visc_Spec.tensor_of ds)) x <= quad 3 (mmul 3 g' (Visc_Spec.tensor_of ds)) x)%R.
Proof.
  intros Rn Hp Hq Mo L G G'. pose proof (pressure_order h ph up p q Mo L) as FE. destruct up; [exact (periodic_increasing _ _ _ _ _ _ _ _ _ _ _ _ _ _ _ Rn Hq Hp FE G' G x)|exact (periodic_increasing _ _ _ _ _ _ _ _ _ _ _ _ _ _ _ Rn Hp Hq FE G G' x)].
Qed.

(* C201 *)
Lemma below_both u (Hb : us_bct u = 0 \/ us_bct u = 2) h pv (RO : run_ok u h pv) grav tol vols mr (LV : length vols = length (h_ecl h)) (MM : minmax_pc h grav tol vols = Ok mr) lam ph p fl M : uniform_kr h ph p lam -> is_max M (0%R :: flat_map (cand h ph p) (Relp_Spec.rock_cells h)) -> fl = Rmax (M / h_contrast h) (h_minperm h) ->
  (forall k t t', zget (map (Relp_Spec.tensor_of h ph p fl) (h_ecl h)) k = Some t -> zget (map (single_of h mr) (h_ecl h)) k = Some t' -> below lam t t') /\
  (forall k t t', zget (map (single_of h mr) (h_ecl h)) k = Some t -> zget (map (Relp_Spec.tensor_of h ph p fl) (h_ecl h)) k = Some t' -> below (/ lam) t t').
Proof.
  intros (Hl & H) A F. assert (D0 : given_dir h 0) by (split; [lia|reflexivity]).
  pose proof (phase_uniform u Hb h pv RO grav tol vols mr LV MM lam ph p fl M) as Q. specialize (Q (fun c Hc => proj1 (H c 0 Hc D0)) Hl).
  specialize (Q (fun c d Hc Hd => match H c d Hc Hd with conj _ (conj a (conj b _)) => conj a b end)). specialize (Q (fun c d c' d' Hc Hc' Hd Hd' => match H c d Hc Hd with conj _ (conj _ (conj _ b)) => b c' d' Hc' Hd' end) A F).
  split; apply (all_below u h pv RO); intros c Hc d Hd; destruct (Q c d Hc Hd) as (-> & ->); [lra|]. rewrite <- Rmult_assoc, Rinv_l by lra. lra.
Qed.
Lemma fixed_uniform u h inv pv both ps ph ds cols i p lam v : relperm_run u h inv pv 0 3 both ps ph ds cols -> zget ps i = Some p -> uniform_kr h ph p lam -> 0 <= v < 3 -> value cols v i = lam.
Proof.
  intros Rn Hp U Hv. destruct (run_out _ _ _ _ _ _ _ _ _ _ _ (or_introl eq_refl) (or_introl eq_refl) Rn) as (orth & low & hi & grav & tol & vols & mr & UO & RO & IV & Hb & LV & MM & Rs & _ & _ & PT). destruct (PT i p Hp) as (ts & d & row & out & PR).
  rewrite (fixed_value u low hi h inv ds cols ph i p ts _ d row out IV Hb Rs PR v Hv). destruct (fixed_inv u low hi inv IV _ ds Hb Rs) as (_ & K). destruct (K v Hv) as (Ks & _). destruct PR as ((M & fl & Ets & IM & F) & Rd & _).
  destruct (below_both u (or_introl Hb) h pv RO grav tol vols mr LV MM lam ph p fl M U IM F) as (B1 & B2). rewrite Ets in Rd. pose proof (order_fixed orth u low hi UO _ _ _ _ lam v Hb Rd Rs B1 Hv) as O1. pose proof (order_fixed orth u low hi UO _ _ _ _ (/ lam) v Hb Rs Rd B2 Hv) as O2.
  destruct U as ((L0 & _) & _). apply (Rmult_le_compat_l lam) in O2; [|lra]. rewrite <- Rmult_assoc, Rinv_r, Rmult_1_l in O2 by lra. assert (E : Visc_Spec.tensor_of d v v = (lam * Visc_Spec.tensor_of ds v v)%R) by lra. rewrite E. field. lra.
Qed.
Lemma periodic_kr_uniform u h inv pv both ps ph ds cols i p lam g : relperm_run u h inv pv 2 9 both ps ph ds cols -> zget ps i = Some p -> uniform_kr h ph p lam -> tensor_at cols i g ->
  forall r c, 0 <= r < 3 -> 0 <= c < 3 -> g r c = (lam * ident r c)%R.
Proof.
  intros Rn Hp U G. destruct (run_out _ _ _ _ _ _ _ _ _ _ _ (or_intror eq_refl) (or_intror eq_refl) Rn) as (orth & low & hi & grav & tol & vols & mr & UO & RO & IV & Hb & LV & MM & Rs & _ & _ & PT). destruct (PT i p Hp) as (ts & d & row & out & PR).
  pose proof (periodic_value u low hi h inv ds cols ph i p ts _ d row out g IV Hb Rs PR G) as V. destruct PR as ((M & fl & Ets & IM & F) & Rd & Lr & Vr & Eo & Vo).
  destruct (below_both u (or_intror Hb) h pv RO grav tol vols mr LV MM lam ph p fl M U IM F) as (B1 & B2). rewrite Ets in Rd. destruct (periodic_ran u low hi _ _ Hb Rs) as (S1 & P1). destruct (periodic_ran u low hi _ _ Hb Rd) as (S2 & _).
  assert (E : forall r c, 0 <= r < 3 -> 0 <= c < 3 -> Visc_Spec.tensor_of d r c = (lam * Visc_Spec.tensor_of ds r c)%R).
  { apply polarise; [exact S2|intros a b Ha Hb'; rewrite (S1 a b Ha Hb'); reflexivity|]. intros x. pose proof (order_periodic orth u low hi UO _ _ _ _ lam x Hb Rd Rs B1) as O1. pose proof (order_periodic orth u low hi UO _ _ _ _ (/ lam) x Hb Rs Rd B2) as O2. destruct U as ((L0 & _) & _).
    apply (Rmult_le_compat_l lam) in O2; [|lra]. rewrite <- Rmult_assoc, Rinv_r, Rmult_1_l in O2 by lra. assert (Q : quad 3 (fun a b => lam * Visc_Spec.tensor_of ds a b)%R x = (lam * quad 3 (Visc_Spec.tensor_of ds) x)%R) by (rewrite !quad3; ring). lra. }
  pose proof Rs as (_ & _ & L9 & _). destruct (IV ds L9 (pd_det _ S1 P1)) as (Li & K).
  intros r c Hr Hc. assert (X : forall j, 0 <= j < 3 -> mmul 3 g (Visc_Spec.tensor_of ds) r j = (lam * Visc_Spec.tensor_of ds r j)%R) by (intros j Hj; rewrite V, E by assumption; reflexivity).
  pose proof (X 0 ltac:(lia)) as X0. pose proof (X 1 ltac:(lia)) as X1. pose proof (X 2 ltac:(lia)) as X2. destruct (K r c Hr Hc) as (_ & Kr). rewrite mm3 in Kr, X0, X1, X2.
  pose proof (proj2 (K 0 c ltac:(lia) Hc)) as K0. pose proof (proj2 (K 1 c ltac:(lia) Hc)) as K1. pose proof (proj2 (K 2 c ltac:(lia) Hc)) as K2. rewrite mm3 in K0, K1, K2. rewrite <- Kr.
  transitivity (g r 0%Z * ident 0 c + g r 1%Z * ident 1 c + g r 2%Z * ident 2 c)%R.
  - unfold ident. destruct (three_cases c Hc) as [-> | [-> | ->]]; cbn [Z.eqb Pos.eqb]; ring.
  - rewrite <- K0, <- K1, <- K2. transitivity ((g r 0%Z * Visc_Spec.tensor_of ds 0 0 + g r 1%Z * Visc_Spec.tensor_of ds 1 0 + g r 2%Z * Visc_Spec.tensor_of ds 2 0) * Visc_Spec.tensor_of (inv ds) 0 c + (g r 0%Z * Visc_Spec.tensor_of ds 0 1 + g r 1%Z * Visc_Spec.tensor_of ds 1 1 + g r 2%Z * Visc_Spec.tensor_of ds 2 1) * Visc_Spec.tensor_of (inv ds) 1 c + (g r 0%Z * Visc_Spec.tensor_of ds 0 2 + g r 1%Z * Visc_Spec.tensor_of ds 1 2 + g r 2%Z * Visc_Spec.tensor_of ds 2 2) * Visc_Spec.tensor_of (inv ds) 2 c)%R; [ring|]. rewrite X0, X1, X2. ring.
Qed.
