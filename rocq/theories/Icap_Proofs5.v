From Verif Require Import BaseFacts RBaseFacts Steady_Proofs Euler_Proofs Euler_Proofs2 Euler_Proofs3 Shape_Proofs2 Icap_Spec Icap_Proofs Icap_Proofs2 Icap_Proofs3.
From Coq Require Import Lra Lia.
Open Scope Z_scope.

(* two cells without faces, one dry and one wet; the capillary pressure 0 gives both the saturation one half *)
Definition ex_problem : eprob :=
  mkEprob [mkEcell (0, 0, 0)%R (fun _ _ => 1%R) []; mkEcell (1, 0, 0)%R (fun _ _ => 1%R) []] [] [] 0 (0, 0, 0)%R
    (fun _ _ _ => 1%R) (fun _ _ => 0%R) (fun _ _ => 0%R) (fun _ => 0%R) true true true.
Definition ex_find (tol : R) : rfinder := fun f _ =>
  match f 0%R with Ok (Some v) => if Rle_dec (Rabs v) tol then Ok 0%R else Throw | _ => Throw end.
Lemma example_step : let c := mkIcfg true true true false 1 in let pv := [1; 1]%R in let inv := fun (_ : Z) (_ : R) => (/ 2)%R in
  let psolve := fun (_ : list R) (_ : list cond) (_ : list R) => Ok [0; 0]%R in
  (forall m k s cp, psolve m k s = Ok cp -> zlen cp = zlen pv) /\
  (forall f r dp v, ex_find 0 f r = Ok dp -> f dp = Ok (Some v) -> (Rabs v <= 0)%R) /\
  exists t, cap_step c ex_problem [] pv inv psolve (ex_find 0) [0; 1]%R = Ok (true, t) /\ t <> [0; 1]%R.
Proof.
  cbv zeta. split; [intros m k s cp E; injection E as <-; reflexivity|]. split.
  { intros f r dp v E F. unfold ex_find in E. destruct (f 0%R) as [[w|]| |] eqn:Q; try discriminate. destruct (Rle_dec (Rabs w) 0); [|discriminate].
    injection E as <-. rewrite Q in F. injection F as <-. assumption. }
  unfold cap_step. change (zrange 0 (zlen [0; 1]%R)) with [0; 1].
  assert (M : mapM (fun i => let* s := rget [0; 1]%R i in cap_mobility (ep_mob ex_problem 0 i s) (ep_mob ex_problem 1 i s)) [0; 1] = Ok [/ 2; / 2]%R).
  { assert (K : cap_mobility 1 1 = Ok (/ 2)%R).
    { destruct (cap_mobility_ok 1 1) as (k & -> & -> & _); try lra. f_equal. unfold in_series. rewrite Rmax_left by lra. lra. }
    cbn [mapM ex_problem ep_mob]. change (rget [0; 1]%R 0) with (Ok 0%R). change (rget [0; 1]%R 1) with (Ok 1%R). cbn [bind]. rewrite !K. reflexivity. }
  rewrite M. cbn [bind].
  assert (S : exists src, cap_sources (mkIcfg true true true false 1) ex_problem [0; 1]%R = Ok src).
  { unfold cap_sources. assert (Q : exists r, compute_residual (cap_problem (mkIcfg true true true false 1) ex_problem) [0; 1]%R = Ok r).
    { unfold compute_residual. change (build_bid_map _) with (Ok [@None (Z * eface)]). cbn [bind].
      cbn [cap_problem ex_problem ep_cells]. change (zlen [mkEcell (0, 0, 0)%R (fun _ _ : Z => 1%R) []; mkEcell (1, 0, 0)%R (fun _ _ : Z => 1%R) []]) with 2. change (zrange 0 2) with [0; 1]. cbn [combine].
      eexists. reflexivity. }
    destruct Q as (r & ->). eexists. reflexivity. }
  destruct S as (src & ->). cbn [bind press_range fold_left].
  assert (F : ex_find 0 (match_volume [1; 1]%R (fun _ _ => / 2) [0; 1] [0; 0])%R (smax 0 0 - smin 0 0)%R = Ok 0%R).
  { unfold ex_find. rewrite match_ok; [|reflexivity|reflexivity|rewrite !Rsum_cons, Rsum_nil; lra].
    match goal with |- context [Rle_dec (Rabs ?v) 0] => assert (E : v = 0%R) end.
    { unfold water_volume. change (zrange 0 (zlen [1; 1]%R)) with [0; 1]. cbn [map]. change (nthR [1; 1]%R 0) with 1%R. change (nthR [1; 1]%R 1) with 1%R.
      change (nthR [0; 1]%R 0) with 0%R. change (nthR [0; 1]%R 1) with 1%R. rewrite !Rsum_cons, !Rsum_nil. lra. }
    rewrite E, Rabs_R0. destruct (Rle_dec 0 0); [reflexivity|lra]. }
  rewrite F. cbn [bind]. change (shifted_sats (fun _ _ => / 2)%R [0; 0]%R (zlen [1; 1]%R) 0) with (Ok [/ 2; / 2]%R). cbn [bind ic_relax ic_check ic_clamp orb].
  assert (X : relax_sats 1 [0; 1]%R [/ 2; / 2]%R = Ok [/ 2; / 2]%R).
  { unfold relax_sats. change (zrange 0 (zlen [0; 1]%R)) with [0; 1]. cbn [mapM]. change (rget [0; 1]%R 0) with (Ok 0%R). change (rget [0; 1]%R 1) with (Ok 1%R).
    change (rget [/ 2; / 2]%R 0) with (Ok (/ 2)%R). change (rget [/ 2; / 2]%R 1) with (Ok (/ 2)%R). cbn [bind]. do 2 f_equal; [lra|f_equal; lra]. }
  rewrite X. cbn [bind check_all]. 
  assert (K : check_cell false (/ 2) = Some (/ 2)%R).
  { unfold check_cell. rewrite (proj2 (Rltb_false 1 (/ 2))) by lra. rewrite (proj2 (Rltb_false (/ 2) 0)) by lra. reflexivity. }
  rewrite !K. eexists. split; [reflexivity|]. intros Q. injection Q as Q. lra.
Qed.
Lemma example_perm : holds (mkMat 3 3 COrd [2; 0; 0; 0; 2; 0; 0; 0; 2]%R) COrd 3 3 (fun i j => if i =? j then 2%R else 0%R) /\ det3 (fun i j => if i =? j then 2%R else 0%R) <> 0%R.
Proof.
  split; [|unfold det3; cbn; lra]. split; [reflexivity|]. split; [reflexivity|]. split; [reflexivity|]. split; [cbn; lia|]. split; [cbn; lia|]. split; [reflexivity|].
  intros r c Hr Hc. assert (Er : r = 0 \/ r = 1 \/ r = 2) by lia. assert (Ec : c = 0 \/ c = 1 \/ c = 2) by lia.
  destruct Er as [-> | [-> | ->]], Ec as [-> | [-> | ->]]; reflexivity.
Qed.

Lemma norm_max_spec v : ((forall x, In x v -> Rabs x <= norm_max v) /\ (v <> [] -> exists x, In x v /\ norm_max v = Rabs x) /\ (v = [] -> norm_max v = 0))%R.
Proof.
  exact (norm_max_val v).
Qed.
Lemma norm_euclid_spec v : norm_euclid v = sqrt (Rsum (map (fun x => x * x)%R v)).
Proof.
  exact (norm_euclid_val v).
Qed.
Lemma norms_compare v : (norm_max v <= norm_euclid v /\ norm_euclid v <= norm_sum v /\ norm_sum v <= INR (length v) * norm_max v)%R.
Proof.
  exact (norms_equivalent v).
Qed.

(* ---- the source terms do not see the capillary pressure *)
Lemma no_capillary c p pc visc grav cap sat :
  cap_sources c (mkEprob (ep_cells p) (ep_cond p) (ep_partner p) (ep_drho p) (ep_grav p) (ep_mob p) pc (ep_ff p) (ep_inj p) visc grav cap) sat = cap_sources c p sat.
Proof.
  reflexivity.
Qed.
Lemma face_term_off p sat c0 s0 f c1 s1 nbf wall d : ep_visc p = false -> ep_useg p = false -> ep_cap p = false ->
  face_term p sat c0 s0 f c1 s1 nbf wall = Ok d -> d = 0%R.
Proof.
  intros V G C H. unfold face_term in H. destruct (rget (ep_cells p) c0); try discriminate. cbn [bind] in H. destruct (rget (ep_cells p) c1); try discriminate. cbn [bind] in H.
  rewrite V, G, C in H. cbn [andb bind] in H. destruct (fdiv _ _); try discriminate. destruct (fdiv _ _); try discriminate. injection H as <-. ring.
Qed.
Lemma face_update_off p bm sat c0 f c1 d : ep_visc p = false -> ep_useg p = false -> ep_cap p = false ->
  face_update p bm sat c0 f = Ok (Some (c1, d)) -> d = 0%R.
Proof.
  intros V G C H. unfold face_update in H. destruct (rget sat c0) as [s0| |]; try discriminate. cbn [bind] in H.
  assert (T : forall c s n w, (let* x := face_term p sat c0 s0 f c s n w in Ok (Some (c, x))) = Ok (Some (c1, d)) -> d = 0%R).
  { intros c s n w Q. destruct (face_term _ _ _ _ _ _ _ _ _) as [x| |] eqn:E; try discriminate. cbn [bind] in Q. injection Q as _ <-. eapply face_term_off; eauto. }
  destruct (ef_bdry f).
  - destruct (rget (ep_cond p) (ef_bid f)) as [k| |]; try discriminate. cbn [bind] in H. destruct (c_type k); try (eapply T; exact H).
    destruct (rget (ep_partner p) (ef_bid f)) as [pb| |]; try discriminate. cbn [bind] in H. destruct (rget bm pb) as [[[c2 nb]|]| |]; try discriminate. cbn [bind] in H.
    destruct (c2 <? c0); try discriminate. destruct (rget sat c2) as [s1| |]; try discriminate. cbn [bind] in H. eapply T; exact H.
  - destruct (ef_nb f <? c0); try discriminate. destruct (rget sat (ef_nb f)) as [s1| |]; try discriminate. cbn [bind] in H. eapply T; exact H.
Qed.
Lemma switched_off c p sat src : ic_visc c = false -> ic_grav c = false -> cap_sources c p sat = Ok src -> zlen (ep_cells p) <= zlen sat ->
  forall k, 0 <= k < zlen (ep_cells p) -> nthR src k = (- net_source p k (nthR sat k))%R.
Proof.
  intros V G H L k Hk. destruct (sources_ok _ _ _ _ H) as (bm & outs & A & B & _ & S & _). rewrite S by assumption.
  rewrite Rsum_map_zero; [ring|]. intros [cf u] I. pose proof (mapM_combine_in _ _ _ B _ _ I) as F. unfold contribution. cbn [fst snd].
  destruct u as [[c1 d]|]; [|reflexivity]. rewrite (face_update_off (cap_problem c p) _ _ _ _ _ _ V G eq_refl F). destruct (k =? fst cf); [ring|]. destruct (k =? c1); ring.
Qed.
