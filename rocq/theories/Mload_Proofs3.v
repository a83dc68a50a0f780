(* Proofs about failures of the grid loader and about rock lists. *)
From Coq Require Import Permutation String.
From Verif Require Import BaseFacts RBaseFacts Mim_Proofs Rprop_Proofs3 Shape_Proofs2 Steady_Proofs Euler_Proofs2 Eups_Proofs7 Mload_Proofs Mload_Proofs2 Mload_Spec.
Open Scope Z_scope.

(* ---- what a successful load says about the grid and the deck *)
Lemma rget_range {A} (l : list A) i x : rget l i = Ok x -> 0 <= i < zlen l.
Proof.
  intros H. apply rget_Ok in H. exact (zget_Some_range _ _ _ H).
Qed.
Lemma load_cell_inv nd Emod Poiss satnum rho s c r : load_cell nd Emod Poiss satnum rho s c = Ok r ->
  covered Emod Poiss satnum rho c /\ (nd = false -> (0 < snd c)%R).
Proof.
  destruct c as [k v]. unfold load_cell, covered. cbn [fst snd].
  destruct (rget Emod k) as [e| |] eqn:E1; cbn [bind]; try discriminate. destruct (rget Poiss k) as [nu| |] eqn:E2; cbn [bind]; try discriminate.
  apply rget_range in E1, E2. destruct (nd || Rltb 0 v)%bool eqn:C; cbn [negb]; try discriminate.
  match goal with |- context[bind ?A _] => destruct A as [s1| |]; cbn [bind]; try discriminate end.
  match goal with |- context[bind ?A _] => destruct A as [fr| |] eqn:F; cbn [bind]; try discriminate end.
  match goal with |- context[bind ?A _] => destruct A as [r'| |] eqn:G; cbn [bind]; try discriminate end. intros _.
  split; [split; [exact E1|]; split; [lia|]; split|].
  - destruct satnum as [|s0 st]; [left; reflexivity|right]. destruct (rget (s0 :: st) k) as [sn| |] eqn:E3; cbn [bind] in F; try discriminate.
    pose proof (rget_range _ _ _ E3). apply rget_Ok in E3. unfold sat_at. rewrite E3. split; [lia|]. cbv zeta in F.
    match type of F with bind (rget ?A ?I) _ = _ => destruct (rget A I) as [x| |] eqn:E4; cbn [bind] in F; try discriminate end. apply rget_range in E4. lia.
  - destruct rho as [|r0 rt]; [left; reflexivity|right]. destruct (rget (r0 :: rt) k) as [x| |] eqn:E3; cbn [bind] in G; try discriminate. apply rget_range in E3. lia.
  - intros ->. cbn in C. apply Rltb_true in C. exact C.
Qed.
Lemma load_grid_inv nd Escale d cells L : load_grid nd Escale d cells = Ok L -> exists Emod Poiss Es emin,
  moduli d (zlen cells) = Ok (Emod, Poiss) /\ scale_moduli Escale Emod = Ok (Es, emin) /\
  forall c, In c cells -> covered Es Poiss (satnums d) (densities d) c /\ (nd = false -> (0 < snd c)%R).
Proof.
  unfold load_grid. destruct (moduli d (zlen cells)) as [[Emod Poiss]| |]; cbn [bind fst snd]; try discriminate.
  destruct (scale_moduli Escale Emod) as [[Es emin]| |] eqn:S; cbn [bind fst snd]; try discriminate. fold (satnums d) (densities d).
  match goal with |- context[bind ?A _] => destruct A as [s| |] eqn:F; cbn [bind]; try discriminate end. intros _.
  exists Emod, Poiss, Es, emin. split; [reflexivity|]. split; [exact S|]. intros c Hc. destruct (foldM_each_ok _ _ _ _ F c Hc) as (s' & r' & E). exact (load_cell_inv _ _ _ _ _ _ _ _ E).
Qed.
Lemma uniform_active nd Escale cells L : load_grid nd Escale None cells = Ok L -> forall c, In c cells -> 0 <= fst c < zlen cells.
Proof.
  intros H c Hc. destruct (load_grid_inv _ _ _ _ _ H) as (Emod & Poiss & Es & emin & E1 & E2 & E3). destruct (E3 c Hc) as [(_ & A & _) _].
  destruct (E3 c Hc) as [(B & _) _]. cbn [moduli] in E1. injection E1 as <- <-. rewrite zlen_zrepeat in A by apply zlen_nonneg. lia.
Qed.
(* ---- the rock files *)
Lemma read_rocks_names files names rest : read_rocks files (List.length names) (Some (map RWord names ++ rest)%list) = mapM (fun n => create_file (files n)) names.
Proof.
  induction names as [|n t IH]; [reflexivity|]. cbn [List.length read_rocks map app rd_word mapM]. destruct (create_file (files n)) as [m| |]; cbn [bind]; try reflexivity. rewrite IH. reflexivity.
Qed.
Lemma read_rocks_len files n : forall f l, read_rocks files n f = Ok l -> List.length l = n.
Proof.
  induction n as [|n IH]; intros f l; cbn [read_rocks]; [intros [= <-]; reflexivity|]. destruct (rd_word f) as [nm f']. destruct (create_file (files nm)) as [m| |]; cbn [bind]; try discriminate.
  destruct (read_rocks files n f') as [l'| |] eqn:E; cbn [bind]; try discriminate. intros [= <-]. cbn [List.length]. f_equal. exact (IH _ _ E).
Qed.
(* ---- scaling of a rock list *)
Lemma least_young l : forall m0, Forall isotropic l -> exists m, foldM (fun mn m => let* E := iso_E m in Ok (smin mn E)) l m0 = Ok m /\ (m <= m0)%R /\
  (forall x, In x l -> (m <= young x)%R) /\ (m = m0 \/ exists x, In x l /\ m = young x).
Proof.
  induction l as [|x t IH]; intros m0 H; cbn [foldM].
  - exists m0. split; [reflexivity|]. split; [lra|]. split; [intros y []|left; reflexivity].
  - inversion H as [|? ? (E & nu & rho & -> & PE) Ht]. subst. cbn [iso_E bind]. destruct (IH (smin m0 E) Ht) as (m & Em & A & B & C). exists m. split; [exact Em|].
    rewrite smin_Rmin in *. pose proof (Rmin_l m0 E). pose proof (Rmin_r m0 E). split; [lra|]. split.
    + intros y [<-|Hy]; [cbn [young]; lra|exact (B y Hy)].
    + destruct C as [->|(y & Hy & E')]; [|right; exists y; split; [right; exact Hy|exact E']]. unfold Rmin. destruct (Rle_dec m0 E); [left; reflexivity|right; exists (MIso E nu rho); split; [left; reflexivity|reflexivity]].
Qed.
Lemma scale_rocks_ok Escale l : (0 < Escale)%R -> Forall isotropic l -> exists Emin, scale_rocks Escale l = Ok (map (stiffer (Escale / Emin)) l, Some Emin) /\
  (0 < Emin <= 10000000000)%R /\ (forall m, In m l -> (Emin <= young m)%R) /\ (Emin = 10000000000%R \/ exists m, In m l /\ Emin = young m).
Proof.
  intros He H. unfold scale_rocks. rewrite (proj2 (Rltb_true _ _) He). destruct (least_young l 10000000000%R H) as (m & Em & A & B & C). rewrite Em. cbn [bind].
  assert (Pm : (0 < m)%R). { destruct C as [->|(x & Hx & ->)]; [lra|]. rewrite Forall_forall in H. destruct (H x Hx) as (E & nu & rho & -> & P). exact P. }
  exists m. rewrite (mapM_all_Ok _ (stiffer (Escale / m)) l).
  - cbn [bind]. repeat split; auto.
  - intros x Hx. rewrite Forall_forall in H. destruct (H x Hx) as (E & nu & rho & -> & P). rewrite mdiv_ok by lra. cbn [bind stiffer]. do 2 f_equal. unfold Rdiv. ring.
Qed.
Lemma scale_rocks_off Escale l : (Escale <= 0)%R -> scale_rocks Escale l = Ok (l, None).
Proof.
  intros H. unfold scale_rocks. rewrite (proj2 (Rltb_false _ _)) by exact H. reflexivity.
Qed.
Lemma scale_rocks_ub Escale l m r : (0 < Escale)%R -> In m l -> (forall E nu rho, m <> MIso E nu rho) -> scale_rocks Escale l <> Ok r.
Proof.
  intros He Hm N H. unfold scale_rocks in H. rewrite (proj2 (Rltb_true _ _) He) in H. destruct (foldM _ l _) as [mn| |] eqn:F in H; cbn [bind] in H; try discriminate.
  destruct (foldM_each_ok _ _ _ _ F m Hm) as (s & r' & E). destruct m as [e nu rho|e|c]; cbn in E; try discriminate. exact (N e nu rho eq_refl).
Qed.
(* ---- the cells *)
Lemma tally_app n1 v1 n v j : List.length n1 = List.length v1 -> tally (n1 ++ [n]) (v1 ++ [v]) j = (tally n1 v1 j + (if (n =? j)%Z then v else 0))%R.
Proof.
  intros L. unfold tally. assert (E : forall (a : list Z) (b : list R), List.length a = List.length b -> combine (a ++ [n]) (b ++ [v]) = (combine a b ++ [(n, v)])%list).
  { induction a as [|x a IH]; intros [|y b] H; cbn in *; try discriminate; [reflexivity|]. f_equal. apply IH. lia. }
  rewrite (E n1 v1 L), map_app, Rsum_app. cbn [map fst snd]. rewrite Rsum_cons, Rsum_nil. destruct (n =? j); ring.
Qed.
Lemma add_vol_ok vol j v : 0 <= j < zlen vol -> exists vol', add_vol vol j v = Ok vol' /\ zlen vol' = zlen vol /\
  (forall i, nthR vol' i = nthR vol i + (if (j =? i)%Z then v else 0))%R /\ Rsum vol' = (Rsum vol + v)%R.
Proof.
  intros H. unfold add_vol. rewrite (rget_nth vol j H). cbn [bind]. destruct (rset_exists vol j (nthR vol j + v)%R H) as (vol' & E & _). exists vol'. split; [exact E|].
  destruct (rset_nthR _ _ _ _ E) as (L & _ & N & Sm). split; [exact L|]. split; [|rewrite Sm; ring].
  intros i. rewrite N. destruct (Z.eqb_spec i j) as [->|D]; [rewrite Z.eqb_refl; reflexivity|]. rewrite (proj2 (Z.eqb_neq j i)) by congruence. ring.
Qed.
Definition ainv (n : Z) (nums : list Z) (vols : list R) (st : list Z * list R) : Prop :=
  fst st = nums /\ zlen (snd st) = n /\ (forall j, nthR (snd st) j = tally nums vols j) /\ Rsum (snd st) = Rsum vols.
Lemma ainv_0 n : 0 <= n -> ainv n [] [] ([], zrepeat 0%R n).
Proof.
  intros H. split; [reflexivity|]. cbn [snd]. split; [apply zlen_zrepeat; exact H|]. split.
  - intros j. unfold tally. cbn [combine map]. rewrite Rsum_nil. rewrite <- (app_nil_l (zrepeat 0%R n)), nthR_zeros. apply nthR_out. change (zlen (@nil R)) with 0. lia.
  - rewrite Rsum_nil. unfold zrepeat. induction (Z.to_nat n) as [|m IH]; [apply Rsum_nil|]. cbn [repeat]. rewrite Rsum_cons, IH. ring.
Qed.
Lemma ainv_step n nums vols st j v : List.length nums = List.length vols -> ainv n nums vols st -> 0 <= j < n -> exists vol',
  add_vol (snd st) j v = Ok vol' /\ ainv n (nums ++ [j]) (vols ++ [v]) (fst st ++ [j], vol').
Proof.
  intros L (A & B & C & D) H. destruct (add_vol_ok (snd st) j v ltac:(lia)) as (vol' & E & L' & N & Sm). exists vol'. split; [exact E|]. split; [cbn [fst]; rewrite A; reflexivity|]. cbn [snd].
  split; [lia|]. split; [intros i; rewrite N, C, tally_app by exact L; reflexivity|]. rewrite Sm, D, Rsum_app, Rsum_cons, Rsum_nil. ring.
Qed.
Lemma assign_single cells : assign_rocks 1 None cells = Ok (map (fun _ => 0) cells, [1%R]).
Proof.
  reflexivity.
Qed.
Lemma combine_fst {A B} (l : list A) : forall (l' : list B), List.length l = List.length l' -> map fst (combine l l') = l.
Proof.
  induction l as [|x l IH]; intros [|y l'] H; cbn in *; try discriminate; [reflexivity|]. f_equal. apply IH. lia.
Qed.
Lemma combine_snd {A B} (l : list A) : forall (l' : list B), List.length l = List.length l' -> map snd (combine l l') = l'.
Proof.
  induction l as [|x l IH]; intros [|y l'] H; cbn in *; try discriminate; [reflexivity|]. f_equal. apply IH. lia.
Qed.
Lemma assign_cyclic n cells : 2 <= n -> exists vol, assign_rocks n None cells = Ok (map (fun i => i mod n) (zrange 0 (zlen cells)), vol) /\ zlen vol = n /\
  (forall j, nthR vol j = tally (map (fun i => i mod n) (zrange 0 (zlen cells))) (map snd cells) j) /\ Rsum vol = all_volume cells.
Proof.
  intros Hn. unfold assign_rocks. rewrite (proj2 (Z.eqb_neq n 1)) by lia. rewrite (proj2 (Z.eqb_neq n 0)) by lia. set (l := combine (zrange 0 (zlen cells)) cells).
  destruct (foldM_inv (fun (st : list Z * list R) (ic : Z * (Z * R)) => let '(i, (_, v)) := ic in let* vol := add_vol (snd st) (i mod n) v in Ok ((fst st ++ [i mod n])%list, vol))
    (fun done st => ainv n (map (fun ic => fst ic mod n) done) (map (fun ic => snd (snd ic)) done) st) l ([], zrepeat 0%R n)) as ([g vol] & E & A & B & C & D).
  - apply ainv_0. lia.
  - intros done [i [k v]] st _ I. rewrite !map_app. cbn [map fst snd]. destruct (ainv_step n (map (fun ic : Z * (Z * R) => fst ic mod n) done) (map (fun ic => snd (snd ic)) done) st (i mod n) v ltac:(rewrite !map_length; reflexivity) I ltac:(apply Z.mod_pos_bound; lia)) as (vol' & E & I').
    rewrite E. cbn [bind]. eexists. split; [reflexivity|exact I'].
  - rewrite E. cbn [fst snd] in A, B, C, D.
    assert (Ln : List.length (zrange 0 (zlen cells)) = List.length cells) by (rewrite zrange_length; unfold zlen; lia).
    assert (E1 : map (fun ic : Z * (Z * R) => fst ic mod n) l = map (fun i => i mod n) (zrange 0 (zlen cells))).
    { transitivity (map (fun i => i mod n) (map fst l)); [rewrite map_map; reflexivity|unfold l; rewrite combine_fst by exact Ln; reflexivity]. }
    assert (E2 : map (fun ic : Z * (Z * R) => snd (snd ic)) l = map snd cells).
    { transitivity (map snd (map snd l)); [rewrite map_map; reflexivity|unfold l; rewrite combine_snd by exact Ln; reflexivity]. }
    rewrite E1, E2 in *. exists vol. rewrite A. repeat split; auto.
Qed.
Lemma assign_no_rocks c cells : assign_rocks 0 None (c :: cells) = UB.
Proof.
  unfold assign_rocks. cbn [Z.eqb]. rewrite zrange_cons by (unfold zlen; cbn [List.length]; lia). cbn [combine foldM]. destruct c as [k v]. reflexivity.
Qed.
Lemma assign_sat n satnum cells : 0 <= n -> (forall c, In c cells -> 0 <= fst c < zlen satnum /\ 1 <= sat_at satnum (fst c) <= n) ->
  exists vol, assign_rocks n (Some (Some satnum)) cells = Ok (map (fun c => sat_at satnum (fst c) - 1) cells, vol) /\ zlen vol = n /\
  (forall j, nthR vol j = tally (map (fun c => sat_at satnum (fst c) - 1) cells) (map snd cells) j) /\ Rsum vol = all_volume cells.
Proof.
  intros Hn H. unfold assign_rocks.
  destruct (foldM_inv (fun (st : list Z * list R) (c : Z * R) => let '(k, v) := c in let* s := rget satnum k in if n <=? s - 1 then Throw else let* vol := add_vol (snd st) (s - 1) v in Ok ((fst st ++ [s - 1])%list, vol))
    (fun done st => ainv n (map (fun c => sat_at satnum (fst c) - 1) done) (map snd done) st) cells ([], zrepeat 0%R n)) as ([g vol] & E & A & B & C & D).
  - apply ainv_0. exact Hn.
  - intros done [k v] st Hc I. destruct (H _ Hc) as [Hk Hs]. cbn [fst snd] in *. destruct (zget_in_range satnum k Hk) as (s & Es). rewrite (proj2 (rget_Ok _ _ _) Es). cbn [bind].
    assert (Es' : sat_at satnum k = s) by (unfold sat_at; rewrite Es; reflexivity). rewrite Es' in Hs. destruct (Z.leb_spec n (s - 1)); [lia|].
    rewrite !map_app. cbn [map fst snd]. rewrite Es'. destruct (ainv_step n (map (fun c => sat_at satnum (fst c) - 1) done) (map snd done) st (s - 1) v ltac:(rewrite !map_length; reflexivity) I ltac:(lia)) as (vol' & E & I').
    rewrite E. cbn [bind]. eexists. split; [reflexivity|exact I'].
  - rewrite E. cbn [fst snd] in A, B, C, D. exists vol. rewrite A. repeat split; auto.
Qed.
Lemma assign_sat_inv n satnum cells r : assign_rocks n (Some (Some satnum)) cells = Ok r -> forall c, In c cells -> 0 <= fst c < zlen satnum /\ 1 <= sat_at satnum (fst c) <= n.
Proof.
  intros F c Hc. destruct (foldM_each_ok _ _ _ _ F c Hc) as (st & st' & E). destruct c as [k v]. cbn [fst].
  destruct (rget satnum k) as [s| |] eqn:Es; cbn [bind] in E; try discriminate. pose proof (rget_range _ _ _ Es). apply rget_Ok in Es. unfold sat_at. rewrite Es.
  destruct (Z.leb_spec n (s - 1)); [discriminate|]. unfold add_vol in E. destruct (rget (snd st) (s - 1)) as [x| |] eqn:G; cbn [bind] in E; try discriminate. apply rget_range in G. lia.
Qed.
Lemma assign_sat_throws n satnum c cells : 0 <= fst c < zlen satnum -> n < sat_at satnum (fst c) -> assign_rocks n (Some (Some satnum)) (c :: cells) = Throw.
Proof.
  intros Hk Hs. unfold assign_rocks. destruct c as [k v]. cbn [foldM fst] in *. destruct (zget_in_range satnum k Hk) as (s & Es). rewrite (proj2 (rget_Ok _ _ _) Es). cbn [bind].
  unfold sat_at in Hs. rewrite Es in Hs. rewrite (proj2 (Z.leb_le n (s - 1))) by lia. reflexivity.
Qed.
(* ---- sums in single precision *)
Lemma float_sum_exact fl l : (forall x, fl x = x) -> float_sum fl l = Rsum l.
Proof.
  intros H. unfold float_sum. assert (G : forall l a, fold_left (fun a v => fl (a + v)%R) l a = (a + Rsum l)%R).
  { clear l. induction l as [|x l IH]; intros a; cbn [fold_left]; [rewrite Rsum_nil; ring|]. rewrite IH, H, Rsum_cons. ring. }
  rewrite G. ring.
Qed.
Lemma float_sum_bound u fl l : (0 <= u < 1)%R -> rounds u fl -> (forall x, In x l -> (0 <= x)%R) ->
  ((1 - u) ^ List.length l * Rsum l <= float_sum fl l <= (1 + u) ^ List.length l * Rsum l)%R.
Proof.
  intros Hu Hr. unfold float_sum.
  assert (G : forall l a, (0 <= a)%R -> (forall x, In x l -> (0 <= x)%R) -> ((1 - u) ^ List.length l * (a + Rsum l) <= fold_left (fun a v => fl (a + v)%R) l a <= (1 + u) ^ List.length l * (a + Rsum l))%R).
  { clear l. induction l as [|x l IH]; intros a Ha Hp; cbn [fold_left List.length pow]; [rewrite Rsum_nil; lra|].
    pose proof (Hp x (or_introl eq_refl)) as Hx. pose proof (Hr (a + x)%R) as B. rewrite (Rabs_pos_eq (a + x)) in B by lra. pose proof (Rle_abs (fl (a + x) - (a + x))%R) as W1. pose proof (Rle_abs (- (fl (a + x) - (a + x)))%R) as W2. rewrite Rabs_Ropp in W2.
    assert (B1 : ((1 - u) * (a + x) <= fl (a + x))%R) by lra. assert (B2 : (fl (a + x) <= (1 + u) * (a + x))%R) by lra.
    assert (P0 : (0 <= (1 - u) * (a + x))%R) by (apply Rmult_le_pos; lra). destruct (IH (fl (a + x)%R) ltac:(lra) ltac:(intros y Hy; apply Hp; right; exact Hy)) as [I1 I2]. rewrite Rsum_cons.
    assert (Hs : (0 <= Rsum l)%R). { rewrite <- (map_id l). apply Rsum_map_nonneg. intros y Hy. apply Hp. right. exact Hy. }
    assert (Q1 : (0 <= (1 - u) ^ List.length l)%R) by (apply pow_le; lra). assert (Q2 : (0 <= (1 + u) ^ List.length l)%R) by (apply pow_le; lra).
    assert (us : (0 <= u * Rsum l)%R) by (apply Rmult_le_pos; lra).
    split.
    - eapply Rle_trans; [|exact I1]. rewrite (Rmult_comm (1 - u)), Rmult_assoc. apply Rmult_le_compat_l; [exact Q1|]. lra.
    - eapply Rle_trans; [exact I2|]. rewrite (Rmult_comm (1 + u)), Rmult_assoc. apply Rmult_le_compat_l; [exact Q2|]. lra. }
  intros Hp. specialize (G l 0%R ltac:(lra) Hp). rewrite Rplus_0_l in G. exact G.
Qed.

(* ---- the whole rock list loader *)
Lemma tally_nonneg nums vols j : (forall v, In v vols -> (0 <= v)%R) -> (0 <= tally nums vols j)%R.
Proof.
  intros H. apply Rsum_map_nonneg. intros [n v] Hp. cbn [fst snd]. destruct (n =? j); [|lra]. apply in_combine_r in Hp. exact (H v Hp).
Qed.
Lemma load_rocklist_ok fl files Escale mats names satnum cells cache scaled emin nums vol :
  read_rocks files (Z.to_nat mats) names = Ok cache -> scale_rocks Escale cache = Ok (scaled, emin) -> zlen scaled = zlen cache ->
  assign_rocks (zlen cache) satnum cells = Ok (nums, vol) -> (forall j, In j nums -> 0 <= j < zlen cache) -> float_sum fl vol <> 0%R ->
  exists M, load_rocklist fl files Escale mats names satnum cells = Ok M /\ rk_mats M = map (fun j => nth (Z.to_nat j) scaled (MIso 0 0 0)) nums /\
    rk_frac M = map (fun v => v / float_sum fl vol)%R vol /\ rk_bysat M = true /\ rk_rho M = None /\ rk_emin M = emin.
Proof.
  intros E1 E2 Ls E3 Hr Ht. unfold load_rocklist. rewrite E1. cbn [bind]. rewrite E2. cbn [bind]. rewrite E3. cbn [bind fst snd].
  rewrite (mapM_all_Ok _ (fun v => v / float_sum fl vol)%R) by (intros v _; apply mdiv_ok; exact Ht). cbn [bind].
  rewrite (mapM_all_Ok _ (fun j => nth (Z.to_nat j) scaled (MIso 0 0 0))).
  - cbn [bind]. eexists. split; [reflexivity|]. repeat split; reflexivity.
  - intros j Hj. specialize (Hr j Hj). rewrite <- Ls in Hr. destruct (zget_in_range scaled j Hr) as (m & Em). rewrite (proj2 (rget_Ok _ _ _) Em). f_equal.
    unfold zget in Em. rewrite (proj2 (Z.ltb_ge j 0)) in Em by lia. symmetry. exact (nth_error_nth _ _ _ Em).
Qed.
Lemma scaled_length Escale cache scaled emin : scale_rocks Escale cache = Ok (scaled, emin) -> zlen scaled = zlen cache.
Proof.
  unfold scale_rocks. destruct (Rltb 0 Escale); [|intros [= <- <-]; reflexivity]. destruct (foldM _ cache _) as [mn| |]; cbn [bind]; try discriminate.
  destruct (mapM _ cache) as [l| |] eqn:E; cbn [bind]; try discriminate. intros [= <- <-]. unfold zlen. f_equal. exact (mapM_len _ _ _ E).
Qed.
Lemma float_fractions u fl vol : (0 <= u < 1)%R -> rounds u fl -> (forall v, In v vol -> (0 <= v)%R) -> (0 < Rsum vol)%R ->
  float_sum fl vol <> 0%R /\ (forall x, In x (map (fun v => v / float_sum fl vol)%R vol) -> (0 <= x)%R) /\
  (/ (1 + u) ^ List.length vol <= Rsum (map (fun v => v / float_sum fl vol) vol) <= / (1 - u) ^ List.length vol)%R.
Proof.
  intros Hu Hr Hp Ps. destruct (float_sum_bound u fl vol Hu Hr Hp) as [B1 B2]. set (t := float_sum fl vol) in *. set (n := List.length vol) in *.
  assert (Q1 : (0 < (1 - u) ^ n)%R) by (apply pow_lt; lra). assert (Q2 : (0 < (1 + u) ^ n)%R) by (apply pow_lt; lra).
  assert (Pt : (0 < t)%R). { eapply Rlt_le_trans; [|exact B1]. apply Rmult_lt_0_compat; assumption. }
  split; [lra|]. split.
  - intros x Hx. apply in_map_iff in Hx. destruct Hx as (v & <- & Hv). apply Rmult_le_pos; [exact (Hp v Hv)|]. apply Rlt_le, Rinv_0_lt_compat; exact Pt.
  - rewrite Rsum_div. split.
    + apply (Rmult_le_reg_r (t * (1 + u) ^ n)); [apply Rmult_lt_0_compat; assumption|]. replace (/ (1 + u) ^ n * (t * (1 + u) ^ n))%R with t by (field; lra). replace (Rsum vol / t * (t * (1 + u) ^ n))%R with ((1 + u) ^ n * Rsum vol)%R by (field; lra). exact B2.
    + apply (Rmult_le_reg_r (t * (1 - u) ^ n)); [apply Rmult_lt_0_compat; assumption|]. replace (/ (1 - u) ^ n * (t * (1 - u) ^ n))%R with t by (field; lra). replace (Rsum vol / t * (t * (1 - u) ^ n))%R with ((1 - u) ^ n * Rsum vol)%R by (field; lra). exact B1.
Qed.
Lemma nthR_In_nonneg vol nums vols : (forall j, nthR vol j = tally nums vols j) -> (forall v, In v vols -> (0 <= v)%R) -> forall v, In v vol -> (0 <= v)%R.
Proof.
  intros H Hv v Hin. apply In_nthR in Hin. destruct Hin as (i & _ & <-). rewrite H. apply tally_nonneg. exact Hv.
Qed.
Lemma rocks_cyclic u fl files Escale nms rest cache scaled emin cells : 2 <= zlen nms -> mapM (fun n => create_file (files n)) nms = Ok cache ->
  scale_rocks Escale cache = Ok (scaled, emin) -> (0 <= u < 1)%R -> rounds u fl -> cells <> [] -> (forall c, In c cells -> (0 < snd c)%R) ->
  let nums := map (fun i => i mod zlen nms) (zrange 0 (zlen cells)) in
  exists M t, load_rocklist fl files Escale (zlen nms) (Some (map RWord nms ++ rest)) None cells = Ok M /\
    rk_mats M = map (fun j => nth (Z.to_nat j) scaled (MIso 0 0 0)) nums /\ rk_bysat M = true /\ rk_rho M = None /\ rk_emin M = emin /\
    zlen (rk_frac M) = zlen nms /\ (forall j, 0 <= j < zlen nms -> nthR (rk_frac M) j = (tally nums (map snd cells) j / t)%R) /\
    ((1 - u) ^ List.length nms * all_volume cells <= t <= (1 + u) ^ List.length nms * all_volume cells)%R /\ (forall x, In x (rk_frac M) -> 0 <= x)%R /\
    (/ (1 + u) ^ List.length nms <= Rsum (rk_frac M) <= / (1 - u) ^ List.length nms)%R.
Proof.
  intros Hn Ec Es Hu Hr Ne Pos nums. pose proof (mapM_len _ _ _ Ec) as Lc. assert (Lz : zlen cache = zlen nms) by (unfold zlen; rewrite Lc; reflexivity).
  assert (Er : read_rocks files (Z.to_nat (zlen nms)) (Some (map RWord nms ++ rest)%list) = Ok cache).
  { unfold zlen. rewrite Nat2Z.id, read_rocks_names. exact Ec. }
  destruct (assign_cyclic (zlen nms) cells Hn) as (vol & Ea & Lv & Nv & Sv).
  assert (Hv : forall v, In v vol -> (0 <= v)%R). { apply (nthR_In_nonneg _ _ _ Nv). intros v Hv. apply in_map_iff in Hv. destruct Hv as (c & <- & Hc). apply Rlt_le, Pos, Hc. }
  assert (Pv : (0 < Rsum vol)%R) by (rewrite Sv; apply all_positive; assumption).
  assert (Ll : List.length vol = List.length nms) by (unfold zlen in Lv; lia).
  destruct (float_fractions u fl vol Hu Hr Hv Pv) as (T & P0 & Bd). pose proof (float_sum_bound u fl vol Hu Hr Hv) as Bt.
  destruct (load_rocklist_ok fl files Escale (zlen nms) _ None cells cache scaled emin nums vol Er Es (scaled_length _ _ _ _ Es)) as (M & EM & M1 & M2 & M3 & M4 & M5);
    [rewrite Lz; exact Ea| |exact T|].
  - intros j Hj. apply in_map_iff in Hj. destruct Hj as (i & <- & _). rewrite Lz. apply Z.mod_pos_bound. lia.
  - exists M, (float_sum fl vol). split; [exact EM|]. split; [exact M1|]. split; [exact M3|]. split; [exact M4|]. split; [exact M5|]. rewrite M2. rewrite Sv, Ll in *.
    split; [rewrite zlen_map; exact Lv|]. split; [|split; [exact Bt|split; [exact P0|exact Bd]]].
    intros j Hj. unfold nums. rewrite <- Nv. unfold nthR. rewrite zget_map. destruct (zget_in_range vol j ltac:(lia)) as (x & Ex). rewrite Ex. reflexivity.
Qed.
Lemma rocks_sat u fl files Escale nms rest cache scaled emin satnum cells : mapM (fun n => create_file (files n)) nms = Ok cache ->
  scale_rocks Escale cache = Ok (scaled, emin) -> (0 <= u < 1)%R -> rounds u fl -> cells <> [] -> (forall c, In c cells -> (0 < snd c)%R) ->
  (forall c, In c cells -> 0 <= fst c < zlen satnum /\ 1 <= sat_at satnum (fst c) <= zlen nms) ->
  exists M t, load_rocklist fl files Escale (zlen nms) (Some (map RWord nms ++ rest)) (Some (Some satnum)) cells = Ok M /\
    rk_mats M = map (fun c => nth (Z.to_nat (sat_at satnum (fst c) - 1)) scaled (MIso 0 0 0)) cells /\ rk_bysat M = true /\ rk_rho M = None /\ rk_emin M = emin /\
    zlen (rk_frac M) = zlen nms /\ (forall s, 1 <= s <= zlen nms -> nthR (rk_frac M) (s - 1) = (volume_if (fun k => (sat_at satnum k =? s)%Z) cells / t)%R) /\
    ((1 - u) ^ List.length nms * all_volume cells <= t <= (1 + u) ^ List.length nms * all_volume cells)%R /\ (forall x, In x (rk_frac M) -> 0 <= x)%R /\
    (/ (1 + u) ^ List.length nms <= Rsum (rk_frac M) <= / (1 - u) ^ List.length nms)%R.
Proof.
  intros Ec Es Hu Hr Ne Pos Hs. pose proof (mapM_len _ _ _ Ec) as Lc. assert (Lz : zlen cache = zlen nms) by (unfold zlen; rewrite Lc; reflexivity).
  assert (Er : read_rocks files (Z.to_nat (zlen nms)) (Some (map RWord nms ++ rest)%list) = Ok cache).
  { unfold zlen. rewrite Nat2Z.id, read_rocks_names. exact Ec. }
  destruct (assign_sat (zlen nms) satnum cells (zlen_nonneg _) Hs) as (vol & Ea & Lv & Nv & Sv).
  assert (Hv : forall v, In v vol -> (0 <= v)%R). { apply (nthR_In_nonneg _ _ _ Nv). intros v Hv. apply in_map_iff in Hv. destruct Hv as (c & <- & Hc). apply Rlt_le, Pos, Hc. }
  assert (Pv : (0 < Rsum vol)%R) by (rewrite Sv; apply all_positive; assumption).
  assert (Ll : List.length vol = List.length nms) by (unfold zlen in Lv; lia).
  destruct (float_fractions u fl vol Hu Hr Hv Pv) as (T & P0 & Bd). pose proof (float_sum_bound u fl vol Hu Hr Hv) as Bt.
  destruct (load_rocklist_ok fl files Escale (zlen nms) _ (Some (Some satnum)) cells cache scaled emin (map (fun c => sat_at satnum (fst c) - 1) cells) vol Er Es (scaled_length _ _ _ _ Es)) as (M & EM & M1 & M2 & M3 & M4 & M5);
    [rewrite Lz; exact Ea| |exact T|].
  - intros j Hj. apply in_map_iff in Hj. destruct Hj as (c & <- & Hc). rewrite Lz. destruct (Hs c Hc). lia.
  - exists M, (float_sum fl vol). split; [exact EM|]. split; [rewrite M1, map_map; reflexivity|]. split; [exact M3|]. split; [exact M4|]. split; [exact M5|]. rewrite M2. rewrite Sv, Ll in *.
    split; [rewrite zlen_map; exact Lv|]. split; [|split; [exact Bt|split; [exact P0|exact Bd]]].
    intros t Ht. replace (volume_if (fun k => sat_at satnum k =? t) cells) with (nthR vol (t - 1)).
    + unfold nthR. rewrite zget_map. destruct (zget_in_range vol (t - 1) ltac:(lia)) as (x & Ex). rewrite Ex. reflexivity.
    + rewrite Nv. unfold tally, volume_if. f_equal. clear. induction cells as [|c l IH]; [reflexivity|]. cbn [map combine fst snd]. rewrite IH. f_equal.
      destruct (Z.eqb_spec (sat_at satnum (fst c) - 1) (t - 1)), (Z.eqb_spec (sat_at satnum (fst c)) t); try reflexivity; lia.
Qed.
Lemma rocks_single fl files Escale nm rest m scaled emin cells : create_file (files nm) = Ok m -> scale_rocks Escale [m] = Ok ([scaled], emin) -> fl 1%R = 1%R ->
  exists M, load_rocklist fl files Escale 1 (Some (RWord nm :: rest)) None cells = Ok M /\ rk_mats M = map (fun _ => scaled) cells /\ rk_frac M = [1%R] /\ rk_bysat M = true /\ rk_rho M = None.
Proof.
  intros Ec Es H1. destruct (load_rocklist_ok fl files Escale 1 (Some (RWord nm :: rest)) None cells [m] [scaled] emin (map (fun _ => 0) cells) [1%R]) as (M & EM & M1 & M2 & M3 & M4 & M5).
  - change (Z.to_nat 1) with 1%nat. cbn [read_rocks rd_word]. rewrite Ec. reflexivity.
  - exact Es.
  - reflexivity.
  - reflexivity.
  - intros j Hj. apply in_map_iff in Hj. destruct Hj as (c & <- & _). change (zlen [m]) with 1. lia.
  - unfold float_sum. cbn [fold_left]. rewrite Rplus_0_l, H1. lra.
  - exists M. split; [exact EM|]. split; [rewrite M1, map_map; reflexivity|]. split; [|split; assumption]. rewrite M2. unfold float_sum. cbn [fold_left map]. rewrite Rplus_0_l, H1. f_equal. field.
Qed.
Lemma rocks_missing fl files Escale mats names satnum cells M : load_rocklist fl files Escale mats names satnum cells = Ok M ->
  (satnum = None -> cells <> [] -> 0 < mats) /\ satnum <> Some None /\
  (forall s, satnum = Some (Some s) -> forall c, In c cells -> 0 <= fst c < zlen s /\ 1 <= sat_at s (fst c) <= Z.max 0 mats).
Proof.
  unfold load_rocklist. destruct (read_rocks files (Z.to_nat mats) names) as [cache| |] eqn:E1; cbn [bind]; try discriminate.
  destruct (scale_rocks Escale cache) as [sc| |]; cbn [bind]; try discriminate. destruct (assign_rocks (zlen cache) satnum cells) as [r| |] eqn:E3; cbn [bind]; try discriminate. intros _.
  apply read_rocks_len in E1. assert (Lc : zlen cache = Z.max 0 mats) by (unfold zlen; rewrite E1; lia). rewrite Lc in E3. split; [|split].
  - intros -> Ne. destruct (Z_lt_le_dec 0 mats) as [|H]; [assumption|]. rewrite Z.max_l in E3 by lia. destruct cells as [|c t]; [congruence|]. rewrite assign_no_rocks in E3. discriminate.
  - intros ->. discriminate.
  - intros s ->. exact (assign_sat_inv _ _ _ _ E3).
Qed.
(* ---- satisfiability *)
Definition sample_deck : deck := mkDeck (Some [2; 4; 2]%R) (Some [0.25; 0.25; 0.25]%R) None None None None None (Some [1; 3; 1]) (Some [5; 7; 5]%R).
Definition sample_cells : list (Z * R) := [(0, 1%R); (1, 2%R); (2, 3%R)].
Lemma sample_grid : exists Es, moduli (Some sample_deck) 3 = Ok ([2; 4; 2]%R, [0.25; 0.25; 0.25]%R) /\ scale_moduli (-1) [2; 4; 2]%R = Ok (Es, None) /\
  forall c, In c sample_cells -> covered Es [0.25; 0.25; 0.25]%R (satnums (Some sample_deck)) (densities (Some sample_deck)) c /\ (0 < snd c)%R.
Proof.
  eexists. split; [|split; [apply scale_off; lra|]].
  - apply (moduli_given sample_deck 3 _ [0.25; 0.25; 0.25]%R eq_refl eq_refl). split; [discriminate|]. intros x [<-|[<-|[<-|[]]]]; lra.
  - intros c [<-|[<-|[<-|[]]]]; (split; [|cbn [snd]; lra]); unfold covered; cbn [fst satnums densities sample_deck dk_satnum dk_rho];
      change (zlen [2; 4; 2]%R) with 3; change (zlen [0.25; 0.25; 0.25]%R) with 3; change (zlen [5; 7; 5]%R) with 3; change (zlen [1; 3; 1]) with 3;
      (split; [lia|split; [lia|split; [right; split; [lia|vm_compute; discriminate]|right; lia]]]).
Qed.
Lemma rounds_id : rounds 0 (fun x => x).
Proof.
  intros x. rewrite Rminus_diag_eq by reflexivity. rewrite Rabs_R0. lra.
Qed.
