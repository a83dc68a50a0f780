From Verif Require Import BaseFacts RBaseFacts Lin_Facts Steady_Proofs Euler_Proofs2 Impl_Proofs Matx_Proofs Hnum_Proofs Hyb_Proofs Hyb_Proofs2 Hyb_Proofs3 Hyb_Proofs4 Hyb_Proofs5 Hyb_Proofs6 Hyb_Proofs7 Eld_Proofs2 Upb_Proofs Tens_Proofs Tens_Spec.
From Verif Require Ieul_Proofs4 Hnum_Proofs2.
Open Scope Z_scope.

(* ---- the flat lists of faces and fluxes ---- *)
Lemma combine_map {A B C} (a : A -> B) (b : A -> C) l : combine (map a l) (map b l) = map (fun x => (a x, b x)) l.
Proof. induction l as [|x l IH]; [reflexivity|]. cbn. rewrite IH. reflexivity. Qed.
Lemma combine_self_map {A B} (b : A -> B) l : combine l (map b l) = map (fun x => (x, b x)) l.
Proof. induction l as [|x l IH]; [reflexivity|]. cbn. rewrite IH. reflexivity. Qed.
Lemma cell_faces_map g geo k : zlen (mc_faces (geo k)) = nfaces g k -> cell_faces (cell_at g k) (geo k) = map (uf_at g geo k) (zrange 0 (nfaces g k)).
Proof.
  intros E. unfold cell_faces. rewrite (list_nth_map (hc_faces (cell_at g k)) (mkHFace None 0)) at 1. rewrite (list_nth_map (mc_faces (geo k)) (mkMFace 0 [] [])) at 1. rewrite E. fold (nfaces g k). rewrite combine_map, map_map. reflexivity.
Qed.
Lemma grid_faces_map g geo : (forall k, 0 <= k < zlen g -> zlen (mc_faces (geo k)) = nfaces g k) -> grid_faces g geo = map (fun p => uf_at g geo (fst p) (snd p)) (halves g).
Proof.
  intros E. unfold grid_faces, halves. rewrite (list_nth_map g (mkHCell (-1) [])) at 2. rewrite combine_self_map, map_map, concat_map, map_map. f_equal. apply map_ext_in. intros k Hk. apply In_zrange in Hk. cbn [fst snd]. fold (cell_at g k).
  rewrite (cell_faces_map g geo k (E k Hk)), map_map. reflexivity.
Qed.
Lemma table_map g t : half_table g t -> List.concat t = map (fun p => at2 t (fst p) (snd p)) (halves g).
Proof.
  intros (L & H). unfold halves. rewrite (list_nth_map t []) at 1. rewrite L, concat_map, map_map. f_equal. apply map_ext_in. intros k Hk. apply In_zrange in Hk. rewrite map_map. cbn [fst snd]. unfold at2, nthR.
  rewrite <- (H k Hk). rewrite (list_nth_map (nth (Z.to_nat k) t []) 0%R) at 1. apply map_ext_in. intros i Hi. apply In_zrange in Hi. destruct (zget_in_range _ i Hi) as (x & Ex). rewrite Ex. apply (Hnum_Proofs2.nth_zget _ _ _ 0%R Ex).
Qed.
Lemma Rsum_filter {A} (p : A -> bool) (f : A -> R) l : Rsum (map f (filter p l)) = Rsum (map (fun x => if p x then f x else 0)%R l).
Proof. induction l as [|x l IH]; [reflexivity|]. cbn [filter map]. rewrite Rsum_cons, <- IH. destruct (p x); cbn [map]; [rewrite Rsum_cons; reflexivity|ring]. Qed.
Lemma filter_map {A B} (p : B -> bool) (f : A -> B) l : filter p (map f l) = map f (filter (fun x => p (f x)) l).
Proof. induction l as [|x l IH]; [reflexivity|]. cbn. destruct (p (f x)); cbn; rewrite IH; reflexivity. Qed.

(* ---- the sides ---- *)
Section Sides.
Variables (g : list hcell) (geo : Z -> mcell) (b : bcs) (low hi : Z -> R).
Hypothesis Hn : forall k, 0 <= k < zlen g -> zlen (mc_faces (geo k)) = nfaces g k.
Hypothesis Hb : forall k r, half g k r -> nbr g k r = None -> 1 <= bid g k r.
Hypothesis Bx : box_faces b (grid_faces g geo) low hi.
Notation uf := (uf_at g geo).
Definition ind (s k r : Z) : R := if on_boundary (uf k r) && (canon_of b (uf k r) =? s + 1) then 1%R else 0%R.
Lemma In_faces k r : half g k r -> In (uf k r) (grid_faces g geo).
Proof. intros Hh. rewrite grid_faces_map by exact Hn. apply in_map_iff. exists (k, r). split; [reflexivity|apply In_halves; exact Hh]. Qed.
Lemma faces_In f : In f (grid_faces g geo) -> exists k r, half g k r /\ f = uf k r.
Proof. rewrite grid_faces_map by exact Hn. intros H. apply in_map_iff in H. destruct H as ((k & r) & <- & H). apply In_halves in H. exists k, r. auto. Qed.
Lemma bdry_iff k r : half g k r -> (on_boundary (uf k r) = true <-> nbr g k r = None).
Proof.
  intros Hh. unfold on_boundary, uf_at, uface_of. cbn [uf_g gf_bid]. specialize (Hb k r Hh). unfold nbr in *. fold (bid g k r). destruct (hf_nb (face_at g k r)); cbn; [split; intros; discriminate|]. specialize (Hb eq_refl). destruct (Z.eqb_spec (bid g k r) 0); [lia|]. split; reflexivity.
Qed.
Lemma bid_at k r : nbr g k r = None -> gf_bid (uf_g (uf k r)) = bid g k r.
Proof. unfold nbr, bid, uf_at, uface_of. cbn [uf_g gf_bid]. intros ->. reflexivity. Qed.
Lemma side_ex k r : half g k r -> nbr g k r = None -> exists s, 0 <= s < 6 /\ on_side_of g b k r s /\ vec_of (mf_normal (face (geo k) r)) = side_normal s /\ (0 < mf_area (face (geo k) r))%R /\
  vget (vec_of (mf_cen (face (geo k) r))) (s / 2) = if Z.even s then low (s / 2)%Z else hi (s / 2)%Z.
Proof.
  intros Hh En. destruct Bx as (B1 & _). destruct (B1 (uf k r) (In_faces k r Hh) (proj2 (bdry_iff k r Hh) En)) as (s & Rs & Ec & Eno & Ea & Ep). rewrite (bid_at k r En) in Ec. exists s. split; [exact Rs|]. split; [split; [exact Hh|split; assumption]|]. auto.
Qed.
Lemma ind_on s k r : on_side_of g b k r s -> ind s k r = 1%R.
Proof. intros (Hh & En & Ec). unfold ind. rewrite (proj2 (bdry_iff k r Hh) En). unfold canon_of. rewrite (bid_at k r En), Ec, Z.eqb_refl. reflexivity. Qed.
Lemma ind_other s s' k r : on_side_of g b k r s -> s' <> s -> ind s' k r = 0%R.
Proof. intros (Hh & En & Ec) N. unfold ind, canon_of. rewrite (bid_at k r En), Ec. destruct (Z.eqb_spec (s + 1) (s' + 1)); [lia|]. rewrite andb_false_r. reflexivity. Qed.
Lemma ind_inner s k r : half g k r -> nbr g k r <> None -> ind s k r = 0%R.
Proof. intros Hh En. unfold ind. destruct (on_boundary (uf k r)) eqn:E; [apply (bdry_iff k r Hh) in E; contradiction|reflexivity]. Qed.
Lemma ind_case s k r : half g k r -> (on_side_of g b k r s /\ ind s k r = 1%R) \/ ind s k r = 0%R.
Proof.
  intros Hh. destruct (nbr g k r) eqn:En; [right; apply ind_inner; [exact Hh|congruence]|]. destruct (side_ex k r Hh En) as (s' & _ & O & _). destruct (Z.eq_dec s s') as [->|N]; [left; split; [exact O|apply ind_on; exact O]|right; apply (ind_other s' s k r O N)].
Qed.
Lemma on_side_geo k r s : on_side_of g b k r s -> 0 <= s < 6 /\ vec_of (mf_normal (face (geo k) r)) = side_normal s /\ (0 < mf_area (face (geo k) r))%R /\
  vget (vec_of (mf_cen (face (geo k) r))) (s / 2) = if Z.even s then low (s / 2)%Z else hi (s / 2)%Z.
Proof. intros (Hh & En & Ec). destruct (side_ex k r Hh En) as (s' & Rs & (_ & _ & Ec') & H). assert (s = s') by (rewrite Ec in Ec'; injection Ec'; lia). subst s'. split; [exact Rs|exact H]. Qed.
Lemma side_inhabited s : 0 <= s < 6 -> exists k r, on_side_of g b k r s.
Proof.
  intros Hs. destruct Bx as (_ & B2). destruct (B2 s Hs) as (f & Hf & Ob & Ec). destruct (faces_In f Hf) as (k & r & Hh & ->). apply (bdry_iff k r Hh) in Ob. rewrite (bid_at k r Ob) in Ec. exists k, r. split; [exact Hh|split; assumption].
Qed.
Definition side_area (s : Z) : R := S2 g (fun k r => ind s k r * area (geo k) r)%R.
Definition side_flux (v : Z -> Z -> R) (s : Z) : R := S2 g (fun k r => ind s k r * v k r)%R.
Lemma S2_le f h : (forall k r, half g k r -> (f k r <= h k r)%R) -> (S2 g f <= S2 g h)%R.
Proof. intros H. apply Sum_le. intros k Hk. apply Sum_le. intros r Hr. apply H. split; assumption. Qed.
Lemma side_area_pos s : 0 <= s < 6 -> (0 < side_area s)%R.
Proof.
  intros Hs. destruct (side_inhabited s Hs) as (k & r & O). pose proof (on_side_geo k r s O) as (_ & _ & A & _). apply Rlt_le_trans with (area (geo k) r); [exact A|]. unfold side_area.
  assert (E : S2 g (fun k' r' => if (k' =? k) && (r' =? r) then area (geo k) r else 0)%R = area (geo k) r).
  { rewrite (S2_one g _ k r); [rewrite !Z.eqb_refl; reflexivity|apply O|]. intros k' r' _ N. destruct (Z.eqb_spec k' k), (Z.eqb_spec r' r); cbn; try reflexivity; exfalso; apply N; auto. }
  rewrite <- E.
  apply S2_le. intros k' r' Hh. destruct (Z.eqb_spec k' k) as [->|], (Z.eqb_spec r' r) as [->|]; cbn [andb]; try (rewrite (ind_on s k r O); lra).
  all: destruct (ind_case s _ _ Hh) as [(O' & ->)| ->]; [pose proof (on_side_geo _ _ s O') as (_ & _ & A' & _); unfold area; lra|lra].
Qed.
Lemma sum_halves (p : Z -> Z -> bool) (f : Z -> Z -> R) : Rsum (map (fun x => f (fst x) (snd x)) (filter (fun x => p (fst x) (snd x)) (halves g))) = S2 g (fun k r => if p k r then f k r else 0)%R.
Proof. rewrite Rsum_filter, S2_halves. reflexivity. Qed.
Lemma side_half s : 0 <= s < 6 -> s / 2 * 2 = if Z.even s then s else s - 1.
Proof. intros H. assert (s = 0 \/ s = 1 \/ s = 2 \/ s = 3 \/ s = 4 \/ s = 5) as [-> |[-> |[-> |[-> |[-> | ->]]]]] by lia; reflexivity. Qed.
Lemma mean_ok t dir : 0 <= dir < 3 -> half_table g t ->
  average_velocity b (grid_faces g geo) (List.concat t) dir = Ok (Some ((- side_flux (at2 t) (2 * dir) / side_area (2 * dir) + side_flux (at2 t) (2 * dir + 1) / side_area (2 * dir + 1)) / 2)%R).
Proof.
  intros Hd Ht. rewrite velocity_prop; [|exact Hd|apply (canon_ex _ _ _ _ Bx)]. rewrite (grid_faces_map g geo Hn), (table_map g t Ht), combine_map, !filter_map. unfold sum. rewrite !map_map. cbn [fst snd].
  rewrite (sum_halves (fun k r => on_boundary (uf k r) && (canon_of b (uf k r) =? 2 * dir + 1)) (fun k r => at2 t k r * vget (uf_n (uf k r)) dir)%R).
  rewrite (sum_halves (fun k r => on_boundary (uf k r) && (canon_of b (uf k r) =? 2 * dir + 1)) (fun k r => gf_area (uf_g (uf k r)))).
  rewrite (sum_halves (fun k r => on_boundary (uf k r) && ((canon_of b (uf k r) =? 2 * dir + 2) || ((dir =? 0) && (canon_of b (uf k r) =? 0)))) (fun k r => at2 t k r * vget (uf_n (uf k r)) dir)%R).
  rewrite (sum_halves (fun k r => on_boundary (uf k r) && ((canon_of b (uf k r) =? 2 * dir + 2) || ((dir =? 0) && (canon_of b (uf k r) =? 0)))) (fun k r => gf_area (uf_g (uf k r)))).
  assert (C : forall k r, half g k r -> on_boundary (uf k r) = true -> exists s, 0 <= s < 6 /\ on_side_of g b k r s /\ canon_of b (uf k r) = s + 1).
  { intros k r Hh Ob. apply (bdry_iff k r Hh) in Ob. destruct (side_ex k r Hh Ob) as (s & Rs & O & _). exists s. split; [exact Rs|]. split; [exact O|]. unfold canon_of. rewrite (bid_at k r Ob). destruct O as (_ & _ & ->). reflexivity. }
  assert (N : forall k r s, on_side_of g b k r s -> vget (uf_n (uf k r)) dir = if s / 2 =? dir then (if Z.even s then -1 else 1)%R else 0%R).
  { intros k r s O. destruct (on_side_geo k r s O) as (Rs & En & _). unfold uf_at, uface_of. cbn [uf_n]. rewrite En. apply side_normal_dir; assumption. }
  rewrite (S2_ext g _ (fun k r => -1 * (ind (2 * dir) k r * at2 t k r))%R).
  2:{ intros k r Hh. unfold ind. destruct (on_boundary (uf k r)) eqn:Ob; cbn [andb]; [|ring]. destruct (C k r Hh Ob) as (s & Rs & O & ->). destruct (Z.eqb_spec (s + 1) (2 * dir + 1)) as [E|E]; [|ring]. assert (s = 2 * dir) by lia. subst s. rewrite (N k r _ O).
      replace (2 * dir / 2) with dir by (rewrite Z.mul_comm, Z.div_mul; lia). rewrite Z.eqb_refl, Z.even_mul. cbn. ring. }
  rewrite (S2_ext g (fun k r => if on_boundary (uf k r) && (canon_of b (uf k r) =? 2 * dir + 1) then gf_area (uf_g (uf k r)) else 0%R) (fun k r => ind (2 * dir) k r * area (geo k) r)%R).
  2:{ intros k r Hh. unfold ind. destruct (_ && _); unfold area, uf_at, uface_of; cbn; ring. }
  rewrite (S2_ext g (fun k r => if on_boundary (uf k r) && ((canon_of b (uf k r) =? 2 * dir + 2) || ((dir =? 0) && (canon_of b (uf k r) =? 0))) then (at2 t k r * vget (uf_n (uf k r)) dir)%R else 0%R) (fun k r => ind (2 * dir + 1) k r * at2 t k r)%R).
  2:{ intros k r Hh. unfold ind. destruct (on_boundary (uf k r)) eqn:Ob; cbn [andb]; [|ring]. destruct (C k r Hh Ob) as (s & Rs & O & ->). replace (s + 1 =? 0) with false by (symmetry; apply Z.eqb_neq; lia). rewrite andb_false_r, orb_false_r. replace (2 * dir + 1 + 1) with (2 * dir + 2) by ring.
      destruct (Z.eqb_spec (s + 1) (2 * dir + 2)) as [E|E]; [|ring]. assert (s = 2 * dir + 1) by lia. subst s. rewrite (N k r _ O).
      replace ((2 * dir + 1) / 2) with dir by (apply (Z.div_unique _ _ _ 1); lia). rewrite Z.eqb_refl, Z.even_add, Z.even_mul. cbn. ring. }
  rewrite (S2_ext g (fun k r => if on_boundary (uf k r) && ((canon_of b (uf k r) =? 2 * dir + 2) || ((dir =? 0) && (canon_of b (uf k r) =? 0))) then gf_area (uf_g (uf k r)) else 0%R) (fun k r => ind (2 * dir + 1) k r * area (geo k) r)%R).
  2:{ intros k r Hh. unfold ind. destruct (on_boundary (uf k r)) eqn:Ob; cbn [andb]; [|ring]. destruct (C k r Hh Ob) as (s & Rs & O & ->). replace (s + 1 =? 0) with false by (symmetry; apply Z.eqb_neq; lia). rewrite andb_false_r, orb_false_r. replace (2 * dir + 1 + 1) with (2 * dir + 2) by ring.
      destruct (s + 1 =? 2 * dir + 2); unfold area, uf_at, uface_of; cbn; ring. }
  rewrite S2_scal. fold (side_flux (at2 t) (2 * dir)). fold (side_flux (at2 t) (2 * dir + 1)). fold (side_area (2 * dir)). fold (side_area (2 * dir + 1)).
  pose proof (side_area_pos (2 * dir) ltac:(lia)). pose proof (side_area_pos (2 * dir + 1) ltac:(lia)). rewrite !fdiv_Some by lra. do 2 f_equal. field. split; lra.
Qed.
(* ---- area times length is volume ---- *)
Hypothesis Geo : geometry 3 g geo.
Definition closed_bc : hbc := mkHBc (fun _ => CNeumann 0) (fun _ => 0).
Lemma closed_cond k r d : cond_at g closed_bc k r <> Some (CPeriodic d).
Proof. unfold cond_at. destruct (nbr g k r); cbn; discriminate. Qed.
Lemma closed_structured : conforming g -> counts_agree g -> exists st, structured g closed_bc st.
Proof.
  intros W C. destruct (init_ok g closed_bc W C) as (st & _ & HS); [|exists st; exact HS]. split; [intros k r d k' r' d' (_ & E); destruct (closed_cond k r d E)|intros k r d (_ & E); destruct (closed_cond k r d E)].
Qed.
Lemma closed_joined k r k' r' : joined g closed_bc k r k' r' -> half g k r /\ half g k' r' /\ twins g k r k' r'.
Proof. intros (A & B & [T|(d & d' & (_ & E) & _)]); [auto|destruct (closed_cond k r d E)]. Qed.
Lemma vec_of_get l j : zlen l = 3 -> 0 <= j < 3 -> vget (vec_of l) j = nthR l j.
Proof.
  intros L Hj. destruct l as [|x [|y [|z l]]]; try (cbn in L; lia). assert (j = 0 \/ j = 1 \/ j = 2) as [-> |[-> | ->]] by lia; reflexivity.
Qed.
Lemma face_in k r : half g k r -> In (face (geo k) r) (mc_faces (geo k)).
Proof. intros (Hk & Hr). unfold face. apply nth_In. specialize (Hn k Hk). unfold zlen in Hn. lia. Qed.
Lemma face_wf k r : half g k r -> zlen (mf_cen (face (geo k) r)) = 3 /\ zlen (mf_normal (face (geo k) r)) = 3.
Proof. intros Hh. destruct Geo as (G & _). destruct (G k (proj1 Hh)) as ((_ & _ & _ & W) & _). destruct (W _ (face_in k r Hh)) as (_ & A & B). auto. Qed.
Lemma side_areavec k r s j : on_side_of g b k r s -> 0 <= j < 3 -> areavec (geo k) r j = (area (geo k) r * (if s / 2 =? j then (if Z.even s then -1 else 1) else 0))%R.
Proof.
  intros O Hj. destruct (on_side_geo k r s O) as (Rs & En & _). destruct (face_wf k r (proj1 O)) as (_ & L). unfold areavec, area. f_equal. rewrite <- (vec_of_get _ j L Hj), En. apply side_normal_dir; assumption.
Qed.
Lemma side_cen k r s : on_side_of g b k r s -> nthR (mf_cen (face (geo k) r)) (s / 2) = if Z.even s then low (s / 2)%Z else hi (s / 2)%Z.
Proof.
  intros O. destruct (on_side_geo k r s O) as (Rs & _ & _ & E). destruct (face_wf k r (proj1 O)) as (L & _). rewrite <- E. symmetry. apply vec_of_get; [exact L|]. assert (s = 0 \/ s = 1 \/ s = 2 \/ s = 3 \/ s = 4 \/ s = 5) as [-> |[-> |[-> |[-> |[-> | ->]]]]] by lia; cbn; lia.
Qed.
Lemma inds i s k r : 0 <= i < 3 -> on_side_of g b k r s -> ind (2 * i) k r = (if s =? 2 * i then 1 else 0)%R /\ ind (2 * i + 1) k r = (if s =? 2 * i + 1 then 1 else 0)%R.
Proof.
  intros Hi O. split; [destruct (Z.eqb_spec s (2 * i)) as [-> |E]|destruct (Z.eqb_spec s (2 * i + 1)) as [-> |E]]; try (apply ind_on; exact O); apply (ind_other s _ k r O); congruence.
Qed.
Lemma side_sum (f : Z -> Z -> R) (x0 x1 : R) i : conforming g -> counts_agree g -> 0 <= i < 3 ->
  (forall k r k' r', half g k r -> half g k' r' -> twins g k r k' r' -> f k' r' = (- f k r)%R) ->
  (forall k r s, on_side_of g b k r s -> f k r = (area (geo k) r * (if s =? 2 * i then x0 else if s =? 2 * i + 1 then x1 else 0))%R) ->
  S2 g f = (x0 * side_area (2 * i) + x1 * side_area (2 * i + 1))%R.
Proof.
  intros W C Hi Od Sd. destruct (closed_structured W C) as (st & HS).
  assert (E : S2 g (fun k r => f k r - (x0 * (ind (2 * i) k r * area (geo k) r) + x1 * (ind (2 * i + 1) k r * area (geo k) r)))%R = 0%R).
  { apply (odd_sum g closed_bc st _ HS).
    - intros k r k' r' J. destruct (closed_joined _ _ _ _ J) as (A & B & T). rewrite !ind_inner; try assumption; [rewrite (Od k r k' r' A B T); ring|destruct T; congruence..].
    - intros k r Hh Lo. assert (En : nbr g k r = None).
      { destruct (nbr g k r) as [c|] eqn:En; [|reflexivity]. exfalso. destruct W as (_ & _ & Sy & _). destruct (Sy k r c Hh En) as (_ & k' & r' & Hh' & <- & En'). apply (Lo k' r'). split; [exact Hh|]. split; [exact Hh'|]. left. split; assumption. }
      destruct (side_ex k r Hh En) as (s & Rs & O & _). rewrite (Sd k r s O). destruct (inds i s k r Hi O) as (-> & ->). destruct (Z.eqb_spec s (2 * i)), (Z.eqb_spec s (2 * i + 1)); try lia; ring. }
  rewrite S2_minus, S2_plus, !S2_scal in E. unfold side_area. lra.
Qed.
Lemma div2_cases s i : 0 <= s < 6 -> 0 <= i < 3 -> (if s / 2 =? i then (if Z.even s then -1 else 1) else 0)%R = (if s =? 2 * i then -1 else if s =? 2 * i + 1 then 1 else 0)%R.
Proof.
  intros Hs Hi. assert (s = 0 \/ s = 1 \/ s = 2 \/ s = 3 \/ s = 4 \/ s = 5) as [-> |[-> |[-> |[-> |[-> | ->]]]]] by lia; assert (i = 0 \/ i = 1 \/ i = 2) as [-> |[-> | ->]] by lia; reflexivity.
Qed.
Lemma side_areas i : conforming g -> counts_agree g -> 0 <= i < 3 -> side_area (2 * i + 1) = side_area (2 * i) /\ (side_area (2 * i) * (hi i - low i))%R = block_volume g geo.
Proof.
  intros W C Hi. assert (E0 : side_area (2 * i + 1) = side_area (2 * i)).
  { assert (E : S2 g (fun k r => areavec (geo k) r i) = (-1 * side_area (2 * i) + 1 * side_area (2 * i + 1))%R).
    { apply side_sum; try assumption; [intros k r k' r' A B T; destruct Geo as (_ & G); rewrite (proj2 (G k r k' r' A B T) i Hi); ring|]. intros k r s O. rewrite (side_areavec k r s i O Hi), div2_cases; [reflexivity|apply (on_side_geo k r s O)|exact Hi]. }
    unfold S2 at 1 in E. rewrite Sum_zero in E; [lra|]. intros k Hk. destruct Geo as (G & _). apply (G k Hk). exact Hi. }
  split; [exact E0|].
  assert (E : S2 g (fun k r => areavec (geo k) r i * nthR (mf_cen (face (geo k) r)) i)%R = (- low i * side_area (2 * i) + hi i * side_area (2 * i + 1))%R).
  { apply side_sum; try assumption.
    - intros k r k' r' A B T. destruct Geo as (_ & G). destruct (G k r k' r' A B T) as (-> & E). rewrite (E i Hi). ring.
    - intros k r s O. pose proof (side_cen k r s O) as Ec. destruct (on_side_geo k r s O) as (Rs & _). rewrite (side_areavec k r s i O Hi), div2_cases by assumption.
      destruct (Z.eqb_spec s (2 * i)) as [-> |]; [replace (2 * i / 2) with i in Ec by (rewrite Z.mul_comm, Z.div_mul; lia); rewrite Ec, Z.even_mul; cbn; ring|]. destruct (Z.eqb_spec s (2 * i + 1)) as [-> |]; [|ring].
      replace ((2 * i + 1) / 2) with i in Ec by (apply (Z.div_unique _ _ _ 1); lia). rewrite Ec, Z.even_add, Z.even_mul. cbn. ring. }
  rewrite E0 in E. replace (side_area (2 * i) * (hi i - low i))%R with (- low i * side_area (2 * i) + hi i * side_area (2 * i))%R by ring. rewrite <- E.
  unfold S2, block_volume, integral_of. apply Sum_ext. intros k Hk. destruct Geo as (G & _). destruct (G k Hk) as (_ & Cl & Ln & S0). specialize (Cl i i Hi Hi). rewrite Ln in Cl. unfold ident in Cl. rewrite Z.eqb_refl in Cl. rewrite <- Cl.
  rewrite (Sum_ext _ (fun r => areavec (geo k) r i * nthR (mf_cen (face (geo k) r)) i)%R (fun r => areavec (geo k) r i * offset (geo k) r i + areavec (geo k) r i * nthR (mc_cen (geo k)) i)%R) by (intros; unfold offset; ring).
  rewrite Sum_plus, Sum_scal_r, (S0 i Hi). ring.
Qed.
Lemma side_w q i : 0 <= i < 3 -> let w := fun k r => dot 3 (areavec (geo k) r) q in side_flux w (2 * i) = (- q i * side_area (2 * i))%R /\ side_flux w (2 * i + 1) = (q i * side_area (2 * i + 1))%R.
Proof.
  intros Hi w. unfold side_flux, side_area, w. split; rewrite <- S2_scal; apply S2_ext; intros k r Hh.
  - destruct (ind_case (2 * i) k r Hh) as [(O & ->)| ->]; [|ring]. unfold dot. rewrite (Sum_pick 3 i); [|exact Hi|].
    + rewrite (side_areavec k r _ i O Hi). replace (2 * i / 2) with i by (rewrite Z.mul_comm, Z.div_mul; lia). rewrite Z.eqb_refl, Z.even_mul. cbn. ring.
    + intros j Hj Nj. rewrite (side_areavec k r _ j O Hj). replace (2 * i / 2) with i by (rewrite Z.mul_comm, Z.div_mul; lia). destruct (Z.eqb_spec i j); [congruence|ring].
  - destruct (ind_case (2 * i + 1) k r Hh) as [(O & ->)| ->]; [|ring]. unfold dot. rewrite (Sum_pick 3 i); [|exact Hi|].
    + rewrite (side_areavec k r _ i O Hi). replace ((2 * i + 1) / 2) with i by (apply (Z.div_unique _ _ _ 1); lia). rewrite Z.eqb_refl, Z.even_add, Z.even_mul. cbn. ring.
    + intros j Hj Nj. rewrite (side_areavec k r _ j O Hj). replace ((2 * i + 1) / 2) with i by (apply (Z.div_unique _ _ _ 1); lia). destruct (Z.eqb_spec i j); [congruence|ring].
Qed.
End Sides.
