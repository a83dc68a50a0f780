From Verif Require Import Tens_Proofs6 Tens_Proofs7 Tens_Proofs8 Tens_Proofs9 Tens_Proofs10 Tens_Proofs11 Tens_Proofs12 Mim_Proofs2 Tens_Spec.
Open Scope Z_scope.

(* C191: the tensor computed with periodic conditions is finite and symmetric *)
Theorem C191_symmetric : forall srt g geo ip twodim low hi cols, upscaled_by srt g geo ip 2 twodim low hi cols -> exists k, tensor_is cols k /\ symmetric 3 k.
Proof. exact Tens_Proofs6.periodic_symmetric. Qed.
Theorem C191_unique : forall cols k k', tensor_is cols k -> tensor_is cols k' -> forall i d, 0 <= i < 3 -> 0 <= d < 3 -> k i d = k' i d.
Proof. exact Tens_Proofs6.tensor_uniq. Qed.

(* C192: ... and positive definite; in a two-dimensional run it has nothing along the third axis *)
Theorem C192_nonneg : forall srt g geo ip twodim low hi cols, upscaled_by srt g geo ip 2 twodim low hi cols -> forall k, tensor_is cols k -> nonneg_form 3 k.
Proof. exact Tens_Proofs6.periodic_nonneg. Qed.
Theorem C192_positive : forall srt g geo ip twodim low hi cols, upscaled_by srt g geo ip 2 twodim low hi cols -> forall k, tensor_is cols k -> twodim = false -> positive_form 3 k.
Proof. exact Tens_Proofs6.periodic_positive. Qed.
Theorem C192_plane : forall srt g geo ip twodim low hi cols, upscaled_by srt g geo ip 2 twodim low hi cols -> forall k, tensor_is cols k -> twodim = true ->
  (forall i, 0 <= i < 3 -> k i 2 = 0%R /\ k 2 i = 0%R) /\ forall x, x 0 <> 0%R \/ x 1 <> 0%R -> (0 < quad 3 k x)%R.
Proof. exact Tens_Proofs6.periodic_plane. Qed.

(* C193: it lies between the harmonic and the arithmetic mean of the cell permeabilities *)
Theorem C193_upper : forall srt g geo ip twodim low hi cols, upscaled_by srt g geo ip 2 twodim low hi cols -> forall L, permeability g geo ip L -> translates srt g geo twodim low hi -> forall k a, tensor_is cols k ->
  (block_volume g geo * quad 3 k a <= integral_of g geo (fun c => quad 3 (L c) a))%R.
Proof. exact Tens_Proofs6.periodic_upper. Qed.
Theorem C193_lower : forall srt g geo ip twodim low hi cols, upscaled_by srt g geo ip 2 twodim low hi cols -> forall L, permeability g geo ip L -> translates srt g geo twodim low hi -> forall k a q y, tensor_is cols k -> (twodim = true -> q 2 = 0%R) ->
  (forall c, 0 <= c < zlen g -> forall i, 0 <= i < 3 -> mvec 3 (L c) (y c) i = q i) ->
  (2 * (block_volume g geo * dot 3 a q) - integral_of g geo (fun c => dot 3 q (y c)) <= block_volume g geo * quad 3 k a)%R.
Proof. exact Tens_Proofs6.periodic_lower. Qed.
Theorem C193_mimetic : forall orth g geo Kc mob ip, geometry 3 g geo -> rock_cells orth g geo Kc mob ip ->
  flow_matrices g ip /\ ip_shaped g ip /\ permeability g geo ip (fun k i j => mob k * entry (Kc k) i j)%R.
Proof. exact Tens_Proofs6.mimetic_cells. Qed.

(* C194: a uniform rock is reproduced *)
Theorem C194_uniform : forall srt g geo ip twodim low hi cols, upscaled_by srt g geo ip 2 twodim low hi cols -> forall L, permeability g geo ip L -> translates srt g geo twodim low hi -> forall Lc, (forall c i j, 0 <= c < zlen g -> 0 <= i < 3 -> 0 <= j < 3 -> L c i j = Lc i j) ->
  forall k, tensor_is cols k -> twodim = false -> forall i j, 0 <= i < 3 -> 0 <= j < 3 -> k i j = Lc i j.
Proof. exact Tens_Proofs6.periodic_uniform. Qed.
Theorem C194_plane : forall srt g geo ip twodim low hi cols, upscaled_by srt g geo ip 2 twodim low hi cols -> forall L, permeability g geo ip L -> translates srt g geo twodim low hi -> forall Lc, (forall c i j, 0 <= c < zlen g -> 0 <= i < 3 -> 0 <= j < 3 -> L c i j = Lc i j) ->
  forall k, tensor_is cols k -> twodim = true -> forall i j, 0 <= i < 3 -> 0 <= j < 3 -> k i j = plane_part Lc i j.
Proof. exact Tens_Proofs6.periodic_uniform_plane. Qed.

(* C195: with fixed conditions the tensor is diagonal and positive, between the two means *)
Theorem C195_diagonal : forall srt g geo ip twodim low hi cols, upscaled_by srt g geo ip 0 twodim low hi cols -> exists k, tensor_is cols k /\ forall i d, 0 <= i < 3 -> 0 <= d < 3 -> if i =? d then (0 < k i d)%R else k i d = 0%R.
Proof. exact Tens_Proofs6.fixed_diagonal. Qed.
Theorem C195_bounds : forall srt g geo ip twodim low hi cols, upscaled_by srt g geo ip 0 twodim low hi cols -> forall L k d, permeability g geo ip L -> tensor_is cols k -> 0 <= d < 3 ->
  (block_volume g geo * k d d <= integral_of g geo (fun c => L c d d))%R /\
  forall y, (forall c, 0 <= c < zlen g -> forall i, 0 <= i < 3 -> mvec 3 (L c) (y c) i = ident d i) -> (block_volume g geo <= k d d * integral_of g geo (fun c => y c d))%R.
Proof. exact Tens_Proofs6.fixed_bounds. Qed.

(* C196: more permeable cells give a larger tensor, and scaling carries over *)
Theorem C196_periodic : forall srt g geo ip ip' twodim low hi cols cols' c k k', upscaled_by srt g geo ip 2 twodim low hi cols -> upscaled_by srt g geo ip' 2 twodim low hi cols' ->
  matrices_below g c ip ip' -> tensor_is cols k -> tensor_is cols' k' -> forall x, (quad 3 k x <= c * quad 3 k' x)%R.
Proof. exact Tens_Proofs7.periodic_monotone. Qed.
Theorem C196_fixed : forall srt g geo ip ip' twodim low hi cols cols' c k k' d, upscaled_by srt g geo ip 0 twodim low hi cols -> upscaled_by srt g geo ip' 0 twodim low hi cols' ->
  matrices_below g c ip ip' -> tensor_is cols k -> tensor_is cols' k' -> 0 <= d < 3 -> (k d d <= c * k' d d)%R.
Proof. exact Tens_Proofs7.fixed_monotone. Qed.
Theorem C196_periodic_scaling : forall srt g geo ip ip' twodim low hi cols cols' c k k', (0 < c)%R ->
  (forall a i j, 0 <= a < zlen g -> 0 <= i < nfaces g a -> 0 <= j < nfaces g a -> Bk g ip a i j = (c * Bk g ip' a i j)%R) ->
  upscaled_by srt g geo ip 2 twodim low hi cols -> upscaled_by srt g geo ip' 2 twodim low hi cols' -> tensor_is cols k -> tensor_is cols' k' ->
  forall i j, 0 <= i < 3 -> 0 <= j < 3 -> k i j = (c * k' i j)%R.
Proof. exact Tens_Proofs7.periodic_scaling. Qed.
Theorem C196_fixed_scaling : forall srt g geo ip ip' twodim low hi cols cols' c k k', (0 < c)%R ->
  (forall a i j, 0 <= a < zlen g -> 0 <= i < nfaces g a -> 0 <= j < nfaces g a -> Bk g ip a i j = (c * Bk g ip' a i j)%R) ->
  upscaled_by srt g geo ip 0 twodim low hi cols -> upscaled_by srt g geo ip' 0 twodim low hi cols' -> tensor_is cols k -> tensor_is cols' k' ->
  forall i j, 0 <= i < 3 -> 0 <= j < 3 -> k i j = (c * k' i j)%R.
Proof. exact Tens_Proofs7.fixed_scaling. Qed.
Theorem C196_mimetic : forall orth orth' g geo Kc Kc' mob mob' ip ip' c, geometry 3 g geo -> rock_cells orth g geo Kc mob ip -> rock_cells orth' g geo Kc' mob' ip' ->
  (forall k y, 0 <= k < zlen g -> (mob k * quad 3 (entry (Kc k)) y <= c * (mob' k * quad 3 (entry (Kc' k)) y))%R) -> matrices_below g c ip ip'.
Proof. exact Tens_Proofs7.mimetic_order. Qed.

(* C197: the calculation returns a tensor unless the set-up or a linear solve fails *)
Theorem C197_total : forall srt g geo ip bct twodim low hi, block srt g geo ip bct twodim low hi -> bct = 0 \/ (bct = 1 /\ linear_ready g geo low hi) \/ bct = 2 -> flow_matrices g ip -> forall K ty maxit nf, enough_faces g nf ->
  (forall ty A M b x n, zlen (fst (K ty A M b x n)) = zlen b) -> 0 <= ty <= 3 -> forall b sv,
  (exists s, flow_tensor K srt g geo ip bct twodim ty maxit nf b sv = Ok s) \/
  (flow_tensor K srt g geo ip bct twodim ty maxit nf b sv = Throw /\ run_fails K srt g geo ip bct twodim ty).
Proof. exact Tens_Proofs8.tensor_total. Qed.

(* C198: with linear conditions a uniform rock is reproduced and scaling carries over *)
Theorem C198_finite : forall srt g geo ip twodim low hi cols, upscaled_by srt g geo ip 1 twodim low hi cols -> linear_ready g geo low hi -> exists k, tensor_is cols k.
Proof. exact Tens_Proofs10.linear_finite. Qed.
Theorem C198_uniform : forall srt g geo ip low hi cols L Lc k, upscaled_by srt g geo ip 1 false low hi cols -> linear_ready g geo low hi -> permeability g geo ip L ->
  (forall c i j, 0 <= c < zlen g -> 0 <= i < 3 -> 0 <= j < 3 -> L c i j = Lc i j) -> tensor_is cols k -> forall i j, 0 <= i < 3 -> 0 <= j < 3 -> k i j = Lc i j.
Proof. exact Tens_Proofs10.linear_uniform. Qed.
Theorem C198_scaling : forall srt g geo ip ip' twodim low hi cols cols' c k k', (0 < c)%R ->
  (forall a i j, 0 <= a < zlen g -> 0 <= i < nfaces g a -> 0 <= j < nfaces g a -> Bk g ip a i j = (c * Bk g ip' a i j)%R) ->
  upscaled_by srt g geo ip 1 twodim low hi cols -> upscaled_by srt g geo ip' 1 twodim low hi cols' -> linear_ready g geo low hi -> tensor_is cols k -> tensor_is cols' k' ->
  forall i j, 0 <= i < 3 -> 0 <= j < 3 -> k i j = (c * k' i j)%R.
Proof. exact Tens_Proofs10.linear_scaling. Qed.

(* one cubic cell with a full permeability tensor: the calculation with periodic conditions runs, meets
   the hypotheses above, and returns the tensor *)
Example C191_case : forall ty b sv, 0 <= ty <= 3 -> exists S s, flow_tensor S same_list one_cell cube_at (rock_ip cube_K) 2 false ty 0 6 b sv = Ok s /\
  upscaled_by same_list one_cell cube_at (rock_ip cube_K) 2 false low_half hi_half (ts_cols s) /\ permeability one_cell cube_at (rock_ip cube_K) (fun _ i j => 1 * entry cube_K i j)%R /\
  translates same_list one_cell cube_at false low_half hi_half /\ rock_cells orth2 one_cell cube_at (fun _ => cube_K) (fun _ => 1%R) (rock_ip cube_K) /\ tensor_is (ts_cols s) (entry cube_K).
Proof. exact (fun ty b sv => cube_periodic cube_K ty b sv cube_good). Qed.
Example C191_rock : entry cube_K 0 1 = (1 / 2)%R /\ entry cube_K 1 0 = (1 / 2)%R /\ entry cube_K 0 0 = 1%R /\ good_rock cube_K /\ good_rock unit_K.
Proof. exact (conj eq_refl (conj eq_refl (conj eq_refl (conj cube_good unit_good)))). Qed.
Example C195_case : forall ty b sv, 0 <= ty <= 3 -> exists S s, flow_tensor S same_list one_cell cube_at (rock_ip unit_K) 0 false ty 0 6 b sv = Ok s /\
  upscaled_by same_list one_cell cube_at (rock_ip unit_K) 0 false low_half hi_half (ts_cols s) /\ permeability one_cell cube_at (rock_ip unit_K) (fun _ i j => 1 * entry unit_K i j)%R /\ tensor_is (ts_cols s) ident.
Proof. exact cube_fixed. Qed.
Example C196_case : matrices_below one_cell 2 (rock_ip unit_K) (rock_ip cube_K) /\ forall K, good_rock K -> exists S s, flow_tensor S same_list one_cell cube_at (rock_ip K) 2 false 1 0 6 bcs_empty fresh = Ok s /\
  upscaled_by same_list one_cell cube_at (rock_ip K) 2 false low_half hi_half (ts_cols s) /\ permeability one_cell cube_at (rock_ip K) (fun _ i j => 1 * entry K i j)%R /\
  translates same_list one_cell cube_at false low_half hi_half /\ rock_cells orth2 one_cell cube_at (fun _ => K) (fun _ => 1%R) (rock_ip K) /\ tensor_is (ts_cols s) (entry K).
Proof. exact (conj unit_below (fun K G => cube_periodic K 1 bcs_empty fresh G ltac:(lia))). Qed.
Example C197_case : block same_list one_cell cube_at (rock_ip cube_K) 2 false low_half hi_half /\ block same_list one_cell cube_at (rock_ip cube_K) 1 false low_half hi_half /\ block same_list one_cell cube_at (rock_ip cube_K) 0 false low_half hi_half /\ linear_ready one_cell cube_at low_half hi_half /\ enough_faces one_cell 6.
Proof. exact (conj (one_block cube_K 2 cube_good (or_intror (or_intror eq_refl))) (conj (one_block cube_K 1 cube_good (or_intror (or_introl eq_refl))) (conj (one_block cube_K 0 cube_good (or_introl eq_refl)) (conj one_ready one_faces)))). Qed.
Example C198_case : forall ty b sv, 0 <= ty <= 3 -> exists S s, flow_tensor S same_list one_cell cube_at (rock_ip cube_K) 1 false ty 0 6 b sv = Ok s /\
  upscaled_by same_list one_cell cube_at (rock_ip cube_K) 1 false low_half hi_half (ts_cols s) /\ permeability one_cell cube_at (rock_ip cube_K) (fun _ i j => 1 * entry cube_K i j)%R /\
  linear_ready one_cell cube_at low_half hi_half /\ tensor_is (ts_cols s) (entry cube_K).
Proof. exact (fun ty b sv => cube_linear cube_K ty b sv cube_good). Qed.
Example C192_plane_case : forall ty b sv, 0 <= ty <= 3 -> exists S s, flow_tensor S same_list one_cell cube_at (rock_ip unit_K) 2 true ty 0 6 b sv = Ok s /\
  upscaled_by same_list one_cell cube_at (rock_ip unit_K) 2 true low_half hi_half (ts_cols s) /\ permeability one_cell cube_at (rock_ip unit_K) (fun _ i j => 1 * entry unit_K i j)%R /\
  translates same_list one_cell cube_at true low_half hi_half /\ tensor_is (ts_cols s) (plane_part ident).
Proof. exact cube_plane. Qed.
Print Assumptions C191_symmetric. Print Assumptions C191_unique. Print Assumptions C192_nonneg. Print Assumptions C192_positive. Print Assumptions C192_plane. Print Assumptions C193_upper. Print Assumptions C193_lower. Print Assumptions C193_mimetic. Print Assumptions C194_uniform. Print Assumptions C194_plane. Print Assumptions C195_diagonal. Print Assumptions C195_bounds. Print Assumptions C196_periodic. Print Assumptions C196_fixed. Print Assumptions C196_periodic_scaling. Print Assumptions C196_fixed_scaling. Print Assumptions C196_mimetic. Print Assumptions C197_total. Print Assumptions C198_finite. Print Assumptions C198_uniform. Print Assumptions C198_scaling.
