(* Proofs about element matrices. *)
From Coq Require Import Lra.
From Verif Require Import RBaseFacts BaseFacts Lin_Facts Steady_Proofs Euler_Proofs2 Mim_Proofs Matx_Proofs Shape_Proofs Shape_Proofs2 Shape_Proofs3 Asm_Proofs4 Elast_Proofs Elast_Spec.
Open Scope Z_scope.

(* the gradients of the shape functions *)
Definition grad_of (dim : Z) (x : Z -> R) (a m : Z) : R := lin_grad dim (c0_of a) (c1_of a) x m.
Lemma grad_of_ok dim x a m : dim = 2 \/ dim = 3 -> 0 <= a < 2 ^ dim -> p1_grad dim a x m = Ok (grad_of dim x a m).
Proof. intros. apply p1_grad_ok; assumption. Qed.
Lemma vec_at_map f n k : 0 <= k < n -> vec_at (map f (zrange 0 n)) k = f k.
Proof. intros H. unfold vec_at. rewrite zget_map, zget_zrange by lia. cbn [option_map]. rewrite Z.add_0_l. reflexivity. Qed.
Lemma mapM_map {A B} (f : A -> res B) (g : A -> B) l : (forall x, In x l -> f x = Ok (g x)) -> mapM f l = Ok (map g l).
Proof. induction l as [|x l IH]; intros H; cbn [mapM map]; [reflexivity|]. rewrite (H x) by now left. cbn [bind]. rewrite IH by (intros y Hy; apply H; now right). reflexivity. Qed.
Definition phys (dim : Z) (J : fmat) (x : Z -> R) (a : Z) : Z -> R := fun k => dsum dim (fun l => J k l * vec_at (map (grad_of dim x a) (zrange 0 dim)) l)%R.
Lemma phys_ok dim J x a k : phys dim J x a k = phys_gradient dim J (grad_of dim x) a k.
Proof. unfold phys, phys_gradient, mvec. rewrite dsum_Sum. apply Sum_ext. intros l Hl. rewrite vec_at_map by exact Hl. reflexivity. Qed.
Lemma bfunc_pow dim : dim = 2 \/ dim = 3 -> bfunc dim = 2 ^ dim.
Proof. intros [-> | ->]; reflexivity. Qed.
Lemma dNdX_ok dim x J : dim = 2 \/ dim = 3 -> dNdX dim x J = Ok (map (phys dim J x) (zrange 0 (2 ^ dim))).
Proof.
  intros HD. unfold dNdX. rewrite bfunc_pow by exact HD. apply mapM_map. intros a Ha. apply In_zrange in Ha. rewrite (mapM_map _ (grad_of dim x a)) by (intros m _; apply grad_of_ok; assumption). reflexivity.
Qed.
(* rows of temp *)
Definition ent3 (g : Z -> R) (r : Z) : R :=
  if (r =? 0) || (r =? 9) || (r =? 16) then g 0 else if (r =? 3) || (r =? 7) || (r =? 17) then g 1 else if (r =? 4) || (r =? 11) || (r =? 14) then g 2 else 0%R.
Definition ent2 (g : Z -> R) (r : Z) : R := if (r =? 0) || (r =? 5) then g 0 else if (r =? 2) || (r =? 4) then g 1 else 0%R.
Definition ent (dim : Z) := if dim =? 3 then ent3 else ent2.
Lemma in18 r : 0 <= r < 18 -> r = 0 \/ r = 1 \/ r = 2 \/ r = 3 \/ r = 4 \/ r = 5 \/ r = 6 \/ r = 7 \/ r = 8 \/ r = 9 \/ r = 10 \/ r = 11 \/ r = 12 \/ r = 13 \/ r = 14 \/ r = 15 \/ r = 16 \/ r = 17. Proof. lia. Qed.
Lemma temp_ok dim d : dim = 2 \/ dim = 3 -> exists T, bm_temp dim d = Ok T /\ forall r c, 0 <= r < 6 + (dim - 2) * 12 -> 0 <= c < zlen d -> exists g, zget d c = Some g /\ T r c = ent dim g r.
Proof.
  intros HD. unfold bm_temp.
  match goal with |- exists T, foldM ?f _ _ = _ /\ _ => destruct (zloop f (fun k T => forall r c, 0 <= r < 6 + (dim - 2) * 12 -> T r c = if (0 <=? c) && (c <? k) then match zget d c with Some g => ent dim g r | None => 0%R end else 0%R) 0 (zlen d)) with (s := fzero) as (T & E & HT) end.
  - apply zlen_nonneg.
  - intros r c Hr. destruct (Z.leb_spec 0 c); destruct (Z.ltb_spec c 0); try lia; reflexivity.
  - intros k T Hk HT. destruct (zget_in_range d k Hk) as (g & Eg). rewrite (proj2 (rget_Ok _ _ _) Eg). cbn [bind].
    assert (forall r c T', 0 <= r < 6 + (dim - 2) * 12 -> (T' r c = if c =? k then ent dim g r else T r c) -> T' r c = if (0 <=? c) && (c <? k + 1) then match zget d c with Some g => ent dim g r | None => 0%R end else 0%R) as H.
    { intros r c T' Hr ->. destruct (Z.eqb_spec c k) as [->|N]; [destruct (Z.leb_spec 0 k); destruct (Z.ltb_spec k (k + 1)); try lia; cbn [andb]; rewrite Eg; reflexivity|]. rewrite HT by exact Hr. replace (c <? k + 1) with (c <? k) by (destruct (Z.ltb_spec c k); destruct (Z.ltb_spec c (k + 1)); lia || reflexivity). reflexivity. }
    assert (forall r c, 0 <= r < 6 + (dim - 2) * 12 -> (c =? k) = true -> T r c = 0%R) as HZ by (intros r c Hr Hc; apply Z.eqb_eq in Hc; subst c; rewrite HT by exact Hr; rewrite Z.ltb_irrefl, andb_false_r; reflexivity).
    destruct HD as [-> | ->]; cbn [Z.eqb Pos.eqb]; (eexists; split; [reflexivity|]); intros r c Hr; apply H; try exact Hr; specialize (HZ r c Hr); unfold fput, ent; cbn [Z.eqb Pos.eqb]; change (6 + (2 - 2) * 12) with 6 in *; change (6 + (3 - 2) * 12) with 18 in *;
      destruct (c =? k); rewrite ?andb_false_r; try reflexivity; rewrite ?andb_true_r; specialize (HZ eq_refl).
    + all6 r Hr; (reflexivity || exact HZ).
    + destruct (in18 r Hr) as [-> | [-> | [-> | [-> | [-> | [-> | [-> | [-> | [-> | [-> | [-> | [-> | [-> | [-> | [-> | [-> | [-> | ->]]]]]]]]]]]]]]]]]; (reflexivity || exact HZ).
  - exists T. split; [exact E|]. intros r c Hr Hc. destruct (zget_in_range d c Hc) as (g & Eg). exists g. split; [exact Eg|]. rewrite HT by exact Hr. rewrite Eg. destruct (Z.leb_spec 0 c); destruct (Z.ltb_spec c (zlen d)); try lia. reflexivity.
Qed.
Lemma bmatrix_entries dim x J : dim = 2 \/ dim = 3 -> exists B, bmatrix dim x J = Ok B /\ forall i a k, 0 <= i < comps dim -> 0 <= a < 2 ^ dim -> 0 <= k < dim ->
  B i (a * dim + k) = ent dim (phys dim J x a) (comps dim * k + i).
Proof.
  intros HD. unfold bmatrix. rewrite dNdX_ok by exact HD. cbn [bind]. set (d := map (phys dim J x) (zrange 0 (2 ^ dim))). destruct (temp_ok dim d HD) as (T & ET & HT). rewrite ET. cbn [bind]. eexists. split; [reflexivity|]. intros i a k Hi Ha Hk. cbv beta.
  assert (0 < 2 ^ dim) by (destruct HD as [-> | ->]; reflexivity). assert (zlen d = 2 ^ dim) as LD by (unfold d; rewrite zlen_map, zlen_zrange by lia; lia).
  assert ((comps dim * (a * dim + k) + i) mod (6 + (dim - 2) * 12) = comps dim * k + i /\ (comps dim * (a * dim + k) + i) / (6 + (dim - 2) * 12) = a) as [-> ->].
  { destruct HD as [-> | ->]; unfold comps in *; [change (6 + (2 - 2) * 12) with 6|change (6 + (3 - 2) * 12) with 18]; split;
    [symmetry; apply (Z.mod_unique _ _ a); lia|symmetry; apply (Z.div_unique _ _ _ ((3 + (2 - 2) * 3) * k + i)); lia|symmetry; apply (Z.mod_unique _ _ a); lia|symmetry; apply (Z.div_unique _ _ _ ((3 + (3 - 2) * 3) * k + i)); lia]. }
  destruct (HT (comps dim * k + i) a) as (g & Eg & ->); [destruct HD as [-> | ->]; unfold comps in *; nia|lia|]. unfold d in Eg. rewrite zget_map, zget_zrange in Eg by lia. cbn [option_map] in Eg. injection Eg as <-. reflexivity.
Qed.
Lemma Sum_2 f : Sum 2 f = (f 0%Z + f 1%Z)%R.
Proof. change 2 with (1 + 1). rewrite Sum_S by lia. change 1 with (0 + 1). rewrite Sum_S by lia. rewrite Sum_0. cbn. ring. Qed.
Lemma bmatrix_strain dim x J : dim = 2 \/ dim = 3 -> exists B, bmatrix dim x J = Ok B /\ forall u i, 0 <= i < comps dim ->
  mvec (dim * 2 ^ dim) B u i = strain dim (disp_gradient dim (phys_gradient dim J (grad_of dim x)) u) i.
Proof.
  intros HD. destruct (bmatrix_entries dim x J HD) as (B & EB & HB). exists B. split; [exact EB|]. intros u i Hi. unfold mvec. rewrite (Z.mul_comm dim). rewrite <- Sum_flat by (destruct HD as [-> | ->]; cbn; lia).
  rewrite (Sum_ext (2 ^ dim) _ (fun a => Sum dim (fun k => ent dim (phys dim J x a) (comps dim * k + i) * u (dim * a + k)%Z)%R)) by (intros a Ha; apply Sum_ext; intros k Hk; rewrite HB by assumption; rewrite (Z.mul_comm dim a); reflexivity).
  unfold disp_gradient. destruct HD as [-> | ->].
  - change (comps 2) with 3 in *. all3 i Hi; unfold strain; cbn [Z.eqb Pos.eqb Z.ltb Z.compare Pos.compare Pos.compare_cont]; rewrite <- ?Sum_plus; apply Sum_ext; intros a Ha; rewrite Sum_2; rewrite <- ?phys_ok; unfold ent, ent2; cbn [Z.eqb Pos.eqb Z.mul Z.add Pos.mul Pos.add orb Pos.succ]; ring.
  - change (comps 3) with 6 in *. all6 i Hi; unfold strain; cbn [Z.eqb Pos.eqb Z.ltb Z.compare Pos.compare Pos.compare_cont]; rewrite <- ?Sum_plus; apply Sum_ext; intros a Ha; rewrite Sum_3; rewrite <- ?phys_ok; unfold ent, ent3; cbn [Z.eqb Pos.eqb Z.mul Z.add Pos.mul Pos.add orb Pos.succ]; ring.
Qed.
(* affine displacements *)
Lemma Sum_4 f : Sum 4 f = (f 0%Z + f 1%Z + f 2%Z + f 3%Z)%R.
Proof. change 4 with (3 + 1). rewrite Sum_S by lia. rewrite Sum_3. reflexivity. Qed.
Lemma Sum_8 f : Sum 8 f = (f 0%Z + f 1%Z + f 2%Z + f 3%Z + f 4%Z + f 5%Z + f 6%Z + f 7%Z)%R.
Proof. change 8 with (7 + 1). rewrite Sum_S by lia. change 7 with (6 + 1). rewrite Sum_S by lia. rewrite Sum_6. cbn. ring. Qed.
Lemma grad_sum dim x m : dim = 2 \/ dim = 3 -> 0 <= m < dim -> Sum (2 ^ dim) (fun a => grad_of dim x a m) = 0%R.
Proof.
  intros HD Hm. destruct HD as [-> | ->].
  - change (2 ^ 2) with 4. rewrite Sum_4. unfold grad_of, lin_grad, c0_of, c1_of. change (zrange 0 2) with [0; 1]. assert (m = 0 \/ m = 1) as [-> | ->] by lia; cbn; ring.
  - change (2 ^ 3) with 8. rewrite Sum_8. unfold grad_of, lin_grad, c0_of, c1_of. change (zrange 0 3) with [0; 1; 2]. all3 m Hm; cbn; ring.
Qed.
Lemma affine_gradient dim x J X c G : dim = 2 \/ dim = 3 -> jacobian_of dim X (grad_of dim x) J -> forall k l, 0 <= k < dim -> 0 <= l < dim ->
  disp_gradient dim (phys_gradient dim J (grad_of dim x)) (affine_disp dim X c G) k l = G k l.
Proof.
  intros HD HJ k l Hk Hl. unfold disp_gradient. set (g := grad_of dim x) in *. set (n := 2 ^ dim) in *.
  assert (forall a, affine_disp dim X c G (dim * a + k) = (c k + Sum dim (fun l => G k l * X a l))%R) as HA.
  { intros a. unfold affine_disp. rewrite (Z.mul_comm dim a), Z.add_comm, Z_mod_plus_full, Z.mod_small by exact Hk. rewrite Z.div_add by lia. rewrite Z.div_small by exact Hk. reflexivity. }
  assert (Sum n (fun a => phys_gradient dim J g a l) = 0%R) as H0.
  { unfold phys_gradient, mvec. rewrite Sum_swap. apply Sum_zero. intros m Hm. rewrite Sum_scal. unfold g, n. rewrite grad_sum by assumption. ring. }
  assert (forall p, 0 <= p < dim -> Sum n (fun a => X a p * phys_gradient dim J g a l)%R = ident p l) as H1.
  { intros p Hp. rewrite <- (HJ p l Hp Hl). unfold phys_gradient, mvec. rewrite (Sum_ext n _ (fun a => Sum dim (fun m => J l m * (X a p * g a m)))%R) by (intros a _; rewrite <- Sum_scal; apply Sum_ext; intros; ring). rewrite Sum_swap. apply Sum_ext. intros m _. rewrite Sum_scal. reflexivity. }
  rewrite (Sum_ext n _ (fun a => c k * phys_gradient dim J g a l + Sum dim (fun p => G k p * (X a p * phys_gradient dim J g a l)))%R) by (intros a _; rewrite HA, Rmult_plus_distr_r; f_equal; rewrite <- Sum_scal_r; apply Sum_ext; intros; ring).
  rewrite Sum_plus, Sum_scal, H0, Rmult_0_r, Rplus_0_l, Sum_swap. rewrite (Sum_ext dim _ (fun p => G k p * ident p l)%R) by (intros p Hp; rewrite Sum_scal, H1 by exact Hp; reflexivity). apply Sum_ident_r. exact Hl.
Qed.
Lemma strain_ext dim G G' i : dim = 2 \/ dim = 3 -> 0 <= i < comps dim -> (forall k l, 0 <= k < dim -> 0 <= l < dim -> G k l = G' k l) -> strain dim G i = strain dim G' i.
Proof.
  intros HD Hi H. unfold strain. destruct HD as [-> | ->]; cbn [Z.eqb Pos.eqb].
  - change (comps 2) with 3 in Hi. destruct (Z.ltb_spec i 2); rewrite !H by lia; reflexivity.
  - change (comps 3) with 6 in Hi. destruct (Z.ltb_spec i 3); [rewrite H by lia; reflexivity|]. destruct (i =? 3); [rewrite !H by lia; reflexivity|]. destruct (i =? 4); rewrite !H by lia; reflexivity.
Qed.
Lemma patch dim x J : dim = 2 \/ dim = 3 -> exists B gr, bmatrix dim x J = Ok B /\ (forall a m, 0 <= a < 2 ^ dim -> p1_grad dim a x m = Ok (gr a m)) /\
  (forall u i, 0 <= i < comps dim -> mvec (dim * 2 ^ dim) B u i = strain dim (disp_gradient dim (phys_gradient dim J gr) u) i) /\
  (forall X c G, jacobian_of dim X gr J -> forall i, 0 <= i < comps dim -> mvec (dim * 2 ^ dim) B (affine_disp dim X c G) i = strain dim G i).
Proof.
  intros HD. destruct (bmatrix_strain dim x J HD) as (B & EB & HB). exists B, (grad_of dim x). split; [exact EB|]. split; [intros a m Ha; apply grad_of_ok; assumption|]. split; [exact HB|].
  intros X c G HJ i Hi. rewrite HB by exact Hi. apply strain_ext; [exact HD|exact Hi|]. apply affine_gradient; assumption.
Qed.
Lemma rigid_strain dim G i : dim = 2 \/ dim = 3 -> 0 <= i < comps dim -> (forall k l, 0 <= k < dim -> 0 <= l < dim -> G k l = (- G l k)%R) -> strain dim G i = 0%R.
Proof.
  intros HD Hi H. unfold strain. destruct HD as [-> | ->]; cbn [Z.eqb Pos.eqb].
  - change (comps 2) with 3 in Hi. destruct (Z.ltb_spec i 2); [pose proof (H i i ltac:(lia) ltac:(lia)); lra|]. rewrite (H 0 1) by lia. ring.
  - change (comps 3) with 6 in Hi. destruct (Z.ltb_spec i 3); [pose proof (H i i ltac:(lia) ltac:(lia)); lra|]. destruct (i =? 3); [rewrite (H 0 1) by lia; ring|]. destruct (i =? 4); [rewrite (H 0 2) by lia; ring|]. rewrite (H 1 2) by lia. ring.
Qed.
(* ---- the stiffness matrix *)
Lemma stiff_entry n B C w i j : stiffness n B C w i j = (w * Sum n (fun k => Sum n (fun l => B k i * C k l * B l j)))%R.
Proof.
  unfold stiffness. rewrite dsum_Sum, Rmult_comm. f_equal. apply Sum_ext. intros k _. rewrite dsum_Sum, <- Sum_scal. apply Sum_ext. intros; ring.
Qed.
Lemma stiff_sym n B C w i j : symmetric n C -> stiffness n B C w i j = stiffness n B C w j i.
Proof.
  intros H. rewrite !stiff_entry. f_equal. rewrite Sum_swap. apply Sum_ext. intros k Hk. apply Sum_ext. intros l Hl. rewrite (H l k) by assumption. ring.
Qed.
Lemma stiff_bilinear n m B C w x y : dot m x (mvec m (stiffness n B C w) y) = (w * dot n (mvec m B x) (mvec n C (mvec m B y)))%R.
Proof.
  assert (forall i, mvec m (stiffness n B C w) y i = (w * Sum n (fun k => B k i * mvec n C (mvec m B y) k))%R) as H.
  { intros i. unfold mvec at 1. rewrite (Sum_ext m _ (fun j => w * Sum n (fun k => Sum n (fun l => B k i * C k l * (B l j * y j)))))%R by (intros j _; rewrite stiff_entry, Rmult_assoc; f_equal; rewrite <- Sum_scal_r; apply Sum_ext; intros k _; rewrite <- Sum_scal_r; apply Sum_ext; intros; ring).
    rewrite Sum_scal. f_equal. rewrite Sum_swap. apply Sum_ext. intros k _. rewrite Sum_swap. unfold mvec at 1. rewrite <- Sum_scal. apply Sum_ext. intros l _. rewrite Sum_scal. unfold mvec. ring. }
  unfold dot. rewrite (Sum_ext m _ (fun i => w * Sum n (fun k => x i * B k i * mvec n C (mvec m B y) k))%R) by (intros i _; rewrite H; rewrite <- Rmult_assoc, (Rmult_comm (x i)), Rmult_assoc; f_equal; rewrite <- Sum_scal; apply Sum_ext; intros; ring).
  rewrite Sum_scal. f_equal. rewrite Sum_swap. apply Sum_ext. intros k _. rewrite Sum_scal_r. f_equal. unfold mvec. apply Sum_ext. intros; ring.
Qed.
Lemma stiff_quad n m B C w x : quad m (stiffness n B C w) x = (w * quad n C (mvec m B x))%R.
Proof. apply stiff_bilinear. Qed.
Lemma stiff_psd n m B C w : psd n C -> (0 <= w)%R -> psd m (stiffness n B C w).
Proof. intros H Hw x. rewrite stiff_quad. apply Rmult_le_pos; [exact Hw|apply H]. Qed.
Lemma stiff_kernel n m B C w x : (forall i, 0 <= i < n -> mvec m B x i = 0%R) -> forall i, mvec m (stiffness n B C w) x i = 0%R.
Proof.
  intros H i. unfold mvec. rewrite (Sum_ext m _ (fun j => w * Sum n (fun k => Sum n (fun l => B k i * C k l * (B l j * x j)))))%R by (intros j _; rewrite stiff_entry, Rmult_assoc; f_equal; rewrite <- Sum_scal_r; apply Sum_ext; intros k _; rewrite <- Sum_scal_r; apply Sum_ext; intros; ring).
  rewrite Sum_scal, Sum_swap. rewrite (Sum_zero n); [ring|]. intros k _. rewrite Sum_swap. apply Sum_zero. intros l Hl. rewrite Sum_scal. specialize (H l Hl). unfold mvec in H. rewrite H. ring.
Qed.
