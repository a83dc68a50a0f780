From Verif Require Import Ska_Proofs3 Ska_Proofs4 Ska_Proofs5 Tens_Proofs9 Ska_Spec Lin_Spec Tens_Spec.
Open Scope Z_scope.

(* C206: relative permeability tensors from anisotropic relative permeabilities lie between the smallest and the largest of all cells and directions *)
Theorem C206_fixed : forall orth u Kc low hi fl sat ph kr K t, aniso_kr orth u Kc low hi fl 0 sat ph kr K t ->
  (forall i j, 0 <= i < 3 -> 0 <= j < 3 -> i <> j -> t i j = 0%R) /\
  forall i, 0 <= i < 3 -> (al_thr fl <= t i i)%R /\
    (forall a, (forall c d, entries_of u c d -> (a <= kr c d)%R) -> (a <= t i i)%R) /\
    (forall b, (al_thr fl <= b)%R -> (forall c d, entries_of u c d -> (kr c d <= b)%R) -> (t i i <= b)%R).
Proof. exact Ska_Proofs3.aniso_fixed_bounds. Qed.
Theorem C206_periodic : forall orth u Kc low hi fl sat ph kr K t, aniso_kr orth u Kc low hi fl 2 sat ph kr K t ->
  symmetric 3 (mmul 3 t K) /\ positive_form 3 (mmul 3 t K) /\
  forall x, (al_thr fl * quad 3 K x <= quad 3 (mmul 3 t K) x)%R /\
    (forall a, (forall c d, entries_of u c d -> (a <= kr c d)%R) -> (a * quad 3 K x <= quad 3 (mmul 3 t K) x)%R) /\
    (forall b, (al_thr fl <= b)%R -> (forall c d, entries_of u c d -> (kr c d <= b)%R) -> (quad 3 (mmul 3 t K) x <= b * quad 3 K x)%R).
Proof. exact Ska_Proofs3.aniso_periodic_bounds. Qed.
Theorem C206_implicit : forall orth u Kc low hi fl p pv tr sat0 after bct ph krf st mK st' ks sat ok, tensor_block orth u Kc low hi -> afluids_ok fl -> au_bct u = bct -> 0 <= ph < 2 -> (forall p, 0 <= p < 2 -> relperms_of (al_fluid fl) p (zlen (au_g u)) (krf p)) -> zlen sat = zlen (au_g u) -> asingle_tensor u st = Ok (mK, st') ->
  aniso_implicit u fl p pv tr sat0 mK after = Ok (ks, sat, ok) -> (exists s, steady_run p pv tr sat0 = Ok s /\ ss_sat s = sat /\ ss_stat s = ok) /\ aniso_kr orth u Kc low hi fl bct sat ph (fun c d => krf ph c d (nthR sat c)) (entry mK) (entry (if ph =? 0 then fst ks else snd ks)).
Proof. exact Ska_Proofs4.aniso_implicit_kr. Qed.
Theorem C206_explicit : forall orth u Kc low hi fl p tr sat0 after bct ph krf st mK st' ks sat, tensor_block orth u Kc low hi -> afluids_ok fl -> au_bct u = bct -> 0 <= ph < 2 -> (forall p, 0 <= p < 2 -> relperms_of (al_fluid fl) p (zlen (au_g u)) (krf p)) -> zlen sat = zlen (au_g u) -> asingle_tensor u st = Ok (mK, st') ->
  aniso_explicit u fl p tr sat0 mK after = Ok (ks, sat) -> (exists l, explicit_run p tr sat0 = Ok (l, sat)) /\ aniso_kr orth u Kc low hi fl bct sat ph (fun c d => krf ph c d (nthR sat c)) (entry mK) (entry (if ph =? 0 then fst ks else snd ks)).
Proof. exact Ska_Proofs4.aniso_explicit_kr. Qed.

(* C207: larger relative permeabilities along the axes give larger tensors *)
Theorem C207_fixed : forall orth u Kc low hi fl sat sat' ph kr kr' K t t' i, aniso_kr orth u Kc low hi fl 0 sat ph kr K t -> aniso_kr orth u Kc low hi fl 0 sat' ph kr' K t' ->
  (forall c d, entries_of u c d -> (kr c d <= kr' c d)%R) -> 0 <= i < 3 -> (t i i <= t' i i)%R.
Proof. exact Ska_Proofs3.aniso_fixed_order. Qed.
Theorem C207_periodic : forall orth u Kc low hi fl sat sat' ph kr kr' K t t' x, aniso_kr orth u Kc low hi fl 2 sat ph kr K t -> aniso_kr orth u Kc low hi fl 2 sat' ph kr' K t' ->
  (forall c d, entries_of u c d -> (kr c d <= kr' c d)%R) -> (quad 3 (mmul 3 t K) x <= quad 3 (mmul 3 t' K) x)%R.
Proof. exact Ska_Proofs3.aniso_periodic_order. Qed.

(* C208: relative permeabilities that are the same in all cells are returned *)
Theorem C208_uniform : forall orth u Kc low hi fl bct sat ph kr K t lam, bct = 0 \/ bct = 2 -> aniso_kr orth u Kc low hi fl bct sat ph kr K t -> (al_thr fl <= lam)%R -> (forall c d, entries_of u c d -> kr c d = lam) -> multiple lam t.
Proof. exact Ska_Proofs4.aniso_uniform. Qed.
Theorem C208_rock : forall orth u Kc low hi fl bct sat ph kr K t kd v, bct = 0 \/ (bct = 2 /\ translates (au_srt u) (au_g u) (au_geo u) false low hi) -> aniso_kr orth u Kc low hi fl bct sat ph kr K t ->
  (forall c d, entries_of u c d -> entry (Kc c) d d = kd d /\ kr c d = v d) -> (forall d, 0 <= d < 3 -> (al_thr fl <= v d)%R) -> (forall d d', 0 <= d < 3 -> 0 <= d' < 3 -> (v d' <= al_contrast fl * v d)%R) ->
  forall i j, 0 <= i < 3 -> 0 <= j < 3 -> K i j = (if i =? j then kd i else 0)%R /\ t i j = (if i =? j then v i else 0)%R.
Proof. exact Ska_Proofs4.aniso_uniform_rock. Qed.
Theorem C208_exist : forall orth u Kc low hi fl bct sat ph krf st st1, bct = 0 \/ bct = 2 -> tensor_block orth u Kc low hi -> afluids_ok fl -> au_bct u = bct -> zlen sat = zlen (au_g u) -> 0 <= ph < 2 ->
  (forall p, 0 <= p < 2 -> relperms_of (al_fluid fl) p (zlen (au_g u)) (krf p)) ->
  (forall phs st, zlen phs = zlen (au_g u) -> Forall mobile phs -> exists r, aups_total u phs st = Ok r) ->
  exists mK st' mw mo st2, asingle_tensor u st = Ok (mK, st') /\ aniso_relperms u fl sat mK st1 = Ok ((mw, mo), st2) /\ aniso_kr orth u Kc low hi fl bct sat ph (fun c d => krf ph c d (nthR sat c)) (entry mK) (entry (if ph =? 0 then mw else mo)).
Proof. exact Ska_Proofs4.aniso_total. Qed.

(* one anisotropic cubic cell, relative permeabilities that differ between the axes: calculations exist and meet
   the hypotheses above *)
Example C206_case : forall st st1, exists mK st' mw mo st2, asingle_tensor (cube_aniso 0) st = Ok (mK, st') /\ aniso_relperms (cube_aniso 0) split_fluids [1 / 4]%R mK st1 = Ok ((mw, mo), st2) /\
  aniso_kr orth2 (cube_aniso 0) (fun _ => trock 1 1 1) low_half hi_half split_fluids 0 [1 / 4]%R 0 (fun c d => ar_kr split_rock 0 d (nthR [1 / 4]%R c)) (entry mK) (entry mw).
Proof. exact (cube_aniso_case 0 (1 / 4) 0 (or_introl eq_refl) (conj (Z.le_refl 0) eq_refl)). Qed.
Example C207_case : forall st st1, exists mK st' mw mo st2, asingle_tensor (cube_aniso 2) st = Ok (mK, st') /\ aniso_relperms (cube_aniso 2) split_fluids [1 / 4]%R mK st1 = Ok ((mw, mo), st2) /\
  aniso_kr orth2 (cube_aniso 2) (fun _ => trock 1 1 1) low_half hi_half split_fluids 2 [1 / 4]%R 0 (fun c d => ar_kr split_rock 0 d (nthR [1 / 4]%R c)) (entry mK) (entry mw).
Proof. exact (cube_aniso_case 2 (1 / 4) 0 (or_intror eq_refl) (conj (Z.le_refl 0) eq_refl)). Qed.
Example C208_case : forall st st1, exists mK st' mw mo st2, asingle_tensor (cube_aniso 2) st = Ok (mK, st') /\ aniso_relperms (cube_aniso 2) split_fluids [1 / 2]%R mK st1 = Ok ((mw, mo), st2) /\
  forall i j, 0 <= i < 3 -> 0 <= j < 3 -> entry mw i j = (if i =? j then (if i =? 1 then 1 / 4 else 1 / 2) else 0)%R.
Proof. exact cube_aniso_value. Qed.
Print Assumptions C206_fixed. Print Assumptions C206_periodic. Print Assumptions C206_implicit. Print Assumptions C206_explicit. Print Assumptions C207_fixed. Print Assumptions C207_periodic. Print Assumptions C208_uniform. Print Assumptions C208_rock. Print Assumptions C208_exist.
