From Coq Require Import Lra.
From Verif Require Import BaseFacts RBaseFacts Cap_Proofs7 Cap_Proofs8 Visc_Proofs8 Tbl_Spec.
Open Scope Z_scope.

Lemma cut_in sats rows r : zlen sats = zlen rows -> In r (cut_rows sats rows) -> In r rows.
Proof. intros L I. destruct (cut_spec sats rows L) as (rest & E & _). rewrite E. apply in_or_app. now left. Qed.
Lemma plain_pairs interp sat_of_ratio ipoints tec kinv ps a ph rows : tec = 3 \/ tec = 9 -> zlen kinv = 9 -> arrays_ok true tec (zlen ps) a -> ps <> [] -> ipoints <= 1 ->
  ar_ws a = map sat_of_ratio ps -> visc_report interp sat_of_ratio ipoints tec kinv ps a ph = Ok rows ->
  forall row, In row rows -> exists q els, In q ps /\ row = q :: sat_of_ratio q :: els.
Proof.
  intros T Lk A Np Hi W E row I. destruct (report_spec interp sat_of_ratio ipoints tec kinv ps a ph T Lk A Np Hi) as (all & E' & La & Q). rewrite E in E'. injection E' as ->.
  destruct A as (L1 & L2 & _ & L4). destruct (L4 eq_refl) as [L5 _].
  apply cut_in in I; [|congruence]. apply In_zget in I. destruct I as (i & Ri & Ei). rewrite La in Ri.
  destruct (zget_in_range ps i Ri) as (q & Eq).
  assert (Es : zget (ar_ws a) i = Some (sat_of_ratio q)) by (rewrite W, zget_map, Eq; reflexivity).
  destruct (zget_in_range (phase_rows a ph) i) as (st & Est). { unfold phase_rows. destruct (ph =? 0); lia. }
  destruct (Q i q _ st Eq Es Est) as (out & _ & Er). rewrite Ei in Er. injection Er as ->. exists q, out. split; [exact (zget_In _ _ _ Eq)|reflexivity].
Qed.
Lemma interp_pairs interp sat_of_ratio ipoints tec kinv ps a ph rows : tec = 3 \/ tec = 9 -> zlen kinv = 9 -> arrays_ok true tec (zlen ps) a -> ps <> [] -> 2 <= ipoints ->
  (forall s, In s (ar_ws a) -> - dbl_max <= s <= dbl_max)%R -> visc_report interp sat_of_ratio ipoints tec kinv ps a ph = Ok rows ->
  forall row, In row rows -> exists s els, row = sat_of_ratio s :: s :: els.
Proof.
  intros T Lk A Np Hi B E row I. destruct (report_interp interp sat_of_ratio ipoints tec kinv ps a ph T Lk A Np Hi B) as (g & cols & all & Eg & _ & _ & _ & _ & E' & La & Lg & Q).
  rewrite E in E'. injection E' as ->. apply cut_in in I; [|congruence]. apply In_zget in I. destruct I as (i & Ri & Ei).
  destruct (zget_in_range g i) as (s & Es); [lia|]. rewrite (Q i s Es) in Ei. injection Ei as <-. eauto.
Qed.
Lemma interp_bounded interp sat_of_ratio ipoints tec kinv ps a ph rows lo hi : tec = 3 \/ tec = 9 -> zlen kinv = 9 -> arrays_ok true tec (zlen ps) a -> ps <> [] -> 2 <= ipoints ->
  (forall s, In s (ar_ws a) -> - dbl_max <= s <= dbl_max)%R -> visc_report interp sat_of_ratio ipoints tec kinv ps a ph = Ok rows ->
  (forall q, lo <= sat_of_ratio q <= hi)%R -> forall q rest, In (q :: rest) rows -> (lo <= q <= hi)%R.
Proof.
  intros T Lk A Np Hi B E Bd q rest I. destruct (interp_pairs _ _ _ _ _ _ _ _ _ T Lk A Np Hi B E _ I) as (s & els & Er). injection Er as -> _. apply Bd.
Qed.
Lemma ex_two_ok : arrays_ok true 3 (zlen [0; 1]%R) ex_two.
Proof. unfold arrays_ok, ex_two. cbn [ar_ws ar_p0 ar_p1]. repeat split; try reflexivity; intros r [<- |[<- |[]]]; reflexivity. Qed.
Lemma ratio_wrong interp : exists (sat_of_ratio : R -> R) ps a rows, (forall x y, x < y -> sat_of_ratio x < sat_of_ratio y)%R /\ ar_ws a = map sat_of_ratio ps /\ arrays_ok true 3 (zlen ps) a /\
  visc_report interp sat_of_ratio 2 3 ex_ident ps a 0 = Ok rows /\ exists q s els, In (q :: s :: els) rows /\ sat_of_ratio q <> s.
Proof.
  set (f := fun q : R => ((1 + q) / 4)%R). exists f, [0; 1]%R, ex_two.
  assert (B : forall s, In s (ar_ws ex_two) -> (- dbl_max <= s <= dbl_max)%R).
  { assert (1 <= dbl_max)%R by (exact dbl_max_1). cbn [ex_two ar_ws]. intros s [<- |[<- |[]]]; lra. }
  destruct (report_interp interp f 2 3 ex_ident [0; 1]%R ex_two 0 (or_introl eq_refl) eq_refl ex_two_ok ltac:(discriminate) (Z.le_refl 2) B) as (g & cols & all & Eg & Mi & _ & _ & _ & E' & La & Lg & Q).
  exists (cut_rows g all). split; [intros x y H; unfold f; lra|]. split; [cbn [ex_two ar_ws map]; unfold f; f_equal; [lra|f_equal; lra]|]. split; [exact ex_two_ok|]. split; [exact E'|].
  assert (G0 : nthR g 0 = (1 / 4)%R).
  { destruct Mi as [I1 I2]. cbn [ex_two ar_ws In] in I1. pose proof (I2 (1 / 4)%R (or_introl eq_refl)) as I3. destruct I1 as [H|[H|[]]]; lra. }
  destruct g as [|s0 g']; [discriminate Lg|]. change (s0 = 1 / 4)%R in G0. subst s0.
  pose proof (Q 0 (1 / 4)%R eq_refl) as R0. destruct all as [|r0 all']; [discriminate R0|]. injection R0 as ->.
  eexists _, _, _. split; [cbn [cut_rows]; left; reflexivity|]. unfold f. lra.
Qed.
Lemma ex_two_hyps : arrays_ok true 3 (zlen [0; 1]%R) ex_two /\ zlen ex_ident = 9 /\ ar_ws ex_two = map (fun q => (1 + q) / 4)%R [0; 1]%R /\ (forall s, In s (ar_ws ex_two) -> - dbl_max <= s <= dbl_max)%R.
Proof.
  split; [exact ex_two_ok|]. split; [reflexivity|]. split; [cbn [ex_two ar_ws map]; f_equal; [lra|f_equal; lra]|].
  pose proof dbl_max_1. cbn [ex_two ar_ws]. intros s [<- |[<- |[]]]; lra.
Qed.
