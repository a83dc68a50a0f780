From Coq Require Import Lra.
From Verif Require Import BaseFacts RBaseFacts Cap_Proofs4 Cap_Proofs5 Cap_Proofs6 Cap_Proofs7 Cap_Proofs8 Cap_Proofs9 Visc_Proofs8 Tbl_Spec.
Open Scope string_scope.
Open Scope list_scope.
Open Scope Z_scope.

Lemma bind_ok {A B} (x : res A) (f : A -> res B) b : bind x f = Ok b -> exists a, x = Ok a /\ f a = Ok b.
Proof. destruct x; cbn [bind]; try discriminate. intros H. now exists a. Qed.
Lemma elements_cases bc tec : element_count bc = Ok tec ->
  (tec = 3 /\ exists t, bc = String "f" t) \/ (tec = 9 /\ exists t, bc = String "l" t \/ bc = String "p" t).
Proof. intros H. apply elements in H. destruct H as [(t & -> & ->)|(t & H & ->)]; [left|right]; split; trivial; now exists t. Qed.
Ltac el a b := match goal with |- announced ?fi ?sy ?p ?s ?f _ _ => refine (An_element fi sy p s f a b _ _); lia end.
Ltac stands3 := constructor; [apply An_first|constructor; [apply An_sat|constructor; [el 0 0|constructor; [el 1 1|constructor; [el 2 2|]]]]].
Ltac stands9 := stands3; constructor; [el 1 2|constructor; [el 0 2|constructor; [el 0 1|constructor; [el 2 1|constructor; [el 2 0|constructor; [el 1 0|constructor]]]]]].
Lemma cond_stand bc tec p s (f : Z -> Z -> R) row : element_count bc = Ok tec -> zlen row = tec ->
  (forall v, 0 <= v < tec -> nthR row v = f (element_row v) (element_col v)) -> Forall2 (announced "Pc (Pa)" "R" p s f) (cond_header bc) (p :: s :: row).
Proof.
  intros E L F. destruct (elements_cases _ _ E) as [(-> & t & ->)|(-> & t & Hb)].
  - destruct (len3 _ L) as (a & b & c & ->). pose proof (F 0 ltac:(lia)) as E0. pose proof (F 1 ltac:(lia)) as E1. pose proof (F 2 ltac:(lia)) as E2.
    change (a = f 0 0) in E0. change (b = f 1 1) in E1. change (c = f 2 2) in E2. subst. cbn [cond_header]. stands3. constructor.
  - destruct (len9 _ L) as (a & b & c & d & e & g & h & i & j & ->).
    pose proof (F 0 ltac:(lia)) as E0. pose proof (F 1 ltac:(lia)) as E1. pose proof (F 2 ltac:(lia)) as E2.
    pose proof (F 3 ltac:(lia)) as E3. pose proof (F 4 ltac:(lia)) as E4. pose proof (F 5 ltac:(lia)) as E5.
    pose proof (F 6 ltac:(lia)) as E6. pose proof (F 7 ltac:(lia)) as E7. pose proof (F 8 ltac:(lia)) as E8.
    change (a = f 0 0) in E0. change (b = f 1 1) in E1. change (c = f 2 2) in E2. change (d = f 1 2) in E3. change (e = f 0 2) in E4.
    change (g = f 0 1) in E5. change (h = f 2 1) in E6. change (i = f 2 0) in E7. change (j = f 1 0) in E8. clear E F L. subst.
    destruct Hb as [-> | ->]; cbn [cond_header]; stands9.
Qed.
Lemma visc_stand bc tec ph p s (f : Z -> Z -> R) row : element_count bc = Ok tec -> zlen row = tec ->
  (forall v, 0 <= v < tec -> nthR row v = f (element_row v) (element_col v)) -> Forall2 (announced "v_w/v_o" (phase_symbol ph) p s f) (visc_header bc ph) (p :: s :: row).
Proof.
  intros E L F. unfold phase_symbol. destruct (elements_cases _ _ E) as [(-> & t & ->)|(-> & t & Hb)].
  - destruct (len3 _ L) as (a & b & c & ->). pose proof (F 0 ltac:(lia)) as E0. pose proof (F 1 ltac:(lia)) as E1. pose proof (F 2 ltac:(lia)) as E2.
    change (a = f 0 0) in E0. change (b = f 1 1) in E1. change (c = f 2 2) in E2. subst. cbn [visc_header]. destruct (ph =? 0); stands3; constructor.
  - destruct (len9 _ L) as (a & b & c & d & e & g & h & i & j & ->).
    pose proof (F 0 ltac:(lia)) as E0. pose proof (F 1 ltac:(lia)) as E1. pose proof (F 2 ltac:(lia)) as E2.
    pose proof (F 3 ltac:(lia)) as E3. pose proof (F 4 ltac:(lia)) as E4. pose proof (F 5 ltac:(lia)) as E5.
    pose proof (F 6 ltac:(lia)) as E6. pose proof (F 7 ltac:(lia)) as E7. pose proof (F 8 ltac:(lia)) as E8.
    change (a = f 0 0) in E0. change (b = f 1 1) in E1. change (c = f 2 2) in E2. change (d = f 1 2) in E3. change (e = f 0 2) in E4.
    change (g = f 0 1) in E5. change (h = f 2 1) in E6. change (i = f 2 0) in E7. change (j = f 1 0) in E8. clear E F L. subst.
    destruct Hb as [-> | ->]; cbn [visc_header]; destruct (ph =? 0); stands9.
Qed.
(* the stored elements of a tensor *)
Lemma voigt_read tec r : tec = 3 \/ tec = 9 -> zlen r = 9 ->
  exists row, mapM (get_voigt r) (zrange 0 tec) = Ok row /\ zlen row = tec /\ forall v, 0 <= v < tec -> nthR row v = tensor_of r (element_row v) (element_col v).
Proof.
  intros T L. destruct (len9 _ L) as (a & b & c & d & e & g & h & i & j & ->). destruct T as [-> | ->]; eexists; (split; [reflexivity|]); (split; [reflexivity|]); intros v H.
  - assert (v = 0 \/ v = 1 \/ v = 2) as [-> |[-> | ->]] by lia; reflexivity.
  - assert (v = 0 \/ v = 1 \/ v = 2 \/ v = 3 \/ v = 4 \/ v = 5 \/ v = 6 \/ v = 7 \/ v = 8) as [-> |[-> |[-> |[-> |[-> |[-> |[-> |[-> | ->]]]]]]]] by lia; reflexivity.
Qed.
Lemma tec_two bc tec : element_count bc = Ok tec -> tec = 3 \/ tec = 9.
Proof. intros H. destruct (elements_cases _ _ H) as [(-> & _)|(-> & _)]; tauto. Qed.
Lemma point_row bc tec x l a ecl up inv p s r : element_count bc = Ok tec -> point_tensor x l a ecl up inv p s r -> zlen r = 9 ->
  exists row, point_result x l a ecl up inv tec p = Ok (s, row) /\ zlen row = tec /\ Forall2 (announced "Pc (Pa)" "R" p s (tensor_of r)) (cond_header bc) (p :: s :: row).
Proof.
  intros E (w & g & k & Ec & Es & Eu & Ei) L. destruct (voigt_read tec r (tec_two _ _ E) L) as (row & Er & Lr & Fr). exists row. split.
  - unfold point_result. rewrite Ec. cbn [bind fst snd]. rewrite Eu. cbn [bind]. rewrite Es. cbn [bind]. rewrite Ei. cbn [bind]. rewrite Er. reflexivity.
  - split; [exact Lr|]. exact (cond_stand bc tec p s _ row E Lr Fr).
Qed.
(* the printed table of upscale_cond *)
Lemma cond_table interp ipoints bc tec x l a ecl up inv ps ar : element_count bc = Ok tec -> ipoints <= 1 -> zlen (ar_ws ar) = zlen ps -> zlen (ar_p0 ar) = zlen ps ->
  (forall i p, zget ps i = Some p -> exists s row, point_result x l a ecl up inv tec p = Ok (s, row) /\ zget (ar_ws ar) i = Some s /\ zget (ar_p0 ar) i = Some row) ->
  (forall k r, inv k = Ok r -> zlen r = 9) ->
  exists rows, cond_report interp ipoints tec ps ar = Ok rows /\ zlen rows = zlen ps /\
  forall i p, zget ps i = Some p -> exists s r row, point_tensor x l a ecl up inv p s r /\ zget rows i = Some row /\ Forall2 (announced "Pc (Pa)" "R" p s (tensor_of r)) (cond_header bc) row.
Proof.
  intros E Hi L1 L2 H Hv.
  assert (Q : forall p s row, point_result x l a ecl up inv tec p = Ok (s, row) ->
    exists r, point_tensor x l a ecl up inv p s r /\ zlen row = tec /\ Forall2 (announced "Pc (Pa)" "R" p s (tensor_of r)) (cond_header bc) (p :: s :: row)).
  { intros p s row Ep. pose proof Ep as Ep'. unfold point_result in Ep. apply bind_ok in Ep. destruct Ep as ((w & g) & Ec & Ep). apply bind_ok in Ep. destruct Ep as (k & Eu & Ep).
    apply bind_ok in Ep. destruct Ep as (s' & Es & Ep). apply bind_ok in Ep. destruct Ep as (r & Ei & Ep). apply bind_ok in Ep. destruct Ep as (row' & _ & Ep).
    injection Ep as -> ->. exists r. assert (T : point_tensor x l a ecl up inv p s r) by (exists w, g, k; auto). split; [exact T|].
    destruct (point_row bc tec _ _ _ _ _ _ _ _ _ E T (Hv _ _ Ei)) as (row2 & E2 & L & F). rewrite Ep' in E2. injection E2 as <-. split; assumption. }
  assert (L3 : forall r, In r (ar_p0 ar) -> zlen r = tec).
  { intros r I. apply In_zget in I. destruct I as (i & _ & Ei). pose proof (zget_Some_range _ _ _ Ei) as Ri. rewrite L2 in Ri. destruct (zget_in_range ps i Ri) as (p & Ep).
    destruct (H i p Ep) as (s & row & Er & _ & E0). rewrite Ei in E0. injection E0 as <-. destruct (Q _ _ _ Er) as (_ & _ & L & _). exact L. }
  destruct (cond_rows interp ipoints tec ps ar Hi (tec_two _ _ E) L1 L2 L3) as (rows & Ec & Lr & R). exists rows. split; [exact Ec|]. split; [exact Lr|].
  intros i p Ep. destruct (H i p Ep) as (s & row & Er & E0 & E1). destruct (Q _ _ _ Er) as (r & T & _ & F). exists s, r, (p :: s :: row). split; [exact T|]. split; [|exact F]. exact (R i p s row Ep E0 E1).
Qed.
(* the printed tables of upscale_relpermvisc *)
Lemma visc_table interp sat_of_ratio ipoints bc tec kinv ps a ph : element_count bc = Ok tec -> zlen kinv = 9 -> arrays_ok true tec (zlen ps) a -> ps <> [] -> ipoints <= 1 ->
  exists rows, visc_report interp sat_of_ratio ipoints tec kinv ps a ph = Ok (cut_rows (ar_ws a) rows) /\ zlen rows = zlen ps /\
  forall i q s stored f, zget ps i = Some q -> zget (ar_ws a) i = Some s -> zget (if ph =? 0 then ar_p0 a else ar_p1 a) i = Some stored -> row_tensor tec stored f ->
    exists row, zget rows i = Some row /\ Forall2 (announced "v_w/v_o" (phase_symbol ph) q s (mmul 3 f (tensor_of kinv))) (visc_header bc ph) row.
Proof.
  intros E Lk A Np Hi. pose proof (tec_two _ _ E) as T. destruct (report_spec interp sat_of_ratio ipoints tec kinv ps a ph T Lk A Np Hi) as (rows & Er & Lr & R).
  exists rows. split; [exact Er|]. split; [exact Lr|]. intros i q s stored f Eq Es Et F. destruct (R i q s stored Eq Es Et) as (out & Eo & Ei).
  exists (q :: s :: out). split; [exact Ei|].
  assert (Ls : zlen stored = tec).
  { destruct A as (_ & _ & A0 & A1). destruct (A1 eq_refl) as [_ A2]. apply zget_In in Et. unfold phase_rows in Et. destruct (ph =? 0); auto. }
  destruct (phase_relperm_ok tec kinv stored f T Ls Lk F) as (out' & Eo' & Lo & Fo). rewrite Eo in Eo'. injection Eo' as <-. exact (visc_stand bc tec ph q s _ out E Lo Fo).
Qed.
(* upscale_cond on a single process *)
Lemma cond_single interp ipoints bc tec x l a ecl up inv ps g0 ar : element_count bc = Ok tec -> ipoints <= 1 -> rank_arrays x l a ecl up inv tec 1 0 ps g0 = Ok ar ->
  (forall k r, inv k = Ok r -> zlen r = 9) ->
  exists rows, cond_report interp ipoints tec ps ar = Ok rows /\ zlen rows = zlen ps /\
  forall i p, zget ps i = Some p -> exists s r row, point_tensor x l a ecl up inv p s r /\ zget rows i = Some row /\ Forall2 (announced "Pc (Pa)" "R" p s (tensor_of r)) (cond_header bc) row.
Proof.
  intros E Hi Ha Hv. assert (Ht : 0 <= tec) by (destruct (tec_two _ _ E); lia). destruct (rank_own _ _ _ _ _ _ _ _ _ _ _ _ Ht Ha) as [(L1 & L2 & _) Q].
  apply (cond_table interp ipoints bc tec x l a ecl up inv ps ar E Hi L1 L2); [|exact Hv]. intros i p Ep. apply (Q i p Ep). unfold mpi_node. rewrite Z.rem_1_r. reflexivity.
Qed.
(* the names *)
Lemma names_once (l : list string) : nodup string_dec l = l -> NoDup l.
Proof. intros <-. apply NoDup_nodup. Qed.
Lemma cond_names bc tec : element_count bc = Ok tec -> zlen (cond_header bc) = 2 + tec /\ NoDup (cond_header bc) /\
  forall a b, 0 <= a < 3 -> 0 <= b < 3 -> (In ("R" ++ axis_letter a ++ axis_letter b)%string (cond_header bc) <-> tec = 9 \/ a = b).
Proof.
  intros E. destruct (elements_cases _ _ E) as [(-> & t & ->)|(-> & t & [-> | ->])]; (split; [reflexivity|]); (split; [now apply names_once|]);
  intros a b Ha Hb; assert (Ca : a = 0 \/ a = 1 \/ a = 2) by lia; assert (Cb : b = 0 \/ b = 1 \/ b = 2) by lia;
  destruct Ca as [-> |[-> | ->]]; destruct Cb as [-> |[-> | ->]]; cbn; (split; [intros H; first [right; reflexivity | left; reflexivity | exfalso; repeat (destruct H as [H|H]; [discriminate H|]); exact H]|intros H; first [solve [repeat (first [left; reflexivity | right])] | exfalso; destruct H; discriminate]]).
Qed.
Lemma visc_names bc tec ph : element_count bc = Ok tec -> zlen (visc_header bc ph) = 2 + tec /\ NoDup (visc_header bc ph) /\
  forall a b, 0 <= a < 3 -> 0 <= b < 3 -> (In (phase_symbol ph ++ axis_letter a ++ axis_letter b)%string (visc_header bc ph) <-> tec = 9 \/ a = b).
Proof.
  intros E. unfold phase_symbol. destruct (elements_cases _ _ E) as [(-> & t & ->)|(-> & t & [-> | ->])]; cbn [visc_header]; destruct (ph =? 0); (split; [reflexivity|]); (split; [now apply names_once|]);
  intros a b Ha Hb; assert (Ca : a = 0 \/ a = 1 \/ a = 2) by lia; assert (Cb : b = 0 \/ b = 1 \/ b = 2) by lia;
  destruct Ca as [-> |[-> | ->]]; destruct Cb as [-> |[-> | ->]]; cbn; (split; [intros H; first [right; reflexivity | left; reflexivity | exfalso; repeat (destruct H as [H|H]; [discriminate H|]); exact H]|intros H; first [solve [repeat (first [left; reflexivity | right])] | exfalso; destruct H; discriminate]]).
Qed.
(* cases *)
Lemma ex_cond : exists l ar, cap_limits exx (/ 1000000) exc = Ok l /\ element_count "linear" = Ok 9 /\
  rank_arrays exx l ex_archie (map fst exc) (fun _ => Ok [1; 2; 3; 4; 5; 6; 7; 8; 9]%R) (fun k => Ok (map Rinv (firstn 9 (k ++ zrepeat 1%R 9)))) 9 1 0 [0; / 2; 1]%R [1; 1; 1]%R = Ok ar.
Proof.
  destruct ex_limits as (l & E & _). exists l. destruct (limits_inv exx exc _ l ex_proper E) as (_ & Pp & _).
  assert (T : exists ar, rank_arrays exx l ex_archie (map fst exc) (fun _ => Ok [1; 2; 3; 4; 5; 6; 7; 8; 9]%R) (fun k => Ok (map Rinv (firstn 9 (k ++ zrepeat 1%R 9)))) 9 1 0 [0; / 2; 1]%R [1; 1; 1]%R = Ok ar).
  { apply rank_total; [lia|lra|intros; eauto| |].
    - intros k. eexists. split; [reflexivity|]. unfold zlen. rewrite map_length, firstn_length, app_length. change (length (zrepeat 1%R 9)) with 9%nat. lia.
    - intros p _. rewrite (cond_cells_ok exx exc _ l ex_archie p ex_proper E ex_fit); [eauto|]. intros cv I. now apply ex_curves. }
  destruct T as (ar & Ea). exists ar. repeat split; assumption.
Qed.
Lemma ex_visc : element_count "fixed" = Ok 3 /\ zlen [1; 0; 0; 0; 2; 0; 0; 0; 4]%R = 9 /\ arrays_ok true 3 (zlen [5%R]) (mkArr [(/ 2)%R] [[1; 2; 3]%R] [[4; 5; 6]%R]) /\
  row_tensor 3 [4; 5; 6]%R (fun r c => if r =? c then IZR (4 + r) else 0%R) /\
  Forall2 (announced "v_w/v_o" "Kro" 5 (/ 2) (fun r c => if r =? c then IZR (4 + r) else 0%R)) (visc_header "fixed" 1) [5; / 2; 4; 5; 6]%R.
Proof.
  split; [reflexivity|]. split; [reflexivity|]. split.
  { unfold arrays_ok. cbn [ar_ws ar_p0 ar_p1]. repeat split; try reflexivity; intros r [<- |[]]; reflexivity. }
  split.
  { split; [|intros _ r c _ _ N; destruct (Z.eqb_spec r c); [contradiction|reflexivity]].
    intros v H. assert (v = 0 \/ v = 1 \/ v = 2) as [-> |[-> | ->]] by lia; reflexivity. }
  apply (visc_stand "fixed" 3 1); try reflexivity. intros v H. assert (v = 0 \/ v = 1 \/ v = 2) as [-> |[-> | ->]] by lia; reflexivity.
Qed.
