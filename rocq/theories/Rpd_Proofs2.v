From Verif Require Import BaseFacts RBaseFacts Steady_Proofs Impl_Proofs Cap_Proofs Cap_Proofs6 Visc_Proofs8 Rpd_Proofs Rpd_Spec.
From Coq Require Import Lra Lia.
Open Scope Z_scope.

Lemma nthR_cons x l i : 1 <= i -> nthR (x :: l) i = nthR l (i - 1).
Proof. intros H. unfold nthR. rewrite !zget_nth by lia. replace (Z.to_nat i) with (Datatypes.S (Z.to_nat (i - 1))) by lia. reflexivity. Qed.
Lemma concat_nth n ls : 0 <= n -> (forall l, In l ls -> zlen l = n) -> zlen (List.concat ls) = n * zlen ls /\
  forall k v l, zget ls k = Some l -> 0 <= v < n -> nthR (List.concat ls) (k * n + v) = nthR l v.
Proof.
  intros Hn. induction ls as [|x ls IH]; intros H.
  - split; [unfold zlen; cbn; lia|]. intros k v l E. apply zget_Some_range in E. unfold zlen in E. cbn in E. lia.
  - destruct IH as [L G]; [intros l I; apply H; now right|]. cbn [List.concat]. pose proof (H x (or_introl eq_refl)) as Lx. rewrite zlen_app, zlen_cons, L, Lx. split; [lia|].
    intros k v l E Hv. pose proof (zget_Some_range _ _ _ E) as B. rewrite zlen_cons in B. destruct (Z.eq_dec k 0) as [->|N].
    + injection E as <-. cbn [Z.mul Z.add]. destruct (zget_in_range x v) as [y Ey]; [lia|]. rewrite (nthR_get x v y Ey). apply nthR_get. rewrite zget_app_l by lia. exact Ey.
    + assert (E1 : zget ls (k - 1) = Some l).
      { rewrite zget_nth in E by lia. rewrite zget_nth by lia. replace (Z.to_nat k) with (Datatypes.S (Z.to_nat (k - 1))) in E by lia. exact E. }
      pose proof (G (k - 1) v l E1 Hv) as Q. rewrite <- Q. assert (B1 : 0 <= (k - 1) * n + v < zlen (List.concat ls)) by (rewrite L; nia).
      destruct (zget_in_range _ _ B1) as [y Ey]. rewrite (nthR_get _ _ _ Ey). apply nthR_get. rewrite zget_app_r by nia. rewrite Lx. replace (k * n + v - n) with ((k - 1) * n + v) by lia. exact Ey.
Qed.
Lemma value_get kr ph v i cols col : zget kr ph = Some cols -> zget cols v = Some col -> value_at kr ph v i = nthR col i.
Proof. intros E1 E2. unfold value_at. now rewrite E1, E2. Qed.
Lemma fit_get tec n kr ph v : (forall cols, In cols kr -> columns_fit tec n cols) -> 0 <= ph < zlen kr -> 0 <= v < tec -> exists cols col, zget kr ph = Some cols /\ zget cols v = Some col /\ zlen col = n.
Proof.
  intros F Hp Hv. destruct (zget_in_range kr ph Hp) as [cols Ec]. destruct (F cols (zget_In _ _ _ Ec)) as [L G]. destruct (zget_in_range cols v) as [col El]; [lia|]. exists cols, col. split; [exact Ec|]. split; [exact El|]. apply G. exact (zget_In _ _ _ El).
Qed.
Lemma rows_fit tec ps sats kr : 0 <= tec -> zlen ps = zlen sats -> (forall cols, In cols kr -> columns_fit tec (zlen sats) cols) ->
  exists rows, rp_rows tec (ps, (sats, kr)) = Ok rows /\ zlen rows = zlen sats /\
  forall i row, zget rows i = Some row -> zlen row = 2 + zlen kr * tec /\ nthR row 0 = nthR ps i /\ nthR row 1 = nthR sats i /\
    forall ph v, 0 <= ph < zlen kr -> 0 <= v < tec -> nthR row (2 + ph * tec + v) = value_at kr ph v i.
Proof.
  intros Ht Lp F. unfold rp_rows. cbn [fst snd].
  set (g := fun i (cols : list (list R)) => map (fun v => match zget cols v with Some col => nthR col i | None => 0%R end) (zrange 0 tec)).
  rewrite (mapM_all_Ok _ (fun i => nthR ps i :: nthR sats i :: List.concat (map (g i) kr))).
  - pose proof (zlen_nonneg sats) as Ls. eexists. split; [reflexivity|]. split; [rewrite zlen_map, zlen_zrange by lia; lia|]. intros i row E. pose proof (zget_Some_range _ _ _ E) as B. rewrite zlen_map, zlen_zrange in B by lia.
    rewrite zget_map, zget_zrange in E by lia. cbn [option_map] in E. injection E as <-. try rewrite Z.add_0_l.
    destruct (concat_nth tec (map (g i) kr) Ht) as [Lc Gc]. { intros l I. apply in_map_iff in I. destruct I as (c & <- & _). unfold g. rewrite zlen_map, zlen_zrange by lia. lia. }
    rewrite zlen_map in Lc. rewrite !zlen_cons, Lc. split; [lia|]. split; [reflexivity|]. split; [reflexivity|].
    intros ph v Hp Hv. rewrite nthR_cons by nia. rewrite nthR_cons by nia. replace (2 + ph * tec + v - 1 - 1) with (ph * tec + v) by lia.
    destruct (fit_get tec _ kr ph v F Hp Hv) as (cols & col & E1 & E2 & _). rewrite (Gc ph v (g i cols)) by (try lia; rewrite zget_map, E1; reflexivity).
    rewrite (value_get _ _ _ _ _ _ E1 E2). apply nthR_get. unfold g. rewrite zget_map, zget_zrange by lia. rewrite Z.add_0_l. cbn [option_map]. now rewrite E2.
  - intros i I. apply In_zrange in I. rewrite (proj2 (rget_Ok _ _ _) (zget_nthR ps i ltac:(lia))), (proj2 (rget_Ok _ _ _) (zget_nthR sats i ltac:(lia))). cbn [bind].
    rewrite (mapM_all_Ok _ (g i)); [reflexivity|]. intros cols Ic. destruct (F cols Ic) as [Lc Gc]. unfold g.
    rewrite (mapM_all_Ok _ (fun v => match zget cols v with Some col => nthR col i | None => 0%R end)); [reflexivity|]. intros v Iv. apply In_zrange in Iv. destruct (zget_in_range cols v) as [col El]; [lia|].
    rewrite (proj2 (rget_Ok _ _ _) El), El. cbn [bind]. apply rget_Ok, zget_nthR. rewrite (Gc col (zget_In _ _ _ El)). lia.
Qed.
Lemma nthR_map f l i : 0 <= i < zlen l -> nthR (map f l) i = f (nthR l i).
Proof. intros H. destruct (zget_in_range l i H) as [x E]. rewrite (nthR_get _ _ _ E). apply nthR_get. now rewrite zget_map, E. Qed.
Lemma table_plain interp ipoints tension tec ps sats kr : ipoints <= 1 -> 0 <= tec -> zlen ps = zlen sats -> (forall cols, In cols kr -> columns_fit tec (zlen sats) cols) ->
  exists t rows, rp_columns interp ipoints tension ps sats kr = Ok t /\ rp_rows tec t = Ok rows /\ zlen rows = zlen sats /\
  forall i row, zget rows i = Some row -> zlen row = 2 + zlen kr * tec /\ (nthR row 0 = nthR ps i * tension / 1000)%R /\ nthR row 1 = nthR sats i /\
    forall ph v, 0 <= ph < zlen kr -> 0 <= v < tec -> nthR row (2 + ph * tec + v) = value_at kr ph v i.
Proof.
  intros Hn Ht Lp F. unfold rp_columns. rewrite (proj2 (Z.ltb_ge _ _) Hn).
  destruct (rows_fit tec (map (fun p => (p * (tension / 1000))%R) ps) sats kr Ht ltac:(now rewrite zlen_map) F) as (rows & E & L & G).
  eexists. exists rows. split; [reflexivity|]. split; [exact E|]. split; [exact L|]. intros i row Er. destruct (G i row Er) as (A & B & C & D). split; [exact A|]. split; [|auto].
  pose proof (zget_Some_range _ _ _ Er) as R0. rewrite B, nthR_map by lia. unfold Rdiv. ring.
Qed.
Lemma even_ok n sats : 2 <= n -> sats <> [] -> exists g lo hi, even_grid n sats = Ok g /\ is_min lo sats /\ is_max hi sats /\ zlen g = n /\ forall i, 0 <= i < n -> nthR g i = (lo + IZR i / IZR (n - 1) * (hi - lo))%R.
Proof.
  intros Hn N0. unfold even_grid. destruct (lmin_spec sats N0) as (lo & -> & A1 & A2). destruct (lmax_spec sats N0) as (hi & -> & B1 & B2). cbn [bind]. eexists. exists lo, hi. split; [reflexivity|].
  split; [now split|]. split; [now split|]. split; [rewrite zlen_map, zlen_zrange by lia; lia|]. intros i Hi. apply nthR_get. rewrite zget_map, zget_zrange by lia. reflexivity.
Qed.
Lemma zlen_pos {A} (l : list A) : l <> [] -> 0 < zlen l.
Proof. destruct l; [easy|]. intros _. unfold zlen. cbn [length]. lia. Qed.
Lemma table_interpolated interp ipoints tension tec ps sats kr : interpolates interp -> 2 <= ipoints -> 0 <= tec -> sats <> [] -> zlen ps = zlen sats -> (forall cols, In cols kr -> columns_fit tec (zlen sats) cols) ->
  exists t rows lo hi, rp_columns interp ipoints tension ps sats kr = Ok t /\ rp_rows tec t = Ok rows /\ zlen rows = ipoints /\ is_min lo sats /\ is_max hi sats /\
  forall i row, zget rows i = Some row -> zlen row = 2 + zlen kr * tec /\ (nthR row 1 = lo + IZR i / IZR (ipoints - 1) * (hi - lo))%R /\
    (forall ph v a b, 0 <= ph < zlen kr -> 0 <= v < tec -> (forall j, 0 <= j < zlen sats -> (a <= value_at kr ph v j <= b)%R) -> (a <= nthR row (2 + ph * tec + v) <= b)%R) /\
    (NoDup sats -> forall j, 0 <= j < zlen sats -> nthR sats j = nthR row 1 -> (nthR row 0 = nthR ps j * tension / 1000)%R /\
       forall ph v, 0 <= ph < zlen kr -> 0 <= v < tec -> nthR row (2 + ph * tec + v) = value_at kr ph v j).
Proof.
  intros (I1 & I2) Hn Ht N0 Lp F. unfold rp_columns. rewrite (proj2 (Z.ltb_lt 1 ipoints)) by lia. destruct (even_ok ipoints sats Hn N0) as (g & lo & hi & -> & Mn & Mx & Lg & G). cbn [bind].
  set (sc := map (fun p => (p * (tension / 1000))%R) ps). assert (Ls : zlen sc = zlen sats) by (unfold sc; now rewrite zlen_map).
  set (kr' := map (map (fun col => map (interp sats col) g)) kr).
  assert (F' : forall cols, In cols kr' -> columns_fit tec (zlen g) cols).
  { intros cols I. apply in_map_iff in I. destruct I as (c & <- & I). destruct (F c I) as [A _]. split; [now rewrite zlen_map|]. intros x Ix. apply in_map_iff in Ix. destruct Ix as (y & <- & _). apply zlen_map. }
  destruct (rows_fit tec (map (interp sats sc) g) g kr' Ht ltac:(now rewrite zlen_map) F') as (rows & E & L & R1). unfold kr' in R1. rewrite zlen_map in R1. fold kr' in R1.
  eexists. exists rows, lo, hi. split; [reflexivity|]. split; [exact E|]. split; [lia|]. split; [exact Mn|]. split; [exact Mx|].
  intros i row Er. destruct (R1 i row Er) as (A & B & C & D). pose proof (zget_Some_range _ _ _ Er) as Bi. split; [exact A|]. split; [rewrite C; apply G; lia|].
  assert (V : forall ph v, 0 <= ph < zlen kr -> 0 <= v < tec -> exists cols col, zget kr ph = Some cols /\ zget cols v = Some col /\ zlen col = zlen sats /\ nthR row (2 + ph * tec + v) = interp sats col (nthR row 1)).
  { intros ph v Hp Hv. destruct (fit_get tec _ kr ph v F Hp Hv) as (cols & col & E1 & E2 & E3). exists cols, col. split; [exact E1|]. split; [exact E2|]. split; [exact E3|]. rewrite D by lia. rewrite C.
    rewrite (value_get kr' ph v i (map (fun col => map (interp sats col) g) cols) (map (interp sats col) g)); [apply nthR_map; lia| |].
    - unfold kr'. now rewrite zget_map, E1.
    - now rewrite zget_map, E2. }
  split.
  - intros ph v a b Hp Hv Hb. destruct (V ph v Hp Hv) as (cols & col & E1 & E2 & E3 & ->). apply I2; [exact N0|lia|]. intros y Iy. apply In_zget in Iy. destruct Iy as (j & Bj & Ej). rewrite <- (nthR_get _ _ _ Ej), <- (value_get kr ph v j cols col E1 E2). apply Hb. lia.
  - intros ND j Hj Ej. pose proof (zget_nthR sats j Hj) as Sj. rewrite Ej in Sj. split.
    + rewrite B. assert (Q : nthR (map (interp sats sc) g) i = interp sats sc (nthR row 1)) by (rewrite C; apply nthR_map; lia). rewrite Q.
      rewrite (I1 sats sc j (nthR row 1) (nthR sc j) ND (eq_sym Ls) Sj (zget_nthR sc j ltac:(lia))). unfold sc. rewrite nthR_map by lia. unfold Rdiv. ring.
    + intros ph v Hp Hv. destruct (V ph v Hp Hv) as (cols & col & E1 & E2 & E3 & ->). rewrite (value_get kr ph v j cols col E1 E2). apply (I1 sats col j); [exact ND|lia|exact Sj|apply zget_nthR; lia].
Qed.

(* ------- header *)
Lemma header_ok ow (both : bool) t tec : (t = 0 /\ tec = 3) \/ (t <> 0 /\ tec = 9) -> zlen (rp_header ow both t) = 2 + phase_count both * tec /\
  zget (rp_header ow both t) 0 = Some "Pc"%string /\ zget (rp_header ow both t) 1 = Some (if ow then "Sw" else "Sg")%string /\
  forall ph v, 0 <= ph < phase_count both -> 0 <= v < tec -> zget (rp_header ow both t) (2 + ph * tec + v) = Some (element_name ow both ph v).
Proof.
  assert (V3 : forall v, 0 <= v < 3 -> v = 0 \/ v = 1 \/ v = 2) by (intros; lia).
  assert (V9 : forall v, 0 <= v < 9 -> v = 0 \/ v = 1 \/ v = 2 \/ v = 3 \/ v = 4 \/ v = 5 \/ v = 6 \/ v = 7 \/ v = 8) by (intros; lia).
  intros [(-> & ->)|(N & ->)]; unfold rp_header; [change (0 =? 0) with true|rewrite (proj2 (Z.eqb_neq _ _) N)]; cbv iota; destruct both, ow; (split; [reflexivity|]; split; [reflexivity|]; split; [reflexivity|]);
  intros ph v Hp Hv; unfold phase_count in Hp.
  1,2: (assert (P : ph = 0 \/ ph = 1) by lia; destruct P as [->| ->]; destruct (V3 v Hv) as [->|[->| ->]]; reflexivity).
  1,2: (assert (P : ph = 0) by lia; subst ph; destruct (V3 v Hv) as [->|[->| ->]]; reflexivity).
  1,2: (assert (P : ph = 0 \/ ph = 1) by lia; destruct P as [->| ->]; destruct (V9 v Hv) as [->|[->|[->|[->|[->|[->|[->|[->| ->]]]]]]]]; reflexivity).
  1,2: (assert (P : ph = 0) by lia; subst ph; destruct (V9 v Hv) as [->|[->|[->|[->|[->|[->|[->|[->| ->]]]]]]]]; reflexivity).
Qed.

(* ------- ECLIPSE files *)
Lemma eclipse_ok krow tec c ps sats kr : 0 <= c < 3 -> 3 <= tec -> zlen kr = 2 -> zlen ps = zlen sats -> (forall cols, In cols kr -> columns_fit tec (zlen sats) cols) ->
  exists rows, rp_rows tec (ps, (sats, kr)) = Ok rows /\ eclipse_rows krow c (ps, (sats, kr)) = Ok (eclipse_table krow tec c rows).
Proof.
  intros Hc Ht Lk Lp F. destruct (rows_fit tec ps sats kr ltac:(lia) Lp F) as (rows & E & L & G). exists rows. split; [exact E|]. unfold eclipse_rows. cbn [fst snd].
  destruct (fit_get tec _ kr 0 c F ltac:(lia) ltac:(lia)) as (c0 & x0 & A1 & A2 & A3). destruct (fit_get tec _ kr 1 c F ltac:(lia) ltac:(lia)) as (c1 & x1 & B1 & B2 & B3).
  rewrite (proj2 (rget_Ok kr 0 c0) A1), (proj2 (rget_Ok kr 1 c1) B1). cbn [bind].
  rewrite (mapM_all_Ok _ (fun i => [nthR sats i; nthR x0 i; nthR x1 i; (nthR ps i / 100000)%R])).
  - cbn [bind]. f_equal. unfold eclipse_table. f_equal; [unfold Rltb; destruct (Rlt_dec 0 krow); reflexivity|].
    apply zlist_ext; [rewrite !zlen_map, zlen_zrange by (pose proof (zlen_nonneg sats); lia); pose proof (zlen_nonneg sats); lia|]. intros i Hi. rewrite zlen_map, zlen_zrange in Hi by (pose proof (zlen_nonneg sats); lia). rewrite !zget_map, zget_zrange by lia. rewrite Z.add_0_l. cbn [option_map].
    destruct (zget_in_range rows i) as [row Er]; [lia|]. rewrite Er. cbn [option_map]. destruct (G i row Er) as (_ & Q0 & Q1 & Q2). rewrite Q0, Q1. 
    replace (2 + c) with (2 + 0 * tec + c) by lia. replace (2 + tec + c) with (2 + 1 * tec + c) by lia. rewrite !Q2 by lia. rewrite (value_get _ _ _ _ _ _ A1 A2), (value_get _ _ _ _ _ _ B1 B2). reflexivity.
  - intros i I. apply In_zrange in I. rewrite (proj2 (rget_Ok _ _ _) (zget_nthR sats i ltac:(lia))), (proj2 (rget_Ok _ _ _) A2), (proj2 (rget_Ok _ _ _) B2). cbn [bind].
    rewrite (proj2 (rget_Ok _ _ _) (zget_nthR x0 i ltac:(lia))), (proj2 (rget_Ok _ _ _) (zget_nthR x1 i ltac:(lia))), (proj2 (rget_Ok _ _ _) (zget_nthR ps i ltac:(lia))). reflexivity.
Qed.
Lemma dot_none s : before_dot s = None <-> no_dot s.
Proof.
  induction s as [|c s IH]; cbn [before_dot no_dot]; [tauto|]. destruct (before_dot s) as [b|]; [split; [discriminate|intros (_ & H); apply IH in H; discriminate]|].
  destruct (Ascii.eqb_spec c ".") as [->|N0]; split; try discriminate; try tauto. 
Qed.
Lemma dot_app b e : no_dot e -> before_dot (b ++ String "." e)%string = Some b.
Proof.
  intros H. induction b as [|c b IH]; cbn [append before_dot].
  - rewrite (proj2 (dot_none e) H). reflexivity.
  - now rewrite IH.
Qed.
Lemma dot_some s b : before_dot s = Some b -> exists e, no_dot e /\ s = (b ++ String "." e)%string.
Proof.
  revert b. induction s as [|c s IH]; intros b; cbn [before_dot]; [discriminate|]. destruct (before_dot s) as [b0|] eqn:E.
  - intros Q. injection Q as <-. destruct (IH b0 eq_refl) as (e & He & ->). exists e. split; [exact He|reflexivity].
  - destruct (Ascii.eqb_spec c ".") as [->|N0]; [|discriminate]. intros Q. injection Q as <-. exists s. split; [now apply dot_none|reflexivity].
Qed.
Definition suffix_of (comp sat : ascii) : string := ("-" ++ String comp (".S" ++ String sat "OF"))%string.
Lemma name_ok comp sat : (forall b e, no_dot e -> eclipse_name (b ++ String "." e) comp sat = (b ++ "-" ++ String comp (".S" ++ String sat "OF"))%string) /\
  (forall b, no_dot b -> eclipse_name b comp sat = (b ++ "-" ++ String comp (".S" ++ String sat "OF"))%string).
Proof.
  unfold eclipse_name. split; intros b; [intros e He; now rewrite dot_app|intros Hb; now rewrite (proj2 (dot_none b) Hb)].
Qed.
Lemma app_cancel a b c : (a ++ b = a ++ c)%string -> b = c.
Proof. induction a as [|x a IH]; cbn [append]; [auto|]. intros E. injection E as E. auto. Qed.
Lemma app_longer a b : b <> EmptyString -> (a ++ b)%string <> a.
Proof. intros N0. induction a as [|x a IH]; cbn [append]; [exact N0|]. intros E. injection E as E. auto. Qed.
Lemma names_distinct out comp comp' sat : (eclipse_name out comp sat = eclipse_name out comp' sat -> comp = comp') /\ eclipse_name out comp sat <> out.
Proof.
  unfold eclipse_name. split.
  - intros E. apply app_cancel in E. cbn [append] in E. injection E as E. exact E.
  - destruct (before_dot out) as [b|] eqn:E; [|apply app_longer; discriminate]. apply dot_some in E. destruct E as (e & _ & ->). intros Q. apply app_cancel in Q. discriminate.
Qed.
Lemma directory_refuted : ~ (forall dir file comp sat, no_dot file -> exists tail, eclipse_name (dir ++ String "/" file) comp sat = (dir ++ String "/" tail)%string).
Proof.
  intros H. destruct (H ".."%string "out"%string "X"%char "W"%char ltac:(cbn; repeat split; discriminate)) as (tail & E). discriminate.
Qed.

(* ------- program *)
Lemma critical_len thresh points col col' : critical_end thresh points col = Ok col' -> zlen col' = zlen col.
Proof.
  unfold critical_end. destruct (rget col 0); try discriminate. destruct (rget col (points - 1)); try discriminate. cbn [bind].
  set (i := if Rltb _ _ then _ else _). try (destruct (rget col i); try discriminate; cbn [bind]). destruct (Rltb _ thresh); [|discriminate]. intros E. apply rset_inv in E. tauto.
Qed.
Lemma helper_fit check thresh points tec kinv rows cols : tec = 3 \/ tec = 9 -> 1 <= points -> zlen kinv = 9 -> zlen rows = points -> (forall r, In r rows -> zlen r = tec) ->
  helper_relperm check thresh points tec kinv rows = Ok cols -> columns_fit tec points cols.
Proof.
  intros T Hp Lk L R1 E. destruct (helper_spec thresh points tec kinv rows T Lk L R1) as [A B]. destruct (columns_ok tec kinv rows T Lk R1) as (raw & Er & Lr & Gr).
  assert (Fr : columns_fit tec points raw).
  { split; [exact Lr|]. intros c I. apply In_zget in I. destruct I as (v & Bv & Ev). destruct (Gr v ltac:(lia)) as (col & E1 & E2 & _). congruence. }
  destruct check.
  - apply (B Hp) in E. destruct E as (raw' & Er' & F). rewrite Er in Er'. injection Er' as <-. destruct Fr as [Q1 Q2]. split.
    + apply Forall2_length' in F. unfold zlen in *. lia.
    + intros c I. apply In_zget in I. destruct I as (v & Bv & Ev). pose proof (Forall2_length' _ _ _ F) as LL. destruct (zget_in_range raw v) as [c0 E0]; [unfold zlen in *; lia|].
      destruct (Forall2_zget _ _ _ F v _ E0) as (c1 & E1 & Hc). rewrite Ev in E1. injection E1 as <-. rewrite (critical_len _ _ _ _ Hc). apply Q2. exact (zget_In _ _ _ E0).
  - rewrite A, Er in E. injection E as <-. exact Fr.
Qed.
Lemma helpers_fit check thresh points tec kinv phases kr : tec = 3 \/ tec = 9 -> 1 <= points -> zlen kinv = 9 -> (forall rows, In rows phases -> zlen rows = points /\ forall r, In r rows -> zlen r = tec) ->
  mapM (helper_relperm check thresh points tec kinv) phases = Ok kr -> zlen kr = zlen phases /\ forall cols, In cols kr -> columns_fit tec points cols.
Proof.
  intros T Hp Lk H E. apply mapM_Ok in E. pose proof (Forall2_length' _ _ _ E) as LL. split; [unfold zlen; lia|]. intros cols I. apply In_zget in I. destruct I as (v & Bv & Ev).
  destruct (zget_in_range phases v) as [rows E0]; [unfold zlen in *; lia|]. destruct (Forall2_zget _ _ _ E v _ E0) as (c1 & E1 & Hc). rewrite Ev in E1. injection E1 as <-. destruct (H rows (zget_In _ _ _ E0)) as [A B]. exact (helper_fit check thresh points tec kinv rows cols T Hp Lk A B Hc).
Qed.
Lemma helpers_total thresh points tec kinv phases : tec = 3 \/ tec = 9 -> zlen kinv = 9 -> (forall rows, In rows phases -> zlen rows = points /\ forall r, In r rows -> zlen r = tec) ->
  exists kr, mapM (helper_relperm false thresh points tec kinv) phases = Ok kr.
Proof.
  intros T Lk H. apply mapM_exists. intros rows I. destruct (H rows I) as [A B]. destruct (helper_spec thresh points tec kinv rows T Lk A B) as [-> _]. destruct (columns_ok tec kinv rows T Lk B) as (raw & Er & _). eauto.
Qed.
Lemma columns_shape interp ipoints tension tec ps sats kr t : sats <> [] -> zlen ps = zlen sats -> (forall cols, In cols kr -> columns_fit tec (zlen sats) cols) ->
  rp_columns interp ipoints tension ps sats kr = Ok t -> exists p s k, t = (p, (s, k)) /\ zlen p = zlen s /\ zlen k = zlen kr /\ forall cols, In cols k -> columns_fit tec (zlen s) cols.
Proof.
  intros N0 Lp F. unfold rp_columns. destruct (Z.ltb_spec 1 ipoints) as [Hn|Hn].
  - destruct (even_ok ipoints sats ltac:(lia) N0) as (g & lo & hi & -> & _ & _ & Lg & _). cbn [bind]. intros E. injection E as <-. eexists _, _, _. split; [reflexivity|]. split; [apply zlen_map|]. split; [apply zlen_map|].
    intros cols I. apply in_map_iff in I. destruct I as (c & <- & I). destruct (F c I) as [A _]. split; [now rewrite zlen_map|]. intros x Ix. apply in_map_iff in Ix. destruct Ix as (y & <- & _). apply zlen_map.
  - intros E. injection E as <-. eexists _, _, _. split; [reflexivity|]. split; [now rewrite zlen_map|]. auto.
Qed.
Lemma columns_total interp ipoints tension ps sats kr : sats <> [] -> exists t, rp_columns interp ipoints tension ps sats kr = Ok t.
Proof.
  intros N0. unfold rp_columns. destruct (Z.ltb_spec 1 ipoints) as [Hn|Hn]; [|eauto]. destruct (even_ok ipoints sats ltac:(lia) N0) as (g & lo & hi & -> & _). cbn [bind]. eauto.
Qed.
Lemma program_ok interp check thresh points tec ipoints tension ow both krow out kinv ps sats phases kr : tec = 3 \/ tec = 9 -> 1 <= points -> zlen kinv = 9 -> zlen ps = points -> zlen sats = points ->
  zlen phases = phase_count both -> (forall rows, In rows phases -> zlen rows = points /\ forall r, In r rows -> zlen r = tec) ->
  mapM (helper_relperm check thresh points tec kinv) phases = Ok kr ->
  exists t rows files, rp_output interp check thresh points tec ipoints tension ow both krow out kinv ps sats phases = Ok (rows, files) /\
  rp_columns interp ipoints tension ps sats kr = Ok t /\ rp_rows tec t = Ok rows /\ zlen kr = phase_count both /\ (forall cols, In cols kr -> columns_fit tec points cols) /\
  files = (if String.eqb out "" then [] else
             Table out rows :: (if both then map (fun c => Eclipse (eclipse_name out (component_letter c) (if ow then "W" else "G")%char) (eclipse_table (krow c) tec c rows)) [0; 1; 2] else [])).
Proof.
  intros T Hp Lk L1 L2 Lph H E. destruct (helpers_fit _ _ _ _ _ _ _ T Hp Lk H E) as [Lkr F]. unfold rp_output. rewrite E. cbn [bind].
  assert (N0 : sats <> []) by (intros ->; unfold zlen in L2; cbn in L2; lia). rewrite <- L2 in F.
  destruct (columns_total interp ipoints tension ps sats kr N0) as (t & Et). rewrite Et. cbn [bind]. destruct (columns_shape interp ipoints tension tec ps sats kr t N0 ltac:(lia) F Et) as (p & s & k & -> & Lp & Lk2 & Fk).
  destruct (rows_fit tec p s k ltac:(lia) Lp Fk) as (rows & Er & _ & _). rewrite Er. cbn [bind]. exists (p, (s, k)), rows.
  unfold rp_files. destruct (String.eqb out ""). { cbn [bind]. exists []. rewrite <- L2. repeat (split; [congruence||reflexivity||assumption|]). reflexivity. }
  destruct both.
  - assert (EE : forall c, 0 <= c < 3 -> eclipse_rows (krow c) c (p, (s, k)) = Ok (eclipse_table (krow c) tec c rows)).
    { intros c Hc. unfold phase_count in Lph. destruct (eclipse_ok (krow c) tec c p s k Hc ltac:(lia) ltac:(lia) Lp Fk) as (rows' & Er' & Q). rewrite Er in Er'. injection Er' as <-. exact Q. }
    change (zrange 0 3) with [0; 1; 2]. cbn [mapM]. rewrite !EE by lia. cbn [bind map]. eexists. rewrite <- L2. repeat (split; [congruence||reflexivity||assumption|]). reflexivity.
  - cbn [bind]. eexists. rewrite <- L2. repeat (split; [congruence||reflexivity||assumption|]). reflexivity.
Qed.
Lemma extra_row interp check thresh points tec ipoints tension ow (krow : Z -> R) out kinv ps sats phases kr : tec = 3 \/ tec = 9 -> 1 <= points -> zlen kinv = 9 -> zlen ps = points -> zlen sats = points ->
  zlen phases = 2 -> (forall rows, In rows phases -> zlen rows = points /\ forall r, In r rows -> zlen r = tec) ->
  mapM (helper_relperm check thresh points tec kinv) phases = Ok kr -> out <> ""%string -> (0 < krow 0%Z)%R ->
  exists rows name rest files, rp_output interp check thresh points tec ipoints tension ow true krow out kinv ps sats phases = Ok (rows, Table out rows :: Eclipse name ([0; 0; krow 0%Z; 0]%R :: rest) :: files) /\ zlen rest = zlen rows.
Proof.
  intros T Hp Lk L1 L2 Lph H E No Hk. destruct (program_ok interp check thresh points tec ipoints tension ow true krow out kinv ps sats phases kr T Hp Lk L1 L2 Lph H E) as (t & rows & files & -> & _ & _ & _ & _ & ->).
  destruct (String.eqb_spec out "") as [Q|_]; [contradiction|]. cbn [map]. exists rows. eexists _, _, _. split.
  - unfold eclipse_table at 1. destruct (Rlt_dec 0 (krow 0)) as [_|Q]; [reflexivity|contradiction].
  - apply zlen_map.
Qed.
