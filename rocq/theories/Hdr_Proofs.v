From Coq Require Import Lra.
From Verif Require Import BaseFacts Drv_Proofs2 Hdr_Spec.
Open Scope string_scope.
Open Scope list_scope.
Open Scope Z_scope.

Section H.
Context (fmti : Z -> string) (azs : string) (t : columns) (r : Z).
Notation F := (Forall2 (belongs fmti azs t r)).
Lemma bind_ok {A B} (x : res A) (f : A -> res B) b : bind x f = Ok b -> exists a, x = Ok a /\ f a = Ok b.
Proof. destruct x; cbn; [eauto|discriminate|discriminate]. Qed.
Lemma cell_entry c v : cell_at t c r = Ok v -> entry t c r v.
Proof.
  unfold cell_at. intros H. apply bind_ok in H. destruct H as (l & E & H). apply rget_Ok in E, H. destruct l as [|a l]; [discriminate H|]. injection H as ->. exists l. exact E.
Qed.
Lemma plain_row ns cs vs : Forall2 (fun n c => In (n, c) plain_names) ns cs -> mapM (fun c => cell_at t c r) cs = Ok vs -> F ns vs.
Proof.
  intros H. revert vs. induction H as [|n c ns cs Hn _ IH]; intros vs E; cbn [mapM] in E; [injection E as <-; constructor|].
  apply bind_ok in E. destruct E as (v & E1 & E). apply bind_ok in E. destruct E as (vs' & E2 & E). injection E as <-. constructor; [|apply IH; exact E2]. eapply Belongs_plain; [exact Hn|]. apply cell_entry. exact E1.
Qed.
Lemma sat_row l : zget (t Rock) r = Some l -> forall m ks vs, (forall k, In k ks -> 0 <= k) -> mapM (rget (l ++ zrepeat 0%R m)) ks = Ok vs -> F (map (fun i => ("satnum_" ++ fmti (i + 1))%string) ks) vs.
Proof.
  intros HL m. induction ks as [|k ks IH]; intros vs Hk E; cbn [mapM] in E; [injection E as <-; constructor|].
  apply bind_ok in E. destruct E as (v & E1 & E). apply bind_ok in E. destruct E as (vs' & E2 & E). injection E as <-. cbn [map]. constructor; [|apply IH; [intros i Hi; apply Hk; right; exact Hi|exact E2]].
  pose proof (Hk k (or_introl eq_refl)). apply rget_Ok in E1. eapply Belongs_rock; [lia|exact HL|]. replace (k + 1 - 1) with k by lia. destruct (Z.ltb_spec k (zlen l)) as [K|K].
  - left. rewrite zget_app_l in E1 by lia. exact E1.
  - right. rewrite zget_app_r in E1 by lia. split; [apply zget_None_iff; lia|]. apply zget_In in E1. apply repeat_spec in E1. exact E1.
Qed.
Ltac inv_binds := repeat match goal with
  | H : bind _ _ = Ok _ |- _ => apply bind_ok in H; destruct H as (? & ? & H)
  | H : Ok _ = Ok _ |- _ => injection H as H; subst end.
Ltac pl := repeat (constructor; [cbn; tauto|]); constructor.
Lemma row_matches o maxsat row : print_row o t maxsat r = Ok row -> F (header fmti azs o maxsat) row.
Proof.
  unfold print_row. cbv zeta. intros H. apply bind_ok in H. destruct H as (a & Ea & H). apply bind_ok in H. destruct H as (b & Eb & H). apply bind_ok in H. destruct H as (c & Ec & H). apply bind_ok in H. destruct H as (d & Ed & H). injection H as <-.
  unfold header. repeat apply Forall2_app.
  - destruct (o_upscale o); [|injection Ea as <-; constructor]. apply bind_ok in Ea. destruct Ea as (p & Ep & Ea). apply bind_ok in Ea. destruct Ea as (k & Ek & Ea). apply bind_ok in Ea. destruct Ea as (h & Eh & Ea). apply bind_ok in Ea. destruct Ea as (w & Ew & Ea). injection Ea as <-.
    assert (F ((if o_swcr o then ["swcr"] else []) ++ (if o_sowcr o then ["sowcr"] else [])) w) as Fw. { eapply plain_row; [|exact Ew]. destruct (o_swcr o); destruct (o_sowcr o); pl. }
    assert (F (["porosity"] ++ if o_ntg o then ["netporosity"; "ntg"] else []) p) as Fp. { eapply plain_row; [|exact Ep]. destruct (o_ntg o); pl. }
    assert (F (["permx"; "permy"; "permz"] ++ if o_periodic o then ["permyz"; "permxz"; "permxy"] else []) k) as Fk. { eapply plain_row; [|exact Ek]. destruct (o_periodic o); pl. }
    assert (F (if o_ntg o then ["netpermh"] else []) h) as Fh.
    { destruct (o_ntg o); [|injection Eh as <-; constructor]. apply bind_ok in Eh. destruct Eh as (x & Ex & Eh). apply bind_ok in Eh. destruct Eh as (y & Ey & Eh). apply bind_ok in Eh. destruct Eh as (n & En & Eh). apply bind_ok in Eh. destruct Eh as (q & Eq & Eh). injection Eh as <-.
      constructor; [|constructor]. apply mdiv_inv in Eq. destruct Eq as (Z0 & ->). apply Belongs_net; [apply cell_entry; exact Ex|apply cell_entry; exact Ey|apply cell_entry; exact En|lra]. }
    replace (header_upscale o ++ (if o_swcr o then ["swcr"] else []) ++ (if o_sowcr o then ["sowcr"] else [])) with ((["porosity"] ++ if o_ntg o then ["netporosity"; "ntg"] else []) ++ (["permx"; "permy"; "permz"] ++ if o_periodic o then ["permyz"; "permxz"; "permxy"] else []) ++ (if o_ntg o then ["netpermh"] else []) ++ ((if o_swcr o then ["swcr"] else []) ++ (if o_sowcr o then ["sowcr"] else []))).
    + repeat apply Forall2_app; try assumption.
    + unfold header_upscale. destruct (o_periodic o); destruct (o_ntg o); reflexivity.
  - destruct (o_end o); [|injection Eb as <-; constructor]. apply bind_ok in Eb. destruct Eb as (p & Ep & Eb). apply bind_ok in Eb. destruct Eb as (e & Ee & Eb). apply bind_ok in Eb. destruct Eb as (pc & Epc & Eb). injection Eb as <-. unfold header_end. repeat apply Forall2_app.
    + destruct (o_upscale o); [injection Ep as <-; constructor|]. destruct (o_ntg o); (eapply plain_row; [|exact Ep]); pl.
    + eapply plain_row; [|exact Ee]. pl.
    + destruct (o_cappres o); [|injection Epc as <-; constructor]. apply bind_ok in Epc. destruct Epc as (l & El & Epc). apply rget_Ok in El. change (zrange 0 5) with [0; 1; 2; 3; 4] in Epc. cbn [mapM] in Epc. inv_binds.
      repeat match goal with H : rget _ _ = Ok _ |- _ => apply rget_Ok in H end. repeat (constructor; [eapply Belongs_pc; [|exact El|eassumption]; cbn; tauto|]). constructor.
  - destruct (o_dips o); [|injection Ec as <-; constructor]. cbn [mapM] in Ec. inv_binds. repeat match goal with H : cell_at _ _ _ = Ok _ |- _ => apply cell_entry in H end.
    constructor; [eapply Belongs_plain; [|eassumption]; cbn; tauto|]. constructor; [apply Belongs_azimuth; assumption|constructor].
  - destruct (o_satvol o); [|injection Ed as <-; constructor]. apply bind_ok in Ed. destruct Ed as (l & El & Ed). apply rget_Ok in El. eapply sat_row; [exact El| |exact Ed]. intros k Hk. apply In_zrange in Hk. lia.
Qed.
End H.
(* ---- the names differ *)
Lemma pre_sat x : prefix "satnum_" ("satnum_" ++ x)%string = true.
Proof. destruct x; reflexivity. Qed.
Fixpoint nodupb (l : list string) : bool := match l with [] => true | a :: l => negb (existsb (String.eqb a) l) && nodupb l end.
Lemma nodupb_ok l : nodupb l = true -> NoDup l.
Proof.
  induction l as [|a l IH]; cbn; intros H; [constructor|]. apply andb_true_iff in H. destruct H as (H1 & H2). constructor; [|apply IH; exact H2]. intros HI. apply negb_true_iff in H1. assert (existsb (String.eqb a) l = true) as X by (apply existsb_exists; exists a; split; [exact HI|apply String.eqb_refl]). congruence.
Qed.
Lemma NoDup_app_pred {A} (f : A -> bool) l l' : NoDup l -> NoDup l' -> forallb (fun x => negb (f x)) l = true -> forallb f l' = true -> NoDup (l ++ l').
Proof.
  intros H1 H2 F1 F2. induction H1 as [|a l Ha H1 IH]; [exact H2|]. cbn in F1. apply andb_true_iff in F1. destruct F1 as (Fa & F1). cbn. constructor; [|apply IH; exact F1]. intros HI. apply in_app_iff in HI. destruct HI as [HI|HI]; [exact (Ha HI)|]. rewrite forallb_forall in F2. rewrite (F2 a HI) in Fa. discriminate Fa.
Qed.
Lemma names_differ fmti azs o maxsat : (forall i j, fmti i = fmti j -> i = j) -> NoDup (header fmti azs o maxsat).
Proof.
  intros HI. unfold header. set (A := if o_upscale o then _ else _). set (B := if o_end o then header_end o else []). set (C := if o_dips o then _ else _). set (D := if o_satvol o then _ else _). rewrite !app_assoc.
  assert (nodupb (A ++ B) = true /\ forallb (fun x => negb (String.eqb x "dip" || prefix "azim(" x)) (A ++ B) = true /\ forallb (fun x => negb (prefix "satnum_" x)) (A ++ B) = true) as (N & P1 & P2).
  { subst A B. unfold header_end, header_upscale. destruct o as [u p n s w e c d v a]. cbn [o_upscale o_periodic o_ntg o_swcr o_sowcr o_end o_cappres]. destruct u, p, n, s, w, e, c; vm_compute; repeat split. }
  apply (NoDup_app_pred (prefix "satnum_")).
  - apply (NoDup_app_pred (fun x => String.eqb x "dip" || prefix "azim(" x)).
    + apply nodupb_ok. exact N.
    + subst C. destruct (o_dips o); [|constructor]. constructor; [|constructor; [intros []|constructor]]. intros [H|[]]. discriminate H.
    + exact P1.
    + subst C. destruct (o_dips o); reflexivity.
  - subst D. destruct (o_satvol o); [|constructor]. apply FinFun.Injective_map_NoDup; [|apply zrange_NoDup]. intros i j H. injection H as H. apply HI in H. lia.
  - rewrite forallb_app, P2. subst C. destruct (o_dips o); reflexivity.
  - subst D. destruct (o_satvol o); [|reflexivity]. apply forallb_forall. intros x Hx. apply in_map_iff in Hx. destruct Hx as (i & <- & _). apply pre_sat.
Qed.
(* ---- a row with the results of one subsample *)
Lemma one_row : print_row one_opts one_result 2 0 = Ok [(1/4)%R; 3%R; 5%R; 1%R; 0%R; 90%R; (1/3)%R; (2/3)%R] /\ forall fmti azs, header fmti azs one_opts 2 = ["porosity"; "permx"; "permy"; "permz"; "dip"; ("azim(displacement:" ++ azs ++ ")")%string; ("satnum_" ++ fmti 1)%string; ("satnum_" ++ fmti 2)%string].
Proof. split; [reflexivity|intros; reflexivity]. Qed.
(* ---- a column is there exactly when it is wanted *)
Definition memb (n : string) (l : list string) : bool := existsb (String.eqb n) l.
Lemma memb_In n l : memb n l = true <-> In n l.
Proof. unfold memb. rewrite existsb_exists. split; [intros (x & H & E); apply String.eqb_eq in E; subst; exact H|intros H; exists n; split; [exact H|apply String.eqb_refl]]. Qed.
Lemma names_wanted fmti azs o maxsat n w : In (n, w) (wanted o) -> (In n (header fmti azs o maxsat) <-> w = true).
Proof.
  intros H. unfold header. set (A := if o_upscale o then _ else _). set (B := if o_end o then header_end o else []). rewrite !in_app_iff.
  assert (~ prefix "azim(" n = true /\ ~ prefix "satnum_" n = true /\ memb n (A ++ B ++ (if o_dips o then ["dip"] else [])) = w) as (Z1 & Z2 & Z3).
  { assert (forallb (fun nw => negb (prefix "azim(" (fst nw)) && negb (prefix "satnum_" (fst nw)) && Bool.eqb (memb (fst nw) (A ++ B ++ (if o_dips o then ["dip"] else []))) (snd nw)) (wanted o) = true) as G.
    { subst A B. unfold header_end, header_upscale. clear H. destruct o as [u p g s v e c d q a]. unfold wanted. cbn [o_upscale o_periodic o_ntg o_swcr o_sowcr o_end o_cappres o_dips]. destruct u, e, p, g, s, v, c, d; vm_compute; reflexivity. }
    rewrite forallb_forall in G. apply G in H. cbn [fst snd] in H. apply andb_true_iff in H. destruct H as (H & H3). apply andb_true_iff in H. destruct H as (H1 & H2). apply negb_true_iff in H1, H2. apply Bool.eqb_prop in H3. split; [congruence|split; [congruence|exact H3]]. }
  rewrite <- Z3, memb_In, !in_app_iff. split.
  - intros [K|[K|[K|K]]]; [tauto|tauto| |].
    + right. right. destruct (o_dips o); [|destruct K]. destruct K as [K|[K|[]]]; [left; exact K|]. exfalso. apply Z1. rewrite <- K. reflexivity.
    + exfalso. destruct (o_satvol o); [|destruct K]. apply in_map_iff in K. destruct K as (i & <- & _). apply Z2. apply pre_sat.
  - intros [K|[K|K]]; [tauto|tauto|]. right. right. left. destruct (o_dips o); [|destruct K]. destruct K as [K|[]]. left. exact K.
Qed.
Lemma rocks_wanted fmti azs o maxsat k : (forall i j, fmti i = fmti j -> i = j) -> (In ("satnum_" ++ fmti k)%string (header fmti azs o maxsat) <-> o_satvol o = true /\ 1 <= k <= maxsat).
Proof.
  intros HI. unfold header. set (A := if o_upscale o then _ else _). set (B := if o_end o then header_end o else []). rewrite !in_app_iff.
  assert (forallb (fun x => negb (prefix "satnum_" x)) (A ++ B ++ (if o_dips o then ["dip"; ("azim(displacement:" ++ azs ++ ")")%string] else [])) = true) as F.
  { rewrite !forallb_app. subst A B. unfold header_end, header_upscale. destruct o as [u p g s v e c d q a]. cbn [o_upscale o_periodic o_ntg o_swcr o_sowcr o_end o_cappres o_dips]. destruct u, p, g, s, v, e, c, d; reflexivity. }
  rewrite forallb_forall in F. split.
  - intros K. assert (In ("satnum_" ++ fmti k)%string (if o_satvol o then map (fun i => ("satnum_" ++ fmti (i + 1))%string) (zrange 0 maxsat) else [])) as K'.
    { destruct K as [K|[K|[K|K]]]; [| | |exact K]; exfalso; (assert (In ("satnum_" ++ fmti k)%string (A ++ B ++ (if o_dips o then ["dip"; ("azim(displacement:" ++ azs ++ ")")%string] else []))) as X by (rewrite !in_app_iff; tauto)); apply F in X; rewrite pre_sat in X; discriminate X. }
    destruct (o_satvol o); [|destruct K']. split; [reflexivity|]. apply in_map_iff in K'. destruct K' as (i & E & Hi). injection E as E. apply HI in E. apply In_zrange in Hi. lia.
  - intros (-> & Hk). right. right. right. apply in_map_iff. exists (k - 1). split; [f_equal; f_equal; lia|apply In_zrange; lia].
Qed.
