From Verif Require Import BaseFacts RBaseFacts Impl_Proofs Impl_Proofs5 Mim_Proofs Hnum_Proofs Hnum_Proofs2 Hyb_Spec.
Open Scope Z_scope.

(* ---- the loop over all faces of all cells ---- *)
Lemma each_face_ok {S} (step : S -> hcell -> Z -> hface -> res S) (P : Z -> Z -> S -> Prop) g s0 : P 0 0 s0 ->
  (forall k r s, half g k r -> P k r s -> exists s', step s (cell_at g k) r (face_at g k r) = Ok s' /\ P k (r + 1) s') ->
  (forall k s, 0 <= k < zlen g -> P k (nfaces g k) s -> P (k + 1) 0 s) ->
  exists s', each_face step g s0 = Ok s' /\ P (zlen g) 0 s'.
Proof.
  intros H0 Hs Hn. unfold each_face. apply (list_loop _ (fun k s => P k 0 s)); [exact H0|]. intros k c s Gc Pk. pose proof (zget_Some_range _ _ _ Gc) as Hk.
  assert (Ec : cell_at g k = c) by (apply nth_zget; exact Gc). subst c.
  destruct (combine_loop (fun s kf => step s (cell_at g k) (fst kf) (snd kf)) (fun r s => P k r s) (hc_faces (cell_at g k)) s Pk) as (s' & E & P').
  - intros r f t Gf Pt. cbn [fst snd]. assert (Hh : half g k r) by (split; [exact Hk|exact (zget_Some_range _ _ _ Gf)]). assert (Ef : face_at g k r = f) by (apply nth_zget; exact Gf). rewrite <- Ef. apply Hs; assumption.
  - exists s'. split; [exact E|]. apply Hn; [exact Hk|exact P'].
Qed.
(* face (k', r') is visited before face (k, r) *)
Definition before (k' r' k r : Z) : Prop := k' < k \/ (k' = k /\ r' < r).
Lemma before_next g k' r' k : half g k' r' -> (before k' r' k (nfaces g k) <-> before k' r' (k + 1) 0).
Proof. intros (Hk & Hr). unfold before. split; [intros [H|(-> & H)]; lia|]. intros [H|(-> & H)]; [|lia]. destruct (Z.eq_dec k' k) as [->|]; [right; lia|left; lia]. Qed.
Lemma before_step k' r' k r : before k' r' k (r + 1) <-> before k' r' k r \/ (k' = k /\ r' = r).
Proof. unfold before. lia. Qed.
Lemma before_all g k r : half g k r -> before k r (zlen g) 0.
Proof. intros ((_ & H) & _). left. exact H. Qed.

(* the facts about a numbered grid with boundary conditions that everything below uses *)
Definition setting (g : list hcell) (bc : hbc) (nm : numbering) : Prop :=
  conforming g /\ periodic_ok g bc /\
  (forall k, 0 <= k < zlen g -> zget (nm_cell nm) (idx g k) = Some k) /\
  (zlen (nm_cf nm) = zlen g /\ 0 <= nm_total nm) /\
  (forall k, 0 <= k < zlen g -> zget (nm_cf nm) k = Some (map (entry_of (nm_cf nm) k) (zrange 0 (nfaces g k)))) /\
  most_faces g (nm_max nm) /\ numbers g (entry_of (nm_cf nm)) (nm_internal nm) (nm_total nm).
Lemma total_nonneg g nm : conforming g -> counts_agree g -> enumerate_grid g = Ok nm -> 0 <= nm_total nm.
Proof.
  intros W C E. destruct (enumerate_ok g W C) as (nm' & E' & _ & _ & _ & _ & T & _). assert (nm' = nm) by congruence. subst nm'. rewrite T.
  pose proof (off_nonneg (dscv g) (zlen g)). pose proof (off_nonneg (bf g) (zlen g)). lia.
Qed.
Lemma setting_ok g bc nm : conforming g -> counts_agree g -> periodic_ok g bc -> enumerate_grid g = Ok nm -> setting g bc nm.
Proof.
  intros W C PO E. destruct (numbering_ok g W C) as (nm' & E' & A & B & L & M & N). assert (nm' = nm) by congruence. subst nm'.
  split; [exact W|]. split; [exact PO|]. split; [exact A|]. split; [split; [exact L|exact (total_nonneg g nm W C E)]|]. split; [|split; assumption]. intros k Hk. destruct (B k Hk) as (row & G & Lr). rewrite G. f_equal.
  rewrite (list_nth_map row (-1)). rewrite Lr. apply map_ext_in. intros r Hr. apply In_zrange in Hr. unfold entry_of. rewrite (nth_zget _ _ _ [] G). reflexivity.
Qed.

Section Struct.
Variables (g : list hcell) (bc : hbc) (nm : numbering).
Hypothesis ST : setting g bc nm.
Notation N := (entry_of (nm_cf nm)).
Notation total := (nm_total nm).
Definition row (k : Z) : list Z := map (N k) (zrange 0 (nfaces g k)).
Lemma nf_nonneg k : 0 <= nfaces g k. Proof. apply zlen_nonneg. Qed.
Lemma row_len k : zlen (row k) = nfaces g k.
Proof. unfold row. rewrite zlen_map, zlen_zrange by apply nf_nonneg. lia. Qed.
Lemma row_get k : 0 <= k < zlen g -> rget (nm_cf nm) k = Ok (row k).
Proof. intros H. apply rget_Ok. apply ST. exact H. Qed.
Lemma row_nth k r : 0 <= r < nfaces g k -> zget (row k) r = Some (N k r).
Proof. intros H. unfold row. rewrite zget_map, zget_zrange by lia. reflexivity. Qed.
Lemma num_get k r : half g k r -> rget2 (nm_cf nm) k r = Ok (N k r).
Proof. intros (Hk & Hr). unfold rget2. rewrite row_get by exact Hk. cbn [bind]. apply rget_Ok, row_nth. exact Hr. Qed.
Lemma cell_no k : 0 <= k < zlen g -> rget (nm_cell nm) (hc_idx (cell_at g k)) = Ok k.
Proof. intros H. apply rget_Ok. apply ST. exact H. Qed.
Lemma In_row k n : 0 <= k < zlen g -> (In n (row k) <-> exists r, half g k r /\ n = N k r).
Proof.
  intros Hk. unfold row. rewrite in_map_iff. split.
  - intros (r & <- & Hr). apply In_zrange in Hr. exists r. split; [split; assumption|reflexivity].
  - intros (r & (_ & Hr) & ->). exists r. split; [reflexivity|apply In_zrange; exact Hr].
Qed.
Lemma num_range k r : half g k r -> 0 <= N k r < total. Proof. apply ST. Qed.
Lemma num_same k r k' r' : half g k r -> half g k' r' -> N k r = N k' r' -> (k = k' /\ r = r') \/ twins g k r k' r'.
Proof. intros H H' E. destruct ST as (_ & _ & _ & _ & _ & _ & (_ & _ & I & _)). apply I; assumption. Qed.
Lemma num_bdry k r k' r' : half g k r -> half g k' r' -> nbr g k r = None -> N k r = N k' r' -> k = k' /\ r = r'.
Proof. intros H H' E Q. destruct (num_same k r k' r' H H' Q) as [?|(T & _)]; [assumption|congruence]. Qed.
Lemma row_NoDup k : 0 <= k < zlen g -> NoDup (row k).
Proof.
  intros Hk. apply NoDup_map_inj; [apply zrange_NoDup|]. intros r r' Hr Hr' E. apply In_zrange in Hr, Hr'.
  assert (H : half g k r) by (split; assumption). assert (H' : half g k r') by (split; assumption).
  destruct (num_same k r k r' H H' E) as [(_ & ?)|(T & T')]; [assumption|]. destruct ST as ((_ & _ & Sy & _) & _). destruct (Sy k r _ H T) as (Q & _). congruence.
Qed.
(* ---- periodic faces ---- *)
Lemma per_face_iff k r : half g k r -> (per_face bc (face_at g k r) = true <-> exists d, periodic g bc k r d).
Proof.
  intros H. unfold per_face, periodic, cond_at, nbr, bid. destruct (hf_nb (face_at g k r)); [split; [discriminate|intros (d & _ & Q); discriminate]|].
  destruct (hb_cond bc (hf_bid (face_at g k r))); split; try discriminate; try (intros (d' & _ & Q); congruence); intros _; exists d; auto.
Qed.
Lemma periodic_bdry k r d : periodic g bc k r d -> half g k r /\ nbr g k r = None.
Proof. intros (H & E). split; [exact H|]. unfold cond_at in E. destruct (nbr g k r); [discriminate|reflexivity]. Qed.
Lemma periodic_uniq k r d d' : periodic g bc k r d -> periodic g bc k r d' -> d = d'.
Proof. intros (_ & E) (_ & E'). congruence. Qed.
Lemma partner_ex k r d : periodic g bc k r d -> exists k' r', partners g bc k r k' r' /\ periodic g bc k' r' (- d) /\ ~ (k = k' /\ r = r').
Proof.
  intros H. destruct ST as (_ & (_ & P2) & _). destruct (P2 k r d H) as (k' & r' & H' & E & E' & Nq). exists k', r'. split; [exists d, (- d)%R; auto|]. auto.
Qed.
Lemma partners_sym k r k' r' : partners g bc k r k' r' -> partners g bc k' r' k r.
Proof.
  intros (d & d' & H & H' & E). destruct ST as (_ & (P1 & P2) & _). destruct (P2 k r d H) as (k2 & r2 & H2 & E2 & E2' & _). destruct (P1 k2 r2 _ k' r' _ H2 H' ltac:(congruence)) as (-> & ->). exists d', d. auto.
Qed.
Lemma partners_fun k r k' r' k2 r2 : partners g bc k r k' r' -> partners g bc k r k2 r2 -> k' = k2 /\ r' = r2.
Proof. intros (d & d' & H & H' & E) (e & e' & Q & Q' & F). destruct ST as (_ & (P1 & _) & _). eapply P1; [exact H'|exact Q'|congruence]. Qed.
Lemma partners_half k r k' r' : partners g bc k r k' r' -> half g k r /\ half g k' r' /\ nbr g k r = None /\ nbr g k' r' = None.
Proof. intros (d & d' & H & H' & _). destruct (periodic_bdry _ _ _ H), (periodic_bdry _ _ _ H'). auto. Qed.
Lemma partners_num k r k' r' : partners g bc k r k' r' -> N k r <> N k' r'.
Proof.
  intros P E. destruct (partners_half _ _ _ _ P) as (H & H' & B & B'). destruct (num_bdry _ _ _ _ H H' B E) as (<- & <-). destruct P as (d & d' & Pd & _ & Eb).
  destruct (partner_ex k r d Pd) as (k2 & r2 & (e & e' & Q & Q' & F) & _ & Nq). apply Nq. destruct ST as (_ & (P1 & _) & _). eapply P1; [exact Pd|exact Q'|congruence].
Qed.
Lemma partners_diff k r k' r' d : partners g bc k r k' r' -> periodic g bc k r d -> periodic g bc k' r' (- d).
Proof. intros P H. destruct (partner_ex k r d H) as (k2 & r2 & P2 & H2 & _). destruct (partners_fun _ _ _ _ _ _ P P2) as (-> & ->). exact H2. Qed.

(* ---- bdry_id_map_ ---- *)
Lemma bm_find_app m b d b' : bm_find (m ++ [(b, d)]) b' = match bm_find m b' with Ok v => Ok v | _ => if b =? b' then Ok d else UB end.
Proof.
  unfold bm_find. induction m as [|(k, v) m IH]; cbn [find app fst snd]; [destruct (b =? b'); reflexivity|]. destruct (k =? b'); [reflexivity|exact IH].
Qed.
Lemma bm_mem m b : existsb (fun e => fst e =? b) m = true <-> exists v, bm_find m b = Ok v.
Proof.
  unfold bm_find. induction m as [|(k, v) m IH]; cbn [existsb find fst snd]; [split; [discriminate|intros (v & Q); discriminate]|]. destruct (k =? b) eqn:E; [cbn [orb]; split; [intros _; eexists; reflexivity|reflexivity]|exact IH].
Qed.
Lemma bc_map_ok : exists m, bc_map g bc nm = Ok m /\ forall b v, bm_find m b = Ok v <-> exists d, periodic g bc (fst v) (snd v) d /\ bid g (fst v) (snd v) = b.
Proof.
  destruct (each_face_ok (fun m c k f => if per_face bc f then let* c0 := rget (nm_cell nm) (hc_idx c) in Ok (bm_insert m (hf_bid f) (c0, k)) else Ok m)
    (fun k r m => forall b v, bm_find m b = Ok v <-> exists d, periodic g bc (fst v) (snd v) d /\ bid g (fst v) (snd v) = b /\ before (fst v) (snd v) k r) g []) as (m & E & H).
  - intros b v. split; [discriminate|]. intros (d & ((A & B) & _) & _ & [Q|(_ & Q)]); lia.
  - intros k r m Hh IH. destruct (per_face bc (face_at g k r)) eqn:Ef.
    + rewrite cell_no by apply Hh. cbn [bind]. eexists. split; [reflexivity|]. intros b (k' & r'). cbn [fst snd]. apply (per_face_iff k r Hh) in Ef. destruct Ef as (d & Pd).
      fold (bid g k r). unfold bm_insert. destruct (existsb (fun e => fst e =? bid g k r) m) eqn:Ex.
      * exfalso. apply bm_mem in Ex. destruct Ex as ((k2, r2) & F). apply IH in F. cbn [fst snd] in F. destruct F as (d2 & Pd2 & Eb & Bf). destruct ST as (_ & (P1 & _) & _). destruct (P1 _ _ _ _ _ _ Pd2 Pd Eb) as (-> & ->). unfold before in Bf. lia.
      * rewrite bm_find_app. destruct (bm_find m b) as [v| |] eqn:Fb.
        -- split.
           ++ intros Q. injection Q as ->. apply IH in Fb. cbn [fst snd] in Fb. destruct Fb as (d' & A & B & C). exists d'. split; [exact A|]. split; [exact B|]. apply before_step. left; exact C.
           ++ intros (d' & A & B & C). apply before_step in C. destruct C as [C|(-> & ->)].
              ** assert (Fv : bm_find m b = Ok (k', r')) by (apply IH; exists d'; cbn [fst snd]; auto). congruence.
              ** exfalso. subst b. assert (Q : existsb (fun e => fst e =? bid g k r) m = true) by (apply bm_mem; eexists; exact Fb). congruence.
        -- unfold bm_find in Fb. destruct (find _ m); discriminate.
        -- destruct (Z.eqb_spec (bid g k r) b) as [<-|Nb]; split.
           ++ intros Q. injection Q as <- <-. exists d. split; [exact Pd|]. split; [reflexivity|]. apply before_step. right; auto.
           ++ intros (d' & A & B & C). destruct ST as (_ & (P1 & _) & _). destruct (P1 _ _ _ _ _ _ A Pd B) as (-> & ->). reflexivity.
           ++ discriminate.
           ++ intros (d' & A & B & C). apply before_step in C. destruct C as [C|(-> & ->)]; [|congruence]. assert (Fv : bm_find m b = Ok (k', r')) by (apply IH; exists d'; cbn [fst snd]; auto). congruence.
    + exists m. split; [reflexivity|]. intros b v. rewrite IH. split; intros (d & A & B & C); exists d; (split; [exact A|split; [exact B|]]); [apply before_step; left; exact C|].
      apply before_step in C. destruct C as [C|(Q1 & Q2)]; [exact C|]. exfalso. rewrite Q1, Q2 in A. assert (Q : per_face bc (face_at g k r) = true) by (apply per_face_iff; [exact Hh|exists d; exact A]). congruence.
  - intros k m Hk IH b v. rewrite IH. split; intros (d & A & B & C); exists d; (split; [exact A|split; [exact B|]]); apply (before_next g _ _ k (proj1 A)); exact C.
  - exists m. split; [exact E|]. intros b v. rewrite H. split; [intros (d & A & B & _); exists d; auto|]. intros (d & A & B). exists d. split; [exact A|]. split; [exact B|]. apply before_all. apply A.
Qed.
Variable m : bmap.
Hypothesis Hm : forall b v, bm_find m b = Ok v <-> exists d, periodic g bc (fst v) (snd v) d /\ bid g (fst v) (snd v) = b.
Lemma map_nil : m = [] -> forall k r d, ~ periodic g bc k r d.
Proof. intros -> k r d H. assert (Q : bm_find [] (bid g k r) = Ok (k, r)) by (apply Hm; exists d; auto). discriminate. Qed.
Lemma find_partner k r k' r' : partners g bc k r k' r' -> bm_find m (hb_partner bc (hf_bid (face_at g k r))) = Ok (k', r').
Proof. intros (d & d' & H & H' & E). apply Hm. exists d'. cbn [fst snd]. split; [exact H'|exact E]. Qed.
Lemma per_pair_ok k r k' r' : partners g bc k r k' r' -> per_pair bc nm m (cell_at g k) r (face_at g k r) = Ok (N k r, (k', N k' r')).
Proof.
  intros P. destruct (partners_half _ _ _ _ P) as (H & H' & _ & _). unfold per_pair. rewrite cell_no by apply H. cbn [bind]. rewrite num_get by exact H. cbn [bind]. rewrite (find_partner _ _ _ _ P). cbn [bind fst snd].
  rewrite num_get by exact H'. reflexivity.
Qed.
Lemma map_case (l : bmap) : l = [] \/ exists e l', l = e :: l'.
Proof. destruct l as [|e l']; [left; reflexivity|right; exists e, l'; reflexivity]. Qed.
Lemma bc_partners_ok : exists pp, bc_partners g bc nm m = Ok pp /\ ((pp = [] /\ forall k r d, ~ periodic g bc k r d) \/
  (zlen pp = total /\ (forall k r k' r', partners g bc k r k' r' -> zget pp (N k r) = Some (N k' r')) /\
   (forall k r, half g k r -> (forall d, ~ periodic g bc k r d) -> zget pp (N k r) = Some (-1)))).
Proof.
  unfold bc_partners. destruct (map_case m) as [Em|(e0 & m0 & Em)]; [exists []; rewrite Em; split; [reflexivity|left; split; [reflexivity|apply map_nil; exact Em]]|].
  assert (EE : forall A (x y : A), match m with [] => x | _ :: _ => y end = y) by (intros; rewrite Em; reflexivity). rewrite EE.
  assert (Ht : 0 <= total). { assert (0 <= zlen g) by apply zlen_nonneg. destruct ST as (_ & _ & _ & _ & _ & _ & (A & _)). destruct e0 as (b0 & (k0, r0)).
    assert (F : bm_find m b0 = Ok (k0, r0)) by (rewrite Em; unfold bm_find; cbn; rewrite Z.eqb_refl; reflexivity). apply Hm in F. destruct F as (d & (Hh & _) & _). specialize (A _ _ Hh). lia. }
  match goal with |- exists pp, each_face ?st _ _ = _ /\ _ => destruct (each_face_ok st (fun k r pp => zlen pp = total /\
     (forall n, 0 <= n < total -> zget pp n = Some (-1) \/ exists k1 r1 k2 r2, partners g bc k1 r1 k2 r2 /\ n = N k1 r1 /\ zget pp n = Some (N k2 r2)) /\
     (forall k1 r1 k2 r2, partners g bc k1 r1 k2 r2 -> before k1 r1 k r -> zget pp (N k1 r1) = Some (N k2 r2))) g (zrepeat (-1) total)) as (pp & E & L & A & B) end.
  - split; [apply zlen_zrepeat; exact Ht|]. split; [intros n Hn; left; apply zget_zrepeat; exact Hn|]. intros k1 r1 k2 r2 P [Q|(_ & Q)]; destruct (partners_half _ _ _ _ P) as (((? & _) & (? & _)) & _); lia.
  - intros k r pp Hh (L & A & B). destruct (per_face bc (face_at g k r)) eqn:Ef.
    + apply (per_face_iff k r Hh) in Ef. destruct Ef as (d & Pd). destruct (partner_ex k r d Pd) as (k' & r' & P & Pd' & _). rewrite (per_pair_ok _ _ _ _ P). cbn [bind].
      pose proof (num_range k r Hh) as R1. pose proof (num_range k' r' (proj1 Pd')) as R2.
      destruct (rset_exists pp (N k r) (N k' r') ltac:(lia)) as (p1 & E1 & L1 & G1 & O1). rewrite E1. cbn [bind].
      destruct (rset_exists p1 (N k' r') (N k r) ltac:(lia)) as (p2 & E2 & L2 & G2 & O2). exists p2. split; [exact E2|]. split; [lia|].
      assert (Gk : zget p2 (N k r) = Some (N k' r')) by (rewrite O2 by (apply (partners_num _ _ _ _ P)); exact G1).
      split.
      * intros n Hn. destruct (Z.eq_dec n (N k' r')) as [->|N1]; [right; exists k', r', k, r; split; [apply partners_sym; exact P|]; auto|]. destruct (Z.eq_dec n (N k r)) as [->|N2]; [right; exists k, r, k', r'; auto|].
        rewrite O2, O1 by assumption. apply A. exact Hn.
      * intros k1 r1 k2 r2 P1 Bf. destruct (partners_half _ _ _ _ P1) as (H1 & H2 & B1 & _). destruct (Z.eq_dec (N k1 r1) (N k' r')) as [Q|N1].
        { destruct (num_bdry _ _ _ _ H1 (proj1 Pd') B1 Q) as (-> & ->). destruct (partners_fun _ _ _ _ _ _ P1 (partners_sym _ _ _ _ P)) as (-> & ->). exact G2. }
        destruct (Z.eq_dec (N k1 r1) (N k r)) as [Q|N2].
        { destruct (num_bdry _ _ _ _ H1 Hh B1 Q) as (-> & ->). destruct (partners_fun _ _ _ _ _ _ P1 P) as (-> & ->). exact Gk. }
        rewrite O2, O1 by assumption. apply B; [exact P1|]. apply before_step in Bf. destruct Bf as [Bf|(-> & ->)]; [exact Bf|congruence].
    + exists pp. split; [reflexivity|]. split; [exact L|]. split; [exact A|]. intros k1 r1 k2 r2 P1 Bf. apply before_step in Bf. destruct Bf as [Bf|(-> & ->)]; [apply B; assumption|].
      exfalso. destruct P1 as (d & d' & Pd & _). assert (Q : per_face bc (face_at g k r) = true) by (apply per_face_iff; [exact Hh|exists d; exact Pd]). congruence.
  - intros k pp Hk (L & A & B). split; [exact L|]. split; [exact A|]. intros k1 r1 k2 r2 P1 Bf. apply B; [exact P1|]. apply (before_next g _ _ k); [apply (partners_half _ _ _ _ P1)|exact Bf].
  - exists pp. split; [exact E|]. right. split; [exact L|]. split; [intros k r k' r' P; apply B; [exact P|apply before_all; apply (partners_half _ _ _ _ P)]|].
    intros k r Hh Np. destruct (A (N k r) (num_range k r Hh)) as [?|(k1 & r1 & k2 & r2 & P & En & _)]; [assumption|]. exfalso. destruct (partners_half _ _ _ _ P) as (H1 & _ & B1 & _).
    destruct (num_bdry _ _ _ _ H1 Hh B1 (eq_sym En)) as (-> & ->). destruct P as (d & d' & Pd & _). exact (Np d Pd).
Qed.
End Struct.
