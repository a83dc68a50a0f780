(* Proofs about elastic materials: orthotropic materials and construction. *)
From Coq Require Import Lra.
From Verif Require Import RBaseFacts BaseFacts Lin_Facts Steady_Proofs Euler_Proofs2 Matx_Proofs Shape_Proofs Shape_Proofs2 Shape_Proofs3 Elast_Proofs Elast_Spec.
Open Scope Z_scope.

Ltac explode l H := let x := fresh "x" in destruct l as [|x l]; [exfalso; cbn in H; lia|].
Lemma zlen_ge {A} (l : list A) n : Z.of_nat n <= zlen l -> (n <= List.length l)%nat.
Proof. unfold zlen. lia. Qed.
Definition sym_list (Cu : list R) : list R :=
  map (nthR Cu) [0; 1; 2; 5; 4; 3; 6; 7; 10; 9; 8; 11; 14; 13; 12; 20; 19; 17; 18; 16; 15].
Lemma sym_new_ok Cu : 21 <= zlen Cu -> sym_new Cu = Ok (MSym (sym_list Cu)).
Proof.
  intros H. unfold sym_new. destruct (Z.ltb_spec (zlen Cu) 21); [lia|]. apply (zlen_ge Cu 21) in H. do 21 (explode Cu H). cbv -[IZR]. reflexivity.
Qed.
Lemma sym_new_short Cu : zlen Cu < 21 -> sym_new Cu = UB.
Proof. intros H. unfold sym_new. destruct (Z.ltb_spec (zlen Cu) 21); [reflexivity|lia]. Qed.
Lemma sym6_ok Cu C0 : exists C, sym6 (sym_list Cu) C0 false = Ok (true, C) /\ same 6 C (fun i j => nthR Cu (tri (exch i) (exch j))).
Proof.
  unfold sym_list. set (f := nthR Cu). clearbody f. cbn [map]. eexists. split; [cbv -[IZR fput]; reflexivity|]. intros i j Hi Hj. all6 i Hi; all6 j Hj; cbv; reflexivity.
Qed.
Lemma sym6_inv Cu C0 : zlen Cu = 21 -> sym6 Cu C0 true = Throw.
Proof.
  intros H. assert (21 <= List.length Cu)%nat as L by (unfold zlen in H; lia). assert (List.length Cu <= 21)%nat as U by (unfold zlen in H; lia). clear H. do 21 (explode Cu L). cbv -[fput]. reflexivity.
Qed.
Lemma sym_energy (V : fmat) x : quad 6 (fun i j => V (exch i) (exch j)) x = quad 6 V (fun i => x (exch i)).
Proof. unfold quad, dot, mvec. rewrite !Sum_6. cbn [exch Z.eqb Pos.eqb]. ring. Qed.
Lemma tri_sym i j : tri i j = tri j i.
Proof. unfold tri. rewrite Z.min_comm, Z.max_comm. reflexivity. Qed.
(* the diagonal material *)
Lemma diag6_ok E C0 : zlen E = 6 -> exists C, diag6 E C0 false = Ok (true, C) /\ forall i j, C i j = if (i =? j) && (0 <=? i) && (i <? 6) then nthR E i else C0 i j.
Proof.
  intros H. assert (6 <= List.length E)%nat as L by (unfold zlen in H; lia). clear H. do 6 (explode E L). eexists. split; [cbv -[fput IZR]; reflexivity|]. intros i j. unfold fput.
  destruct (Z.eqb_spec i j) as [<-|N].
  - destruct (Z.leb_spec 0 i); destruct (Z.ltb_spec i 6); cbn [andb]; try (all6 i (conj H H0); reflexivity); repeat match goal with |- context [i =? ?k] => rewrite (proj2 (Z.eqb_neq i k)) by lia end; reflexivity.
  - cbn [andb]. repeat match goal with |- context [(i =? ?k) && (j =? ?k)] => replace ((i =? k) && (j =? k)) with false by (symmetry; apply andb_false_iff; destruct (Z.eqb_spec i k); [right; apply Z.eqb_neq; lia|now left]) end. reflexivity.
Qed.
Lemma diag6_inv E C0 : zlen E = 6 -> (forall i, 0 <= i < 6 -> nthR E i <> 0%R) -> exists C, diag6 E C0 true = Ok (true, C) /\ forall i j, C i j = if (i =? j) && (0 <=? i) && (i <? 6) then (1 / nthR E i)%R else C0 i j.
Proof.
  intros H HN. assert (6 <= List.length E)%nat as L by (unfold zlen in H; lia). clear H. do 6 (explode E L). 
  assert (x <> 0 /\ x0 <> 0 /\ x1 <> 0 /\ x2 <> 0 /\ x3 <> 0 /\ x4 <> 0)%R as (N0 & N1 & N2 & N3 & N4 & N5) by (repeat split; [apply (HN 0)|apply (HN 1)|apply (HN 2)|apply (HN 3)|apply (HN 4)|apply (HN 5)]; lia).
  unfold diag6. change (zrange 0 6) with [0; 1; 2; 3; 4; 5]. set (l := x :: x0 :: x1 :: x2 :: x3 :: x4 :: E). cbn [foldM].
  change (rget l 0) with (Ok x). change (rget l 1) with (Ok x0). change (rget l 2) with (Ok x1). change (rget l 3) with (Ok x2). change (rget l 4) with (Ok x3). change (rget l 5) with (Ok x4).
  cbn [bind]. do 6 (rewrite mdiv_ok by assumption; cbn [bind]).
  eexists. split; [reflexivity|]. intros i j. unfold fput.
  destruct (Z.eqb_spec i j) as [<-|N].
  - destruct (Z.leb_spec 0 i); destruct (Z.ltb_spec i 6); cbn [andb]; try (all6 i (conj H H0); reflexivity); repeat match goal with |- context [i =? ?k] => rewrite (proj2 (Z.eqb_neq i k)) by lia end; reflexivity.
  - cbn [andb]. repeat match goal with |- context [(i =? ?k) && (j =? ?k)] => replace ((i =? k) && (j =? k)) with false by (symmetry; apply andb_false_iff; destruct (Z.eqb_spec i k); [right; apply Z.eqb_neq; lia|now left]) end. reflexivity.
Qed.
(* ---- what the previous content does *)
Lemma stale_iso E nu rho C0 C1 inv : constitutive6 (MIso E nu rho) C0 inv = constitutive6 (MIso E nu rho) C1 inv.
Proof. reflexivity. Qed.
Lemma iso_matrix E nu rho : okn nu -> matrix_of (MIso E nu rho) (lame 3 (E * nu / ((1 + nu) * (1 - 2 * nu))) (E / (2 * (1 + nu)))).
Proof. intros H C0. destruct (iso6_stiff E nu H) as (C & EC & SC). exists C. split; assumption. Qed.
Lemma sym_matrix Cu m : sym_new Cu = Ok m -> matrix_of m (fun i j => nthR Cu (tri (exch i) (exch j))).
Proof.
  intros E C0. destruct (Z_lt_le_dec (zlen Cu) 21) as [L|L]; [rewrite sym_new_short in E by exact L; discriminate|]. rewrite sym_new_ok in E by exact L. injection E as <-. cbn [constitutive6]. apply sym6_ok.
Qed.
(* ---- files *)
Lemma rd_nums_app l t : rd_nums (List.length l) (Some (map RNum l ++ t)%list) = (l, Some t).
Proof. induction l as [|x l IH]; cbn [rd_nums List.length map app]; [reflexivity|]. cbn [rd_num]. rewrite IH. reflexivity. Qed.
Lemma file_aniso l rho : zlen l = 21 -> create_file (Some (rock_file "anisotropic" l rho)) = Ok (MSym (sym_list l)).
Proof.
  intros H. assert (List.length l = 21%nat) as L by (unfold zlen in H; lia). unfold create_file, rock_file. cbn [rd_word]. change (String.eqb "anisotropic" "ti") with false. change (String.eqb "anisotropic" "anisotropic") with true. cbv iota.
  rewrite <- L at 1. rewrite rd_nums_app. cbn [rd_word rd_num]. change (negb (String.eqb "density" "density")) with false. cbv iota. apply sym_new_ok. lia.
Qed.
Lemma file_ti a b c d e rho : create_file (Some (rock_file "ti" [a; b; c; d; e] rho)) = sym_new [a; a - 2 * e; b; 0; 0; 0; a; b; 0; 0; 0; c; 0; 0; 0; d; 0; 0; d; 0; e]%R.
Proof. reflexivity. Qed.
Lemma ti_entries a b c d e : same 6 (fun i j => nthR [a; a - 2 * e; b; 0; 0; 0; a; b; 0; 0; 0; c; 0; 0; 0; d; 0; 0; d; 0; e]%R (tri i j)) (ti_matrix a b c d e).
Proof. intros i j Hi Hj. all6 i Hi; all6 j Hj; reflexivity. Qed.
Lemma file_iso kind p1 p2 rho : kind <> "ti" -> kind <> "anisotropic" -> create_file (Some (rock_file kind [p1; p2] rho)) =
  (let '(str, p1, p2) := if String.eqb kind "vpvs" then ("km", rho * p1 * p1 - 4 / 3 * rho * p2 * p2, rho * p2 * p2)%R else (kind, p1, p2) in
   let* en :=
        if String.eqb str "km" then let* nu := mdiv (3 * p1 - 2 * p2) (6 * p1 + 2 * p2) in Ok (2 * p2 * (1 + nu), nu)%R
        else if String.eqb str "lm" then
          let* nu := mdiv p1 (2 * (p2 + p1)) in let* q := mdiv ((1 + nu) * (1 - 2 * nu) * p1) nu in Ok (q, nu)
        else if String.eqb str "en" then Ok (p1, p2)
        else Throw in
      if Rltb (snd en) 0 || Rltb (1 / 2) (snd en) then Throw else Ok (MIso (fst en) (snd en) rho)).
Proof.
  intros N1 N2. unfold create_file, rock_file. cbn [rd_word]. rewrite (proj2 (String.eqb_neq kind "ti") N1), (proj2 (String.eqb_neq kind "anisotropic") N2). reflexivity.
Qed.
Lemma gate_ok nu : (0 <= nu <= 1 / 2)%R -> Rltb nu 0 || Rltb (1 / 2) nu = false.
Proof. intros H. unfold Rltb. destruct (Rlt_dec nu 0); [lra|]. destruct (Rlt_dec (1 / 2) nu); [lra|]. reflexivity. Qed.
Lemma gate_bad nu : (nu < 0 \/ 1 / 2 < nu)%R -> Rltb nu 0 || Rltb (1 / 2) nu = true.
Proof. intros H. unfold Rltb. destruct (Rlt_dec nu 0); [reflexivity|]. destruct (Rlt_dec (1 / 2) nu); [reflexivity|]. lra. Qed.
Lemma iso_lame E nu rho l m : okn nu -> (E * nu / ((1 + nu) * (1 - 2 * nu)) = l)%R -> (E / (2 * (1 + nu)) = m)%R -> matrix_of (MIso E nu rho) (lame 3 l m).
Proof. intros H <- <-. apply iso_matrix. exact H. Qed.
Lemma km_nu K mu : (0 < mu)%R -> (2 * mu <= 3 * K)%R -> (6 * K + 2 * mu <> 0)%R /\ okn ((3 * K - 2 * mu) / (6 * K + 2 * mu)).
Proof.
  intros Hm HK. assert (0 < 6 * K + 2 * mu)%R as D by lra. split; [lra|]. split.
  - unfold Rdiv. apply Rmult_le_pos; [lra|]. left. apply Rinv_0_lt_compat. exact D.
  - apply (Rmult_lt_reg_r (6 * K + 2 * mu)); [exact D|]. unfold Rdiv. rewrite Rmult_assoc, Rinv_l by lra. lra.
Qed.
Lemma file_km K mu rho : (0 < mu)%R -> (2 * mu <= 3 * K)%R -> exists m, create_file (Some (rock_file "km" [K; mu] rho)) = Ok m /\ density m = rho /\ matrix_of m (lame 3 (K - 2 / 3 * mu) mu).
Proof.
  intros Hm HK. destruct (km_nu K mu Hm HK) as [D O]. rewrite file_iso by discriminate. change (String.eqb "km" "vpvs") with false. cbv iota. change (String.eqb "km" "km") with true. cbv iota. rewrite mdiv_ok by exact D. cbn [bind fst snd].
  set (nu := ((3 * K - 2 * mu) / (6 * K + 2 * mu))%R) in *. rewrite gate_ok by (destruct O; lra). eexists. split; [reflexivity|]. split; [reflexivity|]. apply iso_lame; [exact O| |]; unfold nu; field; repeat split; try lra.
  all: unfold okn, nu in O; try (intros E0; lra).
Qed.
Lemma file_lm la mu rho : (0 < mu)%R -> (0 < la)%R -> exists m, create_file (Some (rock_file "lm" [la; mu] rho)) = Ok m /\ density m = rho /\ matrix_of m (lame 3 la mu).
Proof.
  intros Hm HK. rewrite file_iso by discriminate. change (String.eqb "lm" "vpvs") with false. cbv iota. change (String.eqb "lm" "km") with false. change (String.eqb "lm" "lm") with true. cbv iota. rewrite mdiv_ok by lra. cbn [bind fst snd].
  assert (okn (la / (2 * (mu + la)))) as O.
  { split; [unfold Rdiv; apply Rmult_le_pos; [lra|]; left; apply Rinv_0_lt_compat; lra|]. apply (Rmult_lt_reg_r (2 * (mu + la))); [lra|]. unfold Rdiv. rewrite Rmult_assoc, Rinv_l by lra. lra. }
  assert (la / (2 * (mu + la)) <> 0)%R as NZ. { unfold Rdiv. apply Rmult_integral_contrapositive_currified; [lra|]. apply Rinv_neq_0_compat. lra. }
  set (nu := (la / (2 * (mu + la)))%R) in *. rewrite mdiv_ok by exact NZ. cbn [bind fst snd]. rewrite gate_ok by (destruct O; lra). eexists. split; [reflexivity|]. split; [reflexivity|].
  assert (1 + nu = (2 * mu + 3 * la) / (2 * (mu + la)))%R as E1 by (unfold nu; field; lra). assert (1 - 2 * nu = mu / (mu + la))%R as E2 by (unfold nu; field; lra).
  apply iso_lame; [exact O| |].
  - field. destruct O. repeat split; lra.
  - destruct O as [O1 O2]. apply (Rmult_eq_reg_r (2 * (1 + nu) * nu)); [|apply Rmult_integral_contrapositive_currified; lra]. replace ((1 + nu) * (1 - 2 * nu) * la / nu / (2 * (1 + nu)) * (2 * (1 + nu) * nu))%R with ((1 + nu) * ((1 - 2 * nu) * la))%R by (field; lra).
    rewrite E2. replace (mu * (2 * (1 + nu) * nu))%R with ((1 + nu) * (mu * 2 * nu))%R by ring. f_equal. unfold nu. field. lra.
Qed.
Lemma file_lm_zero mu rho : mu <> 0%R -> create_file (Some (rock_file "lm" [0; mu]%R rho)) = UB.
Proof.
  intros H. rewrite file_iso by discriminate. change (String.eqb "lm" "vpvs") with false. cbv iota. change (String.eqb "lm" "km") with false. change (String.eqb "lm" "lm") with true. cbv iota. rewrite mdiv_ok by lra. cbn [bind].
  replace (0 / (2 * (mu + 0)))%R with 0%R by (field; lra). rewrite mdiv_0. reflexivity.
Qed.
Lemma file_en E nu rho : (0 <= nu <= 1 / 2)%R -> create_file (Some (rock_file "en" [E; nu] rho)) = Ok (MIso E nu rho).
Proof. intros H. rewrite file_iso by discriminate. change (String.eqb "en" "vpvs") with false. cbv iota. change (String.eqb "en" "km") with false. change (String.eqb "en" "lm") with false. change (String.eqb "en" "en") with true. cbv iota. cbn [bind fst snd]. rewrite gate_ok by exact H. reflexivity. Qed.
Lemma file_en_bad E nu rho : (nu < 0 \/ 1 / 2 < nu)%R -> create_file (Some (rock_file "en" [E; nu] rho)) = Throw.
Proof. intros H. rewrite file_iso by discriminate. change (String.eqb "en" "vpvs") with false. cbv iota. change (String.eqb "en" "km") with false. change (String.eqb "en" "lm") with false. change (String.eqb "en" "en") with true. cbv iota. cbn [bind fst snd]. rewrite gate_bad by exact H. reflexivity. Qed.
Lemma file_vpvs vp vs rho : (0 < rho)%R -> (0 < vs)%R -> (2 * vs * vs <= vp * vp)%R ->
  create_file (Some (rock_file "vpvs" [vp; vs] rho)) = create_file (Some (rock_file "km" [rho * vp * vp - 4 / 3 * rho * vs * vs; rho * vs * vs]%R rho)) /\
  exists m, create_file (Some (rock_file "vpvs" [vp; vs] rho)) = Ok m /\ density m = rho /\ matrix_of m (lame 3 (rho * vp * vp - 2 * rho * vs * vs) (rho * vs * vs)).
Proof.
  intros Hr Hs Hp. assert (create_file (Some (rock_file "vpvs" [vp; vs] rho)) = create_file (Some (rock_file "km" [rho * vp * vp - 4 / 3 * rho * vs * vs; rho * vs * vs]%R rho))) as E by (rewrite !file_iso by discriminate; reflexivity).
  split; [exact E|]. rewrite E. assert (0 < rho * vs * vs)%R by (apply Rmult_lt_0_compat; [apply Rmult_lt_0_compat|]; assumption).
  destruct (file_km (rho * vp * vp - 4 / 3 * rho * vs * vs) (rho * vs * vs) rho) as (m & Em & Dm & Mm); [assumption| |].
  - assert (rho * (2 * vs * vs) <= rho * (vp * vp))%R by (apply Rmult_le_compat_l; lra). lra.
  - exists m. split; [exact Em|]. split; [exact Dm|]. replace (rho * vp * vp - 2 * rho * vs * vs)%R with (rho * vp * vp - 4 / 3 * rho * vs * vs - 2 / 3 * (rho * vs * vs))%R by field. exact Mm.
Qed.
(* what the isotropic formats accept that has no matrix: nu = 1/2 *)
Lemma file_fluid K rho : K <> 0%R -> exists m, create_file (Some (rock_file "km" [K; 0]%R rho)) = Ok m /\ forall C0, constitutive6 m C0 false = Ok (false, fzero).
Proof.
  intros HK. rewrite file_iso by discriminate. change (String.eqb "km" "vpvs") with false. cbv iota. change (String.eqb "km" "km") with true. cbv iota. rewrite mdiv_ok by lra. cbn [bind fst snd].
  replace ((3 * K - 2 * 0) / (6 * K + 2 * 0))%R with (1 / 2)%R by (field; lra). rewrite gate_ok by lra. eexists. split; [reflexivity|]. intros C0. cbn [constitutive6]. apply iso6_bad. unfold okn. lra.
Qed.
Lemma file_keyword kind p1 p2 rho : kind <> "ti" -> kind <> "anisotropic" -> kind <> "vpvs" -> kind <> "km" -> kind <> "lm" -> kind <> "en" -> create_file (Some (rock_file kind [p1; p2] rho)) = Throw.
Proof.
  intros N1 N2 N3 N4 N5 N6. rewrite file_iso by assumption. rewrite (proj2 (String.eqb_neq kind "vpvs") N3). cbv iota. rewrite (proj2 (String.eqb_neq kind "km") N4), (proj2 (String.eqb_neq kind "lm") N5), (proj2 (String.eqb_neq kind "en") N6). reflexivity.
Qed.
(* every accepted isotropic material has nu in [0, 1/2] *)
Lemma file_result f m : create_file f = Ok m -> match m with MIso E nu rho => (0 <= nu <= 1 / 2)%R | MDiag _ => False | MSym l => zlen l = 21 end.
Proof.
  assert (forall l m, sym_new l = Ok m -> match m with MIso E nu rho => (0 <= nu <= 1 / 2)%R | MDiag _ => False | MSym l => zlen l = 21 end) as HS.
  { intros l m0 E. destruct (Z_lt_le_dec (zlen l) 21) as [L|L]; [rewrite sym_new_short in E by exact L; discriminate|]. rewrite sym_new_ok in E by exact L. injection E as <-. reflexivity. }
  unfold create_file. destruct f as [l|]; [|intros [= <-]; lra]. destruct (rd_word (Some l)) as [str f]. destruct (String.eqb str "ti").
  - destruct (rd_nums 5 f) as [v f2]. destruct (rd_word f2) as [s2 f3]. destruct (negb _); [discriminate|]. destruct (rd_num f3) as [rho f4]. destruct v as [|a [|b [|c [|d [|e [|]]]]]]; try discriminate. apply HS.
  - destruct (String.eqb str "anisotropic").
    + destruct (rd_nums 21 f) as [v f2]. destruct (rd_word f2) as [s2 f3]. destruct (negb _); [discriminate|]. destruct (rd_num f3) as [rho f4]. apply HS.
    + destruct (rd_num f) as [p1 f2]. destruct (rd_num f2) as [p2 f3]. destruct (rd_word f3) as [s2 f4]. destruct (negb _); [discriminate|]. destruct (rd_num f4) as [rho f5].
      destruct (if String.eqb str "vpvs" then _ else _) as [[str' q1] q2]. match goal with |- (bind ?e _ = _) -> _ => destruct e as [[E nu]| |] end; cbn [bind fst snd]; [|discriminate|discriminate].
      unfold Rltb. destruct (Rlt_dec nu 0); [discriminate|]. destruct (Rlt_dec (1 / 2) nu); [discriminate|]. cbn [orb]. intros [= <-]. lra.
Qed.
(* ---- parameter lists *)
Lemma params_ok p : match p with
  | [E] => create_params p = Ok (Some (MIso E 0 0))
  | [E; nu] => create_params p = Ok (Some (MIso E nu 0))
  | [E; nu; rho] => create_params p = Ok (Some (MIso E nu rho))
  | _ => True end.
Proof. destruct p as [|a [|b [|c [|]]]]; exact I || reflexivity. Qed.
Lemma params_size p : (exists r, create_params p = Ok r /\ (r = None <-> ~ (1 <= zlen p <= 6 \/ zlen p = 9 \/ zlen p = 21))).
Proof.
  assert (forall q : list R, 21 <= zlen q -> exists r, (let* m := sym_new q in Ok (Some m)) = Ok r /\ r <> None) as HS by (intros q Hq; rewrite sym_new_ok by exact Hq; eexists; split; [reflexivity|discriminate]).
  assert (forall q : list R, 10 <= zlen q -> exists r, (if zlen q =? 21 then let* m := sym_new q in Ok (Some m) else Ok None) = Ok r /\ (r = None <-> ~ (1 <= zlen q <= 6 \/ zlen q = 9 \/ zlen q = 21))) as HL.
  { intros q Hq. destruct (Z.eqb_spec (zlen q) 21) as [E|E]; [destruct (HS q ltac:(lia)) as (r & Er & Nr); exists r; split; [exact Er|]; split; [intros; contradiction|lia]|]. exists None. split; [reflexivity|]. split; [lia|reflexivity]. }
  destruct p as [|a p]; [exists None; split; [reflexivity|]; split; [cbn; lia|reflexivity]|].
  do 8 (destruct p as [|? p]; [cbn [create_params zlen List.length Z.eqb]; eexists; split; [reflexivity|]; cbn; split; [intros H; (discriminate H || lia)|intros H; (reflexivity || lia)]|]).
  destruct p as [|? p].
  - cbn [create_params]. rewrite sym_new_ok by (cbn; lia). eexists. split; [reflexivity|]. split; [discriminate|]. cbn. lia.
  - cbn [create_params]. apply HL. unfold zlen. cbn [List.length]. lia.
Qed.
Lemma params_ortho a b c d e f g h i : exists m, create_params [a; b; c; d; e; f; g; h; i] = Ok (Some m) /\ density m = 0%R /\
  matrix_of m (fun k l => nthR [a; b; c; 0; 0; 0; d; e; 0; 0; 0; f; 0; 0; 0; g; 0; 0; h; 0; i]%R (tri (exch k) (exch l))).
Proof. cbn [create_params]. rewrite sym_new_ok by (cbn; lia). eexists. split; [reflexivity|]. split; [reflexivity|]. intros C0. cbn [constitutive6]. apply sym6_ok. Qed.
Lemma params_sym p : zlen p = 21 -> exists m, create_params p = Ok (Some m) /\ density m = 0%R /\ matrix_of m (fun k l => nthR p (tri (exch k) (exch l))).
Proof.
  intros H. assert (create_params p = (let* m := sym_new p in Ok (Some m))) as E.
  { assert (21 <= List.length p)%nat as L by (unfold zlen in H; lia). revert H. do 21 (explode p L). intros H. cbn [create_params]. rewrite H. reflexivity. }
  rewrite E, sym_new_ok by lia. eexists. split; [reflexivity|]. split; [reflexivity|]. intros C0. cbn [constitutive6]. apply sym6_ok.
Qed.
Lemma params_diag Ex Ey Ez Gxy Gxz Gyz : exists l, create_params [Ex; Ey; Ez; Gxy; Gxz; Gyz] = Ok (Some (MDiag l)) /\ zlen l = 6 /\ nthR l 0 = Ex /\ nthR l 1 = Ey /\ nthR l 2 = Ez /\ nthR l 3 = Gxy /\
  nthR l 4 = (if Rltb 0 Gxz then Gxz else Gxy) /\ nthR l 5 = (if Rltb 0 Gyz then Gyz else if Rltb 0 Gxz then Gxz else Gxy) /\
  create_params [Ex; Ey; Ez; Gxy; Gxz] = create_params [Ex; Ey; Ez; Gxy; Gxz; 0]%R /\ create_params [Ex; Ey; Ez; Gxy] = create_params [Ex; Ey; Ez; Gxy; 0; 0]%R.
Proof.
  eexists. split; [reflexivity|]. repeat (split; [reflexivity|]). assert (Rltb 0 (-1) = false) as E1 by (unfold Rltb; destruct (Rlt_dec 0 (-1)); [lra|reflexivity]). assert (Rltb 0 0 = false) as E0 by (unfold Rltb; destruct (Rlt_dec 0 0); [lra|reflexivity]).
  unfold create_params, orthoD. rewrite E1, E0. split; reflexivity.
Qed.
