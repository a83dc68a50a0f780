From Verif Require Import Elast_Proofs Elast_Proofs2 Elast_Proofs3 Elast_Proofs4 Elast_Proofs5 Elast_Proofs6 Elast_Proofs7 Elast_Proofs8 Elast_Proofs9 Elast_Proofs10 Elast_Spec.
Open Scope string_scope.
Open Scope Z_scope.

(* C89: isotropic stiffness and compliance *)
Theorem C89_inverse : forall E nu, okn nu -> (0 < E)%R -> exists C K, iso6 E nu false = Ok (true, C) /\ iso6 E nu true = Ok (true, K) /\ inverses 6 C K /\ symmetric 6 C /\ symmetric 6 K /\ pos_def 6 C /\ pos_def 6 K.
Proof. exact Elast_Proofs.iso_pair. Qed.
Theorem C89_stiffness : forall E nu, okn nu -> exists C, iso6 E nu false = Ok (true, C) /\ same 6 C (lame 3 (E * nu / ((1 + nu) * (1 - 2 * nu))) (E / (2 * (1 + nu)))).
Proof. exact Elast_Proofs.iso6_stiff. Qed.
Theorem C89_compliance : forall E nu, okn nu -> E <> 0%R -> exists C, iso6 E nu true = Ok (true, C) /\
  same 6 C (fun i j => if (i <? 3) && (j <? 3) then (if i =? j then 1 / E else - nu / E) else if i =? j then (2 + 2 * nu) / E else 0)%R.
Proof. exact Elast_Proofs.iso6_compl. Qed.
Theorem C89_range : forall E nu inv, ~ okn nu -> iso6 E nu inv = Ok (false, fzero).
Proof. exact Elast_Proofs.iso6_bad. Qed.
Theorem C89_zero_modulus : forall nu, okn nu -> iso6 0 nu true = UB.
Proof. exact Elast_Proofs.iso6_zero. Qed.
Theorem C89_plane : forall E nu, okn nu -> (0 < E)%R -> exists C K, iso3 E nu fzero false = Ok (true, C) /\ iso3 E nu fzero true = Ok (true, K) /\ same 3 C (lame 2 (E * nu / ((1 + nu) * (1 - 2 * nu))) (E / (2 * (1 + nu)))) /\ inverses 3 C K.
Proof. exact Elast_Proofs.iso3_pair. Qed.

(* C90: elastic parameter conversions *)
Theorem C90_bulk_shear : forall K mu rho, (0 < mu)%R -> (2 * mu <= 3 * K)%R -> exists m, create_file (Some (rock_file "km" [K; mu] rho)) = Ok m /\ density m = rho /\ matrix_of m (lame 3 (K - 2 / 3 * mu) mu).
Proof. exact Elast_Proofs2.file_km. Qed.
Theorem C90_lame : forall la mu rho, (0 < mu)%R -> (0 < la)%R -> exists m, create_file (Some (rock_file "lm" [la; mu] rho)) = Ok m /\ density m = rho /\ matrix_of m (lame 3 la mu).
Proof. exact Elast_Proofs2.file_lm. Qed.
Theorem C90_lame_zero : forall mu rho, mu <> 0%R -> create_file (Some (rock_file "lm" [0; mu]%R rho)) = UB.
Proof. exact Elast_Proofs2.file_lm_zero. Qed.
Theorem C90_young_poisson : forall E nu rho, okn nu -> exists m, create_file (Some (rock_file "en" [E; nu] rho)) = Ok m /\ density m = rho /\ matrix_of m (lame 3 (E * nu / ((1 + nu) * (1 - 2 * nu))) (E / (2 * (1 + nu)))).
Proof. exact Elast_Proofs10.en_file. Qed.
Theorem C90_velocities : forall vp vs rho, (0 < rho)%R -> (0 < vs)%R -> (2 * vs * vs <= vp * vp)%R ->
  create_file (Some (rock_file "vpvs" [vp; vs] rho)) = create_file (Some (rock_file "km" [rho * vp * vp - 4 / 3 * rho * vs * vs; rho * vs * vs]%R rho)) /\
  exists m, create_file (Some (rock_file "vpvs" [vp; vs] rho)) = Ok m /\ density m = rho /\ matrix_of m (lame 3 (rho * vp * vp - 2 * rho * vs * vs) (rho * vs * vs)).
Proof. exact Elast_Proofs2.file_vpvs. Qed.
Theorem C90_range : forall E nu rho, (nu < 0 \/ 1 / 2 < nu)%R -> create_file (Some (rock_file "en" [E; nu] rho)) = Throw.
Proof. exact Elast_Proofs2.file_en_bad. Qed.

(* C91: anisotropic input *)
Theorem C91_file : forall l rho, zlen l = 21 -> exists m, create_file (Some (rock_file "anisotropic" l rho)) = Ok m /\ density m = 0%R /\ matrix_of m (fun i j => nthR l (tri (exch i) (exch j))).
Proof. exact Elast_Proofs10.aniso_file. Qed.
Theorem C91_transverse : forall a b c d e rho, exists m, create_file (Some (rock_file "ti" [a; b; c; d; e] rho)) = Ok m /\ density m = 0%R /\ matrix_of m (fun i j => ti_matrix a b c d e (exch i) (exch j)).
Proof. exact Elast_Proofs10.ti_file. Qed.
Theorem C91_parameters : forall p, zlen p = 21 -> exists m, create_params p = Ok (Some m) /\ density m = 0%R /\ matrix_of m (fun k l => nthR p (tri (exch k) (exch l))).
Proof. exact Elast_Proofs2.params_sym. Qed.
Theorem C91_energy : forall (V : fmat) x, quad 6 (fun i j => V (exch i) (exch j)) x = quad 6 V (fun i => x (exch i)).
Proof. exact Elast_Proofs2.sym_energy. Qed.
Theorem C91_short : forall Cu, zlen Cu < 21 -> sym_new Cu = UB.
Proof. exact Elast_Proofs2.sym_new_short. Qed.

(* C92: what is left of a previous matrix *)
Theorem C92_isotropic : forall E nu rho C0 C1 inv, constitutive6 (MIso E nu rho) C0 inv = constitutive6 (MIso E nu rho) C1 inv.
Proof. exact Elast_Proofs2.stale_iso. Qed.
Theorem C92_symmetric : forall Cu m, sym_new Cu = Ok m -> matrix_of m (fun i j => nthR Cu (tri (exch i) (exch j))).
Proof. exact Elast_Proofs2.sym_matrix. Qed.
Theorem C92_diagonal : forall E C0, zlen E = 6 -> exists C, diag6 E C0 false = Ok (true, C) /\ forall i j, C i j = if (i =? j) && (0 <=? i) && (i <? 6) then nthR E i else C0 i j.
Proof. exact Elast_Proofs2.diag6_ok. Qed.
Theorem C92_diagonal_inverse : forall E C0, zlen E = 6 -> (forall i, 0 <= i < 6 -> nthR E i <> 0%R) -> exists C, diag6 E C0 true = Ok (true, C) /\ forall i j, C i j = if (i =? j) && (0 <=? i) && (i <? 6) then (1 / nthR E i)%R else C0 i j.
Proof. exact Elast_Proofs2.diag6_inv. Qed.
Theorem C92_plane : forall E nu C0 inv, okn nu -> (0 < E)%R -> exists C, iso3 E nu C0 inv = Ok (true, C) /\
  (forall i j, C i j = if (i =? 0) && (j =? 0) || (i =? 1) && (j =? 1) then (if inv then (1 - nu * nu) / E else E * (1 - nu) / ((1 + nu) * (1 - 2 * nu)))%R
     else if (i =? 0) && (j =? 1) || (i =? 1) && (j =? 0) then (if inv then - (nu + nu * nu) / E else E * nu / ((1 + nu) * (1 - 2 * nu)))%R
     else if (i =? 2) && (j =? 2) then (if inv then (2 + 2 * nu) / E else E / (2 * (1 + nu)))%R else C0 i j).
Proof. exact Elast_Proofs.iso3_ok. Qed.
Theorem C92_plane_refused : forall E nu C0 inv, ~ okn nu -> iso3 E nu C0 inv = Ok (false, C0).
Proof. exact Elast_Proofs.iso3_bad. Qed.
Theorem C92_plane_orthotropic : forall m C inv, (forall E nu rho, m <> MIso E nu rho) -> constitutive3 m C inv = Ok (false, C).
Proof. exact Elast_Proofs10.plane_other. Qed.

(* C95: element stiffness *)
Theorem C95_strain : forall dim x J, dim = 2 \/ dim = 3 -> exists B gr, bmatrix dim x J = Ok B /\ (forall a m, 0 <= a < 2 ^ dim -> p1_grad dim a x m = Ok (gr a m)) /\
  (forall u i, 0 <= i < comps dim -> mvec (dim * 2 ^ dim) B u i = strain dim (disp_gradient dim (phys_gradient dim J gr) u) i) /\
  (forall X c G, jacobian_of dim X gr J -> forall i, 0 <= i < comps dim -> mvec (dim * 2 ^ dim) B (affine_disp dim X c G) i = strain dim G i).
Proof. exact Elast_Proofs3.patch. Qed.
Theorem C95_rigid : forall dim x J X c G gr, dim = 2 \/ dim = 3 -> (forall a m, 0 <= a < 2 ^ dim -> p1_grad dim a x m = Ok (gr a m)) -> jacobian_of dim X gr J -> (forall k l, 0 <= k < dim -> 0 <= l < dim -> G k l = (- G l k)%R) ->
  exists B, bmatrix dim x J = Ok B /\ forall i, 0 <= i < comps dim -> mvec (dim * 2 ^ dim) B (affine_disp dim X c G) i = 0%R.
Proof. exact Elast_Proofs10.rigid. Qed.
Theorem C95_entries : forall n B C w i j, stiffness n B C w i j = (w * Sum n (fun k => Sum n (fun l => B k i * C k l * B l j)))%R.
Proof. exact Elast_Proofs3.stiff_entry. Qed.
Theorem C95_symmetric : forall n B C w i j, symmetric n C -> stiffness n B C w i j = stiffness n B C w j i.
Proof. exact Elast_Proofs3.stiff_sym. Qed.
Theorem C95_energy : forall n m B C w x, quad m (stiffness n B C w) x = (w * quad n C (mvec m B x))%R.
Proof. exact Elast_Proofs3.stiff_quad. Qed.
Theorem C95_semidefinite : forall n m B C w, psd n C -> (0 <= w)%R -> psd m (stiffness n B C w).
Proof. exact Elast_Proofs3.stiff_psd. Qed.
Theorem C95_kernel : forall n m B C w x, (forall i, 0 <= i < n -> mvec m B x i = 0%R) -> forall i, mvec m (stiffness n B C w) x i = 0%R.
Proof. exact Elast_Proofs3.stiff_kernel. Qed.

(* C103: isotropic wave speeds *)
Theorem C103_speeds : forall eig C lambda mu phi theta rho, eigen_ok eig -> same 6 C (lame 3 lambda mu) -> (0 <= mu)%R -> (0 <= 3 * lambda + 2 * mu)%R -> (0 < rho)%R ->
  wave_speeds eig C phi theta rho = Ok [sqrt ((lambda + 2 * mu) / rho); sqrt (mu / rho); sqrt (mu / rho)]%R.
Proof. exact Elast_Proofs7.iso_speeds. Qed.

(* C104: wave speeds of the driver *)
Theorem C104_speeds : forall eig C phi theta rho, eigen_ok eig -> symmetric 6 C -> psd 6 C -> (0 < rho)%R ->
  exists v, wave_speeds eig C phi theta rho = Ok v /\ speeds_of C (direction phi theta) rho v.
Proof. exact Elast_Proofs7.speeds_ok. Qed.
Theorem C104_unique : forall C n rho v w, (0 < rho)%R -> speeds_of C n rho v -> speeds_of C n rho w -> v = w.
Proof. exact Elast_Proofs7.speeds_unique. Qed.
Theorem C104_report : forall eig C dip azimuth rho, eigen_ok eig -> symmetric 6 C -> psd 6 C -> (-1 < rho)%R ->
  exists v M, report eig C dip azimuth rho = Ok (Some v, M) /\ (forall i j, M i j = C (exch i) (exch j)) /\ speeds_of (fun i j => M (exch i) (exch j)) (direction dip azimuth) 1 v.
Proof. exact Elast_Proofs7.report_ok. Qed.
Theorem C104_order : symmetric 6 odd_rock /\ psd 6 odd_rock /\ forall eig, eigen_ok eig -> exists v M, report eig odd_rock 0 0 1 = Ok (Some v, M) /\ ~ speeds_of M (direction 0 0) 1 v.
Proof. exact Elast_Proofs7.report_order. Qed.
Theorem C104_absent : forall eig C dip azimuth rho, (rho <= -1)%R -> report eig C dip azimuth rho = Ok (None, voigt_swap C).
Proof. exact Elast_Proofs7.report_none. Qed.

(* C121: the upscaled stiffness *)
Theorem C121_exists : forall nodes cells M F s color Cm Escale Emin C0 C1 C2, elastic_problem nodes cells M F s color Cm -> nonneg cells -> (forall c, In c cells -> psd 6 (Cm c)) -> volume cells <> 0%R -> ((0 < Escale)%R -> Emin <> 0%R) ->
  exists s1, assemble color (-1) true C0 s = Ok s1 /\ exists u sig, load_cases color cells Escale Emin C1 C2 s1 u sig.
Proof. exact Elast_Proofs9.upscaled_exists. Qed.
Theorem C121_symmetric : forall nodes cells M F s color Cm C0 C1 C2 s1 Escale Emin u sig, elastic_problem nodes cells M F s color Cm -> assemble color (-1) true C0 s = Ok s1 -> load_cases color cells Escale Emin C1 C2 s1 u sig -> symmetric 6 sig /\ symmetric 6 (clamped sig).
Proof. exact Elast_Proofs9.upscaled_symmetric. Qed.
Theorem C121_bounds : forall nodes cells M F s color Cm C0 C1 C2 s1 Escale Emin u sig, elastic_problem nodes cells M F s color Cm -> assemble color (-1) true C0 s = Ok s1 -> load_cases color cells Escale Emin C1 C2 s1 u sig ->
  nonneg cells -> (forall c, In c cells -> psd 6 (Cm c)) -> (0 < factor Escale Emin)%R -> psd 6 sig /\ forall x, (quad 6 sig x * factor Escale Emin <= quad 6 (mean Cm cells) x)%R.
Proof. exact Elast_Proofs9.upscaled_bounds. Qed.
Theorem C121_energy : forall nodes cells M F s color Cm C0 C1 C2 s1 Escale Emin u sig, elastic_problem nodes cells M F s color Cm -> assemble color (-1) true C0 s = Ok s1 -> load_cases color cells Escale Emin C1 C2 s1 u sig ->
  forall i j, 0 <= i < 6 -> 0 <= j < 6 -> (sig i j * factor Escale Emin)%R = (mean Cm cells i j - Sum (as_neq s) (fun e => Sum (as_neq s) (fun f => nthR (u i) e * coef (as_A s1) e f * nthR (u j) f)) / volume cells)%R.
Proof. exact Elast_Proofs9.upscaled_energy. Qed.
Theorem C121_unique : forall nodes cells M F s color color' Cm C0 C1 C2 D0 D1 D2 s1 t1 Escale Emin u w sig tau, elastic_problem nodes cells M F s color Cm -> elastic_problem nodes cells M F s color' Cm ->
  assemble color (-1) true C0 s = Ok s1 -> load_cases color cells Escale Emin C1 C2 s1 u sig -> assemble color' (-1) true D0 s = Ok t1 -> load_cases color' cells Escale Emin D1 D2 t1 w tau -> same 6 sig tau.
Proof. exact Elast_Proofs9.upscaled_unique. Qed.
Theorem C121_cleared : forall C i j, (Rabs (clamped C i j - C i j) < 1 / 10000)%R /\ (clamped C i j = C i j \/ clamped C i j = 0%R) /\ ((1 / 10000 <= Rabs (C i j))%R -> clamped C i j = C i j).
Proof. exact Elast_Proofs10.clamp_close. Qed.

(* C122: assembly of the elastic problem *)
Theorem C122_assembled : forall nodes cells M F fuel s color Cm t loadcase matrix C0, grid_ok 3 nodes cells M F -> wf_mpcs 3 M -> init_assembly fuel 3 nodes cells M F = Some (Ok s) ->
  (forall c, In c (concat (concat color)) -> In (cg_verts c) cells /\ matrix_of (cg_mat c) (Cm c)) -> reached color s t ->
  exists t', assemble color loadcase matrix C0 t = Ok t' /\
  (forall e f, 0 <= e -> 0 <= f -> coef (as_A t') e f = if matrix then Rsum (map (fun c => el_matrix 3 s (stiff_elem Cm c) e f) (concat (concat color))) else coef (as_A t) e f) /\
  (forall e, 0 <= e -> nthR (as_b t') e = if -1 <? loadcase then Rsum (map (fun c => el_load 3 s (load_elem Cm loadcase c) e) (concat (concat color))) else nthR (as_b t) e).
Proof. exact Elast_Proofs4.assemble_ok. Qed.

(* C123: creation of materials *)
Theorem C123_isotropic : forall p, match p with
  | [E] => create_params p = Ok (Some (MIso E 0 0))
  | [E; nu] => create_params p = Ok (Some (MIso E nu 0))
  | [E; nu; rho] => create_params p = Ok (Some (MIso E nu rho))
  | _ => True end.
Proof. exact Elast_Proofs2.params_ok. Qed.
Theorem C123_sizes : forall p, (exists r, create_params p = Ok r /\ (r = None <-> ~ (1 <= zlen p <= 6 \/ zlen p = 9 \/ zlen p = 21))).
Proof. exact Elast_Proofs2.params_size. Qed.
Theorem C123_diagonal : forall Ex Ey Ez Gxy Gxz Gyz, exists l, create_params [Ex; Ey; Ez; Gxy; Gxz; Gyz] = Ok (Some (MDiag l)) /\ zlen l = 6 /\ nthR l 0 = Ex /\ nthR l 1 = Ey /\ nthR l 2 = Ez /\ nthR l 3 = Gxy /\
  nthR l 4 = (if Rltb 0 Gxz then Gxz else Gxy) /\ nthR l 5 = (if Rltb 0 Gyz then Gyz else if Rltb 0 Gxz then Gxz else Gxy) /\
  create_params [Ex; Ey; Ez; Gxy; Gxz] = create_params [Ex; Ey; Ez; Gxy; Gxz; 0]%R /\ create_params [Ex; Ey; Ez; Gxy] = create_params [Ex; Ey; Ez; Gxy; 0; 0]%R.
Proof. exact Elast_Proofs2.params_diag. Qed.
Theorem C123_orthotropic : forall a b c d e f g h i, exists m, create_params [a; b; c; d; e; f; g; h; i] = Ok (Some m) /\ density m = 0%R /\
  matrix_of m (fun k l => nthR [a; b; c; 0; 0; 0; d; e; 0; 0; 0; f; 0; 0; 0; g; 0; 0; h; 0; i]%R (tri (exch k) (exch l))).
Proof. exact Elast_Proofs2.params_ortho. Qed.
Theorem C123_file : forall f m, create_file f = Ok m -> match m with MIso E nu rho => (0 <= nu <= 1 / 2)%R | MDiag _ => False | MSym l => zlen l = 21 end.
Proof. exact Elast_Proofs2.file_result. Qed.
Theorem C123_keyword : forall kind p1 p2 rho, kind <> "ti" -> kind <> "anisotropic" -> kind <> "vpvs" -> kind <> "km" -> kind <> "lm" -> kind <> "en" -> create_file (Some (rock_file kind [p1; p2] rho)) = Throw.
Proof. exact Elast_Proofs2.file_keyword. Qed.
Theorem C123_fluid : forall K rho, K <> 0%R -> exists m, create_file (Some (rock_file "km" [K; 0]%R rho)) = Ok m /\ forall C0, constitutive6 m C0 false = Ok (false, fzero).
Proof. exact Elast_Proofs2.file_fluid. Qed.
Theorem C123_no_file : create_file None = Ok (MIso 100 (38 / 100) 3).
Proof. exact Elast_Proofs10.file_missing. Qed.
Theorem C123_no_density : forall kind p1 p2 w t, kind <> "ti" -> kind <> "anisotropic" -> w <> "density" -> create_file (Some (RWord kind :: RNum p1 :: RNum p2 :: RWord w :: t)%list) = Throw.
Proof. exact Elast_Proofs10.file_no_density. Qed.

Example C89_case : okn (1 / 4) /\ inverses 6 ident ident.
Proof. exact ex_iso. Qed.
Example C90_case : (0 < 1)%R /\ (2 * 1 <= 3 * 5)%R.
Proof. exact ex_km. Qed.
(* the unit square *)
Example C95_case : exists gr, (forall a m, 0 <= a < 2 ^ 2 -> p1_grad 2 a (fun _ => 1 / 2)%R m = Ok (gr a m)) /\ jacobian_of 2 square_corners gr ident.
Proof. exact ex_square. Qed.
(* a rock whose Christoffel matrix depends on the order of the components *)
Example C104_case : symmetric 6 odd_rock /\ psd 6 odd_rock.
Proof. exact (conj odd_sym odd_psd). Qed.
Example C121_case : (exists s, elastic_problem 12 ex_cells ex_M ex_F s ex_color ex_C) /\ nonneg ex_cells /\ (forall c, In c ex_cells -> psd 6 (ex_C c)) /\ volume ex_cells <> 0%R.
Proof. exact ex_case. Qed.
Print Assumptions C89_inverse. Print Assumptions C89_stiffness. Print Assumptions C89_compliance. Print Assumptions C89_range. Print Assumptions C89_zero_modulus. Print Assumptions C89_plane. Print Assumptions C90_bulk_shear. Print Assumptions C90_lame. Print Assumptions C90_lame_zero. Print Assumptions C90_young_poisson. Print Assumptions C90_velocities. Print Assumptions C90_range. Print Assumptions C91_file. Print Assumptions C91_transverse. Print Assumptions C91_parameters. Print Assumptions C91_energy. Print Assumptions C91_short. Print Assumptions C92_isotropic. Print Assumptions C92_symmetric. Print Assumptions C92_diagonal. Print Assumptions C92_diagonal_inverse. Print Assumptions C92_plane. Print Assumptions C92_plane_refused. Print Assumptions C92_plane_orthotropic. Print Assumptions C95_strain. Print Assumptions C95_rigid. Print Assumptions C95_entries. Print Assumptions C95_symmetric. Print Assumptions C95_energy. Print Assumptions C95_semidefinite. Print Assumptions C95_kernel. Print Assumptions C103_speeds. Print Assumptions C104_speeds. Print Assumptions C104_unique. Print Assumptions C104_report. Print Assumptions C104_order. Print Assumptions C104_absent. Print Assumptions C121_exists. Print Assumptions C121_symmetric. Print Assumptions C121_bounds. Print Assumptions C121_energy. Print Assumptions C121_unique. Print Assumptions C121_cleared. Print Assumptions C122_assembled. Print Assumptions C123_isotropic. Print Assumptions C123_sizes. Print Assumptions C123_diagonal. Print Assumptions C123_orthotropic. Print Assumptions C123_file. Print Assumptions C123_keyword. Print Assumptions C123_fluid. Print Assumptions C123_no_file. Print Assumptions C123_no_density.
