From Verif Require Import Mload_Proofs Mload_Proofs2 Mload_Proofs3 Mload_Spec.
Open Scope Z_scope.

(* C101: materials, volume fractions and density of a grid *)
Theorem C101_grid : forall nd Escale d cells Emod Poiss Es emin, moduli d (zlen cells) = Ok (Emod, Poiss) -> scale_moduli Escale Emod = Ok (Es, emin) -> cells <> [] ->
  (forall c, In c cells -> covered Es Poiss (satnums d) (densities d) c /\ (0 < snd c)%R) ->
  exists L keys num, load_grid nd Escale d cells = Ok L /\ ld_emin L = emin /\
    ascending keys /\ (forall k, In k keys <-> exists c, In c cells /\ key_at Es Poiss (fst c) = k) /\
    ld_mats L = map (fun c => (num (key_at Es Poiss (fst c)), key_at Es Poiss (fst c))) cells /\
    (forall a b, In a keys -> In b keys -> num a = num b -> a = b) /\ (forall j, 0 <= j < zlen keys <-> exists k, In k keys /\ num k = j) /\
    fractions (ld_frac L) /\
    (satnums d = [] -> ld_bysat L = false /\ ld_frac L = map (fun k => volume_if (fun i => same (key_at Es Poiss i) k) cells / all_volume cells)%R keys) /\
    (satnums d <> [] -> ld_bysat L = true /\ (forall c, In c cells -> sat_at (satnums d) (fst c) <= zlen (ld_frac L)) /\
      (exists c, In c cells /\ sat_at (satnums d) (fst c) = zlen (ld_frac L)) /\
      forall s, 1 <= s <= zlen (ld_frac L) -> nthR (ld_frac L) (s - 1) = (volume_if (fun i => sat_at (satnums d) i =? s) cells / all_volume cells)%R) /\
    (densities d = [] -> ld_rho L = Some (-1)%R) /\
    (densities d <> [] -> let S := Rsum (map (fun c => snd c * nthR (densities d) (fst c))%R cells) in
      ((1 < S -> ld_rho L = Some ((S - 1) / all_volume cells)) /\ (S <= 1 -> ld_rho L = Some (S - 1)))%R).
Proof. exact Mload_Proofs2.load_grid_ok. Qed.
Theorem C101_only_if : forall nd Escale d cells L, load_grid nd Escale d cells = Ok L -> exists Emod Poiss Es emin,
  moduli d (zlen cells) = Ok (Emod, Poiss) /\ scale_moduli Escale Emod = Ok (Es, emin) /\
  forall c, In c cells -> covered Es Poiss (satnums d) (densities d) c /\ (nd = false -> (0 < snd c)%R).
Proof. exact Mload_Proofs3.load_grid_inv. Qed.
Theorem C101_uniform : forall nd Escale cells L, load_grid nd Escale None cells = Ok L -> forall c, In c cells -> 0 <= fst c < zlen cells.
Proof. exact Mload_Proofs3.uniform_active. Qed.

(* C132: elastic moduli *)
Theorem C132_given : forall d n E nu, dk_young d = Some E -> dk_poisson d = Some nu -> (moduli (Some d) n = Ok (E, nu) <-> nu <> [] /\ forall x, In x nu -> (0 <= x)%R) /\
  (forall r, moduli (Some d) n = Ok r -> r = (E, nu)) /\ (zlen nu <= zlen E -> (exists x, In x nu /\ (x < 0)%R) -> moduli (Some d) n = Throw).
Proof. exact Mload_Proofs.moduli_given. Qed.
Theorem C132_lame : forall d n l g, dk_young d = None \/ dk_poisson d = None -> dk_lame d = Some l -> dk_shear d = Some g -> l <> [] -> zlen l <= zlen g ->
  (forall i, 0 <= i < zlen l -> (nthR l i + nthR g i <> 0)%R) ->
  exists E nu, zlen E = zlen l /\ zlen nu = zlen l /\ (forall i, 0 <= i < zlen l -> lame_of (nthR E i) (nthR nu i) (nthR l i) (nthR g i)) /\
    ((forall x, In x nu -> (0 <= x)%R) -> moduli (Some d) n = Ok (E, nu)) /\ ((exists x, In x nu /\ (x < 0)%R) -> moduli (Some d) n = Throw).
Proof. exact Mload_Proofs.moduli_lame. Qed.
Theorem C132_bulk : forall d n k g, dk_young d = None \/ dk_poisson d = None -> dk_lame d = None -> dk_bulk d = Some k -> dk_shear d = Some g -> k <> [] -> zlen k <= zlen g ->
  (forall i, 0 <= i < zlen k -> (3 * nthR k i + nthR g i <> 0)%R) ->
  exists E nu, zlen E = zlen k /\ zlen nu = zlen k /\ (forall i, 0 <= i < zlen k -> bulk_of (nthR E i) (nthR nu i) (nthR k i) (nthR g i)) /\
    ((forall x, In x nu -> (0 <= x)%R) -> moduli (Some d) n = Ok (E, nu)) /\ ((exists x, In x nu /\ (x < 0)%R) -> moduli (Some d) n = Throw).
Proof. exact Mload_Proofs.moduli_bulk. Qed.
Theorem C132_permeability : forall d n E nu, dk_young d = None \/ dk_poisson d = None -> dk_shear d = None -> dk_permx d = Some E -> dk_poro d = Some nu -> moduli (Some d) n = Ok (E, nu).
Proof. exact Mload_Proofs.moduli_perm. Qed.
Theorem C132_missing : forall d n, dk_young d = None \/ dk_poisson d = None -> dk_shear d = None -> dk_permx d = None \/ dk_poro d = None -> moduli (Some d) n = Throw.
Proof. exact Mload_Proofs.moduli_none. Qed.
Theorem C132_scaled : forall Escale Emod, Emod <> [] -> (forall x, In x Emod -> (0 < x)%R) -> (0 < Escale)%R ->
  exists Emin, scale_moduli Escale Emod = Ok (map (fun e => e * (Escale / Emin))%R Emod, Some Emin) /\ In Emin Emod /\ (forall x, In x Emod -> (Emin <= x)%R) /\
    In Escale (map (fun e => e * (Escale / Emin))%R Emod) /\ (forall x, In x (map (fun e => e * (Escale / Emin))%R Emod) -> (Escale <= x)%R).
Proof. exact Mload_Proofs.scale_ok. Qed.
Theorem C132_not_scaled : forall Escale Emod, (Escale <= 0)%R -> scale_moduli Escale Emod = Ok (Emod, None).
Proof. exact Mload_Proofs.scale_off. Qed.

(* C133: rock lists *)
Theorem C133_single : forall fl files Escale nm rest m scaled emin cells, create_file (files nm) = Ok m -> scale_rocks Escale [m] = Ok ([scaled], emin) -> fl 1%R = 1%R ->
  exists M, load_rocklist fl files Escale 1 (Some (RWord nm :: rest)) None cells = Ok M /\ rk_mats M = map (fun _ => scaled) cells /\ rk_frac M = [1%R] /\ rk_bysat M = true /\ rk_rho M = None.
Proof. exact Mload_Proofs3.rocks_single. Qed.
Theorem C133_cyclic : forall u fl files Escale nms rest cache scaled emin cells, 2 <= zlen nms -> mapM (fun n => create_file (files n)) nms = Ok cache ->
  scale_rocks Escale cache = Ok (scaled, emin) -> (0 <= u < 1)%R -> rounds u fl -> cells <> [] -> (forall c, In c cells -> (0 < snd c)%R) ->
  let nums := map (fun i => i mod zlen nms) (zrange 0 (zlen cells)) in
  exists M t, load_rocklist fl files Escale (zlen nms) (Some (map RWord nms ++ rest)) None cells = Ok M /\
    rk_mats M = map (fun j => nth (Z.to_nat j) scaled (MIso 0 0 0)) nums /\ rk_bysat M = true /\ rk_rho M = None /\ rk_emin M = emin /\
    zlen (rk_frac M) = zlen nms /\ (forall j, 0 <= j < zlen nms -> nthR (rk_frac M) j = (tally nums (map snd cells) j / t)%R) /\
    ((1 - u) ^ List.length nms * all_volume cells <= t <= (1 + u) ^ List.length nms * all_volume cells)%R /\ (forall x, In x (rk_frac M) -> 0 <= x)%R /\
    (/ (1 + u) ^ List.length nms <= Rsum (rk_frac M) <= / (1 - u) ^ List.length nms)%R.
Proof. exact Mload_Proofs3.rocks_cyclic. Qed.
Theorem C133_regions : forall u fl files Escale nms rest cache scaled emin satnum cells, mapM (fun n => create_file (files n)) nms = Ok cache ->
  scale_rocks Escale cache = Ok (scaled, emin) -> (0 <= u < 1)%R -> rounds u fl -> cells <> [] -> (forall c, In c cells -> (0 < snd c)%R) ->
  (forall c, In c cells -> 0 <= fst c < zlen satnum /\ 1 <= sat_at satnum (fst c) <= zlen nms) ->
  exists M t, load_rocklist fl files Escale (zlen nms) (Some (map RWord nms ++ rest)) (Some (Some satnum)) cells = Ok M /\
    rk_mats M = map (fun c => nth (Z.to_nat (sat_at satnum (fst c) - 1)) scaled (MIso 0 0 0)) cells /\ rk_bysat M = true /\ rk_rho M = None /\ rk_emin M = emin /\
    zlen (rk_frac M) = zlen nms /\ (forall s, 1 <= s <= zlen nms -> nthR (rk_frac M) (s - 1) = (volume_if (fun k => (sat_at satnum k =? s)%Z) cells / t)%R) /\
    ((1 - u) ^ List.length nms * all_volume cells <= t <= (1 + u) ^ List.length nms * all_volume cells)%R /\ (forall x, In x (rk_frac M) -> 0 <= x)%R /\
    (/ (1 + u) ^ List.length nms <= Rsum (rk_frac M) <= / (1 - u) ^ List.length nms)%R.
Proof. exact Mload_Proofs3.rocks_sat. Qed.
Theorem C133_only_if : forall fl files Escale mats names satnum cells M, load_rocklist fl files Escale mats names satnum cells = Ok M ->
  (satnum = None -> cells <> [] -> 0 < mats) /\ satnum <> Some None /\
  (forall s, satnum = Some (Some s) -> forall c, In c cells -> 0 <= fst c < zlen s /\ 1 <= sat_at s (fst c) <= Z.max 0 mats).
Proof. exact Mload_Proofs3.rocks_missing. Qed.
Theorem C133_scaled : forall Escale l, (0 < Escale)%R -> Forall isotropic l -> exists Emin, scale_rocks Escale l = Ok (map (stiffer (Escale / Emin)) l, Some Emin) /\
  (0 < Emin <= 10000000000)%R /\ (forall m, In m l -> (Emin <= young m)%R) /\ (Emin = 10000000000%R \/ exists m, In m l /\ Emin = young m).
Proof. exact Mload_Proofs3.scale_rocks_ok. Qed.
Theorem C133_not_scaled : forall Escale l, (Escale <= 0)%R -> scale_rocks Escale l = Ok (l, None).
Proof. exact Mload_Proofs3.scale_rocks_off. Qed.
Theorem C133_isotropic_only : forall Escale l m r, (0 < Escale)%R -> In m l -> (forall E nu rho, m <> MIso E nu rho) -> scale_rocks Escale l <> Ok r.
Proof. exact Mload_Proofs3.scale_rocks_ub. Qed.
Theorem C133_names : forall files names rest, read_rocks files (List.length names) (Some (map RWord names ++ rest)%list) = mapM (fun n => create_file (files n)) names.
Proof. exact Mload_Proofs3.read_rocks_names. Qed.
Theorem C133_exact : forall fl l, (forall x, fl x = x) -> float_sum fl l = Rsum l.
Proof. exact Mload_Proofs3.float_sum_exact. Qed.

Example C101_case : exists Es, moduli (Some sample_deck) 3 = Ok ([2; 4; 2]%R, [0.25; 0.25; 0.25]%R) /\ scale_moduli (-1) [2; 4; 2]%R = Ok (Es, None) /\
  forall c, In c sample_cells -> covered Es [0.25; 0.25; 0.25]%R (satnums (Some sample_deck)) (densities (Some sample_deck)) c /\ (0 < snd c)%R.
Proof. exact sample_grid. Qed.
Example C133_case : rounds 0 (fun x => x) /\ Forall isotropic [MIso 100 (38 / 100) 3; MIso 50 (1 / 4) 2].
Proof. split; [exact rounds_id|]. repeat constructor; eexists _, _, _; (split; [reflexivity|lra]). Qed.
Print Assumptions C101_grid. Print Assumptions C101_only_if. Print Assumptions C101_uniform. Print Assumptions C132_given. Print Assumptions C132_lame. Print Assumptions C132_bulk. Print Assumptions C132_permeability. Print Assumptions C132_missing. Print Assumptions C132_scaled. Print Assumptions C132_not_scaled. Print Assumptions C133_single. Print Assumptions C133_cyclic. Print Assumptions C133_regions. Print Assumptions C133_only_if. Print Assumptions C133_scaled. Print Assumptions C133_not_scaled. Print Assumptions C133_isotropic_only. Print Assumptions C133_names. Print Assumptions C133_exact.
