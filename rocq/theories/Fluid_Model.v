(* Rock curves, mobilities, fractional flow, CFL factors and cell velocities:
   RockJfunc.hpp, RockAnisotropicRelperm.hpp, ReservoirPropertyCommon_impl.hpp,
   ReservoirPropertyCapillary_impl.hpp, ReservoirPropertyCapillaryAnisotropicRelperm_impl.hpp,
   SimulatorUtilities.hpp. *)
From Verif Require Export Rprop_Model Mim_Model.
From Coq Require Export Ascii.
Open Scope Z_scope.

(* ---- RockJfunc.hpp ---- *)
(* 220-229 the members: the tables krw_, kro_, Jfunc_ are NonuniformTableLinear of opm-common (values,
   derivative and inverse are functions here), and the scaling flag, sigma cos(theta), s_min_, s_max_ *)
Record jrock := mkJRock { jr_krw : R -> R; jr_kro : R -> R; jr_dkrw : R -> R; jr_dkro : R -> R;
  jr_J : R -> R; jr_dJ : R -> R; jr_Jinv : R -> R; jr_use : bool; jr_sct : R; jr_smin : R; jr_smax : R }.
(* 106, 121, 137: sqrt(trace(perm)/(numRows*poro)); a quotient or root that is not a number is UB *)
Definition sqrt_k_phi (K : mat) (poro : R) : res R :=
  let* t := mtrace K in
  let* q := mdiv t (IZR (m_rows K) * poro) in
  if Rltb q 0 then UB else Ok (sqrt q).
(* 100-112 capPress; 115-127 capPressDeriv (the same with the derivative of the table) *)
Definition jscaled (r : jrock) (f : R -> R) (K : mat) (poro s : R) : res R :=
  if jr_use r then let* q := sqrt_k_phi K poro in mdiv (f s * jr_sct r) q else Ok (f s).
(* 100-112 capPress *)
Definition cap_press (r : jrock) (K : mat) (poro s : R) : res R := jscaled r (jr_J r) K poro s.
(* 115-127 capPressDeriv *)
Definition cap_press_deriv (r : jrock) (K : mat) (poro s : R) : res R := jscaled r (jr_dJ r) K poro s.
(* 130-145 satFromCapPress *)
Definition sat_from_cap_press (r : jrock) (K : mat) (poro p : R) : res R :=
  let* s := if jr_use r then
      let* q := sqrt_k_phi K poro in let* x := mdiv (p * q) (jr_sct r) in Ok (jr_Jinv r x)
    else Ok (jr_Jinv r p) in
  Ok (smin (jr_smax r) (smax (jr_smin r) s)).
(* std::istream as far as 165-186 use it: the characters left, eofbit and failbit *)
Record ist := mkIst { is_rest : list ascii; is_eof : bool; is_fail : bool }.
(* peek(): the sentry of an unformatted input function fails on a stream that is not good *)
(* 165, 170, 177 *)
Definition is_peek (s : ist) : option ascii * ist :=
  if is_eof s || is_fail s then (None, mkIst (is_rest s) (is_eof s) true)
  else match is_rest s with [] => (None, mkIst [] true false) | c :: _ => (Some c, s) end.
(* get(c) on a good stream *)
(* 173 *)
Definition is_get (s : ist) : option ascii * ist :=
  if is_eof s || is_fail s then (None, mkIst (is_rest s) (is_eof s) true)
  else match is_rest s with [] => (None, mkIst [] true true) | c :: t => (Some c, mkIst t false false) end.
(* the delimiter of getline, 169, 176 *)
Definition newline : ascii := ascii_of_nat 10.
(* 169, 176: what follows the next end of line *)
Fixpoint after_line (l : list ascii) : option (list ascii) :=
  match l with [] => None | c :: t => if Ascii.eqb c newline then Some t else after_line t end.
(* std::getline into a line that is thrown away *)
(* 169, 176 *)
Definition is_getline (s : ist) : ist :=
  if is_eof s || is_fail s then mkIst (is_rest s) (is_eof s) true
  else match after_line (is_rest s) with
       | Some t => mkIst t false false
       | None => mkIst [] true (match is_rest s with [] => true | _ => false end)
       end.
(* 166-183: the comment loop; one turn reads at least one character, so the length of the file is
   enough fuel (None: out of fuel) *)
Fixpoint skip_loop (fuel : nat) (c : option ascii) (s : ist) : option ist :=
  match c with
  | Some ch =>
      if (Ascii.eqb ch "-" || Ascii.eqb ch "#") && negb (is_fail s) then
        match fuel with
        | O => None
        | S fuel =>
            if Ascii.eqb ch "#" then
              let '(c, s) := is_peek (is_getline s) in skip_loop fuel c s
            else
              let '(c, s) := is_get s in
              match c with
              | Some ch' =>
                  if Ascii.eqb ch' "-" then let '(c, s) := is_peek (is_getline s) in skip_loop fuel c s
                  else skip_loop fuel c (mkIst (ch' :: is_rest s) false false)
              | None => skip_loop fuel (Some ch) s
              end
        end
      else Some s
  | None => Some s
  end.
(* 164-186: what is left of the file after the comment header; Throw when the stream has failed *)
Definition skip_header (file : list ascii) : res (list ascii) :=
  let '(c, s) := is_peek (mkIst file false false) in
  match skip_loop (Datatypes.S (length file)) c s with
  | Some s => if is_fail s then Throw else Ok (is_rest s)
  | None => UB
  end.
(* 187-193: complete rows of four numbers; None is a token that is not a number. A last row that is
   not complete is dropped without notice; a token that is no number makes the reading stop. *)
Fixpoint jrock_rows (toks : list (option R)) : res (list (R * R * R * R)) :=
  match toks with
  | Some a :: Some b :: Some c :: Some d :: t => let* rows := jrock_rows t in Ok ((a, b, c, d) :: rows)
  | _ => if forallb (fun o => match o with Some _ => true | None => false end) toks then Ok [] else Throw
  end.
(* 194-212: the columns, with krw set to zero at the beginning and kro at the end; svals.front() etc.
   of an empty table are UB *)
Record jtable := mkJTab { jt_s : list R; jt_krw : list R; jt_kro : list R; jt_J : list R; jt_smin : R; jt_smax : R }.
(* 194-212 *)
Definition read_table (rows : list (R * R * R * R)) : res jtable :=
  let sv := map (fun r => fst (fst (fst r))) rows in
  let krw := map (fun r => snd (fst (fst r))) rows in
  let kro := map (fun r => snd (fst r)) rows in
  let J := map snd rows in
  let n := zlen rows in
  let* krw0 := rget krw 0 in
  let* krw := if Req_EM_T krw0 0 then Ok krw else rset krw 0 0%R in
  let* krol := rget kro (n - 1) in
  let* kro := if Req_EM_T krol 0 then Ok kro else rset kro (n - 1) 0%R in
  let* smin := rget sv 0 in
  let* smax := rget sv (n - 1) in
  Ok (mkJTab sv krw kro J smin smax).

(* RockAnisotropicRelperm.hpp:117-135: rows pcow, s, krxx, kryy, krzz; the relative permeabilities of
   the water file (phase 0) are set to zero in the first row, those of the oil file in the last *)
Definition aniso_zero_ends (phase : Z) (rows : list (list R)) : res (list (list R)) :=
  foldM (fun rows i =>
      let k := if phase =? 0 then 0 else zlen rows - 1 in
      let* row := rget rows k in
      let* x := rget row i in
      if Req_EM_T x 0 then Ok rows else let* row := rset row i 0%R in rset rows k row) (zrange 2 5) rows.
(* RockAnisotropicRelperm.hpp:136-151: the columns; the tables are built from columns 2, 3, 4 and 0 over column 1 *)
Definition read_aniso (phase : Z) (rows : list (list R)) : res (list (list R)) :=
  let* rows := aniso_zero_ends phase rows in
  mapM (fun k => mapM (fun row => rget row k) rows) (zrange 0 5).
(* ReservoirPropertyCommon_impl.hpp:808-812: the next line that is not empty. At the end of the file
   getline fails and leaves spec empty, so the loop never ends: None *)
Fixpoint next_spec (lines : list (list ascii)) : option (list ascii * list (list ascii)) :=
  match lines with [] => None | l :: t => match l with [] => next_spec t | _ => Some (l, t) end end.
(* ReservoirPropertyCommon_impl.hpp:807-814: the specifications of the rocks; lines is what follows
   the number of rocks, beginning with the rest of its own line *)
Fixpoint rock_specs (n : nat) (lines : list (list ascii)) : option (list (list ascii)) :=
  match n with
  | O => Some []
  | S n => match next_spec lines with
           | None => None
           | Some (l, t) => match rock_specs n t with None => None | Some r => Some (l :: r) end
           end
  end.

(* ---- ReservoirPropertyCommon_impl.hpp 467-529 and ReservoirPropertyCapillary_impl.hpp ---- *)
(* the members used here: properties of the cells, rock_ and the viscosities *)
Record fluid := mkFluid { fl_prop : rprop; fl_rocks : list jrock; fl_mu1 : R; fl_mu2 : R }.
(* rock_[cell_to_rock_[cell_index]] *)
(* 467-529; ReservoirPropertyCommon.hpp:246-247 *)
Definition rock_of (fl : fluid) (c : Z) : res jrock := let* r := rget (rp_rock (fl_prop fl)) c in rget (fl_rocks fl) r.
(* rock_.size() > 0: 470, 483, 496, 509, 522 *)
Definition has_rocks (fl : fluid) : bool := match fl_rocks fl with [] => false | _ => true end.
(* 467-477 capillaryPressure, 480-491 capillaryPressureDeriv *)
Definition with_rock (fl : fluid) (c : Z) (f : jrock -> mat -> R -> res R) : res R :=
  let* r := rock_of fl c in
  let* K := permeability (fl_prop fl) c in
  let* poro := rget (rp_poro (fl_prop fl)) c in f r K poro.
(* 467-477 *)
Definition capillary_pressure (fl : fluid) (c : Z) (s : R) : res R :=
  if has_rocks fl then with_rock fl c (fun r K poro => cap_press r K poro s) else Ok (100000 * (1 - s))%R.
(* 480-491 *)
Definition capillary_pressure_deriv (fl : fluid) (c : Z) (s : R) : res R :=
  if has_rocks fl then with_rock fl c (fun r K poro => cap_press_deriv r K poro s) else Ok (-100000)%R.
(* 493-517 s_min, s_max *)
Definition s_min (fl : fluid) (c : Z) : res R := if has_rocks fl then let* r := rock_of fl c in Ok (jr_smin r) else Ok 0%R.
(* 505-517 *)
Definition s_max (fl : fluid) (c : Z) : res R := if has_rocks fl then let* r := rock_of fl c in Ok (jr_smax r) else Ok 1%R.
(* 519-529 saturationFromCapillaryPressure *)
Definition saturation_from_cap (fl : fluid) (c : Z) (p : R) : res R :=
  if has_rocks fl then with_rock fl c (fun r K poro => sat_from_cap_press r K poro p) else Ok 0%R.
(* ReservoirPropertyCapillary_impl.hpp: 118-131 relPermFirstPhase, 155-168 relPermSecondPhase and
   their derivatives 133-150, 170-187 *)
Definition kr1 (fl : fluid) (c : Z) (s : R) : res R :=
  if has_rocks fl then let* r := rock_of fl c in Ok (jr_krw r s) else Ok (s * s)%R.
(* 155-168 relPermSecondPhase *)
Definition kr2 (fl : fluid) (c : Z) (s : R) : res R :=
  if has_rocks fl then let* r := rock_of fl c in Ok (jr_kro r s) else Ok ((1 - s) * (1 - s))%R.
(* 133-150 *)
Definition dkr1 (fl : fluid) (c : Z) (s : R) : res R :=
  if has_rocks fl then let* r := rock_of fl c in Ok (jr_dkrw r s) else Ok (2 * s)%R.
(* 170-187 *)
Definition dkr2 (fl : fluid) (c : Z) (s : R) : res R :=
  if has_rocks fl then let* r := rock_of fl c in Ok (jr_dkro r s) else Ok (- 2 * (1 - s))%R.
(* 45-55 mobilities *)
Definition mob1 (fl : fluid) (c : Z) (s : R) : res R := let* k := kr1 fl c s in mdiv k (fl_mu1 fl).
(* 45-55 *)
Definition mob2 (fl : fluid) (c : Z) (s : R) : res R := let* k := kr2 fl c s in mdiv k (fl_mu2 fl).
(* 74-79 totalMobility *)
Definition total_mobility (fl : fluid) (c : Z) (s : R) : res R :=
  let* l1 := mob1 fl c s in let* l2 := mob2 fl c s in Ok (l1 + l2)%R.
(* 83-88 fractionalFlow *)
Definition fractional_flow (fl : fluid) (c : Z) (s : R) : res R :=
  let* l1 := mob1 fl c s in let* l2 := mob2 fl c s in mdiv l1 (l1 + l2).
(* 93-98 phaseMobilities *)
Definition phase_mobilities (fl : fluid) (c : Z) (s : R) : res (R * R) :=
  let* l1 := mob1 fl c s in let* l2 := mob2 fl c s in Ok (l1, l2).
(* 104-110 phaseMobilitiesDeriv: dmob[0..3] *)
Definition phase_mobilities_deriv (fl : fluid) (c : Z) (s : R) : res (list R) :=
  let* k1 := dkr1 fl c s in let* d0 := mdiv k1 (fl_mu1 fl) in
  let* k2 := dkr2 fl c s in let* d3 := mdiv (- k2) (fl_mu2 fl) in
  Ok [d0; 0; 0; d3]%R.
(* 191-209 cflFracFlows; rock -1: no rock tables *)
Definition cfl_frac_flows (fl : fluid) (rock : Z) (s : R) : res (R * R) :=
  let* ll := if rock =? -1 then phase_mobilities fl 0 s
    else let* r := rget (fl_rocks fl) rock in
         let* l1 := mdiv (jr_krw r s) (fl_mu1 fl) in let* l2 := mdiv (jr_kro r s) (fl_mu2 fl) in Ok (l1, l2) in
  let '(l1, l2) := ll in
  let* f := mdiv l1 (l1 + l2) in let* g := mdiv (l1 * l2) (l1 + l2) in Ok (f, g).
(* 219-246: sampling at N = 257 saturations; the running values last_ff1, last_ffg, max_der1, max_derg,
   max_ffg, max_derpc *)
Record csample := mkCS { cs_ff : R; cs_fg : R; cs_d1 : R; cs_dg : R; cs_maxg : R; cs_dpc : R }.
(* i*delta with delta = 1/256 (225, 234) *)
Definition sample_sat (i : Z) : R := (IZR i * (1 / 256))%R.
(* |capPressDeriv| at min_perm_matrix and max_poro, 0 without rocks (231-232, 241-242) *)
Definition abs_dpc (fl : fluid) (rock : Z) (min_perm max_poro s : R) : res R :=
  if rock =? -1 then Ok 0%R else
  let* E := meye (mnew COrd 3 3) in
  let* r := rget (fl_rocks fl) rock in
  let* d := cap_press_deriv r (mscale E min_perm) max_poro s in Ok (Rabs d).
(* 233-245: one turn of the sampling loop *)
Definition cfl_step (fl : fluid) (rock : Z) (min_perm max_poro : R) (st : csample) (i : Z) : res csample :=
  let s := sample_sat i in
  let* fg := cfl_frac_flows fl rock s in
  let '(ff1, ffg) := fg in
  let* d1 := mdiv (Rabs (ff1 - cs_ff st)) (1 / 256) in
  let* dg := mdiv (Rabs (ffg - cs_fg st)) (1 / 256) in
  let* dpc := abs_dpc fl rock min_perm max_poro s in
  Ok (mkCS ff1 ffg (smax (cs_d1 st) d1) (smax (cs_dg st) dg) (smax (cs_maxg st) ffg)
        (if rock =? -1 then 0%R else smax (cs_dpc st) dpc)).
(* 215-248 computeSingleRockCflFactors *)
Definition single_rock_cfl (fl : fluid) (rock : Z) (min_perm max_poro : R) : res (R * R * R) :=
  let* fg := cfl_frac_flows fl rock 0 in
  let* dpc0 := abs_dpc fl rock min_perm max_poro 0 in
  let* st := foldM (cfl_step fl rock min_perm max_poro) (zrange 1 257)
    (mkCS (fst fg) (snd fg) (-1e100) (-1e100) (snd fg) dpc0) in
  let* a := mdiv 1 (cs_d1 st) in let* b := mdiv 1 (cs_dg st) in
  Ok (a, b, (cs_maxg st * cs_dpc st)%R).
(* 263-270: smallest mean permeability and largest porosity of every rock *)
Definition rock_extremes (fl : fluid) : res (list R * list R) :=
  let n := zlen (fl_rocks fl) in
  foldM (fun pp c =>
      let* r := rget (rp_rock (fl_prop fl)) c in
      let* K := permeability (fl_prop fl) c in
      let* t := mtrace K in
      let* k := rget (fst pp) r in let* ks := rset (fst pp) r (smin k (t / 3)) in
      let* phi := rget (rp_poro (fl_prop fl)) c in
      let* p := rget (snd pp) r in let* ps := rset (snd pp) r (smax p phi) in Ok (ks, ps))
    (zrange 0 (zlen (rp_poro (fl_prop fl)))) (zrepeat 1e100%R n, zrepeat 0%R n).
(* 254-281 computeCflFactors *)
Definition compute_cfl (fl : fluid) : res (R * R * R) :=
  if negb (has_rocks fl) then single_rock_cfl fl (-1) 0 0 else
  let* pp := rock_extremes fl in
  foldM (fun acc r =>
      let '(a, b, c) := acc in
      let* k := rget (fst pp) r in let* p := rget (snd pp) r in
      let* f := single_rock_cfl fl r k p in
      let '(fa, fb, fc) := f in Ok (smin a fa, smin b fb, smax c fc))
    (zrange 0 (zlen (fl_rocks fl))) (1e100, 1e100, 0)%R.

(* ---- RockAnisotropicRelperm.hpp, ReservoirPropertyCapillaryAnisotropicRelperm_impl.hpp ---- *)
(* 147-150: krxx_, kryy_, krzz_ of the two phases (direction 0, 1, 2) *)
Record arock := mkARock { ar_kr : Z -> Z -> R -> R }.
(* RockAnisotropicRelperm.hpp:71-77 kr *)
Definition akr (r : arock) (phase : Z) (s : R) (m : mat) : res mat :=
  let* m := mzero m in
  let* m := mset m 0 0 (ar_kr r phase 0 s) in
  let* m := mset m 1 1 (ar_kr r phase 1 s) in
  mset m 2 2 (ar_kr r phase 2 s).
(* rock_ and the viscosities *)
(* ReservoirPropertyCommon.hpp:241-247 *)
Record afluid := mkAFluid { af_rocks : list arock; af_rock_of : list Z; af_mu1 : R; af_mu2 : R }.
(* 75-98 phaseMobilityByRock; the matrix is overwritten *)
Definition amob_rock (fl : afluid) (phase rock : Z) (s : R) (m : mat) : res mat :=
  let visc := if phase =? 0 then af_mu1 fl else af_mu2 fl in
  if negb (rock =? -1) then
    let* r := rget (af_rocks fl) rock in
    let* m := akr r phase s m in
    let* d := mapM (fun x => mdiv x visc) (m_data m) in
    Ok (mkMat (m_rows m) (m_cols m) (m_ord m) d)
  else
    let kr := if phase =? 0 then (s * s)%R else ((1 - s) * (1 - s))%R in
    let* mob := mdiv kr visc in
    let* m := mzero m in
    foldM (fun m j => mset m j j mob) (zrange 0 3) m.
(* 44-51 phaseMobility *)
Definition amob (fl : afluid) (phase c : Z) (s : R) (m : mat) : res mat :=
  let* rock := match af_rocks fl with [] => Ok (-1) | _ => rget (af_rock_of fl) c end in
  amob_rock fl phase rock s m.
(* 55-70 fractionalFlow; Mobility holds an OwnCMatrix of size 3x3 *)
Definition afractional_flow (fl : afluid) (c : Z) (s : R) : res R :=
  let* f := foldM (fun acc dir =>
      let* m := amob fl 0 c s (mnew COrd 3 3) in let* l1 := mget m dir dir in
      let* m := amob fl 1 c s m in let* l2 := mget m dir dir in
      let* q := mdiv l1 (l1 + l2) in Ok (acc + q)%R) (zrange 0 3) 0%R in
  Ok (f / 3)%R.
(* 102-114 cflFracFlows *)
Definition acfl_frac_flows (fl : afluid) (rock dir : Z) (s : R) : res (R * R) :=
  let* m := amob_rock fl 0 rock s (mnew COrd 3 3) in let* l1 := mget m dir dir in
  let* m := amob_rock fl 1 rock s m in let* l2 := mget m dir dir in
  let* f := mdiv l1 (l1 + l2) in let* g := mdiv (l1 * l2) (l1 + l2) in Ok (f, g).
(* 119-145 computeSingleRockCflFactors: the state is last_ff1, last_ffg, max_der1, max_derg, min_ffg *)
Record acs := mkACS { as_ff : R; as_fg : R; as_d1 : R; as_dg : R; as_min : R }.
(* 119-145: one sample *)
Definition acfl_step (fl : afluid) (rock dir : Z) (st : acs) (i : Z) : res acs :=
  let* fg := acfl_frac_flows fl rock dir (sample_sat i) in
  let '(ff1, ffg) := fg in
  let* d1 := mdiv (Rabs (ff1 - as_ff st)) (1 / 256) in
  let* dg := mdiv (Rabs (ffg - as_fg st)) (1 / 256) in
  Ok (mkACS ff1 ffg (smax (as_d1 st) d1) (smax (as_dg st) dg) (smin (as_min st) (as_fg st))).
(* 119-145 computeSingleRockCflFactors *)
Definition asingle_rock_cfl (fl : afluid) (rock : Z) : res (R * R * R) :=
  let* st := foldM (fun st dir =>
      let* fg := acfl_frac_flows fl rock dir 0 in
      foldM (acfl_step fl rock dir) (zrange 1 257) (mkACS (fst fg) (snd fg) (as_d1 st) (as_dg st) (smin (as_min st) (snd fg))))
    (zrange 0 3) (mkACS 0 0 (-1e100) (-1e100) (-1e100)) in
  let* a := mdiv 1 (as_d1 st) in let* b := mdiv 1 (as_dg st) in Ok (a, b, as_min st).
(* 151-169 computeCflFactors *)
Definition acompute_cfl (fl : afluid) : res (R * R * R) :=
  match af_rocks fl with
  | [] => asingle_rock_cfl fl (-1)
  | _ => foldM (fun acc r =>
      let '(a, b, c) := acc in
      let* f := asingle_rock_cfl fl r in
      let '(fa, fb, fc) := f in Ok (smin a fa, smin b fb, smax c fc))
    (zrange 0 (zlen (af_rocks fl))) (1e100, 1e100, 1e100)%R
  end.

(* ---- SimulatorUtilities.hpp ---- *)
(* 74-83: the velocity of one cell from its outfluxes (in the order of its faces) *)
Definition cell_velocity (dim : Z) (c : mcell) (out : list R) : res (list R) :=
  foldM (fun v fo => let '(f, o) := fo in
      let* q := mdiv o (mc_vol c) in
      Ok (map (fun p => (fst p + snd p)%R) (combine v (fv_scale (fv_sub (mf_cen f) (mc_cen c)) q))))
    (combine (mc_faces c) out) (zrepeat 0%R dim).
(* 65-86 estimateCellVelocity: the cells in visiting order with index, shape and outfluxes *)
Definition estimate_velocity (dim : Z) (cells : list (Z * mcell * list R)) : res (list (list R)) :=
  foldM (fun vs c => let '(i, g, out) := c in let* v := cell_velocity dim g out in rset vs i v) cells
    (zrepeat (zrepeat 0%R dim) (zlen cells)).
(* 126-153 the variant for one partition *)
Definition estimate_velocity_part (dim : Z) (cells : list (Z * mcell * list R)) (partition : list Z) (mine : Z) : res (list (list R)) :=
  foldM (fun vs c => let '(i, g, out) := c in
      let* p := rget partition i in
      if negb (p =? mine) then rset vs i (zrepeat 0%R dim)
      else let* v := cell_velocity dim g out in rset vs i v) cells (zrepeat (zrepeat 0%R dim) (zlen cells)).
(* 93-114 estimateCellVelocitySimpleInterface: faces with their two cells (-1: none), centroid and flux *)
Record sface := mkSFace { sf_c0 : Z; sf_c1 : Z; sf_cen : list R; sf_flux : R }.
(* 104-110: one of the two cells of a face; sgn is 1 for the first cell and -1 (the unary minus) for the second *)
Definition simple_contrib (vol : list R) (cens : list (list R)) (f : sface) (vs : list (list R)) (sc : R * Z) : res (list (list R)) :=
  let '(sgn, c) := sc in
  if 0 <=? c then
    let* cc := rget cens c in let* v := rget vol c in
    let* q := mdiv (sf_flux f) v in
    let contrib := fv_scale (fv_sub (sf_cen f) cc) q in
    let* old := rget vs c in
    rset vs c (map (fun p => (fst p + snd p)%R) (combine old (fv_scale contrib sgn)))
  else Ok vs.
(* 93-114 *)
Definition estimate_velocity_simple (dim : Z) (cens : list (list R)) (vol : list R) (faces : list sface) : res (list (list R)) :=
  foldM (fun vs f => foldM (simple_contrib vol cens f) [(1%R, sf_c0 f); ((-1)%R, sf_c1 f)] vs) faces
    (zrepeat (zrepeat 0%R dim) (zlen cens)).
(* 157-172 computePhaseVelocities: water and oil velocities *)
Definition phase_velocities (ff : Z -> R -> res R) (sat : list R) (vel : list (list R)) : res (list (list R) * list (list R)) :=
  foldM (fun wo i =>
      let* s := rget sat i in let* f := ff i s in
      let* w := rget (fst wo) i in let* ws := rset (fst wo) i (fv_scale w f) in
      let* o := rget (snd wo) i in let* os := rset (snd wo) i (fv_scale o (1 - f)%R) in Ok (ws, os))
    (zrange 0 (zlen sat)) (vel, vel).
(* 223-232 computeCapPressure *)
Definition compute_cap_pressure (fl : fluid) (sat : list R) : res (list R) :=
  mapM (fun c => let* s := rget sat c in capillary_pressure fl c s) (zrange 0 (zlen sat)).
