(* What the theorems about the sampling drivers talk about. *)
From Coq Require Export Reals Lra.
From Verif Require Export RBase Lin_Spec Avg_Spec Drv_Model.
Open Scope Z_scope.

Definition is_some {A} (o : option A) : bool := match o with Some _ => true | None => false end.
Definition get0 (o : option R) : R := match o with Some x => x | None => 0%R end.
(* membership of columns *)
Definition col_in (c : col) (l : list col) : bool := existsb (fun d => if col_eq_dec c d then true else false) l.
(* the stages of a subsample: what it adds to the table, and whether this succeeds *)
Definition up_stages (o : opts) (s : sample) : list (list col * bool) :=
  if o_upscale o then
     [([], is_some (s_perm s)); ([Poro], is_some (s_poro s))] ++ (if o_ntg o then [([NetPoro], is_some (s_netporo s)); ([Ntg], is_some (s_ntg s))] else []) ++
     (if o_swcr o then [([Swcr], is_some (s_swcr s))] else []) ++ (if o_sowcr o then [([Sowcr], is_some (s_sowcr s))] else []) ++
     map (fun c => ([c], is_some (s_perm s))) [Kx; Ky; Kz; Kyz; Kxz; Kxy]
  else [].
Definition end_stages (o : opts) (s : sample) : list (list col * bool) :=
  if o_end o then [([], is_some (s_cells s))] ++ (if o_upscale o then [] else [([Poro], is_some (s_poro2 s))]) ++ [([Swir; Swor], is_some (s_cells s))] ++
     (if o_cappres o then [([Pc], is_some (s_cells s) && is_some (s_pc s))] else []) else [].
Definition stages (o : opts) (s : sample) : list (list col * bool) :=
  up_stages o s ++ end_stages o s ++ (if o_dips o then [([Dip; Azim], is_some (s_dips s))] else []) ++ (if o_satvol o then [([Rock], is_some (s_sat s))] else []).
(* a column gets an entry if all stages up to its own succeed *)
Fixpoint reached (l : list (list col * bool)) (c : col) : bool :=
  match l with [] => false | (cs, b) :: t => b && (col_in c cs || reached t c) end.
Definition reaches (o : opts) (c : col) (s : sample) : bool := reached (stages o s) c.
Definition completes (o : opts) (s : sample) : bool := forallb snd (stages o s).
(* the subsamples whose cells are searched for capillary pressures, and these cells' pressures *)
Definition searched (o : opts) (s : sample) : bool := forallb snd (up_stages o s) && o_end o && o_cappres o && is_some (s_cells s).
Definition pressures (which : endcell -> R) (s : sample) : list R :=
  match s_cells s with Some cs => map which (filter (fun c => 0 <? e_sat c) cs) | None => [] end.
Definition is_least (x : R) (l : list R) : Prop := In x l /\ forall y, In y l -> (x <= y)%R.
Definition is_greatest (x : R) (l : list R) : Prop := In x l /\ forall y, In y l -> (y <= x)%R.
(* the water saturation end points: averages of those of the rocks, weighted with pore volumes *)
Definition pore (c : endcell) : R := if 0 <? e_sat c then (e_vol c * e_phi c)%R else 0%R.
Definition rock_end (rocks : list (R * R)) (which : R * R -> R) (c : endcell) : R := match zget rocks (e_sat c - 1) with Some r => which r | None => 0%R end.
Definition end_mean (rocks : list (R * R)) (which : R * R -> R) (cells : list endcell) : R :=
  (Rsum (map (fun c => rock_end rocks which c * pore c) cells) / Rsum (map pore cells))%R.
Definition mean_dip (which : R * R -> R) (l : list (Z * (Z * Z) * (R * R) * R)) : R := (Rsum (map (fun c => which (snd (fst c))) l) / IZR (zlen l))%R.
Definition or_nil {A} (o : option (list A)) : list A := match o with Some l => l | None => [] end.
(* the number a subsample has for a column *)
Definition datum (o : opts) (rocks : list (R * R)) (s : sample) (c : col) : R :=
  let k f := get0 (option_map f (s_perm s)) in
  let x := mean_dip fst (or_nil (s_dips s)) in let y := mean_dip snd (or_nil (s_dips s)) in
  match c with
  | Poro => get0 (if o_upscale o then s_poro s else s_poro2 s)
  | NetPoro => get0 (s_netporo s) | Ntg => get0 (s_ntg s) | Swcr => get0 (s_swcr s) | Sowcr => get0 (s_sowcr s)
  | Kx => k p_xx | Ky => k p_yy | Kz => k p_zz | Kyz => k p_yz | Kxz => k p_xz | Kxy => k p_xy
  | Swir => end_mean rocks fst (or_nil (s_cells s)) | Swor => end_mean rocks snd (or_nil (s_cells s))
  | Dip => acos (1 / sqrt (x * x + y * y + 1)) | Azim => (atan (x / y) + o_azim o)%R
  | Pc | Rock => 0%R
  end.
(* the share of every SATNUM in the volume *)
Definition sat_volume (t : Z) (cells : list (Z * R)) : R := Rsum (map (fun c => if fst c =? t then snd c else 0%R) cells).
Definition fractions (cells : list (Z * R)) (row : list R) : Prop :=
  (forall t, 1 <= t -> nthR row (t - 1) = (sat_volume t cells / Rsum (map snd cells))%R) /\ Rsum row = 1%R.
(* an entry of column c that belongs to subsample s *)
Definition entry_of (o : opts) (rocks : list (R * R)) (c : col) (s : sample) (row : list R) : Prop :=
  match c with
  | Pc => exists f a b, s_pc s = Some f /\ row = f a b (datum o rocks s Swir) (datum o rocks s Swor)
  | Rock => exists cells, s_sat s = Some cells /\ (Rsum (map snd cells) <> 0%R -> fractions cells row)
  | _ => row = [datum o rocks s c]
  end.
(* data for which nothing undefined is computed *)
Definition proper (o : opts) (rocks : list (R * R)) (s : sample) : Prop :=
  s_chop s = true /\
  (forall cs, s_cells s = Some cs -> (forall c, In c cs -> e_sat c <= zlen rocks) /\ Rsum (map pore cs) <> 0%R) /\
  (forall l, s_dips s = Some l -> l <> [] /\ mean_dip snd l <> 0%R) /\
  (forall cs, s_sat s = Some cs -> (forall c, In c cs -> 1 <= fst c) /\ (Rsum (map snd cs) <> 0%R)).
(* the row a subsample should get *)
Definition own_row (o : opts) (rocks : list (R * R)) (s : sample) (pc rock : list R) : list R :=
  let d := datum o rocks s in
  (if o_upscale o then [d Poro] ++ (if o_ntg o then [d NetPoro; d Ntg] else []) ++ [d Kx; d Ky; d Kz] ++ (if o_periodic o then [d Kyz; d Kxz; d Kxy] else []) ++
     (if o_ntg o then [((d Kx + d Ky) / (2 * d Ntg))%R] else []) ++ (if o_swcr o then [d Swcr] else []) ++ (if o_sowcr o then [d Sowcr] else []) else []) ++
  (if o_end o then (if o_upscale o then [] else [d Poro]) ++ [d Swir; d Swor] ++ (if o_cappres o then pc else []) else []) ++
  (if o_dips o then [d Dip; d Azim] else []) ++ (if o_satvol o then rock else []).
(* a subsample that adds a complete row or nothing *)
Definition tidy (o : opts) (s : sample) : Prop := completes o s = true \/ forall c, reaches o c s = false.
(* nothing undefined is printed for it *)
Definition printable (o : opts) (s : sample) : Prop :=
  (o_upscale o = true -> o_ntg o = true -> s_ntg s <> Some 0%R) /\ (forall f a b u v, s_pc s = Some f -> 5 <= zlen (f a b u v)).
Definition row_of (o : opts) (rocks : list (R * R)) (maxsat : Z) (s : sample) (row : list R) : Prop := exists pc rock, row = own_row o rocks s pc rock /\
  (o_end o = true -> o_cappres o = true -> zlen pc = 5 /\ exists f a b, s_pc s = Some f /\
     forall i, 0 <= i < 5 -> nthR pc i = nthR (f a b (datum o rocks s Swir) (datum o rocks s Swor)) i) /\
  (o_satvol o = true -> zlen rock = maxsat /\ exists cells, s_sat s = Some cells /\ (Rsum (map snd cells) <> 0%R -> fractions cells rock)).
(* ---- depth trend: the depths at which windows start *)
Definition depth (zres : R) (k : Z) : R := (IZR k * zres)%R.
(* what is printed for a window *)
Definition trend_row (up : R -> option (option R * perm6)) (z : R) (row : R * R * (R * R * R)) : Prop :=
  exists phi k, up z = Some (Some phi, k) /\ row = (z, phi, (p_xx k, p_yy k, p_zz k)).
(* chop as seen by the loop *)
Definition chopped_at (g : grid) (imin imax jmin jmax : Z) (reset : bool) (a b : R) : res unit := let* _ := chop g imin imax jmin jmax a b reset in Ok tt.
(* ---- variogram *)
(* what is printed for a pair of windows: distance and differences *)
Definition pair_row (vertical : bool) (ilen jlen : Z) (zl : R) (up : Z -> Z -> Z -> Z -> R -> R -> res (R * (R * R * R))) (w : draws) (row : R * R * (R * R * R)) : Prop :=
  exists phi a b c phi' a' b' c' i j z dist, up (w_i1 w) (w_i1 w + ilen) (w_j1 w) (w_j1 w + jlen) (w_z1 w) (w_z1 w + zl)%R = Ok (phi, (a, b, c)) /\
    up i (i + ilen) j (j + jlen) z (z + zl)%R = Ok (phi', (a', b', c')) /\
    (if vertical then i = w_i1 w /\ j = w_j1 w /\ z = w_z2 w else i = w_i2 w /\ j = w_j2 w /\ z = w_z1 w) /\
    row = (dist, Rabs (phi' - phi), (Rabs (a' - a), Rabs (b' - b), Rabs (c' - c)))%R /\ (0 <= dist)%R /\
    (dist * dist = IZR (i - w_i1 w) * IZR (i - w_i1 w) + IZR (j - w_j1 w) * IZR (j - w_j1 w) + (z - w_z1 w) * (z - w_z1 w))%R.
(* draws within the ranges of the generators *)
Definition drawn (imin ilen imax jmin jlen jmax : Z) (zmin zl zmax : R) (w : draws) : Prop :=
  imin <= w_i1 w <= imax - ilen /\ imin <= w_i2 w <= imax - ilen /\ jmin <= w_j1 w <= jmax - jlen /\ jmin <= w_j2 w <= jmax - jlen /\
  (zmin <= w_z1 w <= Rmax (zmax - zl) zmin)%R /\ (zmin <= w_z2 w <= Rmax (zmax - zl) zmin)%R.
