(* What the theorems about grid statistics talk about. *)
From Coq Require Export Reals Lra Sorted.
From Verif Require Export RBase Lin_Spec Avg_Model.
Open Scope Z_scope.

(* the cells that count: those with more than the least volume *)
Definition active (vols : list R) (i : Z) : bool := Rltb cutoff (nthR vols i).
Definition actives (vols : list R) : list Z := filter (active vols) (zrange 0 (zlen vols)).
(* no cell has a volume that is too small to count without being zero *)
Definition clean (vols : list R) : Prop := forall v, In v vols -> v = 0%R \/ (cutoff < v)%R.
(* equal weights *)
Definition one (_ : Z) : R := 1%R.
(* sums and averages of f with weights w over cells *)
Definition total (f : Z -> R) (l : list Z) : R := Rsum (map f l).
Definition arithmetic (w f : Z -> R) (l : list Z) : R := (total (fun i => w i * f i) l / total w l)%R.
Definition harmonic (w f : Z -> R) (l : list Z) : R := (total w l / total (fun i => w i / f i) l)%R.
Definition geometric (w f : Z -> R) (l : list Z) : R := exp (total (fun i => w i * ln (f i)) l / total w l)%R.
(* weighted mean squared deviation from the mean *)
Definition variance (w f : Z -> R) (l : list Z) : R := arithmetic w (fun i => (f i - arithmetic w f l) * (f i - arithmetic w f l))%R l.
(* the volume of a grid cell as the deck counts it *)
Definition weight (actnum : option (list Z)) (c : Z * R) : R :=
  match actnum with None => snd c | Some a => (snd c * IZR (match zget a (fst c) with Some x => x | None => 0 end))%R end.
(* arrays that have an entry for every cell *)
Definition covers {A} (nc : Z) (o : option (list A)) : Prop := match o with Some l => nc <= zlen l | None => True end.
Definition opt_nth (o : option (list R)) (i : Z) : R := match o with Some l => nthR l i | None => 0%R end.
(* cells of rock type t *)
Definition type_at (satnums : list Z) (i : Z) : Z := match zget satnums i with Some t => t | None => 0 end.
Definition of_type (satnums : list Z) (t : Z) (l : list Z) : list Z := filter (fun i => type_at satnums i =? t) l.
(* the figures that belong to the rock type of r *)
Definition rock_figures (nc : Z) (volume : R) (satnums : list Z) (vols : list R) (perms poros : option (list R)) (r : rock_stats) : Prop :=
  let w := nthR vols in
  let cells := of_type satnums (k_type r) (actives vols) in
  let all := of_type satnums (k_type r) (zrange 0 nc) in
  k_vol r = total w cells /\ k_frac r = (total w cells / volume)%R /\
  k_total r = IZR (zlen all) /\ k_totfrac r = (IZR (zlen all) / IZR nc)%R /\
  k_active r = IZR (zlen cells) /\ k_actfrac r = (IZR (zlen cells) / IZR (zlen all))%R /\
  k_poro r = match poros with None => None | Some p => Some (total (fun i => w i * nthR p i)%R cells, arithmetic w (nthR p) cells, variance w (nthR p) cells) end /\
  k_perm r = match perms with None => None
    | Some p => let k := nthR p in Some (arithmetic w k cells, harmonic w k cells, arithmetic one k cells, harmonic one k cells) end.
