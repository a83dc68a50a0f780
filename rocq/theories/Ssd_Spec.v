From Verif Require Export Ssd_Model Steady_Spec.
Open Scope Z_scope.

(* rock number and porosity of a cell *)
Definition at_num (l : list Z) (i : Z) : Z := match zget l i with Some s => s | None => 0 end.
(* pore volume of a cell (global number, volume); cells of a rock number 0 or less have no rock *)
Definition rock_volume (sat : list Z) (poro : list R) (cv : Z * R) : R :=
  if 0 <? at_num sat (fst cv) then (snd cv * nthR poro (fst cv))%R else 0%R.
(* end points of the rock of a cell *)
Definition rock_end (f : R * R -> R) (sat : list Z) (ends : list (R * R)) (cv : Z * R) : R :=
  match zget ends (at_num sat (fst cv) - 1) with Some e => f e | None => 0%R end.
(* total, and mean weighted with pore volume *)
Definition total_pore (sat : list Z) (poro : list R) (cells : list (Z * R)) : R := Rsum (map (rock_volume sat poro) cells).
Definition mean_end (f : R * R -> R) (sat : list Z) (poro : list R) (ends : list (R * R)) (cells : list (Z * R)) : R :=
  (Rsum (map (fun cv => rock_volume sat poro cv * rock_end f sat ends cv) cells) / total_pore sat poro cells)%R.
(* a grid whose cells have different numbers within the deck's arrays *)
Definition grid_fits (sat : list Z) (poro : list R) (cells : list (Z * R)) : Prop :=
  NoDup (map fst cells) /\ forall cv, In cv cells -> 0 <= fst cv < zlen sat /\ fst cv < zlen poro.

(* the first word of a line: between white space, empty only if there is nothing else *)
Definition word_of (l w : list ascii) : Prop :=
  exists b r, l = b ++ w ++ r /\ (forall c, In c b -> is_blank c = true) /\ (forall c, In c w -> is_blank c = false) /\
    (r = [] \/ exists c r', r = c :: r' /\ is_blank c = true) /\ (w = [] -> r = []).
(* an acceptable rock file *)
Definition good_rock (load : list ascii -> res (R * R)) (l : list ascii) (e : R * R) : Prop :=
  exists w, word_of l w /\ load w = Ok e /\ (0 <= fst e <= 1)%R.

(* most recent successful run *)
Fixpoint last_good (rs : list srun) (init : list R) : list R :=
  match rs with [] => init | r :: t => last_good t (if dr_success r then dr_final r else init) end.
(* entries of tensors (row, column) in the order of the tables *)
Definition table_order : list (Z * Z) := [(0, 0); (1, 1); (2, 2); (1, 2); (0, 2); (0, 1); (2, 1); (2, 0); (1, 0)].
Definition ordered_entry (K : list R) (v : Z) : option R :=
  match zget table_order v with Some rc => zget K (3 * fst rc + snd rc) | None => None end.
Definition entry3 (t : list (list (list R))) (i j v : Z) : option R :=
  match zget t i with Some r => match zget r j with Some row => zget row v | None => None end | None => None end.
Definition shape3 (n m q : Z) (t : list (list (list R))) : Prop :=
  zlen t = n /\ forall r, In r t -> zlen r = m /\ forall row, In row r -> zlen row = q.
