(* Specification vocabulary for periodic boundaries and boundary-condition tables. *)
From Verif Require Export RBase Bound_Model.
Open Scope Z_scope.

(* side s is met by coordinate c: side 2d is the low end, 2d+1 the high end of axis d *)
Definition on_side (tol : R) (low hi : Z -> R) (c : vec) (s : Z) : Prop :=
  0 <= s < 6 /\
  (Rabs (vget c (s / 2) - (if Z.even s then low (s / 2)%Z else hi (s / 2)%Z)) <= tol)%R.

(* low and hi bound the centroids of the faces and are attained *)
Definition is_box (fs : list gface) (low hi : Z -> R) : Prop :=
  forall d, 0 <= d < 3 ->
    (forall f, In f fs -> (low d <= vget (gf_cent f) d <= hi d)%R) /\
    (exists f, In f fs /\ vget (gf_cent f) d = low d) /\
    (exists f, In f fs /\ vget (gf_cent f) d = hi d).

Definition opposite (s s' : Z) : Prop := s' = if Z.even s then s + 1 else s - 1.

(* two boundary faces match geometrically: opposite sides, same area and the same
   position up to a shift along the side normal, each within 1e-6 *)
Definition geo_match (a b : bface) : Prop :=
  opposite (b_canon a) (b_canon b) /\
  (Rabs (b_area a - b_area b) <= / 1000000)%R /\
  (vdist (b_cent a) (b_cent b) <= / 1000000)%R.

(* no face has two geometric candidates *)
Definition unique_candidates (l : list bface) : Prop :=
  forall a b b', In a l -> In b l -> In b' l -> geo_match a b -> geo_match a b' -> b_index b = b_index b'.

Definition total {A} (f : A -> R) (l : list A) : R := fold_right (fun a r => (f a + r)%R) 0%R l.

(* ---- operation histories on a boundary-condition table, newest first *)
Inductive op := Clear | Resize (n : Z) | SetFlow (i : Z) (c : cond) | SetSat (i : Z) (c : cond)
              | SetCanon (i c : Z) | SetPartners (i j : Z).
Definition apply_op (b : bcs) (o : op) : res bcs :=
  match o with
  | Clear => Ok (bcs_clear b) | Resize n => bcs_resize n b
  | SetFlow i c => set_flow i c b | SetSat i c => set_sat i c b
  | SetCanon i c => set_canon i c b | SetPartners i j => set_partners i j b
  end.
(* what the newest relevant operation says about entry i *)
Fixpoint last_flow (h : list op) (i : Z) : cond :=
  match h with
  | [] => mkCond Neumann 0%R
  | SetFlow j c :: t => if j =? i then c else last_flow t i
  | Clear :: _ => mkCond Neumann 0%R
  | Resize n :: t => if n <=? i then mkCond Neumann 0%R else last_flow t i
  | _ :: t => last_flow t i
  end.
Fixpoint last_sat (h : list op) (i : Z) : cond :=
  match h with
  | [] => mkCond Dirichlet 1%R
  | SetSat j c :: t => if j =? i then c else last_sat t i
  | Clear :: _ => mkCond Dirichlet 1%R
  | Resize n :: t => if n <=? i then mkCond Dirichlet 1%R else last_sat t i
  | _ :: t => last_sat t i
  end.
Fixpoint last_canon (h : list op) (i : Z) : Z :=
  match h with
  | [] => 0
  | SetCanon j c :: t => if j =? i then c else last_canon t i
  | Clear :: _ => 0
  | Resize n :: t => if n <=? i then 0 else last_canon t i
  | _ :: t => last_canon t i
  end.
Fixpoint size_of (h : list op) : Z :=
  match h with
  | [] => 0 | Clear :: _ => 0 | Resize n :: _ => n | _ :: t => size_of t
  end.
(* the assertions of setPeriodicPartners hold, ids are positive, tables never shrink
   except by clear *)
Fixpoint careful (b : bcs) (ops : list op) : Prop :=
  match ops with
  | [] => True
  | o :: t =>
      match o with
      | SetPartners i j => 1 <= i /\ 1 <= j /\ zget (t_partner b) i = Some 0 /\ zget (t_partner b) j = Some 0
      | Resize n => zlen (t_partner b) <= n
      | _ => True
      end /\
      match apply_op b o with Ok b' => careful b' t | _ => True end
  end.
Definition symmetric_partners (p : list Z) : Prop :=
  forall i j, zget p i = Some j -> j <> 0 -> zget p j = Some i.

(* flow and saturation condition prescribed on side s by the periodic setup with
   pressure drop pdrop in direction d *)
Definition periodic_flow (d : Z) (pdrop : R) (twodim : bool) (s : Z) : cond :=
  if twodim && (4 <=? s) then mkCond Neumann 0%R
  else if s =? 2 * d then mkCond Periodic pdrop
  else if s =? 2 * d + 1 then mkCond Periodic (- pdrop)%R
  else mkCond Periodic 0%R.
Definition periodic_sat (twodim : bool) (s : Z) : cond :=
  if twodim && (4 <=? s) then mkCond Dirichlet 1%R else mkCond Periodic 0%R.

(* every boundary face has its own positive id *)
Definition unique_ids (g : list gface) : Prop :=
  NoDup (map gf_bid (bdy_faces g)) /\ forall f, In f (bdy_faces g) -> 1 <= gf_bid f.

(* value of the flow condition stored for boundary id i *)
Definition flow_value (b : bcs) (i : Z) : R := match zget (t_flow b) i with Some c => c_val c | None => 0%R end.

(* small grids used as witnesses: unit-area faces on the x axis *)
Definition mkf (bid : Z) (x : R) : gface := mkGface bid 1%R (x, 0, 0)%R.
Definition two_faces := [mkf 1 0; mkf 2 1].
Definition three_faces := [mkf 1 0; mkf 2 0; mkf 3 1].
