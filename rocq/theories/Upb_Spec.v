(* Specification vocabulary for the upscaler base class. *)
From Verif Require Export RBase Bound_Model Bound_Spec Upb_Model.
Open Scope Z_scope.

(* sum over a list *)
Definition sum {A} (f : A -> R) (l : list A) : R := Rsum (map f l).
(* the weighted mean of v with weights w *)
Definition wmean {A} (w v : A -> R) (l : list A) : R := (sum (fun x => w x * v x)%R l / sum w l)%R.

(* a history of (attempted) type changes; a failed call leaves the object as it was *)
Definition attempt (u : ubase) (t : Z) : ubase :=
  match set_bctype t u with Ok u' => u' | _ => u end.

(* canonical id of the boundary of a face; 0 for an interior face *)
Definition canon_of (b : bcs) (f : uface) : Z :=
  match zget (t_canon b) (gf_bid (uf_g f)) with Some c => c | None => 0 end.
Definition on_boundary (f : uface) : bool := negb (gf_bid (uf_g f) =? 0).
(* faces on side s (0..5) *)
Definition side_faces {A} (pr : A -> uface) (b : bcs) (s : Z) (l : list A) : list A :=
  filter (fun x => on_boundary (pr x) && (canon_of b (pr x) =? s + 1)) l.

(* the axis vector of the outward normal of side s *)
Definition side_normal (s : Z) : vec :=
  let v := if Z.even s then (-1)%R else 1%R in
  if s / 2 =? 0 then (v, 0, 0)%R else if s / 2 =? 1 then (0, v, 0)%R else (0, 0, v)%R.
(* the boundary faces lie on the planes of a box with corner coordinates low, hi, each
   side carrying its canonical id, and every side has positive area *)
Definition box_faces (b : bcs) (faces : list uface) (low hi : Z -> R) : Prop :=
  (forall f, In f faces -> on_boundary f = true ->
     exists s, 0 <= s < 6 /\ zget (t_canon b) (gf_bid (uf_g f)) = Some (s + 1) /\
       uf_n f = side_normal s /\ (0 < gf_area (uf_g f))%R /\
       vget (gf_cent (uf_g f)) (s / 2) = if Z.even s then low (s / 2)%Z else hi (s / 2)%Z) /\
  (forall s, 0 <= s < 6 -> exists f, In f faces /\ on_boundary f = true /\
     zget (t_canon b) (gf_bid (uf_g f)) = Some (s + 1)).
(* outflux of a uniform velocity field v *)
Definition uniform_flux (v : Z -> R) (f : uface) : R :=
  (gf_area (uf_g f) * (v 0%Z * vget (uf_n f) 0 + v 1%Z * vget (uf_n f) 1 + v 2%Z * vget (uf_n f) 2))%R.
