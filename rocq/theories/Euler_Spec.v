From Verif Require Export Euler_Model Steady_Spec.
Open Scope Z_scope.

(* n accepted steps of size dt lead from s to s' *)
Inductive accepted (step : list R -> R -> res (bool * list R)) (dt : R) : nat -> list R -> list R -> Prop :=
| acc0 : forall s, accepted step dt 0 s s
| accS : forall n s t u, step s dt = Ok (true, t) -> accepted step dt n t u -> accepted step dt (S n) s u.
(* after k accepted steps a step is rejected, leaving t *)
Definition rejected (step : list R -> R -> res (bool * list R)) (dt : R) (k : nat) (s t : list R) : Prop :=
  exists u, accepted step dt k s u /\ step u dt = Ok (false, t).

(* explicit Euler update of a cell *)
Definition euler_value (pv : list R) (r s : list R) (dt : R) (i : Z) : R :=
  (nthR s i + dt * nthR r i / nthR pv i)%R.

(* change of the residual of cell c by the outcome u of a face of cell c0 *)
Definition contribution (c : Z) (t : (Z * eface) * option (Z * R)) : R :=
  match snd t with
  | None => 0%R
  | Some (c1, d) => if c =? fst (fst t) then (- d)%R else if c =? c1 then d else 0%R
  end.
(* outflow through the outer boundary *)
Definition wall_term (t : (Z * eface) * option (Z * R)) : R :=
  match snd t with
  | None => 0%R
  | Some (c1, d) => if fst (fst t) =? c1 then d else 0%R
  end.

(* volume of water added to a cell per time: what is injected is water, what is produced is the
   local mixture with water fraction ep_ff *)
Definition net_source (p : eprob) (c : Z) (s : R) : R :=
  (Rmax (ep_inj p c) 0 - Rmax (- ep_inj p c) 0 * ep_ff p c s)%R.

(* water and oil flux given the upstream mobilities, up to the positive factor 1/(mw+mo)
   and the own mobility *)
Definition water_flux (flux G mo : R) : R := (flux + mo * G)%R.
Definition oil_flux (flux G mw : R) : R := (flux - mw * G)%R.
Definition agrees (side : Z) (F : R) : Prop := (side = 0 /\ (0 <= F)%R) \/ (side = 1 /\ (F <= 0)%R).

(* larger of total outflow and inflow *)
Definition throughput (fl : list R) : R := Rmax (Rsum (map (fun x => Rmax x 0) fl)) (Rsum (map (fun x => Rmax (- x) 0) fl)).

(* water volume of a saturation *)
Definition water_volume (pv : list R) (s : Z -> R) : R := Rsum (map (fun i => nthR pv i * s i)%R (zrange 0 (zlen pv))).
