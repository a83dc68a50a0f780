From Verif Require Export Steady_Model.
Open Scope Z_scope.

Definition nthR (l : list R) (i : Z) : R := match zget l i with Some x => x | None => 0%R end.
(* the largest change of a cell saturation *)
Definition is_max_change (m : R) (n : Z) (a b : list R) : Prop :=
  (0 <= m)%R /\ (forall i, 0 <= i < n -> (Rabs (nthR a i - nthR b i) <= m)%R) /\
  (m = 0%R \/ exists i, 0 <= i < n /\ m = Rabs (nthR a i - nthR b i)).
(* root mean square change weighted with pore volume *)
Definition rms_change (pv a b : list R) : R :=
  sqrt (Rsum (map (fun i => (nthR a i - nthR b i) ^ 2 * nthR pv i)%R (zrange 0 (zlen pv))) / Rsum pv).
(* d is the change made by a call, in the configured norm *)
Definition change_of (p : sparams) (pv : list R) (c : tcall) (d : R) : Prop :=
  if sp_maxdiff p then is_max_change d (zlen pv) (tc_out c) (tc_in c) else d = rms_change pv (tc_out c) (tc_in c).
(* a converged call changing less than the tolerance per year *)
Definition steady_call (p : sparams) (pv : list R) (c : tcall) : Prop :=
  tc_conv c = true /\ exists d, change_of p pv c d /\ (d * sp_year p / tc_step c < sp_change p)%R.
(* step size after a call *)
Definition next_step (p : sparams) (pv : list R) (c : tcall) (s : R) : Prop :=
  if tc_conv c then
    exists d, change_of p pv c d /\
      (((d < sp_dt_tol p)%R /\ s = Rmin (sp_max_step p) (2 * tc_step c)) \/ ((d >= sp_dt_tol p)%R /\ s = tc_step c))
  else s = (tc_step c / 2)%R.
(* saturation after the calls *)
Definition sat_after (sat0 : list R) (calls : list tcall) : list R := last (map tc_out calls) sat0.

(* sums over faces *)
Definition sum_over {A} (f : A -> R) (l : list A) : R := Rsum (map f l).
Definition inflow (f : ioface) : bool := if Rlt_dec (io_flux f) 0 then true else false.
Definition outflow (f : ioface) : bool := if Rlt_dec (io_flux f) 0 then false else true.
Definition periodic_face (f : ioface) : Prop := c_type (io_cond f) = Periodic.
(* fractional flow of an outflow face, of an inflow face given the list of all faces *)
Definition out_frac (ff : Z -> R -> R) (sat : list R) (f : ioface) : R := ff (io_cell f) (nthR sat (io_cell f)).
Definition in_frac (ff : Z -> R -> R) (sat : list R) (faces : list ioface) (f : ioface) (x : R) : Prop :=
  (periodic_face f -> exists o, In o faces /\ periodic_face o /\ outflow o = true /\ io_bid o = io_partner f /\ x = out_frac ff sat o) /\
  (~ periodic_face f -> x = ff (io_cell f) (c_val (io_cond f))).

(* most recent successful run *)
Fixpoint last_success (rs : list ssrun) (init : list R) : list R :=
  match rs with
  | [] => init
  | r :: t => last_success t (if sr_success r then sr_final r else init)
  end.
