From Verif Require Export Mpi_Model.
Open Scope Z_scope.

(* k transitions *)
Inductive mpi_run (both : bool) (tec : Z) (a : Z -> arrays) : nat -> mpi -> mpi -> Prop :=
| run_0 st : mpi_run both tec a 0 st st
| run_S k st st1 st2 : mpi_run both tec a k st st1 -> mpi_step both tec a st1 st2 -> mpi_run both tec a (S k) st st2.

(* nothing left to do for any process and no message in flight *)
Definition all_done (st : mpi) : Prop :=
  mp_recv st = [] /\ forall r, mp_chan st r = [] /\ mp_send st r = [].

(* every rank has arrays for all points, with tec entries per row *)
Definition arrays_ok (both : bool) (tec points : Z) (a : arrays) : Prop :=
  zlen (ar_ws a) = points /\ zlen (ar_p0 a) = points /\ (forall r, In r (ar_p0 a) -> zlen r = tec) /\
  (both = true -> zlen (ar_p1 a) = points /\ forall r, In r (ar_p1 a) -> zlen r = tec).

(* the transitions MPI guarantees to happen once both sides have called: they need no
   buffering of messages *)
Definition guaranteed (both : bool) (tec : Z) (a : Z -> arrays) (st st' : mpi) : Prop :=
  mpi_step both tec a st st' /\ exists r t, mp_recv st = r :: t /\ mp_recv st' = t.
