(* Property C29: collecting the results of all processes. *)
From Verif Require Import BaseFacts Mpi_Model Mpi_Spec Mpi_Proofs.
Open Scope Z_scope.

(* C29: for any number of processes and points, whatever the interleaving and whatever
   the amount of buffering: at most two transitions per point, no deadlock even without
   buffering, and at the end the master holds for every point the values computed by the
   process owning it. *)
Theorem C29_collect : forall both tec points n a,
  0 < n -> 0 <= points -> (forall r, 0 <= r < n -> arrays_ok both tec points (a r)) ->
  (forall k st, mpi_run both tec a k (mpi_init n points a) st -> Z.of_nat k <= 2 * points) /\
  (forall k st, mpi_run both tec a k (mpi_init n points a) st -> ~ all_done st ->
     exists st', guaranteed both tec a st st') /\
  (forall k st, mpi_run both tec a k (mpi_init n points a) st -> all_done st ->
     forall i, 0 <= i < points ->
       zget (ar_ws (mp_master st)) i = zget (ar_ws (a (mpi_node n i))) i /\
       zget (ar_p0 (mp_master st)) i = zget (ar_p0 (a (mpi_node n i))) i /\
       (both = true -> zget (ar_p1 (mp_master st)) i = zget (ar_p1 (a (mpi_node n i))) i)).
Proof. exact collect_prop. Qed.
Print Assumptions C29_collect.

Example C29_hypotheses_met : forall r, 0 <= r < 2 ->
  arrays_ok true 1 3 (mkArr [IZR r; IZR r; IZR r] [[0%R]; [1%R]; [2%R]] [[IZR r]; [1%R]; [2%R]]).
Proof.
  intros r _. split; [reflexivity|]. split; [reflexivity|].
  split; [intros x [<-|[<-|[<-|[]]]]; reflexivity|]. intros _. split; [reflexivity|].
  intros x [<-|[<-|[<-|[]]]]; reflexivity.
Qed.
