(* Model of the MPI exchange of RelPermUtils.cpp:239-309 collectResults and of the
   distribution of points, RelPermUtils.cpp:1025-1037. *)
From Verif Require Export RBase Relp_Model.
Open Scope Z_scope.

(* C++ conversion of a double to int (truncation) *)
(* RelPermUtils.cpp:258-276: the first entry of the buffer *)
Definition ctrunc (x : R) : Z := if Rltb x 0 then - Int_part (- x) else Int_part x.

(* The arrays WaterSaturation, PhasePerm[0], PhasePerm[1] of one process *)
(* RelPermUtils.cpp:239-309 *)
Record arrays := mkArr { ar_ws : list R; ar_p0 : list (list R); ar_p1 : list (list R) }.

(* RelPermUtils.cpp:285-303: the buffer sent for point idx.  [both] is upscaleBothPhases,
   [tec] is tensorElementCount. *)
Definition pack (both : bool) (tec : Z) (a : arrays) (idx : Z) : res (list R) :=
  let* s := rget (ar_ws a) idx in
  let* r0 := rget (ar_p0 a) idx in
  let* v0 := mapM (rget r0) (zrange 0 tec) in
  if both then
    let* r1 := rget (ar_p1 a) idx in
    let* v1 := mapM (rget r1) (zrange 0 tec) in
    Ok (IZR idx :: s :: v0 ++ v1)
  else Ok (IZR idx :: s :: v0).

(* RelPermUtils.cpp:254-276: storing a received buffer.  The rows of PhasePerm have tec
   entries (line 1002), all of which are assigned: the row is replaced. *)
Definition unpack (both : bool) (tec : Z) (a : arrays) (buf : list R) : res arrays :=
  let* x0 := rget buf 0 in
  let i := ctrunc x0 in
  let* s := rget buf 1 in
  let* ws := rset (ar_ws a) i s in
  let* r0 := mapM (fun v => rget buf (2 + v)) (zrange 0 tec) in
  let* p0 := rset (ar_p0 a) i r0 in
  if both then
    let* r1 := mapM (fun v => rget buf (2 + tec + v)) (zrange 0 tec) in
    let* p1 := rset (ar_p1 a) i r1 in
    Ok (mkArr ws p0 p1)
  else Ok (mkArr ws p0 (ar_p1 a)).

(* State of all processes: the arrays of each rank, the receives the master has still to
   post (source ranks, in program order), the messages in flight from each rank (all with
   tag 0, so received in order), and the points each rank has still to send. *)
(* RelPermUtils.cpp:239-309 *)
Record mpi := mkMpi { mp_master : arrays; mp_recv : list Z; mp_chan : Z -> list (list R); mp_send : Z -> list Z }.
(* change of the state of one rank, RelPermUtils.cpp:239-309 *)
Definition upd {A} (f : Z -> A) (r : Z) (x : A) : Z -> A := fun q => if q =? r then x else f q.

(* RelPermUtils.cpp:251-253 and 281-282: the loops over idx with their tests *)
Definition mpi_init (n points : Z) (a : Z -> arrays) : mpi :=
  mkMpi (a 0)
        (map (mpi_node n) (filter (fun i => negb (mpi_node n i =? 0)) (zrange 0 points)))
        (fun _ => [])
        (fun r => if r =? 0 then [] else filter (fun i => mpi_node n i =? r) (zrange 0 points)).

(* Possible transitions.  A standard-mode MPI_Send may be buffered (mpi_send) or may wait
   for the matching receive (mpi_rdv); the implementation is free to choose.  MPI_Recv
   takes the oldest message of the given source. *)
(* RelPermUtils.cpp:256-257, 269-270 (receive), 294, 303 (send) *)
Inductive mpi_step (both : bool) (tec : Z) (a : Z -> arrays) : mpi -> mpi -> Prop :=
| mpi_send st r i t m : mp_send st r = i :: t -> pack both tec (a r) i = Ok m ->
    mpi_step both tec a st (mkMpi (mp_master st) (mp_recv st) (upd (mp_chan st) r (mp_chan st r ++ [m])) (upd (mp_send st) r t))
| mpi_recv st r t m q a' : mp_recv st = r :: t -> mp_chan st r = m :: q -> unpack both tec (mp_master st) m = Ok a' ->
    mpi_step both tec a st (mkMpi a' t (upd (mp_chan st) r q) (mp_send st))
| mpi_rdv st r t i u m a' : mp_recv st = r :: t -> mp_chan st r = [] -> mp_send st r = i :: u ->
    pack both tec (a r) i = Ok m -> unpack both tec (mp_master st) m = Ok a' ->
    mpi_step both tec a st (mkMpi a' t (mp_chan st) (upd (mp_send st) r u)).
