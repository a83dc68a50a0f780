(* Vocabulary for a chopper that is used several times. *)
From Verif Require Export Chr_Model Grd_Spec.
Open Scope Z_scope.

(* the states of a chopper: any number of chops of any blocks, some of which may throw *)
Inductive history (d : cdeck) : cstate -> Prop :=
| History_new : history d fresh
| History_chop s s' imin imax jmin jmax zmin zmax reset : history d s ->
    chop_on d s imin imax jmin jmax zmin zmax reset = Done s' \/ chop_on d s imin imax jmin jmax zmin zmax reset = Raised s' -> history d s'.
