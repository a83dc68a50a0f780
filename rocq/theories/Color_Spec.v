(* Specification vocabulary for mesh colouring. *)
From Verif Require Export Base.

(* [node] (a,b,c) is a corner of logical cell number e of an nx*ny*nz grid; nodes
   on opposite sides of the grid are identified (periodic constraints), so two
   cells that share a node in the plain grid also share one here. *)
Definition cell_node (nx ny nz e : Z) (node : Z * Z * Z) : Prop :=
  exists i j k di dj dk,
    0 <= i < nx /\ 0 <= j < ny /\ 0 <= k < nz /\
    0 <= di <= 1 /\ 0 <= dj <= 1 /\ 0 <= dk <= 1 /\
    e = i + nx * (j + ny * k) /\
    node = ((i + di) mod nx, (j + dj) mod ny, (k + dk) mod nz).

(* the table of global cell numbers of the active cells *)
Definition wf_cells (n : Z) (gc : list Z) : Prop :=
  NoDup gc /\ forall e, In e gc -> 0 <= e < n.
