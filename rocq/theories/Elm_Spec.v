(* Vocabulary for comparing the upscaled stiffness of different materials on the same grid. *)
From Verif Require Export Elast_Spec.
Open Scope Z_scope.

(* sig is a result of the six load cases for the grid, the constraints and the material matrices, whatever the order of
   the cells, the stale matrices and the solutions *)
Definition upscaled (nodes : Z) (cells : list cellg) (M : mpcmap) (F : fixmap) (s : asm) (Cm : cellg -> fmat) (Escale Emin : R) (sig : fmat) : Prop :=
  exists color C0 C1 C2 s1 u, elastic_problem nodes cells M F s color Cm /\ assemble color (-1) true C0 s = Ok s1 /\ load_cases color cells Escale Emin C1 C2 s1 u sig.
(* two cells that differ in their material only *)
Definition same_shape (c c' : cellg) : Prop := cg_verts c = cg_verts c' /\ cg_rule c = cg_rule c' /\ cg_jit c = cg_jit c' /\ cg_det c = cg_det c'.
(* x^T A x <= k x^T B x for all x *)
Definition at_most (k : R) (A B : fmat) : Prop := forall x, (quad 6 A x <= k * quad 6 B x)%R.
(* cell by cell: the same shapes, and every matrix is at most k times its counterpart *)
Definition softer (k : R) (Cm Cm' : cellg -> fmat) (cells cells' : list cellg) : Prop :=
  Forall2 (fun c c' => same_shape c c' /\ at_most k (Cm c) (Cm' c')) cells cells'.
(* the strain at point x of cell c of the displacement with the unknowns z *)
Definition strain_at (s : asm) (z : Z -> R) (c : cellg) (x : Z -> R) : Z -> R :=
  mvec 24 (bmat c x) (fun a => displacement 3 s z (cell_dof 3 (cg_verts c) a)).
(* no displacement that the constraints allow has a mean strain *)
Definition mean_free (s : asm) (cells : list cellg) : Prop :=
  forall z k, 0 <= k < 6 -> integral cells (fun c x => strain_at s z c x k) = 0%R.
