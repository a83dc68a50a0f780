(* Vocabulary for the elasticity program and the set-up of its solvers. *)
From Verif Require Export Eld_Model Lin_Spec Smat_Spec Asm_Spec Mort_Spec.
Open Scope Z_scope.

(* ---- parameters *)
(* the spelling that selects a method *)
Definition spelled (m : method) : string := match m with MNone => "none" | MMpc => "mpc" | MMortar => "mortar" end%string.
(* the word given for a parameter is w; nothing given counts as the word d *)
Definition says (o : option string) (d w : string) : Prop := o = Some w \/ (o = None /\ d = w).
(* pat occurs in s after the characters of a *)
Definition occurs_after (a pat s : string) : Prop := exists b, s = (a ++ pat ++ b)%string.

(* ---- coordinates *)
(* cell sizes of an even grid of dims cells on the box *)
Definition boxed (mn mx : list R) (dims : list Z) (x0 y0 z0 x1 y1 z1 : R) (nx ny nz : Z) : Prop :=
  mn = [x0; y0; z0] /\ mx = [x1; y1; z1] /\ dims = [nx; ny; nz] /\ (x0 < x1)%R /\ (y0 < y1)%R /\ (z0 < z1)%R /\ 0 < nx /\ 0 < ny /\ 0 < nz.

(* ---- solvers *)
(* n equations of the operator A, m multipliers with the coupling B (an empty matrix when there are none) *)
Definition system (A B : smat) (n m : Z) : Prop :=
  0 < n /\ wf_smat A /\ dims A n n /\ ((sm_n B = 0 /\ m = 0) \/ (coupled A B n m /\ 0 < m)).
(* the preconditioner a solver was given *)
Definition pc_of (s : solver_obj) : option pc_obj := match s with Cg p | Minres p | Gmres p | Uzawa p => Some p | Lu => None end.
(* a preconditioner made for the multiplier block only *)
Definition separate (l : lin) (m : Z) : bool :=
  (0 <? m) && match ln_mortarpre l with MSimple | MSchur => false | MSchurAmg => negb match ln_pre l with PreAmg => true | _ => false end
    | MSchurSchwarz => negb match ln_pre l with PreSchwarz => true | _ => false end | MSchurTwoLevel => negb match ln_pre l with PreTwoLevel => true | _ => false end end.
(* the preconditioner set up last is a Schwarz method *)
Definition last_schwarz (l : lin) (main : pc_type) (m : Z) : Prop :=
  if separate l m then ln_mortarpre l = MSchurSchwarz else main = TSchwarz.
(* the class of a preconditioner object, main being the class of the primary one *)
Definition class_of (main : pc_type) (p : pc_obj) : pc_type := match p with Primary | ThreadCopy _ | ColumnCopy _ => main | Own t | OwnCopy t _ => t end.

(* ---- subdomains *)
(* equation e belongs to subdomain r *)
Definition in_sub (rows : list (list Z)) (r e : Z) : Prop := exists row, zget rows r = Some row /\ In e row.
(* the column of cells of a cell *)
Definition column (nel1 : Z) (c : (Z * Z) * list Z) : Z := fst (fst c) + nel1 * snd (fst c).
(* hexahedra with logical indices inside nel1 x nel2 *)
Definition columns_ok (nel1 nel2 : Z) (cells : list ((Z * Z) * list Z)) : Prop :=
  0 <= nel1 /\ 0 <= nel2 /\ forall c, In c cells -> 0 <= fst (fst c) < nel1 /\ 0 <= snd (fst c) < nel2 /\ zlen (snd c) = 8.
(* constraints couple displacements of one direction *)
Definition aligned (dim : Z) (M : mpcmap) : Prop := forall k x c, couples dim M k x c -> x mod dim = k mod dim.
(* equation e occurs in a displacement of a node of the cell *)
Definition touches (M : mpcmap) (meqn : list Z) (c : (Z * Z) * list Z) (e : Z) : Prop :=
  exists a, 0 <= a < 24 /\ acts 3 M meqn (cell_dof 3 (snd c) a) e.
