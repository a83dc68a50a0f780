(* What the columns of the result table are supposed to contain, by name. *)
From Verif Require Export Hdr_Model.
Open Scope string_scope.
Open Scope Z_scope.

(* the names of single numbers *)
Definition plain_names : list (string * col) :=
  [("porosity", Poro); ("netporosity", NetPoro); ("ntg", Ntg); ("permx", Kx); ("permy", Ky); ("permz", Kz); ("permyz", Kyz); ("permxz", Kxz); ("permxy", Kxy);
   ("swcr", Swcr); ("sowcr", Sowcr); ("Swir", Swir); ("Swor", Swor); ("dip", Dip)].
Definition pc_names : list (string * Z) := [("Pc(Swir)", 0); ("Pc2", 1); ("Pc3", 2); ("Pc4", 3); ("Pc(Swor)", 4)].
(* entry r of the results of a kind *)
Definition entry (t : columns) (c : col) (r : Z) (v : R) : Prop := exists l, zget (t c) r = Some (v :: l).
(* v is what belongs under the name in row r *)
Inductive belongs (fmti : Z -> string) (azs : string) (t : columns) (r : Z) : string -> R -> Prop :=
| Belongs_plain n c v : In (n, c) plain_names -> entry t c r v -> belongs fmti azs t r n v
| Belongs_azimuth v : entry t Azim r v -> belongs fmti azs t r ("azim(displacement:" ++ azs ++ ")") v
| Belongs_net x y n : entry t Kx r x -> entry t Ky r y -> entry t Ntg r n -> n <> 0%R -> belongs fmti azs t r "netpermh" ((x + y) / (2 * n))%R
| Belongs_pc n k l v : In (n, k) pc_names -> zget (t Pc) r = Some l -> zget l k = Some v -> belongs fmti azs t r n v
| Belongs_rock k l v : 1 <= k -> zget (t Rock) r = Some l -> (zget l (k - 1) = Some v \/ zget l (k - 1) = None /\ v = 0%R) -> belongs fmti azs t r ("satnum_" ++ fmti k) v.
(* when a column is wanted *)
Definition wanted (o : opts) : list (string * bool) :=
  let u := o_upscale o in let any := u || o_end o in
  [("porosity", any); ("netporosity", any && o_ntg o); ("ntg", any && o_ntg o); ("permx", u); ("permy", u); ("permz", u);
   ("permyz", u && o_periodic o); ("permxz", u && o_periodic o); ("permxy", u && o_periodic o); ("netpermh", u && o_ntg o);
   ("swcr", u && o_swcr o); ("sowcr", u && o_sowcr o); ("Swir", o_end o); ("Swor", o_end o);
   ("Pc(Swir)", o_end o && o_cappres o); ("Pc2", o_end o && o_cappres o); ("Pc3", o_end o && o_cappres o); ("Pc4", o_end o && o_cappres o); ("Pc(Swor)", o_end o && o_cappres o);
   ("dip", o_dips o)].
(* example: results of one subsample and the options they belong to *)
Definition one_result : columns := fun c => match c with Kx => [[3%R]] | Ky => [[5%R]] | Kz => [[1%R]] | Poro => [[(1/4)%R]] | Rock => [[(1/3)%R; (2/3)%R]] | Dip => [[0%R]] | Azim => [[90%R]] | _ => [] end.
Definition one_opts : opts := mkOpts true false false false false false false true true 0.
