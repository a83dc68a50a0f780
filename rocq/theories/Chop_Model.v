(* Model of opm/upscaling/CornerpointChopper.hpp *)
From Verif Require Export RBase.
Open Scope Z_scope.

(* CornerpointChopper.hpp:42-63: what the constructor extracts from the deck.
   Simplification: the deck is given by its dimensions and raw arrays; the
   per-cell keyword arrays are passed to filter_field separately. *)
Record grid := { g_nx : Z; g_ny : Z; g_nz : Z; g_coord : list R; g_zcorn : list R }.

(* CornerpointChopper.hpp:52 *)
Definition layersz (g : grid) : Z := 8 * g_nx g * g_ny g.

(* CornerpointChopper.hpp:54 *)
Definition botmax (g : grid) : res R := lmax (zslice (g_zcorn g) 0 (layersz g / 2)).
(* CornerpointChopper.hpp:55-56 *)
Definition topmin (g : grid) : res R :=
  lmin (zslice (g_zcorn g) (g_nz g * layersz g - layersz g / 2) (g_nz g * layersz g)).
(* CornerpointChopper.hpp:58-59 *)
Definition abszmax (g : grid) : res R := lmax (g_zcorn g).
(* CornerpointChopper.hpp:58-59 *)
Definition abszmin (g : grid) : res R := lmin (g_zcorn g).

(* CornerpointChopper.hpp:95-135 verifyInscribedShoebox; the nine checks in order *)
Definition verify_shoebox (nx ny : Z) (azmin azmax : R)
    (imin ilen imax jmin jlen jmax : Z) (zmin zlen zmax : R) : res unit :=
  if imin <? 0 then Throw
  else if nx <? ilen then Throw
  else if nx <? imax then Throw
  else if jmin <? 0 then Throw
  else if ny <? jlen then Throw
  else if ny <? jmax then Throw
  else if Rltb zmin azmin then Throw
  else if Rltb azmax zmax then Throw
  else if Rltb (azmax - azmin)%R zlen then Throw
  else Ok tt.

(* CornerpointChopper.hpp:193-200: first k with layer_max > zmin, else -1 *)
Fixpoint find_kmin (g : grid) (zmin : R) (ks : list Z) : res Z :=
  match ks with
  | [] => Ok (-1)
  | k :: t =>
      let* m := lmax (zslice (g_zcorn g) (k * layersz g) ((k + 1) * layersz g)) in
      if Rltb zmin m then Ok k else find_kmin g zmin t
  end.
(* CornerpointChopper.hpp:202-209: k = nz, nz-1, ..., 1 with layer_min < zmax, else -1 *)
Fixpoint find_kmax (g : grid) (zmax : R) (ks : list Z) : res Z :=
  match ks with
  | [] => Ok (-1)
  | k :: t =>
      let* m := lmin (zslice (g_zcorn g) ((k - 1) * layersz g) (k * layersz g)) in
      if Rltb m zmax then Ok k else find_kmax g zmax t
  end.

(* CornerpointChopper.hpp:225-232: index of corner cc (0..7) of a cell with base index ix *)
Definition corner_off (d0 d1 d2 cc : Z) : Z :=
  nth (Z.to_nat cc)
    [0; d0; d1; d1 + d0; d2; d2 + d0; d2 + d1; d2 + d1 + d0] 0.

(* CornerpointChopper.hpp:154, 216: the value new_COORD_ and new_ZCORN_ are filled with *)
Definition fill_value : R := (10 ^ 100)%R.

(* CornerpointChopper.hpp:326-347: the members written by chop *)
Record chopped := {
  c_nx : Z; c_ny : Z; c_nz : Z;
  c_coord : list R; c_zcorn : list R; c_map : list Z;
  c_zlo : R; c_zhi : R; c_kmin : Z   (* local variables of chop, kept for the statements *)
}.

(* CornerpointChopper.hpp:155-169: the copy of one pillar, as the list of its
   six element writes *)
Definition pillar_writes (g : grid) (imin jmin nnx : Z) (xc yc zmin zmax : R)
    (reset : bool) (ji : Z * Z) : res (list (Z * R)) :=
  let j := fst ji in let i := snd ji in
  let pos := (g_nx g + 1) * j + i in
  let npos := (nnx + 1) * (j - jmin) + (i - imin) in
  let* c0 := rget (g_coord g) (6 * pos) in
  let* c1 := rget (g_coord g) (6 * pos + 1) in
  let* c2 := rget (g_coord g) (6 * pos + 2) in
  let* c3 := rget (g_coord g) (6 * pos + 3) in
  let* c4 := rget (g_coord g) (6 * pos + 4) in
  let* c5 := rget (g_coord g) (6 * pos + 5) in
  Ok (if reset then
        [(6 * npos, (c0 - xc)%R); (6 * npos + 1, (c1 - yc)%R); (6 * npos + 2, 0%R);
         (6 * npos + 3, (c3 - xc)%R); (6 * npos + 4, (c4 - yc)%R); (6 * npos + 5, (zmax - zmin)%R)]
      else
        [(6 * npos, c0); (6 * npos + 1, c1); (6 * npos + 2, c2);
         (6 * npos + 3, c3); (6 * npos + 4, c4); (6 * npos + 5, c5)]).

(* CornerpointChopper.hpp:143-169 *)
Definition chop_coord (g : grid) (imin imax jmin jmax : Z) (zmin zmax : R) (reset : bool)
    : res (list R) :=
  let nnx := imax - imin in
  let nny := jmax - jmin in
  if negb (zlen (g_coord g) =? 6 * (g_nx g + 1) * (g_ny g + 1)) then Throw
  else
    let* xc := rget (g_coord g) (6 * ((g_nx g + 1) * jmin + imin)) in
    let* yc := rget (g_coord g) (6 * ((g_nx g + 1) * jmin + imin) + 1) in
    let* blank := vresize (6 * (nnx + 1) * (nny + 1)) fill_value in
    let* ws := mapM (pillar_writes g imin jmin nnx xc yc zmin zmax reset)
                    (pairs (zrange jmin (jmax + 1)) (zrange imin (imax + 1))) in
    writes (concat ws) blank.

(* CornerpointChopper.hpp:221-240: the eight ZCORN writes of one cell *)
Definition cell_writes (g : grid) (imin jmin kmin nnx nny : Z) (zlo zhi corr : R)
    (kji : Z * (Z * Z)) : res (list (Z * R)) :=
  let k := fst kji in let j := fst (snd kji) in let i := snd (snd kji) in
  let d0 := 1 in let d1 := 2 * g_nx g in let d2 := 4 * g_nx g * g_ny g in
  let e0 := 1 in let e1 := 2 * nnx in let e2 := 4 * nnx * nny in
  let old_ix := 2 * (i * d0 + j * d1 + k * d2) in
  let new_ix := 2 * ((i - imin) * e0 + (j - jmin) * e1 + (k - kmin) * e2) in
  mapM (fun cc =>
          let* z := rget (g_zcorn g) (old_ix + corner_off d0 d1 d2 cc) in
          Ok (new_ix + corner_off e0 e1 e2 cc, (smin zhi (smax zlo z) - corr)%R))
       (zrange 0 8).

(* CornerpointChopper.hpp:137-241 chop, without the per-cell field filters.
   Simplification: a fresh chopper (the new_* vectors are empty before). *)
Definition chop (g : grid) (imin imax jmin jmax : Z) (zmin zmax : R) (reset : bool) : res chopped :=
  let nnx := imax - imin in
  let nny := jmax - jmin in
  let* ncoord := chop_coord g imin imax jmin jmax zmin zmax reset in
  if negb (zlen (g_zcorn g) =? layersz g * g_nz g) then Throw
  else
    let* bm := botmax g in
    let* tm := topmin g in
    let zlo := smax zmin bm in
    let zhi := smin zmax tm in
    if Rleb zhi zlo then Throw
    else
      let* kmin := find_kmin g zlo (zrange 0 (g_nz g)) in
      let* kmax := find_kmax g zhi (rev (zrange 1 (g_nz g + 1))) in
      let nnz := kmax - kmin in
      let corr := if reset then zlo else 0%R in
      let cells := triples (zrange kmin kmax) (zrange jmin jmax) (zrange imin imax) in
      let cmap := map (fun kji => g_nx g * g_ny g * fst kji
                                  + g_nx g * fst (snd kji) + snd (snd kji)) cells in
      let* blankz := vresize (8 * nnx * nny * nnz) fill_value in
      let* blankm := vresize (nnx * nny * nnz) (-1) in
      let* nmap := writes (combine (zrange 0 (zlen cmap)) cmap) blankm in
      let* ws := mapM (cell_writes g imin jmin kmin nnx nny zlo zhi corr) cells in
      let* nz := writes (concat ws) blankz in
      Ok {| c_nx := nnx; c_ny := nny; c_nz := nnz; c_coord := ncoord; c_zcorn := nz;
            c_map := nmap; c_zlo := zlo; c_zhi := zhi; c_kmin := kmin |}.

(* CornerpointChopper.hpp:416-427 filterField *)
Definition filter_field {A} (field : list A) (cmap : list Z) : res (list A) :=
  mapM (fun i => rget field i) cmap.

(* CornerpointChopper.hpp:428-442 filterDoubleField / filterIntegerField: an
   absent keyword leaves the output empty *)
Definition filter_keyword {A} (kw : option (list A)) (cmap : list Z) : res (list A) :=
  match kw with None => Ok [] | Some f => filter_field f cmap end.
