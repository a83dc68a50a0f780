(* Model of opm/elasticity/meshcolorizer.{hpp,cpp} and opm/elasticity/logutils.hpp *)
From Verif Require Export Base.

(* meshcolorizer.hpp:66-97 getStripDirection (parts > 0) *)
Definition strip_direction (nel1 nel2 nel3 parts : Z) : Z :=
  let s1 := Z.quot nel1 parts in
  let s2 := Z.quot nel2 parts in
  let s3 := Z.quot nel3 parts in
  let r1 := nel1 - s1 * parts in
  let r2 := nel2 - s2 * parts in
  let r3 := nel3 - s3 * parts in
  if (r1 * nel2 * nel3 <? nel1 * r2 * nel3) && (r1 * nel2 * nel3 <? nel1 * nel2 * r3) then 0
  else if (nel1 * r2 * nel3 <? r1 * nel2 * nel3) && (nel1 * r2 * nel3 <? nel1 * nel2 * r3) then 1
  else if (nel1 * nel2 * r3 <? r1 * nel2 * nel3) && (nel1 * nel2 * r3 <? nel1 * r2 * nel3) then 2
  else if nel1 * r2 * nel3 <? r1 * nel2 * nel3 then (if nel3 <? nel2 then 1 else 2)
  else if nel1 * nel2 * r3 <? nel1 * r2 * nel3 then (if nel3 <? nel1 then 0 else 2)
  else if r1 * nel2 * nel3 <? nel1 * nel2 * r3 then (if nel2 <? nel1 then 0 else 1)
  else if (nel2 <=? nel1) && (nel3 <=? nel1) then 0
  else if (nel1 <=? nel2) && (nel3 <=? nel2) then 1
  else 2.

(* meshcolorizer.cpp:41-44: while (threads > 1 && (stripsize = els/parts) < 2)
   { threads--; parts -= 2; }.  None: out of fuel. *)
Fixpoint strip_loop (fuel : nat) (els threads parts : Z) : option (Z * Z) :=
  match fuel with
  | O => None
  | S f => if (1 <? threads) && (Z.quot els parts <? 2)
           then strip_loop f els (threads - 1) (parts - 2)
           else Some (threads, parts)
  end.

(* meshcolorizer.cpp:75-76: stripsizes[i%2][threads-(i+1)/2]++ *)
Definition bump (threads : Z) (ss : list Z * list Z) (i : Z) : res (list Z * list Z) :=
  let k := threads - Z.quot (i + 1) 2 in
  if Z.rem i 2 =? 0
  then let* v := rget (fst ss) k in let* l := rset (fst ss) k (v + 1) in Ok (l, snd ss)
  else let* v := rget (snd ss) k in let* l := rset (snd ss) k (v + 1) in Ok (fst ss, l).

(* meshcolorizer.cpp:72-76: the strip sizes of both colours *)
Definition strip_sizes (threads stripsize remainder : Z) : res (list Z * list Z) :=
  foldM (bump threads) (zrange 1 (remainder + 1))
        (zrepeat stripsize threads, zrepeat stripsize threads).

(* meshcolorizer.cpp:78-85: start elements; the loop reads both size vectors in
   lockstep, modelled by structural recursion *)
Fixpoint start_elms (offs mul : Z) (s0 s1 : list Z) : list Z * list Z :=
  match s0, s1 with
  | a :: t0, b :: t1 =>
      let r := start_elms (offs + a + b) mul t0 t1 in
      (offs * mul :: fst r, (offs + a) * mul :: snd r)
  | _, _ => ([], [])
  end.

(* meshcolorizer.cpp:67-71: invert the compressed cell array *)
Definition invert_cells (ncart : Z) (gc : list Z) : res (list Z) :=
  writes (combine gc (zrange 0 (zlen gc))) (zrepeat (-1) ncart).

(* meshcolorizer.cpp:90-101: the cells of one strip *)
Definition strip_cells (nel1 nel2 nel3 dir : Z) (ga : list Z) (start size : Z) : res (list Z) :=
  let maxx := if dir =? 0 then size else nel1 in
  let maxy := if dir =? 1 then size else nel2 in
  let maxz := if dir =? 2 then size else nel3 in
  let* vs := mapM (fun t => rget ga (start + snd (snd t) + nel1 * (fst (snd t) + nel2 * fst t)))
                  (triples (zrange 0 maxz) (zrange 0 maxy) (zrange 0 maxx)) in
  Ok (filter (fun v => -1 <? v) vs).

(* meshcolorizer.cpp:24-115 calcGroups in an OpenMP build.  [gc] is
   grid.globalCell(); grid.size(0) is its length.  None of the strips: out of
   fuel of the while loop (shown impossible). *)
Definition calc_groups (omp_threads nel1 nel2 nel3 : Z) (gc : list Z)
    : option (res (list (list Z) * list (list Z))) :=
  let parts := if 1 <? omp_threads then 2 * omp_threads else 1 in
  let dir := strip_direction nel1 nel2 nel3 parts in
  let mul := if dir =? 0 then 1 else nel1 * (if dir =? 1 then 1 else nel2) in
  let els := if dir =? 0 then nel1 else if dir =? 1 then nel2 else nel3 in
  match strip_loop (Z.to_nat omp_threads + 1) els omp_threads parts with
  | None => None
  | Some (threads, parts') =>
      Some (if threads =? 1 then Ok ([zrange 0 (zlen gc)], [])
      else
        let stripsize := Z.quot els parts' in
        let remainder := els - stripsize * parts' in
        let* ga := invert_cells (nel1 * nel2 * nel3) gc in
        let* ss := strip_sizes threads stripsize remainder in
        let st := start_elms 0 mul (fst ss) (snd ss) in
        let* g0 := mapM (fun p => strip_cells nel1 nel2 nel3 dir ga (fst p) (snd p)) (combine (fst st) (fst ss)) in
        let* g1 := mapM (fun p => strip_cells nel1 nel2 nel3 dir ga (fst p) (snd p)) (combine (snd st) (snd ss)) in
        Ok (g0, g1))
  end.

(* logutils.hpp:27-42 LoggerHelper constructor: the group offsets.
   sizes[i] = max/chunks for all i, +1 for i >= chunks - max%chunks (the second
   loop increments each of these once); groups[i] = groups[i-1]+sizes[i-1]. *)
Definition log_sizes (mx chunks : Z) : list Z :=
  map (fun i => Z.quot mx chunks + if chunks - Z.rem mx chunks <=? i then 1 else 0) (zrange 0 chunks).
(* logutils.hpp:27-42: the offsets groups[i] *)
Fixpoint prefix_offsets (o : Z) (sizes : list Z) : list Z :=
  match sizes with [] => [] | s :: t => o :: prefix_offsets (o + s) t end.
(* logutils.hpp:27-42: all offsets, the last one is max *)
Definition log_groups (mx chunks : Z) : list Z := prefix_offsets 0 (log_sizes mx chunks) ++ [mx].
(* logutils.hpp:46-49 group *)
Definition log_group (mx chunks g : Z) : res (Z * Z) :=
  let* a := rget (log_groups mx chunks) g in
  let* b := rget (log_groups mx chunks) (g + 1) in
  Ok (a, b).
