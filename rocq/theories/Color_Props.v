(* Properties C07-C10: mesh colouring for threaded assembly and progress chunks. *)
From Coq Require Import Permutation.
From Verif Require Import BaseFacts Color_Model Color_Spec Color_Proofs.
Open Scope Z_scope.

(* C07: the groups of both colours together list every active cell exactly once. *)
Theorem C07_partition : forall omp nel1 nel2 nel3 gc,
  1 <= omp -> 1 <= nel1 -> 1 <= nel2 -> 1 <= nel3 -> wf_cells (nel1 * nel2 * nel3) gc ->
  exists red black, calc_groups omp nel1 nel2 nel3 gc = Some (Ok (red, black)) /\
    zlen red <= omp /\ zlen black <= omp /\
    Permutation (concat red ++ concat black) (zrange 0 (zlen gc)).
Proof. exact groups_partition. Qed.
Print Assumptions C07_partition.

(* C08: cells of one colour handled by different threads share no node, even when
   nodes on opposite sides of the grid are identified. *)
Theorem C08_race_free : forall omp nel1 nel2 nel3 gc red black,
  1 <= omp -> 1 <= nel1 -> 1 <= nel2 -> 1 <= nel3 -> wf_cells (nel1 * nel2 * nel3) gc ->
  calc_groups omp nel1 nel2 nel3 gc = Some (Ok (red, black)) ->
  forall colour, colour = red \/ colour = black ->
  forall t t' l l' v v' e e', t <> t' ->
    zget colour t = Some l -> zget colour t' = Some l' -> In v l -> In v' l' ->
    zget gc v = Some e -> zget gc v' = Some e' ->
    ~ exists node, cell_node nel1 nel2 nel3 e node /\ cell_node nel1 nel2 nel3 e' node.
Proof. exact groups_race_free. Qed.
Print Assumptions C08_race_free.

(* C09: the loop that reduces the thread count ends with the largest usable number
   of threads; the strips are contiguous, at least two cells wide, differ by at
   most one cell and fill the grid exactly. *)
Theorem C09_strips : forall els threads, 1 <= threads -> 1 <= els ->
  exists th, strip_loop (Z.to_nat threads + 1) els threads (2 * threads) = Some (th, 2 * th) /\
   1 <= th <= threads /\
   (th = threads \/ els < 4 * (th + 1)) /\
   (1 < th -> 4 * th <= els /\
     let ss := Z.quot els (2 * th) in
     exists s0 s1, strip_sizes th ss (els - ss * (2 * th)) = Ok (s0, s1) /\
       zlen s0 = th /\ zlen s1 = th /\
       fold_right Z.add 0 s0 + fold_right Z.add 0 s1 = els /\
       (forall s, In s (s0 ++ s1) -> 2 <= s /\ ss <= s <= ss + 1) /\
       forall mul t, 0 <= t < th ->
         exists a x y, zget s0 t = Some x /\ zget s1 t = Some y /\
           zget (fst (start_elms 0 mul s0 s1)) t = Some (a * mul) /\
           zget (snd (start_elms 0 mul s0 s1)) t = Some ((a + x) * mul) /\
           (t = 0 -> a = 0) /\
           (t + 1 < th -> zget (fst (start_elms 0 mul s0 s1)) (t + 1) = Some ((a + x + y) * mul)) /\
           (t + 1 = th -> a + x + y = els)).
Proof. exact strips_legal. Qed.
Print Assumptions C09_strips.

(* C10: the chunks are consecutive, cover 0..max and differ in length by at most one. *)
Theorem C10_chunks : forall mx c, 0 <= mx -> 1 <= c ->
  exists b : Z -> Z, b 0 = 0 /\ b c = mx /\
    (forall g, 0 <= g < c -> log_group mx c g = Ok (b g, b (g + 1)) /\
       mx / c <= b (g + 1) - b g <= mx / c + 1).
Proof. exact log_group_spec. Qed.
Print Assumptions C10_chunks.

(* A grid of 2 x 9 x 2 cells with one cell missing, three threads offered: two are
   used, both colours are non-empty, so the hypotheses of C07 and C08 are met. *)
Example colour_hypotheses_met :
  let gc := filter (fun e => negb (e =? 7)) (zrange 0 36) in
  wf_cells (2 * 9 * 2) gc /\
  exists r b, calc_groups 3 2 9 2 gc = Some (Ok (r, b)) /\ zlen r = 2 /\ zlen b = 2 /\
    Forall (fun l => l <> []) (r ++ b).
Proof.
  cbv zeta. split.
  - split; [apply NoDup_filter, zrange_NoDup|]. intros e He. apply filter_In in He. destruct He as [He _].
    apply In_zrange in He. lia.
  - eexists. eexists. split; [vm_compute; reflexivity|]. split; [reflexivity|]. split; [reflexivity|].
    repeat constructor; discriminate.
Qed.
Example chunk_hypotheses_met : log_group 10 3 2 = Ok (6, 10).
Proof. reflexivity. Qed.
