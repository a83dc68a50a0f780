(* Model of opm/core/transport/implicit/ImplicitTransport.hpp (Newton iteration with line
   search) and of the retry loop of opm/porsol/euler/EulerUpstreamImplicit_impl.hpp. *)
From Verif Require Export RBase Euler_Model.
Open Scope Z_scope.

(* ImplicitTransport.hpp:44-60 NRControl without the verbosity *)
Record nrctl := mkNrctl { c_max_it : Z; c_atol : R; c_rtol : R; c_dxtol : R; c_max_ls : Z }.
(* What the iteration calls, as functions of the solution vector: n_dir k x is the negated
   solution of the linear system assembled at x in iteration k (lines 145-151), n_acc x the
   result of initIteration at x, n_res x the norm of the residual assembled at x, n_norm
   the vector norm.  assemble always follows an initIteration with the same solution, so the
   system is determined by the solution at which it was assembled last. *)
Record nrprob := mkNrprob {
  n_dir : Z -> list R -> list R; n_acc : list R -> bool; n_res : list R -> R; n_norm : list R -> R }.
(* 1e99, ImplicitTransport.hpp:190 *)
Definition res_huge : R := IZR (10 ^ 99).
(* ImplicitTransport.hpp:169-174, JacobianSystem.hpp:90-99 and addIncrement: x <- x_old;
   x += alpha*dx_old *)
Definition vaxpy (x : list R) (a : R) (d : list R) : list R :=
  map (fun p => (fst p + a * snd p)%R) (combine x d).

(* ImplicitTransport.hpp:167-195: the line search.  xa is the solution at which the system
   was assembled last; the result is (solution, xa, lin_it); None: out of fuel *)
Fixpoint line_search (P : nrprob) (ctl : nrctl) (fuel : nat) (x_old dx : list R) (norm_res alpha : R) (lin_it : Z) (xa : list R)
  : option (list R * list R * Z) :=
  match fuel with
  | O => None
  | S f =>
      let alpha' := (alpha / 2)%R in
      let x' := vaxpy x_old alpha' dx in
      let ok := n_acc P x' in
      let xa' := if ok then x' else xa in
      let residual := if ok then n_res P x' else res_huge in
      if Rltb residual norm_res || (c_max_ls ctl <? lin_it) then Some (x', xa', lin_it + 1)
      else line_search P ctl f x_old dx norm_res alpha' (lin_it + 1) xa'
  end.
(* the state of the outer loop, and the number of trials of every iteration *)
(* ImplicitTransport.hpp:131-207 *)
Record nrst := mkNrst { s_x : list R; s_xa : list R; s_res : R; s_dx : R; s_it : Z; s_tr : list Z }.
(* ImplicitTransport.hpp:142-207: one iteration and whether the loop is left *)
Definition newton_body (P : nrprob) (ctl : nrctl) (nrm0 : R) (st : nrst) : option (nrst * bool) :=
  let dx := n_dir P (s_it st) (s_xa st) in
  let ndx := n_norm P dx in
  let ls := if Rltb (s_res st) (c_atol ctl) then Some (s_x st, s_xa st, 0)
            else line_search P ctl (S (Z.to_nat (c_max_ls ctl + 2))) (s_x st) dx (s_res st) 2 0 (s_xa st) in
  match ls with
  | None => None
  | Some (x', xa', lin_it) =>
      let r := n_res P xa' in
      let it := s_it st + 1 in
      let done := Rltb r (c_atol ctl) || Rltb r (c_rtol ctl * nrm0)%R || Rltb ndx (c_dxtol ctl)
                  || (c_max_ls ctl <? lin_it) || (it =? c_max_it ctl) in
      Some (mkNrst x' xa' r ndx it (s_tr st ++ [lin_it]), done)
  end.
(* ImplicitTransport.hpp:142-207: the loop *)
Fixpoint newton_loop (P : nrprob) (ctl : nrctl) (nrm0 : R) (fuel : nat) (st : nrst) : option nrst :=
  match fuel with
  | O => None
  | S f => match newton_body P ctl nrm0 st with
           | None => None
           | Some (st', true) => Some st'
           | Some (st', false) => newton_loop P ctl nrm0 f st'
           end
  end.
(* ImplicitTransport.hpp:211-214 *)
Definition newton_flag (ctl : nrctl) (nrm0 : R) (st : nrst) : Z :=
  if Rltb (s_res st) (c_atol ctl) then 1
  else if Rltb (s_res st) (c_rtol ctl * nrm0)%R then 2
  else if Rltb (s_dx st) (c_dxtol ctl) then 3 else -1.
(* ImplicitTransport.hpp:116-216 solve: x0 is the solution after initStep (the result of the
   first initIteration is ignored); the result is the state handed to finishStep and the flag *)
Definition newton_solve (P : nrprob) (ctl : nrctl) (x0 : list R) (fuel : nat) : option (nrst * Z) :=
  let nrm0 := n_res P x0 in
  match newton_loop P ctl nrm0 fuel (mkNrst x0 x0 nrm0 (-1) 0 []) with
  | None => None
  | Some st => Some (st, newton_flag ctl nrm0 st)
  end.

(* EulerUpstreamImplicit_impl.hpp:236-242, 306-310: sat[2i] = s[i], sat[2i+1] = 1 - s[i] *)
Definition expand2 (s : list R) : list R := flat_map (fun x => [x; (1 - x)%R]) s.
(* EulerUpstreamImplicit_impl.hpp:328-332 *)
Fixpoint firsts (s : list R) : list R :=
  match s with x :: _ :: t => x :: firsts t | _ => [] end.
(* EulerUpstreamImplicit_impl.hpp:289-320: the retry loop.  step is the solver: (flag >= 0,
   saturations left in the state); repeats > max_repeats ends it.  n *= 2 beyond INT_MAX is UB.
   The result has the number of steps of every attempt *)
Fixpoint implicit_retry (step : list R -> R -> res (bool * list R)) (time : R) (s0 : list R) (fuel : nat) (nr : Z) (tries : list Z) : res eout :=
  let* r := do_steps step (Z.to_nat nr) s0 (time / IZR nr)%R in
  let tries' := tries ++ [nr] in
  if fst r then Ok (mkEout true (snd r) tries')
  else match fuel with
       | O => Ok (mkEout false (snd r) tries')
       | S f => if int_max <? nr * 2 then UB else implicit_retry step time s0 f (nr * 2) tries'
       end.
(* EulerUpstreamImplicit_impl.hpp:227-340 transportSolve: returned value and saturation *)
Definition implicit_solve (max_repeats : Z) (step : list R -> R -> res (bool * list R)) (time : R) (s : list R) : res eout :=
  let* o := implicit_retry step time (expand2 s) (Z.to_nat (max_repeats + 1)) 1 [] in
  Ok (mkEout (eo_ok o) (firsts (eo_sat o)) (eo_tries o)).
