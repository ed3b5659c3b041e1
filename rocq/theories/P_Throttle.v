(** C33: the snapshot throttle. *)
From Verif Require Import Base Throttle ThrottleSpec ThrottleProofs.

(** For all call sequences and clock readings, at every point of the history: net bytes
    granted in the current cycle within the limit, running tasks within the bound. *)
Theorem throttle_within_budget : forall limit cycle_us max_tasks now0 cs t h h1 h2,
  0 <= limit -> 0 <= max_tasks -> Forall sane cs ->
  t_run limit cycle_us max_tasks (th_init cycle_us now0) cs = Some (t, h) -> h = h1 ++ h2 ->
  net 0 h1 <= limit /\ 0 <= tasks 0 h1 <= max_tasks.
Proof. exact throttle_bound. Qed.

(** No request is granted more than it asked for. *)
Theorem throttle_grant_at_most_asked : forall limit cycle_us max_tasks now0 cs t h,
  0 <= limit -> 0 <= max_tasks -> Forall sane cs ->
  t_run limit cycle_us max_tasks (th_init cycle_us now0) cs = Some (t, h) ->
  Forall2 (fun c r => match c, r with CAcquire _ b, RGrant g _ => 0 <= g <= b | CAcquire _ _, _ => False | _, _ => True end) cs h.
Proof. exact throttle_grants. Qed.

(** The task counter's CHECK can only fail when a task is finished that was never added. *)
Theorem throttle_abort_only_on_misuse : forall limit cycle_us max_tasks now0 cs,
  0 <= limit -> 0 <= max_tasks -> Forall sane cs ->
  t_run limit cycle_us max_tasks (th_init cycle_us now0) cs = None ->
  exists cs1 cs2 t' h, cs = cs1 ++ CFinish false :: cs2 /\
    t_run limit cycle_us max_tasks (th_init cycle_us now0) cs1 = Some (t', h) /\ tasks 0 h = 0.
Proof. exact throttle_abort0. Qed.

(** limit 100 bytes per cycle of 10 us: grant 60, grant the remaining 40 of 80, return 30,
    grant 30, then a new cycle; at most 2 tasks. *)
(** A returned surplus is given back to the budget exactly when it was acquired in the
    current cycle (the acquisition being [elapse] microseconds ago). *)
Theorem throttle_returns_only_to_same_cycle : forall limit cycle_us max_tasks now0 cs1 now a u e cs2 t h,
  t_run limit cycle_us max_tasks (th_init cycle_us now0) (cs1 ++ CReturn now a u e :: cs2) = Some (t, h) ->
  exists h1 ok h2, h = h1 ++ RReturn (a - u) ok :: h2 /\ length h1 = length cs1 /\
    (ok = true <-> cycle_start cycle_us (now0 / cycle_us * cycle_us) cs1 h1 <= now - e).
Proof. exact return_same_cycle. Qed.
Print Assumptions throttle_returns_only_to_same_cycle.

Example ex_throttle :
  t_run 100 10 2 (th_init 10 7) [CAcquire 8 60; CAcquire 9 80; CReturn 10 40 10 1; CAcquire 10 50; CAcquire 35 500;
                                 CAdd false; CAdd false; CAdd false; CAdd true; CFinish false]
  = Some (mkTh 1 30 100, [RGrant 60 false; RGrant 40 false; RReturn 30 true; RGrant 30 false; RGrant 100 true;
                          RAdd false true; RAdd false true; RAdd false false; RAdd true true; RFinish false]).
Proof. reflexivity. Qed.
(** Dying on a surplus finish is real. *)
Example ex_throttle_abort : t_run 100 10 2 (th_init 10 7) [CFinish false] = None.
Proof. reflexivity. Qed.

Print Assumptions throttle_within_budget.
Print Assumptions throttle_grant_at_most_asked.
Print Assumptions throttle_abort_only_on_misuse.
