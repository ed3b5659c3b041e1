(** Model of RepeatedTimerTask: src/braft/repeated_timer_task.{h,cpp}.  bthread timers: a
    timer that was added is either still armed (bthread_timer_del returns 0 and it will
    never fire) or has fired (del returns non-zero). *)
From Verif Require Import Base.

(** repeated_timer_task.h:68-75 flags; the environment: is a timer armed, how many
    expiries wait for their bthread to enter on_timedout(), how many are inside run(),
    how many on_destroy() calls are due (after the unlock). *)
Record timer := mkTm {
  stopped : bool; running : bool; destroyed : bool;
  armed : bool; fired : nat; inrun : nat; due : nat }.

(** repeated_timer_task.cpp:37-44 init (the model starts here) *)
Definition tm_init : timer := mkTm true false false false 0 0 0.

(** repeated_timer_task.cpp:127-135 schedule; [add] tells whether bthread_timer_add
    succeeds, otherwise on_timedout(this) is called directly *)
Definition schedule (t : timer) (add : bool) : timer :=
  if add then mkTm (stopped t) (running t) (destroyed t) true (fired t) (inrun t) (due t)
  else mkTm (stopped t) (running t) (destroyed t) (armed t) (S (fired t)) (inrun t) (due t).

Definition disarm (t : timer) : timer :=
  mkTm (stopped t) (running t) (destroyed t) false (fired t) (inrun t) (due t).
Definition set_running (t : timer) (b : bool) : timer :=
  mkTm (stopped t) b (destroyed t) (armed t) (fired t) (inrun t) (due t).
Definition set_stopped (t : timer) (b : bool) : timer :=
  mkTm b (running t) (destroyed t) (armed t) (fired t) (inrun t) (due t).
Definition add_due (t : timer) : timer :=
  mkTm (stopped t) (running t) (destroyed t) (armed t) (fired t) (inrun t) (S (due t)).

(** repeated_timer_task.cpp:46-56 stop; [None] = CHECK(_running) fails *)
Definition tm_stop (t : timer) : option timer :=
  if stopped t then Some t
  else if negb (running t) then None
  else let t := set_stopped t true in
       if armed t then Some (set_running (disarm t) false) else Some t.

(** repeated_timer_task.cpp:80-99 start *)
Definition tm_start (t : timer) (add : bool) : timer :=
  if destroyed t then t
  else if negb (stopped t) then t
  else let t := set_stopped t false in
       if running t then t else schedule (set_running t true) add.

(** repeated_timer_task.cpp:101-107 run_once_now *)
Definition tm_run_once (t : timer) : timer :=
  if armed t
  then mkTm (stopped t) (running t) (destroyed t) false (S (fired t)) (inrun t) (due t)
  else t.

(** repeated_timer_task.cpp:137-158 reset, reset(timeout_ms) (timeouts not modelled) *)
Definition tm_reset (t : timer) (add : bool) : option timer :=
  if stopped t then Some t
  else if negb (running t) then None
  else if armed t then Some (schedule (disarm t) add) else Some t.

(** repeated_timer_task.cpp:160-180 destroy *)
Definition tm_destroy (t : timer) : option timer :=
  if destroyed t then Some t
  else
    let t := mkTm (stopped t) (running t) true (armed t) (fired t) (inrun t) (due t) in
    if negb (running t) then (if stopped t then Some (add_due t) else None)
    else if stopped t then Some t
    else let t := set_stopped t true in
         if armed t then Some (add_due (set_running (disarm t) false))
         else if running t then Some t else None.

(** repeated_timer_task.cpp:58-62 on_timedout up to run() *)
Definition tm_begin (t : timer) : timer :=
  mkTm (stopped t) (running t) (destroyed t) (armed t) (pred (fired t)) (S (inrun t)) (due t).
(** repeated_timer_task.cpp:63-78 on_timedout after run() *)
Definition tm_end (t : timer) (add : bool) : option timer :=
  let t := mkTm (stopped t) (running t) (destroyed t) (armed t) (fired t) (pred (inrun t)) (due t) in
  if negb (running t) then None
  else if stopped t then
    let t := set_running t false in
    Some (if destroyed t then add_due t else t)
  else Some (schedule t add).

Inductive tev :=
| EStop | EStart (add : bool) | EReset (add : bool) | ERunOnce | EDestroy   (* API *)
| EFire                         (* the armed timer expires *)
| EBegin                        (* a bthread enters on_timedout and calls run() *)
| EEnd (add : bool)             (* run() returns, rest of on_timedout *)
| ECallback.                    (* a due on_destroy() runs *)
Inductive tout := TBegin | TEnd | TDestroy.

Definition tm_step (t : timer) (e : tev) : option (timer * list tout) :=
  match e with
  | EStop => match tm_stop t with Some t' => Some (t', []) | None => None end
  | EStart a => Some (tm_start t a, [])
  | EReset a => match tm_reset t a with Some t' => Some (t', []) | None => None end
  | ERunOnce => Some (tm_run_once t, [])
  | EDestroy => match tm_destroy t with Some t' => Some (t', []) | None => None end
  | EFire => Some (tm_run_once t, [])   (* expiry moves the armed timer to "fired" *)
  | EBegin => match fired t with O => Some (t, []) | S _ => Some (tm_begin t, [TBegin]) end
  | EEnd a => match inrun t with
              | O => Some (t, [])
              | S _ => match tm_end t a with Some t' => Some (t', [TEnd]) | None => None end
              end
  | ECallback => match due t with
                 | O => Some (t, [])
                 | S n => Some (mkTm (stopped t) (running t) (destroyed t) (armed t) (fired t) (inrun t) n, [TDestroy])
                 end
  end.
Fixpoint tm_run (t : timer) (es : list tev) : option (timer * list tout) :=
  match es with
  | [] => Some (t, [])
  | e :: es' =>
      match tm_step t e with
      | None => None
      | Some (t1, o1) => match tm_run t1 es' with None => None | Some (t2, o2) => Some (t2, o1 ++ o2) end
      end
  end.
