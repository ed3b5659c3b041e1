(** C35: repeated timers. *)
From Verif Require Import Base Timer TimerSpec TimerProofs.

(** For every interleaving of start/stop/reset/run-once/destroy with expiries, run begins,
    run ends (also with failing bthread_timer_add) and destroy callbacks: no CHECK fails;
    runs never overlap; on_destroy happens at most once, never during a run, and nothing
    happens after it ([phases] accepts the trace); a started, not stopped timer always has
    exactly one pending or running invocation (it is never lost nor doubled); and a
    destroyed timer with nothing outstanding has had its on_destroy. *)
Theorem timer_lifecycle : forall es, exists t o p, tm_run tm_init es = Some (t, o) /\ phases Idle o = Some p /\
  (stopped t = false -> destroyed t = false /\
     ((if armed t then 1 else 0) + fired t + inrun t = 1)%nat) /\
  (destroyed t = true -> armed t = false -> fired t = O -> inrun t = O -> due t = O -> p = Dead) /\
  (p = Dead -> armed t = false /\ fired t = O /\ inrun t = O).
Proof. exact timer_ok. Qed.

(** stop and restart during a run, then destroy during a run. *)
Example ex_timer : exists t, tm_run tm_init
  [EStart true; EFire; EBegin; EStop; EStart true; EEnd true; ERunOnce; EBegin; EDestroy; EStart true; EEnd true; ECallback; EStart true; EFire; EBegin]
  = Some (t, [TBegin; TEnd; TBegin; TEnd; TDestroy]).
Proof. eexists; reflexivity. Qed.

Print Assumptions timer_lifecycle.
