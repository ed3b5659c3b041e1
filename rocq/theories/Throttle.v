(** Model of ThroughputSnapshotThrottle: src/braft/snapshot_throttle.{h,cpp}.
    The clock reading [now] of each call is an arbitrary input; the gflags are fixed. *)
From Verif Require Import Base.

Section T.
Variable limit : Z.     (* limit_per_cycle: snapshot_throttle.cpp:52-54 *)
Variable cycle_us : Z.  (* 1*1000*1000 / _check_cycle *)
Variable max_tasks : Z. (* FLAGS_raft_max_install_snapshot_tasks_num *)

(** snapshot_throttle.h:74-76 mutable fields *)
Record throttle := mkTh { t_tasks : Z; t_last : Z; t_cur : Z }.

(** snapshot_throttle.h:80-84 caculate_check_time_us *)
Definition align (now : Z) : Z := now / cycle_us * cycle_us.
(** snapshot_throttle.cpp:38-46 constructor *)
Definition th_init (now : Z) : throttle := mkTh 0 (align now) 0.

(** snapshot_throttle.cpp:49-79 throttled_by_throughput: state, granted bytes, and whether
    a new cycle was started *)
Definition throttled (t : throttle) (now bytes : Z) : throttle * Z * bool :=
  if limit <? t_cur t + bytes then
    if now - t_last t <=? cycle_us then
      (mkTh (t_tasks t) (t_last t) limit, (if t_cur t <? limit then limit - t_cur t else 0), false)
    else
      let a := if limit <? bytes then limit else bytes in
      (mkTh (t_tasks t) (align now) a, a, true)
  else (mkTh (t_tasks t) (t_last t) (t_cur t + bytes), bytes, false).

(** snapshot_throttle.cpp:81-100 add_one_more_task *)
Definition add_task (t : throttle) (is_leader : bool) : throttle * bool :=
  if is_leader then (t, true)
  else if max_tasks <=? t_tasks t then (t, false)
  else (mkTh (t_tasks t + 1) (t_last t) (t_cur t), true).

(** snapshot_throttle.cpp:102-114 finish_one_task; [None] = CHECK_GE fails *)
Definition finish_task (t : throttle) (is_leader : bool) : option throttle :=
  if is_leader then Some t
  else if t_tasks t - 1 <? 0 then None
  else Some (mkTh (t_tasks t - 1) (t_last t) (t_cur t)).

(** snapshot_throttle.cpp:116-126 return_unused_throughput; the flag tells whether the
    return was accounted *)
Definition return_unused (t : throttle) (now acquired consumed elapse : Z) : throttle * bool :=
  if now - elapse <? t_last t then (t, false)
  else (mkTh (t_tasks t) (t_last t) (Z.max (t_cur t - (acquired - consumed)) 0), true).

Inductive tcall :=
| CAcquire (now bytes : Z) | CReturn (now acquired consumed elapse : Z)
| CAdd (is_leader : bool) | CFinish (is_leader : bool).
(** What a call did: grant (with new-cycle flag), accounted return of n bytes, task result. *)
Inductive tres := RGrant (n : Z) (newc : bool) | RReturn (n : Z) (accounted : bool)
| RAdd (leader ok : bool) | RFinish (leader : bool).
Definition t_step (t : throttle) (c : tcall) : option (throttle * tres) :=
  match c with
  | CAcquire now b => let '(t', g, nc) := throttled t now b in Some (t', RGrant g nc)
  | CReturn now a u e => let '(t', ok) := return_unused t now a u e in Some (t', RReturn (a - u) ok)
  | CAdd l => let '(t', ok) := add_task t l in Some (t', RAdd l ok)
  | CFinish l => match finish_task t l with Some t' => Some (t', RFinish l) | None => None end
  end.
Fixpoint t_run (t : throttle) (cs : list tcall) : option (throttle * list tres) :=
  match cs with
  | [] => Some (t, [])
  | c :: cs' =>
      match t_step t c with
      | None => None
      | Some (t1, r) =>
          match t_run t1 cs' with None => None | Some (t2, rs) => Some (t2, r :: rs) end
      end
  end.
End T.
