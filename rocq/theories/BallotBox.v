(** Model of BallotBox and ClosureQueue: src/braft/ballot_box.{h,cpp},
    src/braft/closure_queue.{h,cpp}. *)
From Verif Require Import Base Ballot.

(** A user closure, identified by its address. *)
Definition closure := Z.

(** Return codes (errno.h). *)
Definition EPERM := 1.
Definition EINVAL := 22.
Definition ERANGE := 34.

(** src/braft/closure_queue.h fields _first_index, _queue (NULL closure = None) *)
Record cqueue := mkCQ { cq_first : Z; cq_q : list (option closure) }.

(** src/braft/ballot_box.h:97-103 fields, plus the closure queue it owns a pointer to *)
Record box := mkBox {
  lc : Z;               (* _last_committed_index *)
  pend : Z;             (* _pending_index *)
  bq : list ballot;     (* _pending_meta_queue *)
  cq : cqueue }.

(** ballot_box.cpp:27-33 and closure_queue.cpp:23-26 constructors *)
Definition box_init : box := mkBox 0 0 [] (mkCQ 0 []).

(** What a call makes visible to others. *)
Inductive output :=
| OCommitted (i : Z)               (* _waiter->on_committed(i) *)
| OFailed (c : closure)            (* closure run with status EPERM *)
| OPopped (i : Z) (c : closure).   (* closure handed to the apply path for log i *)

(** ballot_box.cpp:67-73.  The loop over log_index in [start_at, last] is written
    as one pass over the deque whose element at distance k is log
    [_pending_index + k]; exactly the elements in the range are touched, in order,
    and the hint travels from one to the next. *)
Fixpoint commit_loop (q : list ballot) (idx start last : Z) (p : peer)
                     (h : pos_hint) (committed : Z) : list ballot * Z :=
  match q with
  | [] => ([], committed)
  | b :: q' =>
      if (start <=? idx) && (idx <=? last) then
        let '(b', h') := grant b p h in
        let committed' := if granted b' then idx else committed in
        let '(q'', c) := commit_loop q' (idx + 1) start last p h' committed' in
        (b' :: q'', c)
      else
        let '(q'', c) := commit_loop q' (idx + 1) start last p h committed in
        (b :: q'', c)
  end.

(** ballot_box.cpp:49-96 BallotBox::commit_at.  Returns state, return code and
    the index reported to the waiter, if any. *)
Definition commit_at (st : box) (first last : Z) (p : peer) : box * Z * option Z :=
  if pend st =? 0 then (st, EINVAL, None)
  else if last <? pend st then (st, 0, None)
  else if pend st + zlen (bq st) <=? last then (st, ERANGE, None)
  else
    let start_at := Z.max (pend st) first in
    let '(q, c) := commit_loop (bq st) (pend st) start_at last p no_hint 0 in
    if c =? 0 then (mkBox (lc st) (pend st) q (cq st), 0, None)
    else (mkBox c (c + 1) (skipn (Z.to_nat (c - pend st + 1)) q) (cq st), 0, Some c).

(** The non-NULL closures of a queue. *)
Fixpoint somes {A} (l : list (option A)) : list A :=
  match l with [] => [] | Some x :: l' => x :: somes l' | None :: l' => somes l' end.

(** closure_queue.cpp:32-51 ClosureQueue::clear; which closures are failed. *)
Definition cq_clear (c : cqueue) : cqueue * list closure := (mkCQ 0 [], somes (cq_q c)).

(** ballot_box.cpp:98-107 BallotBox::clear_pending_tasks.  The code empties the
    deque under its own lock and then clears the closure queue; a concurrent
    pop_closure_until between the two touches only the closure queue and so is
    the same as one just before this step. *)
Definition clear_pending_tasks (st : box) : box * list closure :=
  let '(c, failed) := cq_clear (cq st) in (mkBox (lc st) 0 [] c, failed).

(** ballot_box.cpp:109-119 reset_pending_index with closure_queue.cpp:53-57
    reset_first_index.  [None] = a CHECK fails. *)
Definition reset_pending_index (st : box) (n : Z) : option box :=
  match bq st, cq_q (cq st) with
  | [], [] => if (pend st =? 0) && (lc st <? n)
              then Some (mkBox (lc st) n [] (mkCQ n [])) else None
  | _, _ => None
  end.

(** ballot_box.cpp:121-135 append_pending_task with closure_queue.cpp:59-62.
    [None] = CHECK(_pending_index > 0) fails. *)
Definition append_pending_task (st : box) (conf : list peer) (old : option (list peer))
                               (c : option closure) : option box :=
  if 0 <? pend st then
    Some (mkBox (lc st) (pend st) (bq st ++ [ballot_init conf old])
                (mkCQ (cq_first (cq st)) (cq_q (cq st) ++ [c])))
  else None.

(** ballot_box.cpp:137-156 set_last_committed_index.  [None] = CHECK fails;
    otherwise state, return code and reported index. *)
Definition set_last_committed_index (st : box) (i : Z) : option (box * Z * option Z) :=
  if negb (pend st =? 0) || negb (match bq st with [] => true | _ => false end) then
    if i <? pend st then Some (st, -1, None) else None
  else if i <? lc st then Some (st, EINVAL, None)
  else if lc st <? i then Some (mkBox i (pend st) (bq st) (cq st), 0, Some i)
  else Some (st, 0, None).

(** closure_queue.cpp:64-85 pop_closure_until: (queue, closures, out_first_index);
    [None] = CHECK(false). *)
Definition pop_closure_until (c : cqueue) (index : Z)
  : option (cqueue * list (option closure) * Z) :=
  match cq_q c with
  | [] => Some (c, [], index + 1)
  | _ :: _ =>
      if index <? cq_first c then Some (c, [], index + 1)
      else if cq_first c + zlen (cq_q c) - 1 <? index then None
      else
        let n := Z.to_nat (index - cq_first c + 1) in
        Some (mkCQ (index + 1) (skipn n (cq_q c)), firstn n (cq_q c), cq_first c)
  end.

(** Pair the popped closures with log indexes [first, first+1, ...], the way
    IteratorImpl::done() does: src/braft/fsm_caller.cpp:588-593. *)
Fixpoint number (first : Z) (l : list (option closure)) : list (Z * closure) :=
  match l with
  | [] => []
  | Some c :: l' => (first, c) :: number (first + 1) l'
  | None :: l' => number (first + 1) l'
  end.

(** The calls made on the pair. *)
Inductive event :=
| ECommit (first last : Z) (p : peer)                        (* commit_at *)
| EClear                                                     (* clear_pending_tasks *)
| EReset (n : Z)                                             (* reset_pending_index *)
| EAppend (conf : list peer) (old : option (list peer)) (c : option closure)
| ESetCommitted (i : Z)                                      (* set_last_committed_index *)
| EPop (i : Z).                                              (* pop_closure_until *)

(** One call; [None] = a CHECK failed (the process dies). *)
Definition step (st : box) (e : event) : option (box * list output) :=
  match e with
  | ECommit f l p =>
      let '(st', _, r) := commit_at st f l p in
      Some (st', match r with Some i => [OCommitted i] | None => [] end)
  | EClear => let '(st', cs) := clear_pending_tasks st in Some (st', map OFailed cs)
  | EReset n => option_map (fun s => (s, [])) (reset_pending_index st n)
  | EAppend conf old c => option_map (fun s => (s, [])) (append_pending_task st conf old c)
  | ESetCommitted i =>
      match set_last_committed_index st i with
      | Some (st', _, r) => Some (st', match r with Some i => [OCommitted i] | None => [] end)
      | None => None
      end
  | EPop i =>
      match pop_closure_until (cq st) i with
      | Some (c, popped, first) =>
          Some (mkBox (lc st) (pend st) (bq st) c,
                map (fun x => OPopped (fst x) (snd x)) (number first popped))
      | None => None
      end
  end.

Fixpoint run (st : box) (evs : list event) : option (box * list output) :=
  match evs with
  | [] => Some (st, [])
  | e :: evs' =>
      match step st e with
      | Some (st', o) =>
          match run st' evs' with
          | Some (st'', o') => Some (st'', o ++ o')
          | None => None
          end
      | None => None
      end
  end.
