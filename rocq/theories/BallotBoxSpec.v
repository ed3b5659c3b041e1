(** Specification vocabulary for C03/C04: functions of the list of calls only. *)
From Verif Require Import Base QuorumSpec BallotBox.

(** Configurations are sets. *)
Definition wf_event (e : event) : Prop :=
  match e with EAppend conf old _ => wf_jconf (conf, old) | _ => True end.

(** The log index the next proposal gets. *)
Definition next_index (st : box) : Z := pend st + zlen (bq st).

(** Peers whose acknowledgement calls in [evs] cover log [i]. *)
Fixpoint ackers (i : Z) (evs : list event) : list peer :=
  match evs with
  | [] => []
  | ECommit f l p :: evs' =>
      if (f <=? i) && (i <=? l) then p :: ackers i evs' else ackers i evs'
  | _ :: evs' => ackers i evs'
  end.

(** Same, only the calls that were accepted (returned 0). *)
Fixpoint accepted_ackers (i : Z) (st : box) (evs : list event) : list peer :=
  match evs with
  | [] => []
  | e :: evs' =>
      let rest := match step st e with
                  | Some (st', _) => accepted_ackers i st' evs'
                  | None => [] end in
      match e with
      | ECommit f l p =>
          if (f <=? i) && (i <=? l) && (snd (fst (commit_at st f l p)) =? 0)
          then p :: rest else rest
      | _ => rest
      end
  end.

(** Indexes reported as committed, in order. *)
Fixpoint commits (o : list output) : list Z :=
  match o with
  | [] => []
  | OCommitted i :: o' => i :: commits o'
  | _ :: o' => commits o'
  end.

(** Closures that were run or handed over, in order. *)
Fixpoint finished (o : list output) : list closure :=
  match o with
  | [] => []
  | OCommitted _ :: o' => finished o'
  | OFailed c :: o' => c :: finished o'
  | OPopped _ c :: o' => c :: finished o'
  end.

(** Closures given to append_pending_task. *)
Fixpoint proposed (evs : list event) : list closure :=
  match evs with
  | [] => []
  | EAppend _ _ (Some c) :: evs' => c :: proposed evs'
  | _ :: evs' => proposed evs'
  end.

(** Closures still waiting in the queue. *)
Definition waiting (st : box) : list closure := somes (cq_q (cq st)).

Fixpoint increasing (l : list Z) : Prop :=
  match l with
  | [] => True
  | x :: l' => match l' with [] => True | y :: _ => x < y end /\ increasing l'
  end.

(** Call list [evs], started in the initial state, appended a task for log [i]
    with this configuration and closure, and [post] is what came after it. *)
Definition proposed_at (evs : list event) (i : Z) (conf : list peer)
    (old : option (list peer)) (c : option closure) (post : list event) : Prop :=
  exists pre s o, evs = pre ++ EAppend conf old c :: post /\
                  run box_init pre = Some (s, o) /\ next_index s = i.
