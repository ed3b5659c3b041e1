(** Model of NodeImpl::read_committed_user_log (src/braft/node.cpp:2679-2714). *)
From Verif Require Import Base LogEntry BallotBox.

(** src/braft/errno.proto *)
Definition ENOMOREUSERLOG := 10015.
Definition ELOGDELETED := 10014.

(** What the call gives back: a code, or an index and the data. *)
Inductive rres := RErr (code : Z) | ROk (index : Z) (data : list Z).

(** node.cpp:2695-2713, the loop.  [get k i]: what the k-th call of LogManager::get_entry
    returns for index [i]; snapshots may delete entries between calls.  [entry]: the entry just
    read at [cur].  [fuel] bounds the loop: cur is raised to at most [applied]. *)
Fixpoint read_loop (fuel : nat) (get : nat -> Z -> option entry) (k : nat) (applied cur : Z) (e : entry) : rres :=
  match e_type e with
  | T_DATA => ROk cur (e_data e)
  | _ =>
      let cur := cur + 1 in
      if applied <? cur then RErr ENOMOREUSERLOG
      else match get k cur with
           | None => RErr ELOGDELETED
           | Some e' => match fuel with
                        | O => RErr (-1)               (* not reached, see read_log_spec *)
                        | S f => read_loop f get (S k) applied cur e'
                        end
           end
  end.
(** node.cpp:2679-2694; [applied]: FSMCaller::last_applied_index at the start of the call *)
Definition read_committed (get : nat -> Z -> option entry) (applied index : Z) : rres :=
  if index <=? 0 then RErr EINVAL
  else if applied <? index then RErr ENOMOREUSERLOG
  else match get O index with
       | None => RErr ELOGDELETED
       | Some e => read_loop (Z.to_nat (applied - index)) get 1 applied index e
       end.
