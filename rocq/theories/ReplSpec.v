(** Specification vocabulary for the replicator (properties C28, C44, C45, C46). *)
From Verif Require Import Base LogEntry Repl.

(** The append_entries requests sent, as (call id, prev_log_index, number of entries). *)
Definition reqs (o : list rout) : list (Z * Z * Z) :=
  flat_map (fun x => match x with OReq k p _ es _ => [(k, p, zlen es)] | _ => [] end) o.

(** The replicator reads the log [L] of its leader: what it is given is in [L]. *)
Definition reads (L : Z -> option entry) (v : renv) : Prop :=
  (forall i e, v_get v i = Some e -> L i = Some e) /\
  (forall i, v_term v i <> 0 -> exists e, L i = Some e /\ e_term e = v_term v i).

(** The peer confirmed position [m]: it answered an append_entries request covering
    everything up to [m] with success in the leader's term, or installed a snapshot ending
    at [m].  [h] are the events so far and [o] the outputs so far. *)
Definition confirmed (c : rcfg) (h : list (revt * renv)) (o : list rout) (m : Z) : Prop :=
  (exists call last v p t es cm, In (EvResp call (Resp true (c_term c) last), v) h /\
     In (OReq call p t es cm) o /\ m = p + zlen es) \/
  (exists v, In (EvInstalled m true, v) h).

(** At some event the peer was within [margin] of the end of the log, measured from a
    confirmed position. *)
Definition caught (c : rcfg) (h : list (revt * renv)) (o : list rout) (margin : Z) : Prop :=
  exists m e v, In (e, v) h /\ confirmed c h o m /\ v_last v <= m + margin.

(** [i] is the last leadership transfer asked of this replicator, and it was not withdrawn. *)
Definition asked (h : list (revt * renv)) (i : Z) : Prop :=
  exists h1 v h2, h = h1 ++ (EvTransfer i, v) :: h2 /\
    forall e' v', In (e', v') h2 -> e' <> EvStopTransfer /\ forall j, e' <> EvTransfer j.

(** Index [i] was reported to the ballot box as stored by the peer. *)
Definition counted (o : list rout) (i : Z) : Prop := exists a b, In (OCommit a b) o /\ a <= i <= b.

(** No read-only mode is switched off. *)
Definition no_readonly_off (h : list (revt * renv)) : Prop := forall v, ~ In (EvReadonly false, v) h.

(** What get_next_index reports (replicator.cpp:1196-1209). *)
Definition next_index (s : rep) : Z := if r_succ s then r_next s - r_fsize s else 0.

(** The log manager as seen in one step, when its last index is [last] and its first index
    [first] (the answers of get_entry may be older than [last]): entries exist only inside
    the log; the term of the position before the first entry and of every position of the
    log is known; a snapshot ends inside the log. *)
Record log_ok (first last : Z) (v : renv) : Prop := mkLog {
  lo_last : v_last v = last; lo_first : v_first v = first;
  lo_range : 1 <= first <= last + 1;
  lo_get : forall i e, v_get v i = Some e -> first <= i <= last;
  lo_term : forall i, i <> 0 -> v_term v i = 0 -> i < first - 1 \/ last < i;
  lo_snap : forall i, v_snap v = SnOk i -> 0 <= i <= last;
  lo_open : v_snap v <> SnOpenFail /\ v_snap v <> SnMetaFail }.

(** The log only grows at its end and shrinks at its beginning, and the log manager wakes its
    waiters whenever it grows (log_manager.cpp:488-510).  [first], [last]: before the first event. *)
Fixpoint log_grows (first last : Z) (h : list (revt * renv)) : Prop :=
  match h with
  | [] => True
  | (e, v) :: h' =>
      log_ok (v_first v) (v_last v) v /\ first <= v_first v /\
      (match e with EvLmWake => last <= v_last v | _ => v_last v = last end) /\
      log_grows (v_first v) (v_last v) h'
  end.
(** The last index of the log after the history. *)
Definition log_end (v0 : renv) (h : list (revt * renv)) : Z := v_last (last (map snd h) v0).

(** No answer is a success in another term, the log manager is not stopped, and the replicator is
    not told to stop. *)
Definition undisturbed (c : rcfg) (h : list (revt * renv)) : Prop := forall e v, In (e, v) h ->
  match e with
  | EvResp _ (Resp true t _) => t = c_term c
  | EvWoken true | EvStop1 | EvStop2 | EvTimeoutNow | EvTimeoutNowDone true _ => False
  | _ => True
  end.

(** Something is on its way that will make the replicator act again: an answer, a timer, or a
    callback of the log manager that is not cancelled. *)
Definition pending (s : rep) : Prop :=
  r_fly s <> [] \/ r_snaps s <> [] \/ (0 < r_tm1 s + r_tm2 s)%nat \/ (r_cancel s = false /\ (0 < r_fired s)%nat).
