(** Model of LogManager: src/braft/log_manager.h, src/braft/log_manager.cpp.
    One step = one critical section of LogManager::_mutex, one task of the disk
    execution queue, or one read of the log storage outside the mutex.
    The log storage is the plain list of [LogRef.v] (P_SegStore.storage_is_the_plain_log
    shows that SegmentLogStorage behaves like it); how many entries a write accepts and
    whether a truncation succeeds are chosen by the environment.
    Not modelled: reference counts of entries, metrics, waiters (LogWait.v), shutdown. *)
From Verif Require Import Base LogEntry LogRef ConfMgr BallotBox.

Definition G_EIO := 5.
Definition G_EINVAL := 22.

(** log_manager.cpp:209-249 and log_manager.h:60-71 StableClosure and its subclasses, as they
    sit in _disk_queue.  Ghosts: [all] is the batch the caller asked to append, [want] what
    last_log_id(false) (:190-197) would have answered when last_log_id(true) was called. *)
Inductive dtask :=
| KAppend (c : closure) (es : list entry) (all : list entry)
| KLast (c : closure) (want : logid) | KPrefix (k : Z) | KSuffix (k t : Z) | KReset (n : Z).

(** what an observer sees *)
Inductive gout :=
| GDone (c : closure) (code : Z)              (* an append closure runs *)
| GLast (c : closure) (id : logid)            (* last_log_id(true) returns *)
| GRead (rid : Z) (r : option entry)          (* get_entry call [rid] returns *)
| GTerm (rid t : Z)                           (* get_term call [rid] returns *)
| GAccepted (c : closure) (es : list entry)   (* ghost: entries that joined the log *)
| GStored (es : list entry)                   (* ghost: entries the storage accepted *)
| GErr (code : Z).                            (* report_error *)

(** log_manager.h:186-228 members; [g_run] is a running disk_thread call: its local last_id and
    the AppendBatcher's closures; [g_clear] are clear_memory_logs calls not yet finished;
    [g_reads] are get_entry / get_term calls (number, index, entry wanted) between the unlock and the storage read. *)
Record lmgr := mkG {
  g_first : Z; g_last : Z; g_mem : list entry; g_snap : logid; g_virt : logid;
  g_disk : logid; g_applied : logid; g_err : bool; g_cm : cmgr;
  g_q : list dtask; g_run : option (logid * list (closure * list entry * list entry));
  g_clear : list logid; g_reads : list (Z * (Z * bool)); g_st : rlog }.

Definition set_mem m s := mkG (g_first s) (g_last s) m (g_snap s) (g_virt s) (g_disk s) (g_applied s) (g_err s) (g_cm s) (g_q s) (g_run s) (g_clear s) (g_reads s) (g_st s).
Definition set_last l s := mkG (g_first s) l (g_mem s) (g_snap s) (g_virt s) (g_disk s) (g_applied s) (g_err s) (g_cm s) (g_q s) (g_run s) (g_clear s) (g_reads s) (g_st s).
Definition set_virt v s := mkG (g_first s) (g_last s) (g_mem s) (g_snap s) v (g_disk s) (g_applied s) (g_err s) (g_cm s) (g_q s) (g_run s) (g_clear s) (g_reads s) (g_st s).
Definition set_err s := mkG (g_first s) (g_last s) (g_mem s) (g_snap s) (g_virt s) (g_disk s) (g_applied s) true (g_cm s) (g_q s) (g_run s) (g_clear s) (g_reads s) (g_st s).
Definition set_reads r s := mkG (g_first s) (g_last s) (g_mem s) (g_snap s) (g_virt s) (g_disk s) (g_applied s) (g_err s) (g_cm s) (g_q s) (g_run s) (g_clear s) r (g_st s).
Definition push t s := mkG (g_first s) (g_last s) (g_mem s) (g_snap s) (g_virt s) (g_disk s) (g_applied s) (g_err s) (g_cm s) (g_q s ++ [t]) (g_run s) (g_clear s) (g_reads s) (g_st s).
Definition set_cm c s := mkG (g_first s) (g_last s) (g_mem s) (g_snap s) (g_virt s) (g_disk s) (g_applied s) (g_err s) c (g_q s) (g_run s) (g_clear s) (g_reads s) (g_st s).
Definition set_disk d rn cl s := mkG (g_first s) (g_last s) (g_mem s) (g_snap s) (g_virt s) d (g_applied s) (g_err s) (g_cm s) (g_q s) rn cl (g_reads s) (g_st s).
Definition set_thread q rn st e s := mkG (g_first s) (g_last s) (g_mem s) (g_snap s) (g_virt s) (g_disk s) (g_applied s) e (g_cm s) q rn (g_clear s) (g_reads s) st.

(** configuration_manager.h:31-37 ConfigurationEntry(const LogEntry&) *)
Definition conf_entry (e : entry) : centry :=
  mkCE (e_id e) (match e_peers e with Some p => p | None => [] end) (match e_old e with Some p => p | None => [] end).
Definition is_conf (e : entry) : bool := match e_type e with T_CONF => true | _ => false end.
Fixpoint cm_add_all (m : cmgr) (es : list entry) : option cmgr :=
  match es with
  | [] => Some m
  | e :: es' => if is_conf e then match cm_add m (conf_entry e) with Some m' => cm_add_all m' es' | None => None end else cm_add_all m es'
  end.

(** log_manager.cpp:82-103 init, over a storage whose content is [r].  The configuration
    manager is filled by the storage's init; terms of an empty log read as 0. *)
Definition g_init (r : rlog) (cm : cmgr) : lmgr :=
  mkG (r_first r) (r_last r) [] (mkId 0 0) (mkId 0 0) (mkId (r_last r) (r_term r (r_last r))) (mkId 0 0)
      false cm [] None [] [] r.

(** log_manager.cpp:690-701 get_entry_from_memory; [None] is the CHECK_EQ failing *)
Definition mem_get (m : list entry) (i : Z) : option (option entry) :=
  match m with
  | [] => Some None
  | e :: _ =>
      let f := e_index e in let l := e_index (last m e) in
      if negb (l - f + 1 =? zlen m) then None
      else if (f <=? i) && (i <=? l) then Some (znth m (i - f)) else Some None
  end.

(** log_manager.cpp:703-729 unsafe_get_term (the storage is read under the mutex) *)
Definition unsafe_get_term (s : lmgr) (i : Z) : option Z :=
  if i =? 0 then Some 0
  else if i =? li_index (g_virt s) then Some (li_term (g_virt s))
  else if i =? li_index (g_snap s) then Some (li_term (g_snap s))
  else if (g_last s <? i) || (i <? g_first s) then Some 0
  else match mem_get (g_mem s) i with
       | None => None
       | Some (Some e) => Some (e_term e)
       | Some None => Some (r_term (g_st s) i)
       end.

(** log_manager.cpp:263-272 / :315-323 popping _logs_in_memory *)
Fixpoint mem_pop_front (k : Z) (m : list entry) : list entry :=
  match m with [] => [] | e :: m' => if e_index e <? k then mem_pop_front k m' else m end.
Fixpoint mem_pop_back_rev (k : Z) (m : list entry) : list entry :=
  match m with [] => [] | e :: m' => if k <? e_index e then mem_pop_back_rev k m' else m end.
Definition mem_pop_back (k : Z) (m : list entry) : list entry := rev (mem_pop_back_rev k (rev m)).

(** log_manager.cpp:251-286 truncate_prefix; [None] is CHECK_GE(first_index_kept, _first_log_index) *)
Definition truncate_prefix (k : Z) (s : lmgr) : option lmgr :=
  if k <? g_first s then None
  else Some (push (KPrefix k)
         (mkG k (if g_last s <? k then k - 1 else g_last s) (mem_pop_front k (g_mem s)) (g_snap s) (g_virt s) (g_disk s) (g_applied s)
              (g_err s) (cm_truncate_prefix (g_cm s) k) (g_q s) (g_run s) (g_clear s) (g_reads s) (g_st s))).

(** log_manager.cpp:288-305 reset *)
Definition reset (n : Z) (s : lmgr) : lmgr :=
  push (KReset n)
    (mkG n (n - 1) [] (g_snap s) (g_virt s) (g_disk s) (g_applied s)
         (g_err s) (cm_truncate_suffix (cm_truncate_prefix (g_cm s) n) (n - 1)) (g_q s) (g_run s) (g_clear s) (g_reads s) (g_st s)).

(** log_manager.cpp:307-332 unsafe_truncate_suffix; [None] is the LOG(FATAL) or the CHECK *)
Definition unsafe_truncate_suffix (k : Z) (s : lmgr) : option lmgr :=
  if k <? li_index (g_applied s) then None
  else
    let s1 := set_last k (set_mem (mem_pop_back k (g_mem s)) s) in
    match unsafe_get_term s1 k with
    | None => None
    | Some t =>
        if negb (k =? 0) && (t =? 0) then None
        else Some (push (KSuffix k t) (set_cm (cm_truncate_suffix (g_cm s1) k) s1))
    end.

(** log_manager.cpp:375-382 the loop looking for the conflicting index: the matching entries and the rest *)
Fixpoint skip_matching (s : lmgr) (es : list entry) : option (list entry) :=
  match es with
  | [] => Some []
  | e :: es' => match unsafe_get_term s (e_index e) with
                | None => None
                | Some t => if negb (t =? e_term e) then Some es else skip_matching s es'
                end
  end.

(** log_manager.cpp:341-344 the leader's entries get the next indexes *)
Fixpoint assign (i : Z) (es : list entry) : list entry :=
  match es with
  | [] => []
  | e :: es' => mkEntry (mkId i (e_term e)) (e_type e) (e_data e) (e_peers e) (e_old e) :: assign (i + 1) es'
  end.

(** log_manager.cpp:334-405 check_and_resolve_conflict.  [CRefuse code]: returns non-zero and the closure runs with [code]. *)
Inductive cres := CRefuse (code : Z) | CGo (s : lmgr) (es : list entry).
Definition last_index (es : list entry) : Z := match es with [] => 0 | e :: _ => e_index (last es e) end.
Definition check_and_resolve_conflict (es : list entry) (s : lmgr) : option cres :=
  match es with
  | [] => Some (CGo s [])
  | e0 :: _ =>
      if e_index e0 =? 0 then
        Some (CGo (set_last (g_last s + zlen es) s) (assign (g_last s + 1) es))
      else if g_last s + 1 <? e_index e0 then Some (CRefuse G_EINVAL)
      else if last_index es <=? li_index (g_applied s) then Some (CRefuse 0)
      else if e_index e0 =? g_last s + 1 then Some (CGo (set_last (last_index es) s) es)
      else
        match skip_matching s es with
        | None => None
        | Some [] => Some (CGo s [])
        | Some (e1 :: r) =>
            match (if e_index e1 <=? g_last s then unsafe_truncate_suffix (e_index e1 - 1) s else Some s) with
            | None => None
            | Some s1 => Some (CGo (set_last (last_index es) s1) (e1 :: r))
            end
        end
  end.

(** log_manager.cpp:407-447 append_entries *)
Definition append_entries (c : closure) (es : list entry) (s : lmgr) : option (lmgr * list gout) :=
  if g_err s then Some (s, [GDone c G_EIO])
  else
    match check_and_resolve_conflict es s with
    | None => None
    | Some (CRefuse code) => Some (s, [GDone c code])
    | Some (CGo s1 es1) =>
        match cm_add_all (g_cm s1) es1 with
        | None => None
        | Some m =>
            let all := match es with e0 :: _ => if e_index e0 =? 0 then es1 else es | [] => [] end in
            Some (push (KAppend c es1 all) (set_cm m (set_mem (g_mem s1 ++ es1) s1)), [GAccepted c es1])
        end
    end.

(** log_manager.cpp:449-480 append_to_storage: the storage accepts [n] of the entries, fewer than
    all being an error.  A storage refuses an entry that does not follow its last one. *)
Fixpoint s_append (r : rlog) (es : list entry) (n : nat) : rlog * list entry :=
  match es, n with
  | e :: es', S n' =>
      if e_index e =? r_last r + 1
      then let '(r', done) := s_append (r_append r e) es' n' in (r', e :: done)
      else (r, [])
  | _, _ => (r, [])
  end.

(** storage side of the other tasks.  log.cpp truncate_prefix below the first index changes nothing. *)
Definition s_prefix (r : rlog) (k : Z) : rlog := if k <=? r_first r then r else r_truncate_prefix r k.

Definition buf := list (closure * list entry * list entry).
Definition buf_entries (b : buf) : list entry := flat_map (fun x => snd (fst x)) b.

(** log_manager.cpp:495-518 AppendBatcher::flush with :449-480 append_to_storage *)
Definition flush (n : nat) (last_id : logid) (b : buf) (s : lmgr) : lmgr * logid * list gout :=
  match b with
  | [] => (s, last_id, [])
  | _ =>
      let es := buf_entries b in
      let '(st, done) := if g_err s then (g_st s, []) else s_append (g_st s) es n in
      let bad := negb (zlen done =? zlen es) in
      let id := match done with [] => last_id | e :: _ => e_id (last done e) end in
      let err := g_err s || bad in
      (set_thread (g_q s) (g_run s) st err s, id,
       (if g_err s then [] else GStored done :: if bad then [GErr G_EIO] else [])
       ++ map (fun x => GDone (fst (fst x)) (if err then G_EIO else 0)) b)
  end.

(** log_manager.cpp:519-530 AppendBatcher::append: flush first when the batch is full *)
Definition data_size (es : list entry) : Z := fold_right (fun e n => zlen (e_data e) + n) 0 es.
Definition full (maxbuf : Z) (b : buf) : bool := (zlen b =? 256) || (maxbuf <=? data_size (buf_entries b)).

(** log_manager.cpp:543-620 disk_thread: begin, one task, a flush of the batcher, end.  The flush is
    an event of its own because none of this happens under the mutex; it must precede any task that
    is not an append (:560), an append to a full batch (:519-523) and the end (:616). *)
Definition disk_begin (s : lmgr) : option (lmgr * list gout) :=
  match g_run s, g_q s with
  | None, _ :: _ => Some (set_thread (g_q s) (Some (g_disk s, [])) (g_st s) (g_err s) s, [])
  | _, _ => None
  end.

Definition with_run q rn s := set_thread q rn (g_st s) (g_err s) s.
Definition disk_flush (n : nat) (s : lmgr) : option (lmgr * list gout) :=
  match g_run s with
  | Some (lid, x :: b) => let '(s1, lid1, o) := flush n lid (x :: b) s in Some (with_run (g_q s) (Some (lid1, [])) s1, o)
  | _ => None
  end.

(** log_manager.cpp:562-613 one task; [ok]: the storage operation worked *)
Definition disk_take (maxbuf : Z) (ok : bool) (s : lmgr) : option (lmgr * list gout) :=
  match g_run s, g_q s with
  | Some (lid, b), t :: q =>
      match t, b with
      | KAppend c (e :: es) all, _ => if full maxbuf b then None else Some (with_run q (Some (lid, b ++ [(c, e :: es, all)])) s, [])
      | _, _ :: _ => None
      | KAppend c [] _, [] => Some (with_run q (Some (lid, [])) s, [GDone c 0])
      | KLast c _, [] => if (li_index lid =? 0) || negb (li_term lid =? 0) then Some (with_run q (Some (lid, [])) s, [GLast c lid]) else None
      | KPrefix k, [] => if ok then Some (set_thread q (Some (lid, [])) (s_prefix (g_st s) k) (g_err s) s, [])
                         else Some (set_thread q (Some (lid, [])) (g_st s) true s, [GErr G_EIO])
      | KSuffix k t, [] => if ok then Some (set_thread q (Some (mkId k t, [])) (r_truncate_suffix (g_st s) k) (g_err s) s, [])
                           else Some (set_thread q (Some (lid, [])) (g_st s) true s, [GErr G_EIO])
      | KReset m, [] => if ok then Some (set_thread q (Some (lid, [])) (r_reset m) (g_err s) s, [])
                        else Some (set_thread q (Some (lid, [])) (g_st s) true s, [GErr G_EIO])
      end
  | _, _ => None
  end.

(** log_manager.cpp:617 and :801-810 set_disk_id: std::min of two LogIds *)
Definition id_min (a b : logid) : logid := if id_ltb b a then b else a.
Definition disk_end (s : lmgr) : option (lmgr * list gout) :=
  match g_run s with
  | Some (lid, []) =>
      if id_ltb lid (g_disk s) then Some (set_disk (g_disk s) None (g_clear s) s, [])
      else Some (set_disk lid None (g_clear s ++ [id_min lid (g_applied s)]) s, [])
  | _ => None
  end.

(** log_manager.cpp:812-821 set_applied_id *)
Definition set_applied_id (id : logid) (s : lmgr) : lmgr :=
  if id_ltb id (g_applied s) then s
  else mkG (g_first s) (g_last s) (g_mem s) (g_snap s) (g_virt s) (g_disk s) id (g_err s) (g_cm s) (g_q s) (g_run s)
           (g_clear s ++ [id_min (g_disk s) id]) (g_reads s) (g_st s).

(** log_manager.cpp:125-146 clear_memory_logs: one critical section pops at most 256 entries *)
Fixpoint mem_clear (fuel : nat) (id : logid) (m : list entry) : list entry * bool :=
  match fuel with
  | O => (m, true)
  | S f => match m with
           | [] => ([], false)
           | e :: m' => if id_gtb (e_id e) id then (m, false) else mem_clear f id m'
           end
  end.
Fixpoint drop_nth {A} (k : nat) (l : list A) : list A :=
  match k, l with _, [] => [] | O, _ :: l' => l' | S k', x :: l' => x :: drop_nth k' l' end.
Definition clear_memory (k : nat) (s : lmgr) : option lmgr :=
  match nth_error (g_clear s) k with
  | None => None
  | Some id =>
      let '(m, more) := mem_clear 256 id (g_mem s) in
      Some (set_disk (g_disk s) (g_run s) (if more then g_clear s else drop_nth k (g_clear s)) (set_mem m s))
  end.

(** log_manager.cpp:622-680 set_snapshot *)
Definition set_snapshot (idx term : Z) (conf old : list peer) (s : lmgr) : option lmgr :=
  if idx <=? li_index (g_snap s) then Some s
  else
    match cm_set_snapshot (g_cm s) (mkCE (mkId idx term) conf old), unsafe_get_term s idx with
    | Some m, Some t =>
        let id := mkId idx term in
        let prev := g_snap s in
        let s1 := mkG (g_first s) (g_last s) (g_mem s) id (g_virt s) (g_disk s)
                      (if id_gtb id (g_applied s) then id else g_applied s)
                      (g_err s) m (g_q s) (g_run s) (g_clear s) (g_reads s) (g_st s) in
        if t =? 0 then truncate_prefix (idx + 1) (set_virt id s1)
        else if t =? term then
          if 0 <? li_index prev then truncate_prefix (li_index prev + 1) (set_virt prev s1) else Some s1
        else Some (reset (idx + 1) (set_virt id s1))
    | _, _ => None
    end.

(** log_manager.cpp:682-688 clear_bufferred_logs *)
Definition clear_bufferred (s : lmgr) : option lmgr :=
  if negb (li_index (g_snap s) =? 0) then truncate_prefix (li_index (g_snap s) + 1) (set_virt (g_snap s) s) else Some s.

(** log_manager.cpp:190-207 last_log_id(true): the quick answer, or a LastLogIdClosure *)
Definition last_log_id_flush (c : closure) (s : lmgr) : lmgr * list gout :=
  if g_last s =? li_index (g_snap s) then (s, [GLast c (g_snap s)])
  else (push (KLast c (mkId (g_last s) (match unsafe_get_term s (g_last s) with Some t => t | None => 0 end))) s, []).

(** log_manager.cpp:759-779 get_entry: the part under the mutex *)
Definition get_entry1 (rid i : Z) (s : lmgr) : option (lmgr * list gout) :=
  if (g_last s <? i) || (i <? g_first s) then Some (s, [GRead rid None])
  else match mem_get (g_mem s) i with
       | None => None
       | Some (Some e) => Some (s, [GRead rid (Some e)])
       | Some None => Some (set_reads ((rid, (i, true)) :: g_reads s) s, [])
       end.
(** log_manager.cpp:731-757 get_term *)
Definition get_term1 (rid i : Z) (s : lmgr) : option (lmgr * list gout) :=
  if i =? 0 then Some (s, [GTerm rid 0])
  else if i =? li_index (g_virt s) then Some (s, [GTerm rid (li_term (g_virt s))])
  else if i =? li_index (g_snap s) then Some (s, [GTerm rid (li_term (g_snap s))])
  else if (g_last s <? i) || (i <? g_first s) then Some (s, [GTerm rid 0])
  else match mem_get (g_mem s) i with
       | None => None
       | Some (Some e) => Some (s, [GTerm rid (e_term e)])
       | Some None => Some (set_reads ((rid, (i, false)) :: g_reads s) s, [])
       end.
(** log_manager.cpp:773-777 and :755-756 the storage is read after the mutex was released *)
Fixpoint find_read (rid : Z) (l : list (Z * (Z * bool))) : option (Z * bool) :=
  match l with [] => None | (k, x) :: l' => if k =? rid then Some x else find_read rid l' end.
Definition drop_read (rid : Z) (l : list (Z * (Z * bool))) : list (Z * (Z * bool)) := filter (fun x => negb (fst x =? rid)) l.
Definition read_storage (rid : Z) (s : lmgr) : option (lmgr * list gout) :=
  match find_read rid (g_reads s) with
  | None => None
  | Some (i, isentry) =>
      let s1 := set_reads (drop_read rid (g_reads s)) s in
      if isentry then
        match r_get (g_st s) i with
        | Some e => Some (s1, [GRead rid (Some e)])
        | None => Some (set_err s1, [GErr G_EIO; GRead rid None])
        end
      else Some (s1, [GTerm rid (r_term (g_st s) i)])
  end.

Inductive gev :=
| VAppend (c : closure) (es : list entry)
| VSnapshot (idx term : Z) (conf old : list peer) | VClearBuffered
| VApplied (id : logid) | VClear (k : nat)
| VLastId (c : closure)
| VGet (rid i : Z) | VTerm (rid i : Z) | VRead (rid : Z)
| VDiskBegin | VDiskTake (ok : bool) | VDiskFlush (n : nat) | VDiskEnd.

Definition noout (s : option lmgr) : option (lmgr * list gout) := option_map (fun s => (s, [])) s.
Definition gstep (maxbuf : Z) (s : lmgr) (e : gev) : option (lmgr * list gout) :=
  match e with
  | VAppend c es => append_entries c es s
  | VSnapshot i t c o => noout (set_snapshot i t c o s)
  | VClearBuffered => noout (clear_bufferred s)
  | VApplied id => Some (set_applied_id id s, [])
  | VClear k => noout (clear_memory k s)
  | VLastId c => Some (last_log_id_flush c s)
  | VGet rid i => get_entry1 rid i s
  | VTerm rid i => get_term1 rid i s
  | VRead rid => read_storage rid s
  | VDiskBegin => disk_begin s
  | VDiskTake ok => disk_take maxbuf ok s
  | VDiskFlush n => disk_flush n s
  | VDiskEnd => disk_end s
  end.
