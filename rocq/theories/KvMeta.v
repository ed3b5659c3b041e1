(** The merged meta storage: term and vote of many groups in one key-value store, written in batches by one executor
    (KVBasedMergedMetaStorageImpl, src/braft/raft_meta.cpp:625-863).
    leveldb is modelled as a log of atomic batches; what a machine crash leaves is a prefix of it that contains every batch written with
    options.sync.  Parsing of the stored record (protobuf, PeerId) is not modelled here (C31). *)
From Verif Require Import Base.

Definition K_EIO := 5.
Definition kval := (Z * peer)%type.
Definition KANY : peer := 0.
Definition KINIT : kval := (1, KANY).

(** raft_meta.h:155-161 WriteTask; [t_init]: issued by get_term_and_votedfor for a group not in the store (:779-783). *)
Record ktask := mkKT { t_id : Z; t_grp : Z; t_val : kval; t_init : bool }.
Inductive kop := KPut (g : Z) (v : kval) | KRem (g : Z).

(** What the store holds for a group: the last operation on its key. *)
Fixpoint look (g : Z) (ops : list kop) (x : option kval) : option kval :=
  match ops with
  | [] => x
  | KPut g' v :: ops' => look g ops' (if g' =? g then Some v else x)
  | KRem g' :: ops' => look g ops' (if g' =? g then None else x)
  end.

(** The write-ahead log, how many batches are certain to survive the machine, and the execution queue. *)
Record kst := mkK { k_db : list (list kop); k_dur : nat; k_q : list ktask }.
Definition stored (g : Z) (db : list (list kop)) : option kval := look g (concat db) None.

(** Result of leveldb's Write: a failed one may or may not be found in the log later. *)
Inductive kres := KOk | KFail | KFailStored.
Definition kok (w : kres) : bool := match w with KOk => true | _ => false end.

Inductive kout :=
| OAsked (id g : Z) (v : kval)     (* set_term_and_votedfor called *)
| OAck (id : Z) (code : Z)         (* ... and returned *)
| OGet (id g : Z)                  (* get_term_and_votedfor called *)
| OInit (id g : Z)                 (* ... the group is not stored: the initial record is being written *)
| OGot (id g : Z) (v : kval)       (* get_term_and_votedfor returned v *)
| OGetErr (id g : Z) (code : Z)    (* ... or failed *)
| ODel (id g : Z) (code : Z)       (* delete_meta returned *)
| OKilled (ids : list Z).          (* the process ended; the calls with these ids were waiting *)

(** A write of one batch. *)
Definition kwrite (sync : bool) (ops : list kop) (w : kres) (s : kst) : kst :=
  match w with
  | KFail => s
  | _ => let db := k_db s ++ [ops] in mkK db (if kok w && sync then length db else k_dur s) (k_q s)
  end.

(** run_tasks, :678-702. The waiting callers: StableMetaClosure, :577-585 and :781-797. *)
Definition kanswer (w : kres) (t : ktask) : kout :=
  if t_init t then if kok w then OGot (t_id t) (t_grp t) (t_val t) else OGetErr (t_id t) (t_grp t) K_EIO
  else OAck (t_id t) (if kok w then 0 else K_EIO).
Definition run_tasks (sync : bool) (ts : list ktask) (w : kres) (s : kst) : kst * list kout :=
  (kwrite sync (map (fun t => KPut (t_grp t) (t_val t)) ts) w s, map (kanswer w) ts).

(** run, :704-743: the loop over the tasks handed over by the queue; [bs]: FLAGS_raft_meta_write_batch; [rs]: the results of the writes. *)
Fixpoint kloop (sync : bool) (bs : nat) (its cur : list ktask) (rs : list kres) (s : kst) : kst * list kout :=
  match its with
  | [] => match cur with [] => (s, []) | _ => run_tasks sync cur (hd KOk rs) s end                  (* :736-740 *)
  | t :: its' =>
      if Nat.eqb (length cur) bs then                                                               (* :716-720 *)
        let '(s1, o1) := run_tasks sync cur (hd KOk rs) s in
        let '(s2, o2) := kloop sync bs its' [t] (tl rs) s1 in (s2, o1 ++ o2)
      else kloop sync bs its' (cur ++ [t]) rs s                                                     (* :731-733 *)
  end.

Inductive kev :=
| KSet (id g : Z) (v : kval) (ok : bool)       (* set_term_and_votedfor; ok: the task could be queued, :758-761 *)
| KGet (id g : Z) (rd ok : bool)               (* get_term_and_votedfor; rd: leveldb's Get works *)
| KDel (id g : Z) (w : kres)                   (* delete_meta *)
| KRun (n : nat) (rs : list kres)              (* the executor is handed the first n tasks *)
| KKill                                        (* the process is killed and the store opened again *)
| KPower (n : nat).                            (* the machine fails: the first n batches are found again *)

Definition kbusy (g : Z) (s : kst) : bool := existsb (fun t => t_grp t =? g) (k_q s).
(** Every waiting call has its own closure (a local variable of the caller). *)
Definition kdup (id : Z) (s : kst) : bool := existsb (fun t => t_id t =? id) (k_q s).

(** [serial]: the caller of a group waits for one call to return before the next (as NodeImpl does, under its mutex). [power]: the machine may fail. *)
Definition kstep (serial sync power : bool) (bs : nat) (s : kst) (e : kev) : option (kst * list kout) :=
  match e with
  | KSet id g v ok =>
      if (serial && kbusy g s) || kdup id s then None
      else if ok then Some (mkK (k_db s) (k_dur s) (k_q s ++ [mkKT id g v false]), [OAsked id g v])
      else Some (s, [OAsked id g v; OAck id K_EIO])
  | KGet id g rd ok =>
      if (serial && kbusy g s) || kdup id s then None
      else if negb rd then Some (s, [OGet id g; OGetErr id g K_EIO])                                       (* :798-806 *)
      else match stored g (k_db s) with
           | Some v => Some (s, [OGet id g; OGot id g v])
           | None => if ok then Some (mkK (k_db s) (k_dur s) (k_q s ++ [mkKT id g KINIT true]), [OGet id g; OInit id g])
                     else Some (s, [OGet id g; OInit id g; OGetErr id g K_EIO])
           end
  | KDel id g w =>
      if serial && kbusy g s then None
      else Some (kwrite sync [KRem g] w s, [ODel id g (if kok w then 0 else K_EIO)])
  | KRun n rs =>
      let '(s', o) := kloop sync bs (firstn n (k_q s)) [] rs (mkK (k_db s) (k_dur s) (skipn n (k_q s))) in Some (s', o)
  | KKill => Some (mkK (k_db s) (k_dur s) [], [OKilled (map t_id (k_q s))])
  | KPower n => if power && Nat.leb (k_dur s) n && Nat.leb n (length (k_db s))
                then Some (mkK (firstn n (k_db s)) (k_dur s) [], [OKilled (map t_id (k_q s))]) else None
  end.

Fixpoint krun (serial sync power : bool) (bs : nat) (s : kst) (es : list kev) : option (kst * list kout) :=
  match es with
  | [] => Some (s, [])
  | e :: es' => match kstep serial sync power bs s e with
                | None => None
                | Some (s1, o1) => match krun serial sync power bs s1 es' with None => None | Some (s2, o2) => Some (s2, o1 ++ o2) end
                end
  end.
Definition kinit : kst := mkK [] 0 [].
