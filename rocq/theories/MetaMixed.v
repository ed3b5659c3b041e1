(** Model of MixedMetaStorage: src/braft/raft_meta.cpp:270-395, over the file-based single
    storage (whose save is atomic, C13) and one key of the KV-based merged storage. *)
From Verif Require Import Base.

(** (term, votedfor); vote 0 is ANY_PEER *)
Definition pair := (Z * peer)%type.
Definition ANY : peer := 0.

(** FileBasedSingleMetaStorage: in-memory copy and file (raft_meta.h:98-100).
    KVBasedMergedMetaStorageImpl: the group's value in leveldb, [None] = not found. *)
Record mixed := mkMx { s_mem : pair; s_disk : pair; m_db : option pair }.

(** Outcome of one write: ok; reported failed without effect; reported failed although
    the value got stored (possible for leveldb, impossible for the file, see C13). *)
Inductive wres := WOk | WFail | WFailStored.

(** raft_meta.cpp:462-476 FileBasedSingleMetaStorage::set_term_and_votedfor: the memory copy
    is updated even if the save fails. *)
Definition single_set (x : mixed) (p : pair) (ok : bool) : mixed :=
  mkMx p (if ok then p else s_disk x) (m_db x).
(** raft_meta.cpp:745-763 and 677-702: merged set *)
Definition merged_set (x : mixed) (p : pair) (w : wres) : mixed :=
  mkMx (s_mem x) (s_disk x) (match w with WFail => m_db x | _ => Some p end).
Definition is_ok (w : wres) : bool := match w with WOk => true | _ => false end.

(** raft_meta.cpp:270-292 MixedMetaStorage::set_term_and_votedfor: state, status ok? *)
Definition mixed_set (x : mixed) (p : pair) (ok_s : bool) (w : wres) : mixed * bool :=
  let x1 := single_set x p ok_s in
  if negb ok_s then (x1, false) else (merged_set x1 p w, is_ok w).

(** Result of get: error status, CHECK(false), or the pair. *)
Inductive gres := GErr | GAbort | GOk (p : pair).

(** raft_meta.cpp:300-389 MixedMetaStorage::get_term_and_votedfor with
    raft_meta.cpp:765-793 (merged get writes (1, ANY) when not found).
    [wi]: outcome of that initial write; [ok_s], [wr]: outcome of the repairing write. *)
Definition mixed_get (x : mixed) (wi : wres) (ok_s : bool) (wr : wres) : mixed * gres :=
  let '(t1, p1) := s_mem x in
  let '(x, m) := match m_db x with
                 | Some m => (x, Some m)
                 | None => (merged_set x (1, ANY) wi, if is_ok wi then Some (1, ANY) else None)
                 end in
  match m with
  | None => (x, GErr)
  | Some (t2, p2) =>
      if (t1 =? t2) && (p1 =? p2) then (x, GOk (t1, p1))
      else if (t1 =? t2) && negb (p1 =? ANY) && negb (p2 =? ANY) then (x, GAbort)
      else if (t2 <? t1) || ((t1 =? t2) && negb (p1 =? ANY) && (p2 =? ANY)) then
        (merged_set x (t1, p1) wr, if is_ok wr then GOk (t1, p1) else GErr)
      else (single_set x (t2, p2) ok_s, if ok_s then GOk (t2, p2) else GErr)
  end.

(** Process restart: the single storage reloads its file (raft_meta.cpp:489-523). *)
Definition mixed_restart (x : mixed) : mixed := mkMx (s_disk x) (s_disk x) (m_db x).

Inductive mevent :=
| MSet (p : pair) (ok_s : bool) (w : wres)
| MGet (wi : wres) (ok_s : bool) (wr : wres)
| MRestart.   (* a crash, possibly between two of the writes above *)
Inductive mresult := RSet (p : pair) (ok : bool) | RGet (g : gres) | RRestart.
Definition m_step (x : mixed) (e : mevent) : mixed * mresult :=
  match e with
  | MSet p a w => let '(x', ok) := mixed_set x p a w in (x', RSet p ok)
  | MGet wi a wr => let '(x', g) := mixed_get x wi a wr in (x', RGet g)
  | MRestart => (mixed_restart x, RRestart)
  end.
Fixpoint m_run (x : mixed) (es : list mevent) : mixed * list mresult :=
  match es with
  | [] => (x, [])
  | e :: es' => let '(x', r) := m_step x e in let '(x'', rs) := m_run x' es' in (x'', r :: rs)
  end.
