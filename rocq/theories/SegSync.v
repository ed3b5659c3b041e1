(** What a machine failure leaves of the segment log: SegmentLogStorage as system calls on files (src/braft/log.cpp:350-1264,
    protobuf_file.cpp:38-85), with fsync.  Granularity: whole entries (a torn entry is cut off when the segment is loaded: C10, Segment.v);
    system calls do not fail, except the fsync of append_entries, whose result the code ignores (log.cpp:781).
    The file system: what is found after a machine failure is the directory (names, truncations, removals, log_meta) as it was at some moment
    since the last fsync of any file (metadata is journalled in order and an fsync commits the journal), and of every file the part that was
    fsynced, followed by an arbitrary part of the rest that is a prefix. *)
From Verif Require Import Base.

(** An entry: what it is, and the bytes of its record. *)
Definition dent := (Z * Z)%type.
(** A segment file: name (first index; last index if closed), entries, how many of them were fsynced. *)
Record sf := mkF { f_first : Z; f_last : Z; f_es : list dent; f_sync : nat }.
Record sd := mkD { d_meta : option Z; d_cl : list sf; d_op : option sf }.
Definition d_all (d : sd) : list sf := d_cl d ++ match d_op d with Some g => [g] | None => [] end.

(** FLAGS_raft_max_segment_size, FLAGS_raft_sync (with raft_sync_policy 0), FLAGS_raft_sync_segments, raft_sync_meta() *)
Record dflags := mkFl { fl_max : Z; fl_sync : bool; fl_segs : bool; fl_meta : bool }.

Inductive sys :=
| YCreate (first : Z)       (* open(O_CREAT), log.cpp:104-120 *)
| YWrite (e : dent)         (* writev to the open segment, :414-427 *)
| YSync (ok : bool)         (* raft_fsync on the open segment, :464, :557 *)
| YClose                    (* rename to the closed name, :562 *)
| YReopen                   (* rename back, :640 *)
| YTrunc (n : nat)          (* ftruncate to n entries, :653 *)
| YUnlinkBack | YUnlinkFront   (* rename to .tmp and unlink, :590-620 *)
| YMeta (k : Z) (sync : bool). (* ProtoBufFile::save of log_meta: fsync of the new file, then rename, protobuf_file.cpp:71-83 *)

Definition on_open (f : sf -> sf) (d : sd) : sd := mkD (d_meta d) (d_cl d) (option_map f (d_op d)).
(** The effect on what running processes see. *)
Definition vol (y : sys) (d : sd) : sd :=
  match y with
  | YCreate i => mkD (d_meta d) (d_cl d) (Some (mkF i 0 [] 0))
  | YWrite e => on_open (fun g => mkF (f_first g) (f_last g) (f_es g ++ [e]) (f_sync g)) d
  | YSync ok => on_open (fun g => mkF (f_first g) (f_last g) (f_es g) (if ok then length (f_es g) else f_sync g)) d
  | YClose => match d_op d with
              | Some g => mkD (d_meta d) (d_cl d ++ [mkF (f_first g) (f_first g + zlen (f_es g) - 1) (f_es g) (f_sync g)]) None
              | None => d end
  | YReopen => match rev (d_cl d) with g :: _ => mkD (d_meta d) (removelast (d_cl d)) (Some g) | [] => d end
  | YTrunc n => on_open (fun g => mkF (f_first g) (f_last g) (firstn n (f_es g)) (Nat.min n (f_sync g))) d
  | YUnlinkBack => match d_op d with Some _ => mkD (d_meta d) (d_cl d) None | None => mkD (d_meta d) (removelast (d_cl d)) None end
  | YUnlinkFront => match d_cl d with _ :: r => mkD (d_meta d) r (d_op d) | [] => mkD (d_meta d) [] None end
  | YMeta k _ => mkD (Some k) (d_cl d) (d_op d)
  end.
(** The moments a machine failure may lead back to: all since the last fsync. *)
Definition moments (y : sys) (d : sd) (h : list sd) : list sd :=
  match y with
  | YSync true => [vol y d]
  | YMeta _ true => [d; vol y d]
  | _ => h ++ [vol y d]
  end.
Fixpoint sysrun (ys : list sys) (dh : sd * list sd) : sd * list sd :=
  match ys with [] => dh | y :: ys' => sysrun ys' (vol y (fst dh), moments y (fst dh) (snd dh)) end.
Definition vols (ys : list sys) (d : sd) : sd := fold_left (fun d y => vol y d) ys d.

(** _first_log_index, _last_log_index, the files (which _segments and _open_segment mirror), the moments. *)
Record dst := mkDS { s_first : Z; s_last : Z; s_d : sd; s_h : list sd }.

Definition f_bytes (g : sf) : Z := fold_right (fun e a => snd e + a) 0 (f_es g).
(** log.cpp:1192-1228 open_segment and Segment::close :537-570 (fsync only if raft_sync_segments and more than one entry, :554), then
    Segment::append *)
Definition append_one (fl : dflags) (last : Z) (e : dent) (d : sd) : list sys :=
  match d_op d with
  | None => [YCreate (last + 1)]
  | Some g => if fl_max fl <? f_bytes g
              then (if fl_segs fl && Nat.ltb 1 (length (f_es g)) then [YSync true] else []) ++ [YClose; YCreate (last + 1)]
              else []
  end ++ [YWrite e].
(** log.cpp:738-788 append_entries: one sync at the end, of the last segment only (:781) *)
Fixpoint append_loop (fl : dflags) (last : Z) (es : list dent) (d : sd) : list sys :=
  match es with
  | [] => []
  | e :: es' => let p := append_one fl last e d in p ++ append_loop fl (last + 1) es' (vols p d)
  end.
Definition append_prog (fl : dflags) (es : list dent) (ok : bool) (s : dst) : list sys :=
  match es with [] => [] | _ => append_loop fl (s_last s) es (s_d s) ++ (if fl_sync fl then [YSync ok] else []) end.

(** log.cpp:823-878 truncate_prefix *)
Fixpoint low (k : Z) (cl : list sf) : nat := match cl with g :: r => if f_last g <? k then S (low k r) else O | [] => O end.
Definition f_end (g : sf) : Z := f_first g + zlen (f_es g) - 1.
Definition all_low (k : Z) (d : sd) : bool :=
  Nat.eqb (low k (d_cl d)) (length (d_cl d)) && match d_op d with Some g => f_end g <? k | None => true end.
Definition prefix_prog (fl : dflags) (k : Z) (s : dst) : list sys :=
  if k <=? s_first s then []
  else YMeta k (fl_meta fl) :: repeat YUnlinkFront (low k (d_cl (s_d s))) ++
       match d_op (s_d s) with Some _ => if all_low k (s_d s) then [YUnlinkFront] else [] | None => [] end.
Definition prefix_mem (k : Z) (s : dst) : Z * Z :=
  if k <=? s_first s then (s_first s, s_last s) else (k, if all_low k (s_d s) then k - 1 else s_last s).

(** log.cpp:880-964 truncate_suffix, Segment::truncate :625-678 *)
Definition high (k : Z) (cl : list sf) : nat := length (filter (fun g => k <? f_first g) cl).
Definition trunc_file (k : Z) (g : sf) (closed : bool) : list sys :=
  if f_end g <=? k then [] else (if closed then [YReopen] else []) ++ [YTrunc (Z.to_nat (k + 1 - f_first g))].
Definition suffix_prog (k : Z) (s : dst) : list sys :=
  let d := s_d s in
  let from_closed := repeat YUnlinkBack (high k (d_cl d)) ++
    match rev (filter (fun g => f_first g <=? k) (d_cl d)) with
    | g :: _ => if s_first s <=? k then trunc_file k g true else [YUnlinkBack]
    | [] => [] end in
  match d_op d with
  | Some g => if f_first g <=? k then (if s_first s <=? k then trunc_file k g false else [YUnlinkBack])
              else YUnlinkBack :: from_closed
  | None => from_closed
  end.
Definition suffix_mem (k : Z) (s : dst) : Z * Z :=
  let kept := filter (fun g => f_first g <=? k) (d_cl (s_d s)) in
  let open_kept := match d_op (s_d s) with Some g => f_first g <=? k | None => false end in
  ((if open_kept then s_first s else match kept with [] => k + 1 | _ => s_first s end), k).

Inductive dop := DAppend (es : list dent) (ok : bool) | DPrefix (k : Z) | DSuffix (k : Z).
Definition prog (fl : dflags) (o : dop) (s : dst) : list sys :=
  match o with DAppend es ok => append_prog fl es ok s | DPrefix k => prefix_prog fl k s | DSuffix k => suffix_prog k s end.
Definition mem (o : dop) (s : dst) : Z * Z :=
  match o with DAppend es _ => (s_first s, s_last s + zlen es) | DPrefix k => prefix_mem k s | DSuffix k => suffix_mem k s end.
(** A call that returns. *)
Definition dstep (fl : dflags) (s : dst) (o : dop) : dst :=
  let '(d, h) := sysrun (prog fl o s) (s_d s, s_h s) in mkDS (fst (mem o s)) (snd (mem o s)) d h.

(** log.cpp:1053-1091 list_segments: the closed segments by their names. [None]: -1 *)
Fixpoint check_names (m last : Z) (cl : list sf) : option (list sf) :=
  match cl with
  | [] => Some []
  | g :: r =>
      if f_last g <? f_first g then None
      else if negb (last =? -1) && negb (f_first g =? last + 1) then None
      else if (last =? -1) && (m <? f_first g) then None
      else if (last =? -1) && (f_last g <? m) then check_names m last r
      else match check_names m (f_last g) r with Some k => Some (g :: k) | None => None end
  end.
(** log.cpp:338-349 Segment::load: a closed segment must have exactly the entries its name says *)
Definition full (g : sf) : bool := zlen (f_es g) =? f_last g - f_first g + 1.
(** log.cpp:682-732 init, load_segments :1113-1153. [None]: it fails. *)
Definition dinit (d : sd) (h : list sd) : option dst :=
  match d_meta d with
  | None => let d' := mkD (Some 1) [] None in Some (mkDS 1 0 d' (h ++ [d']))               (* is_empty: log_* removed, save_meta(1) *)
  | Some m =>
      match check_names m (-1) (d_cl d) with
      | None => None
      | Some kept =>
          if forallb full kept then
            let op := match d_op d with Some g => if f_end g <? m then None else Some g | None => None end in
            let last := match op with Some g => f_end g | None => match rev kept with g :: _ => f_last g | [] => 0 end end in
            let d' := mkD (Some m) kept op in
            Some (mkDS m (if last =? 0 then m - 1 else last) d' (h ++ [d']))
          else None
      end
  end.

(** The process is killed after [j] system calls of a call (or idle: [o = None]) and started again. *)
Definition under_way (fl : dflags) (s : dst) (o : option dop) (j : nat) : sd * list sd :=
  match o with Some o => sysrun (firstn j (prog fl o s)) (s_d s, s_h s) | None => (s_d s, s_h s) end.
Definition dkill (fl : dflags) (s : dst) (o : option dop) (j : nat) : option dst :=
  let '(d, h) := under_way fl s o j in dinit d h.
(** The machine fails: the moment [t] of those since the last fsync, and of each file at least the fsynced part; all of it is durable then. *)
Definition cut_file (g g' : sf) : Prop :=
  exists n, (f_sync g <= n)%nat /\ g' = mkF (f_first g) (f_last g) (firstn n (f_es g)) (length (firstn n (f_es g))).
Definition cut_disk (t c : sd) : Prop :=
  d_meta c = d_meta t /\ Forall2 cut_file (d_cl t) (d_cl c) /\
  match d_op t, d_op c with Some g, Some g' => cut_file g g' | None, None => True | _, _ => False end.
Definition dpower (fl : dflags) (s : dst) (o : option dop) (j : nat) (c : sd) : Prop :=
  exists t, In t (snd (under_way fl s o j)) /\ cut_disk t c.

(** get_entry *)
Definition d_get (s : dst) (i : Z) : option dent :=
  if (i <? s_first s) || (s_last s <? i) then None
  else match filter (fun g => (f_first g <=? i) && (i <=? f_end g)) (d_all (s_d s)) with g :: _ => znth (f_es g) (i - f_first g) | [] => None end.
Definition dst0 : dst := mkDS 1 0 (mkD (Some 1) [] None) [mkD None [] None; mkD (Some 1) [] None].
