(** Model of SegmentLogStorage (src/braft/log.cpp:682-1270): the log as segment files.  The disk is the
    files of the segments and log_meta.  Simplified: system calls do not fail (a failing write is
    modelled in Segment.v); file names are their parsed form (first, last) / (first); .tmp files, which
    are ignored and removed at start, are left out; fsync, metrics and locks are left out. *)
From Verif Require Import Base Conf MetaFile SegCodec Segment.

(** log.h:215-230; [st_segs] is the std::map _segments in key order, [st_meta] the file log_meta *)
Record store := mkSt { st_first : Z; st_last : Z; st_segs : list seg; st_open : option seg; st_meta : option Z }.
(** What is on disk: log_meta, the closed files (first, last, bytes), the open files (first, bytes). *)
Record disk := mkDisk { dk_meta : option Z; dk_closed : list (Z * Z * list Z); dk_open : list (Z * list Z) }.
Definition disk_of (s : store) : disk :=
  mkDisk (st_meta s) (map (fun g => (sg_first g, sg_last g, sg_file g)) (st_segs s)) (match st_open s with Some g => [(sg_first g, sg_file g)] | None => [] end).

(** _segments[key] = segment *)
Fixpoint map_set {A} (key : A -> Z) (x : A) (l : list A) : list A :=
  match l with
  | [] => [x]
  | y :: l' => if key x <? key y then x :: l else if key x =? key y then x :: l' else y :: map_set key x l'
  end.

(** log.cpp:1192-1228 open_segment; [max] is FLAGS_raft_max_segment_size *)
Definition open_segment (max : Z) (s : store) : store * seg :=
  let g := match st_open s with Some g => g | None => seg_create (st_last s + 1) end in
  if max <? sg_bytes g
  then let n := seg_create (st_last s + 1) in (mkSt (st_first s) (st_last s) (map_set sg_first (seg_close g) (st_segs s)) (Some n) (st_meta s), n)
  else (mkSt (st_first s) (st_last s) (st_segs s) (Some g) (st_meta s), g).

(** log.cpp:751-783 the loop of append_entries: the store and how many entries were appended.  [None]:
    a CHECK of Segment::append *)
Fixpoint append_loop (H : hashes) (ck max : Z) (es : list (Z * sent)) (s : store) : option (store * Z) :=
  match es with
  | [] => Some (s, 0)
  | (idx, e) :: es' =>
      let (s1, g) := open_segment max s in
      match seg_append H ck idx e None g with
      | None => None
      | Some (g', ret) =>
          if negb (ret =? 0) then Some (s1, 0)
          else match append_loop H ck max es' (mkSt (st_first s1) (st_last s1 + 1) (st_segs s1) (Some g') (st_meta s1)) with
               | Some (s2, n) => Some (s2, n + 1)
               | None => None
               end
      end
  end.
(** log.cpp:738-788 append_entries.  [None]: LOG(FATAL), a gap *)
Definition st_append (H : hashes) (ck max : Z) (es : list (Z * sent)) (s : store) : option (store * Z) :=
  match es with
  | [] => Some (s, 0)
  | (idx, _) :: _ => if negb (st_last s + 1 =? idx) then None else append_loop H ck max es s
  end.

(** The last segment of the map whose key is at most [idx] (upper_bound, then --). *)
Fixpoint before_ub (idx : Z) (l : list seg) : option seg :=
  match l with
  | [] => None
  | g :: l' => if sg_first g <=? idx then match before_ub idx l' with Some x => Some x | None => Some g end else None
  end.
(** log.cpp:1230-1264 get_segment: [Some None] is -1; [None]: a CHECK, or -- before the beginning *)
Definition get_segment (s : store) (idx : Z) : option (option seg) :=
  if st_first s =? st_last s + 1 then Some None
  else if (idx <? st_first s) || (st_last s <? idx) then Some None
  else
    let closed := match before_ub idx (st_segs s) with Some g => Some (Some g) | None => None end in
    match st_open s with Some g => if sg_first g <=? idx then Some (Some g) else closed | None => closed end.
(** log.cpp:807-821 get_entry, get_term *)
Definition st_get (H : hashes) (s : store) (idx : Z) : option (option sent) :=
  match get_segment s idx with None => None | Some None => Some None | Some (Some g) => seg_get H g idx end.
Definition st_term (s : store) (idx : Z) : option Z :=
  match get_segment s idx with None => None | Some None => Some 0 | Some (Some g) => Some (seg_term g idx) end.

(** log.cpp:830-838 the loop of pop_segments over _segments: (popped, kept) *)
Fixpoint pop_front (k : Z) (l : list seg) : list seg * list seg :=
  match l with
  | [] => ([], [])
  | g :: l' => if sg_last g <? k then let (p, r) := pop_front k l' in (g :: p, r) else ([], l)
  end.
(** log.cpp:823-852 pop_segments: store, popped.  [None]: CHECK at line 846 *)
Definition pop_segments (k : Z) (s : store) : option (store * list seg) :=
  let (p, r) := pop_front k (st_segs s) in
  match r with
  | _ :: _ => Some (mkSt k (st_last s) r (st_open s) (st_meta s), p)
  | [] =>
      match st_open s with
      | Some g =>
          if sg_last g <? k then Some (mkSt k (k - 1) [] None (st_meta s), p ++ [g])
          else if sg_first g <=? k then Some (mkSt k (st_last s) [] (Some g) (st_meta s), p) else None
      | None => Some (mkSt k (k - 1) [] None (st_meta s), p)
      end
  end.
Definition with_meta (m : Z) (s : store) : store := mkSt (st_first s) (st_last s) (st_segs s) (st_open s) (Some m).
(** log.cpp:854-878 truncate_prefix *)
Definition st_truncate_prefix (k : Z) (s : store) : option store :=
  if k <=? st_first s then Some s
  else option_map fst (pop_segments k (with_meta k s)).

(** log.cpp:897-908: the closed segments that begin at or below [k] stay *)
Fixpoint keep_le (k : Z) (l : list seg) : list seg :=
  match l with [] => [] | g :: l' => if sg_first g <=? k then g :: keep_le k l' else [] end.
Fixpoint drop_le (k : Z) (l : list seg) : list seg :=
  match l with [] => [] | g :: l' => if sg_first g <=? k then drop_le k l' else l end.
(** log.cpp:880-917 pop_segments_from_back: store, popped (last first), last segment *)
Definition pop_back (k : Z) (s : store) : store * list seg * option seg :=
  let kept := keep_le k (st_segs s) in
  let popped := rev (drop_le k (st_segs s)) in
  let rest := fun (p : list seg) =>
    (mkSt (match kept with [] => k + 1 | _ => st_first s end) k kept None (st_meta s), p, match rev kept with g :: _ => Some g | [] => None end) in
  match st_open s with
  | Some g =>
      if sg_first g <=? k then (mkSt (st_first s) k (st_segs s) (st_open s) (st_meta s), [], Some g)
      else rest (g :: popped)
  | None => rest popped
  end.
Definition erase_seg (f : Z) (l : list seg) : list seg := filter (fun g => negb (sg_first g =? f)) l.
(** log.cpp:919-964 truncate_suffix: store and return value.  [None]: a CHECK, or a read past an index *)
Definition st_truncate_suffix (k : Z) (s : store) : option (store * Z) :=
  match pop_back k s with
  | (s1, popped, lst) =>
      match lst with
      | None => Some (s1, match popped with [] => -1 | _ => 0 end)
      | Some g =>
          if st_first s1 <=? st_last s1 then
            match seg_truncate k g with
            | None => None
            | Some g' =>
                if negb (sg_open g) && sg_open g'
                then match st_open s1 with Some _ => None | None => Some (mkSt (st_first s1) (st_last s1) (erase_seg (sg_first g) (st_segs s1)) (Some g') (st_meta s1), 0) end
                else Some (mkSt (st_first s1) (st_last s1) (st_segs s1) (match st_open s1 with Some _ => Some g' | None => None end) (st_meta s1), 0)
            end
          else
            match st_open s1 with
            | Some g2 => if sg_first g2 =? sg_first g then Some (mkSt (st_first s1) (st_last s1) (erase_seg (sg_first g) (st_segs s1)) None (st_meta s1), 0) else None
            | None => Some (mkSt (st_first s1) (st_last s1) (erase_seg (sg_first g) (st_segs s1)) None (st_meta s1), 0)
            end
      end
  end.

(** log.cpp:966-997 reset: store and return value *)
Definition st_reset (n : Z) (s : store) : store * Z :=
  if n <=? 0 then (s, S_EINVAL) else (mkSt n (n - 1) [] None (Some n), 0).

(** log.cpp:1053-1091 list_segments: the checks of the closed segments, in key order; the ones kept and
    the last index.  [None]: -1 *)
Fixpoint check_closed (first last : Z) (l : list (Z * Z * list Z)) : option (list (Z * Z * list Z) * Z) :=
  match l with
  | [] => Some ([], last)
  | (f, g, b) :: l' =>
      if g <? f then None
      else if negb (last =? -1) && negb (f =? last + 1) then None
      else if (last =? -1) && (first <? f) then None
      else if (last =? -1) && (g <? first) then check_closed first last l'
      else match check_closed first g l' with Some (k, e) => Some ((f, g, b) :: k, e) | None => None end
  end.
(** log.cpp:1113-1124 load_segments, the closed ones *)
Fixpoint load_all (H : hashes) (recover : bool) (l : list (Z * Z * list Z)) : option (option (list seg * list (Z * sent))) :=
  match l with
  | [] => Some (Some ([], []))
  | (f, g, b) :: l' =>
      match seg_load H recover false f g b with
      | None => None
      | Some None => Some None
      | Some (Some (s, c)) =>
          match load_all H recover l' with Some (Some (ss, cs)) => Some (Some (s :: ss, c ++ cs)) | r => r end
      end
  end.
Definition last_of (l : list seg) (d : Z) : Z := match rev l with g :: _ => sg_last g | [] => d end.
(** log.cpp:682-732 init on a disk: the store and the configurations found.  [Some None]: an error; [None]:
    abort (CHECK at line 1103) *)
Definition st_init (H : hashes) (recover : bool) (d : disk) : option (option (store * list (Z * sent))) :=
  match dk_meta d with
  | None => Some (Some (mkSt 1 0 [] None (Some 1), []))           (* is_empty: the log_ files are removed *)
  | Some first =>
      match dk_open d with
      | _ :: _ :: _ => Some None
      | opens =>
          let m := fold_left (fun m x => map_set (fun y => fst (fst y)) x m) (dk_closed d) [] in
          match check_closed first (-1) m with
          | None => Some None
          | Some (kept, e) =>
              if match opens with (f, _) :: _ => f - 1 <? e | [] => false end then None
              else
                match load_all H recover kept with
                | None => None
                | Some None => Some None
                | Some (Some (segs, confs)) =>
                    let last := last_of segs 0 in
                    let fin := fun (last : Z) (o : option seg) (c : list (Z * sent)) =>
                      Some (Some (mkSt first (if last =? 0 then first - 1 else last) segs o (Some first), c)) in
                    match opens with
                    | [] => fin last None confs
                    | (f, b) :: _ =>
                        match seg_load H recover true f 0 b with
                        | None => None
                        | Some None => Some None
                        | Some (Some (g, c)) => if sg_last g <? first then fin last None (confs ++ c) else fin (sg_last g) (Some g) (confs ++ c)
                        end
                    end
                end
          end
      end
  end.

(** * The storage's operations, and what a process killed during one of them leaves on disk *)
Inductive sop := SAppend (ck idx : Z) (es : list sent) | SPrefix (k : Z) | SSuffix (k : Z) | SReset (n : Z).
Fixpoint number (i : Z) (es : list sent) : list (Z * sent) := match es with [] => [] | e :: es' => (i, e) :: number (i + 1) es' end.
(** A call that returns: the store and the return value.  [None]: the process aborts. *)
Definition st_step (H : hashes) (max : Z) (s : store) (o : sop) : option (store * Z) :=
  match o with
  | SAppend ck idx es => st_append H ck max (number idx es) s
  | SPrefix k => option_map (fun s' => (s', 0)) (st_truncate_prefix k s)
  | SSuffix k => st_truncate_suffix k s
  | SReset n => Some (st_reset n s)
  end.

Definition closed_files (l : list seg) : list (Z * Z * list Z) := map (fun g => (sg_first g, sg_last g, sg_file g)) l.
Definition open_file (g : option seg) : list (Z * list Z) := match g with Some g => [(sg_first g, sg_file g)] | None => [] end.
Definition files_of (l : list seg) : list (Z * Z * list Z) * list (Z * list Z) :=
  (closed_files (filter (fun g => negb (sg_open g)) l), flat_map (fun g => open_file (Some g)) (filter sg_open l)).

(** append_entries, log.cpp:751-783: between two entries; after the full segment was renamed (1203), after
    the new one was created (1214), after part of a record was written (414-427) *)
Inductive crash_append (H : hashes) (ck max : Z) : list (Z * sent) -> store -> disk -> Prop :=
| CaDone : forall es s, crash_append H ck max es s (disk_of s)
| CaRenamed : forall es s g, st_open s = Some g -> max < sg_bytes g -> es <> [] ->
    crash_append H ck max es s (mkDisk (st_meta s) (closed_files (map_set sg_first (seg_close g) (st_segs s))) [])
| CaCreated : forall es s s1 g, open_segment max s = (s1, g) -> es <> [] -> crash_append H ck max es s (disk_of s1)
| CaTorn : forall idx e es s s1 g k g' r, open_segment max s = (s1, g) -> seg_append H ck idx e (Some k) g = Some (g', r) -> (k < length (record H ck e))%nat ->
    crash_append H ck max ((idx, e) :: es) s (mkDisk (st_meta s1) (closed_files (st_segs s1)) (open_file (Some g')))
| CaNext : forall idx e es s s1 g g' d, open_segment max s = (s1, g) -> seg_append H ck idx e None g = Some (g', 0) ->
    crash_append H ck max es (mkSt (st_first s1) (st_last s1 + 1) (st_segs s1) (Some g') (st_meta s1)) d -> crash_append H ck max ((idx, e) :: es) s d.
(** log.cpp:870-877: the files after save_meta and [j] of the unlinks, in the order of [popped]; [kept] are the others *)
Definition all_segs (s : store) : list seg := st_segs s ++ match st_open s with Some g => [g] | None => [] end.
Definition disk_with (m : option Z) (l : list seg) : disk := mkDisk m (fst (files_of l)) (snd (files_of l)).
Definition crash_prefix (k : Z) (s : store) (d : disk) : Prop :=
  d = disk_of s \/
  (st_first s < k /\ exists s' p j, pop_segments k (with_meta k s) = Some (s', p) /\ (j <= length p)%nat /\ d = disk_with (Some k) (skipn j (all_segs s))).
(** log.cpp:945-961: after [j] of the unlinks, back to front; after the rename of the last segment's file
    (642-657) and before ftruncate; after ftruncate *)
Definition crash_suffix (k : Z) (s : store) (d : disk) : Prop :=
  match pop_back k s with
  | (s1, popped, lst) =>
      let n := length (all_segs s) in
      let trunc := match lst with Some _ => st_first s1 <=? st_last s1 | None => false end in
      let all := (length popped + match lst with Some _ => if trunc then 0 else 1 | None => 0 end)%nat in
      (exists j, (j <= all)%nat /\ d = disk_with (st_meta s) (firstn (n - j) (all_segs s))) \/
      (exists g, lst = Some g /\ trunc = true /\ k < sg_last g /\
         let others := removelast (firstn (n - all) (all_segs s)) in
         (d = disk_with (st_meta s) (others ++ [mkSeg true (sg_first g) (sg_last g) (sg_bytes g) (sg_offs g) (sg_file g) (sg_pos g)]) \/
          exists g', seg_truncate k g = Some g' /\ d = disk_with (st_meta s) (others ++ [g'])))
  end.
(** log.cpp:986-995: before save_meta; after it and [j] of the unlinks, front to back *)
Definition crash_reset (n : Z) (s : store) (d : disk) : Prop :=
  d = disk_of s \/ (0 < n /\ exists j, d = disk_with (Some n) (skipn j (all_segs s))).
Definition crash_disk (H : hashes) (max : Z) (s : store) (o : sop) (d : disk) : Prop :=
  match o with
  | SAppend ck idx es => st_last s + 1 = idx /\ crash_append H ck max (number idx es) s d
  | SPrefix k => crash_prefix k s d
  | SSuffix k => crash_suffix k s d
  | SReset n => crash_reset n s d
  end.
