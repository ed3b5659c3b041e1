(** * SnapCopy: copying a snapshot from a remote node (LocalSnapshotCopier)

    Models /repo/src/braft/snapshot.cpp 43-60 (LocalSnapshotMetaTable), 185-283
    (LocalSnapshotWriter), 518-525 and 543-575 (LocalSnapshotStorage::create,
    destroy_snapshot), 609-695 (close(writer), open) and 765-1011
    (LocalSnapshotCopier).

    The disk is modelled with inodes, because the copier makes hard links from
    the last snapshot into the temp directory and the downloader opens files
    with O_TRUNC.  Every change of the disk is one [eff]; a run of the copier
    appends the effects it performs to a trace, so that a crash is a prefix of
    the trace.

    Simplifications: file names, checksums, user_meta are integers; the meta
    file is replaced atomically (ProtoBufFile::save, protobuf_file.cpp 38-84,
    writes a temporary file and renames it); effects reach the disk in program
    order; a finished download delivers the remote bytes (the chunked transfer is
    the subject of RemoteCopy/FileService theorems); the snapshots' directory holds
    the last snapshot only, and the reference counts that delay the deletion of
    an older one are the subject of SnapStore. *)
From Verif Require Import Base.

(** local_file_meta.proto 4-13: LocalFileMeta {user_meta, source, checksum}. *)
Record fmeta := mkFm { m_user : Z; m_ref : bool; m_ck : option Z }.

(** snapshot.h 56: std::map<string, LocalFileMeta> _file_map. *)
Definition table := list (Z * fmeta).

(** std::map lookup, used for get_file_meta (snapshot.cpp 147-157), and for a
    directory's name -> inode entries. *)
Fixpoint look {A : Type} (n : Z) (l : list (Z * A)) : option A :=
  match l with
  | [] => None
  | (m, a) :: r => if m =? n then Some a else look n r
  end.

(** std::map::erase by key: LocalSnapshotMetaTable::remove_file, snapshot.cpp 52-59. *)
Definition drop {A : Type} (n : Z) (l : list (Z * A)) : list (Z * A) :=
  filter (fun p => negb (fst p =? n)) l.

Definition isS {A : Type} (o : option A) : bool := match o with Some _ => true | None => false end.

(** One directory: the meta file (snapshot index, 0 when there is no SnapshotMeta
    in it, and file table), and the names with their inodes. *)
Record dir := mkDir { d_meta : option (Z * table); d_files : list (Z * Z) }.
Definition empty_dir := mkDir None [].

(** The part of the disk the copier can see: inode contents, next free inode,
    the temp directory, the last snapshot with its index. *)
Record disk := mkDisk { k_ino : Z -> list Z; k_next : Z; k_temp : dir; k_last : option (Z * dir) }.

Inductive eff :=
| EDel (n : Z)                  (* unlink temp/n *)
| ELink (n : Z)                 (* link last/n to temp/n *)
| EMeta (i : Z) (t : table)     (* atomic replacement of temp/__raft_snapshot_meta *)
| EWrite (n : Z) (b : list Z)   (* open(temp/n, O_CREAT|O_TRUNC), then write b *)
| EDelMeta                      (* unlink temp/__raft_snapshot_meta *)
| EWipe                         (* temp no longer exists *)
| EPub (i : Z).                 (* rename(temp, snapshot_i) *)

Definition set_temp (t : dir) (d : disk) : disk := mkDisk (k_ino d) (k_next d) t (k_last d).

(** POSIX effects.  unlink removes the name only; link shares the inode
    (file_system_adaptor.cpp 200-202); open with O_TRUNC|O_CREAT
    (remote_file_copier.cpp 137) writes into the existing inode if the name
    exists. *)
Definition apply (d : disk) (e : eff) : disk :=
  let t := k_temp d in
  match e with
  | EDel n => set_temp (mkDir (d_meta t) (drop n (d_files t))) d
  | ELink n =>
      match k_last d with
      | Some (_, l) =>
          match look n (d_files l) with
          | Some i => set_temp (mkDir (d_meta t) ((n, i) :: d_files t)) d
          | None => d
          end
      | None => d
      end
  | EMeta i tb => set_temp (mkDir (Some (i, tb)) (d_files t)) d
  | EWrite n b =>
      match look n (d_files t) with
      | Some i => mkDisk (fun j => if j =? i then b else k_ino d j) (k_next d) t (k_last d)
      | None => mkDisk (fun j => if j =? k_next d then b else k_ino d j) (k_next d + 1)
                       (mkDir (d_meta t) ((n, k_next d) :: d_files t)) (k_last d)
      end
  | EDelMeta => set_temp (mkDir None (d_files t)) d
  | EWipe => set_temp empty_dir d
  | EPub i => mkDisk (k_ino d) (k_next d) empty_dir (Some (i, t))
  end.

(** Outcomes of the system calls an attempt makes; arbitrary. *)
Record orac := mkO {
  o_meta : bool;                       (* the remote meta table arrived *)
  o_init : bool; o_init2 : bool;       (* writer->init() of the two create calls *)
  o_initdel : Z -> bool;               (* writer init deletes an unlisted name *)
  o_open : bool; o_open2 : bool;       (* _storage->open() *)
  o_del1 : Z -> bool;                  (* delete_file before link *)
  o_link : Z -> bool;
  o_sync1 : bool;
  o_del2 : Z -> bool;                  (* delete_file of to_remove *)
  o_dest0 : list (option Z) * bool;    (* recursive delete: order, completed? *)
  o_dest1 : list (option Z) * bool;
  o_dest2 : list (option Z) * bool;
  o_dest3 : list (option Z) * bool;
  o_sync2 : bool;
  o_mkdir : Z -> bool;
  o_sess : Z -> bool;                  (* not cancelled and dest_path opened *)
  o_part : Z -> list (list Z);         (* contents seen while the download runs *)
  o_fetch : Z -> bool;                 (* download finished *)
  o_sync3 : Z -> bool;
  o_sync4 : bool;
  o_rename : bool                      (* delete_file(new_path) and rename succeed *)
}.

(** State of a running copier: disk, trace (newest first), the writer's table in
    memory, its SnapshotMeta index, writer error code, copier ok(). *)
Record st := mkSt { s_d : disk; s_tr : list eff; s_tab : table; s_idx : Z; s_werr : Z; s_ok : bool }.

Definition emit (e : eff) (s : st) : st :=
  mkSt (apply (s_d s) e) (e :: s_tr s) (s_tab s) (s_idx s) (s_werr s) (s_ok s).
Definition set_tab (t : table) (s : st) : st := mkSt (s_d s) (s_tr s) t (s_idx s) (s_werr s) (s_ok s).
Definition set_idx (i : Z) (s : st) : st := mkSt (s_d s) (s_tr s) (s_tab s) i (s_werr s) (s_ok s).
Definition set_werr (e : Z) (s : st) : st := mkSt (s_d s) (s_tr s) (s_tab s) (s_idx s) e (s_ok s).
Definition fail (s : st) : st := mkSt (s_d s) (s_tr s) (s_tab s) (s_idx s) (s_werr s) false.

Fixpoint emits (es : list eff) (s : st) : st :=
  match es with [] => s | e :: r => emits r (emit e s) end.

Definition E_EIO := 5.
Definition E_EEXIST := 17.

(** delete_file(path, false), snapshot.cpp 222 and 913: the result is ignored. *)
Definition try_del (ok : bool) (n : Z) (s : st) : st := if ok then emit (EDel n) s else s.

(** LocalSnapshotWriter::sync, snapshot.cpp 273-281: a failure is -1 and is kept
    as the writer's error. *)
Definition sync (ok : bool) (s : st) : st * bool :=
  if ok then (emit (EMeta (s_idx s) (s_tab s)) s, true)
  else (if s_werr s =? 0 then set_werr (-1) s else s, false).

(** destroy_snapshot, snapshot.cpp 518-525: recursive delete, one name at a time
    in the directory's order, possibly incomplete. *)
Definition destroy (o : list (option Z) * bool) (s : st) : st * bool :=
  let s1 := emits (map (fun x => match x with Some n => EDel n | None => EDelMeta end) (fst o)) s in
  if snd o then (emit EWipe s1, true) else (s1, false).

(** LocalSnapshotWriter::init, snapshot.cpp 185-230: load the table of the meta
    file if there is one, delete the names that are not in it. *)
Fixpoint init_del (ok : Z -> bool) (names : list Z) (s : st) : st :=
  match names with
  | [] => s
  | n :: r => init_del ok r (if isS (look n (s_tab s)) then s else try_del (ok n) n s)
  end.

Definition writer_init (oinit : bool) (odel : Z -> bool) (s : st) : option st :=
  if oinit then
    let (i, t) := match d_meta (k_temp (s_d s)) with Some p => p | None => (0, []) end in
    let s1 := set_werr 0 (set_idx i (set_tab t s)) in
    Some (init_del odel (map fst (d_files (k_temp (s_d s)))) s1)
  else None.

Definition exists_dir (d : dir) : bool :=
  isS (d_meta d) || negb (Z.of_nat (length (d_files d)) =? 0).

(** LocalSnapshotStorage::create, snapshot.cpp 547-575.  [fe] is from_empty. *)
Definition create (fe : bool) (od : list (option Z) * bool) (oinit : bool) (odel : Z -> bool) (s : st)
  : st * bool :=
  let (s1, go) := if exists_dir (k_temp (s_d s)) && fe then destroy od s else (s, true) in
  if go then
    match writer_init oinit odel s1 with Some s2 => (s2, true) | None => (s1, false) end
  else (s1, false).

(** filter_before_copy, first loop, snapshot.cpp 834-843. *)
Fixpoint fl_existing (rt : table) (names : list Z) (rm : list Z) (s : st) : list Z * st :=
  match names with
  | [] => (rm, s)
  | n :: r =>
      if isS (look n rt) then fl_existing rt r rm s
      else fl_existing rt r (rm ++ [n]) (set_tab (drop n (s_tab s)) s)
  end.

(** LocalSnapshotMetaTable::add_file, snapshot.cpp 43-50: insert, -1 if present. *)
Definition add_file (n : Z) (m : fmeta) (s : st) : st * bool :=
  if isS (look n (s_tab s)) then (s, false) else (set_tab ((n, m) :: s_tab s) s, true).

Definition ck_eq (a b : option Z) : bool :=
  match a, b with Some x, Some y => x =? y | _, _ => false end.

(** "Don't delete linked file", snapshot.cpp 897-900. *)
Definition pop_back (n : Z) (rm : list Z) : list Z :=
  match rev rm with
  | x :: r => if x =? n then rev r else rm
  | [] => rm
  end.

(** The table a reader of a directory loads (LocalSnapshotReader::init, 296-307). *)
Definition dir_table (x : dir) : table := match d_meta x with Some (_, t) => t | None => [] end.

(** filter_before_copy, the part that looks into the last snapshot, 874-904. *)
Definition fl_last (o : orac) (last : option (Z * dir)) (n : Z) (rck : option Z) (rm : list Z) (s : st)
  : list Z * st :=
  match last with
  | None => (rm, s)
  | Some (_, l) =>
      match look n (dir_table l) with
      | None => (rm, s)
      | Some lm =>
          if ck_eq (m_ck lm) rck then
            if m_ref lm then (rm, fst (add_file n lm s))
            else
              let s1 := try_del (o_del1 o n) n s in
              if o_link o n && negb (isS (look n (d_files (k_temp (s_d s1)))))
                 && isS (look n (d_files l))
              then (pop_back n rm, fst (add_file n lm (emit (ELink n) s1)))
              else (rm, s1)
          else (rm, s)
      end
  end.

(** filter_before_copy, one remote file, snapshot.cpp 845-904. *)
Definition fl_remote1 (o : orac) (last : option (Z * dir)) (n : Z) (m : fmeta) (rm : list Z) (s : st)
  : list Z * st :=
  match m_ck m with
  | None => (rm ++ [n], set_tab (drop n (s_tab s)) s)
  | Some _ =>
      match look n (s_tab s) with
      | Some lm =>
          if ck_eq (m_ck lm) (m_ck m) then (rm, s)
          else fl_last o last n (m_ck m) (rm ++ [n]) (set_tab (drop n (s_tab s)) s)
      | None => fl_last o last n (m_ck m) rm s
      end
  end.

Fixpoint fl_remote (o : orac) (last : option (Z * dir)) (rt : table) (rm : list Z) (s : st)
  : list Z * st :=
  match rt with
  | [] => (rm, s)
  | (n, m) :: r => let (rm1, s1) := fl_remote1 o last n m rm s in fl_remote o last r rm1 s1
  end.

Fixpoint del_all (ok : Z -> bool) (rm : list Z) (s : st) : st :=
  match rm with [] => s | n :: r => del_all ok r (try_del (ok n) n s) end.

(** filter_before_copy, snapshot.cpp 832-918. *)
Definition filter_before_copy (o : orac) (rt : table) (last : option (Z * dir)) (s : st) : st * bool :=
  let (rm1, s1) := fl_existing rt (map fst (s_tab s)) [] s in
  let (rm2, s2) := fl_remote o last rt rm1 s1 in
  let (s3, ok) := sync (o_sync1 o) s2 in
  if ok then (del_all (o_del2 o) rm2 s3, true) else (s3, false).

(** The remote snapshot: index, table (save_to_iobuf_as_remote, 98-113, clears
    `source`), contents. *)
Record remote := mkR { r_idx : Z; r_tab : table; r_data : Z -> list Z }.

Definition last_reader (ok : bool) (d : disk) : option (Z * dir) :=
  if ok then match k_last d with
             | Some (i, l) => if i =? 0 then None else if isS (d_meta l) then Some (i, l) else None
             | None => None end
  else None.

(** close(writer, keep), snapshot.cpp 613-671: the second component is whether it
    returned 0, which is [ret != EIO]. *)
Definition last_index (d : disk) : Z := match k_last d with Some (i, _) => i | None => 0 end.

Definition close (keep : bool) (osync oren : bool) (od : list (option Z) * bool) (s : st) : st * bool :=
  let '(s1, ret) :=
    if negb (s_werr s =? 0) then (s, s_werr s)
    else let (s1, ok) := sync osync s in
         if negb ok then (s1, -1)
         else if s_idx s1 =? last_index (s_d s1) then (s1, E_EEXIST)
         else if oren then (emit (EPub (s_idx s1)) s1, 0)
         else (s1, E_EIO) in
  let s2 := if negb (ret =? 0) && negb keep then fst (destroy od s1) else s1 in
  (s2, negb (ret =? E_EIO)).

(** filter, snapshot.cpp 920-950.  false: no writer (the copier failed). *)
Definition filter_step (o : orac) (flt : bool) (r : remote) (s : st) : st * bool :=
  let (s1, w1) := create (negb flt) (o_dest0 o) (o_init o) (o_initdel o) s in
  if negb w1 then (fail s1, false)
  else
    let (s2, w2) :=
      if flt then
        let (sf, ok) := filter_before_copy o (r_tab r) (last_reader (o_open o) (s_d s1)) s1 in
        if ok then (sf, true)
        else
          let s3 := fst (close false true true (o_dest1 o) (set_werr (-1) sf)) in
          create true (o_dest2 o) (o_init2 o) (o_initdel o) s3
      else (s1, true) in
    if negb w2 then (fail s2, false)
    else
      let (s4, ok) := sync (o_sync2 o) (set_idx (r_idx r) s2) in
      if ok then (s4, true) else (fail s4, true).

(** copy_file, snapshot.cpp 952-1011. *)
Definition copy_file (o : orac) (r : remote) (n : Z) (m : fmeta) (s : st) : st :=
  if isS (look n (s_tab s)) then s
  else
    let s1 := if o_mkdir o n then s else fail s in
    if negb (o_sess o n) then fail s1
    else
      let s2 := emits (map (EWrite n) ([] :: o_part o n)) s1 in
      if negb (o_fetch o n) then fail s2
      else
        let s3 := emit (EWrite n (r_data r n)) s2 in
        let (s4, a) := add_file n m s3 in
        if negb a then fail s4
        else let (s5, ok) := sync (o_sync3 o n) s4 in
             if ok then s5 else fail s5.

Fixpoint copy_loop (o : orac) (r : remote) (l : table) (s : st) : st :=
  match l with
  | [] => s
  | (n, m) :: l' => if s_ok s then copy_loop o r l' (copy_file o r n m s) else s
  end.

(** LocalSnapshotCopier::copy, snapshot.cpp 765-801.  [flt] is
    _filter_before_copy_remote, [cf] is _copy_file.  Result: state, and the reader
    the copier hands out. *)
Definition copy_with_writer (o : orac) (flt cf : bool) (r : remote) (s : st) : st :=
  let s1 := if s_ok s && cf then copy_loop o r (r_tab r) s else s in
  let s2 := if negb (s_ok s1) && (s_werr s1 =? 0) then set_werr (-1) s1 else s1 in
  let (s3, c) := close flt (o_sync4 o) (o_rename o) (o_dest3 o) s2 in
  if negb c && s_ok s3 then fail s3 else s3.

Definition start (d : disk) : st := mkSt d [] [] 0 0 true.

Definition copy (o : orac) (flt cf : bool) (r : remote) (d : disk) : st * option (Z * dir) :=
  let s0 := start d in
  let s3 :=
    if o_meta o then
      let (s1, w) := filter_step o flt r s0 in
      if w then copy_with_writer o flt cf r s1 else s1
    else fail s0 in
  (s3, if s_ok s3 then last_reader (o_open2 o) (s_d s3) else None).

(** Saving a local snapshot with the same storage: create() = create(true)
    (543-545), the application writes and adds files, save_meta, close(writer).
    [files] lists name, meta and bytes in the order they are written; a crash or
    an error of the application may stop it anywhere ([serr]: writer error). *)
Fixpoint save_files (files : list (Z * fmeta * list Z)) (s : st) : st :=
  match files with
  | [] => s
  | (n, m, b) :: r => save_files r (fst (add_file n m (emit (EWrite n b) s)))
  end.

Definition save (o : orac) (i : Z) (files : list (Z * fmeta * list Z)) (serr : Z) (d : disk) : st :=
  let (s1, w) := create true (o_dest0 o) (o_init o) (o_initdel o) (start d) in
  if w then fst (close false (o_sync4 o) (o_rename o) (o_dest3 o)
                   (set_werr serr (set_idx i (save_files files s1))))
  else s1.
