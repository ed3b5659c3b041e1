(** Model of LocalSnapshotStorage, LocalSnapshotWriter and LocalSnapshotReader
    (src/braft/snapshot.cpp:36-720).

    The directory of the storage holds "temp" and one directory per snapshot index.  A
    directory is the list of its files; the meta file is one of them.  Deleting a directory
    removes its files one by one, in any order, and may stop half-way (FileSystemAdaptor::
    delete_file, recursive); rename is atomic.  Saving the meta file replaces it atomically
    (write to .tmp, rename: protobuf_file.cpp:38-85; the .tmp file is left out).  The process may
    be killed between any two steps; files keep what was written (loss of unsynced data in a
    power failure is not modelled).  One writer exists at a time (SnapshotExecutor's flags
    _saving_snapshot and _downloading_snapshot); readers come and go in other threads, and
    every critical section of _mutex is one step. *)
From Verif Require Import Base.

Definition S_EIO := 5.
Definition S_EEXIST := 17.

(** snapshot.h:42-71 LocalSnapshotMetaTable: the snapshot meta (last_included_index, and the rest
    as a number) once save_meta was called, and the file names *)
Record tbl := mkTbl { t_meta : option (Z * Z); t_files : list Z }.
Inductive item := IMeta (t : tbl) | IFile (name : Z) (bytes : list Z).
Definition dir := list item.

(** snapshot.cpp:76-97 LocalSnapshotMetaTable::load_from_file *)
Fixpoint load (d : dir) : option tbl :=
  match d with [] => None | IMeta t :: _ => Some t | _ :: d' => load d' end.
(** snapshot.cpp:60-74 save_to_file *)
Definition save (t : tbl) (d : dir) : dir :=
  IMeta t :: filter (fun x => match x with IMeta _ => false | _ => true end) d.
(** snapshot.cpp:244-246 LocalSnapshotWriter::snapshot_index *)
Definition index_of (t : tbl) : Z := match t_meta t with Some (i, _) => i | None => 0 end.

Fixpoint remove_nth (k : nat) (d : dir) : dir :=
  match d, k with [], _ => [] | _ :: d', O => d' | x :: d', S k' => x :: remove_nth k' d' end.
Fixpoint get (i : Z) (l : list (Z * dir)) : option dir :=
  match l with [] => None | (j, d) :: l' => if j =? i then Some d else get i l' end.
Fixpoint del (i : Z) (l : list (Z * dir)) : list (Z * dir) :=
  match l with [] => [] | (j, d) :: l' => if j =? i then del i l' else (j, d) :: del i l' end.
(** one file of directory [i] disappears *)
Definition part (i : Z) (k : nat) (l : list (Z * dir)) : list (Z * dir) :=
  map (fun x => if fst x =? i then (fst x, remove_nth k (snd x)) else x) l.

(** Where the thread in LocalSnapshotStorage::close(writer, keep_data_on_error) is
    (snapshot.cpp:612-668). *)
Inductive pc :=
| PWrite                          (* not in close: the user writes *)
| PDel (old new : Z) (keep : bool)(* :637 deleting new_path *)
| PRen (old new : Z) (keep : bool)(* :643 about to rename *)
| PRef (old new : Z)              (* :650 renamed *)
| PLast (old new : Z)             (* :652 *)
| PUnref (old new : Z)            (* :657 *)
| PFail (ret : Z) (keep : bool).  (* :660 *)
Record writer := mkW { w_tbl : tbl; w_err : Z; w_pc : pc }.

(** snapshot.h LocalSnapshotStorage: _last_snapshot_index, _ref_map (0 = not in the map);
    and the writer, the readers (id, index, init done), the directories being destroyed by unref. *)
Record ss := mkS { temp : option dir; snaps : list (Z * dir); up : bool; last : Z; refs : Z -> Z;
  wr : option writer; rds : list (Z * Z * bool); jobs : list Z }.
Definition set_disk t l s := mkS t l (up s) (last s) (refs s) (wr s) (rds s) (jobs s).
Definition set_wr w s := mkS (temp s) (snaps s) (up s) (last s) (refs s) w (rds s) (jobs s).
Definition set_last i s := mkS (temp s) (snaps s) (up s) i (refs s) (wr s) (rds s) (jobs s).
Definition set_refs f j s := mkS (temp s) (snaps s) (up s) (last s) f (wr s) (rds s) j.
Definition set_rds r s := mkS (temp s) (snaps s) (up s) (last s) (refs s) (wr s) r (jobs s).

(** snapshot.cpp:512-515 ref *)
Definition ref (i : Z) (s : ss) : ss := set_refs (fun j => if j =? i then refs s i + 1 else refs s j) (jobs s) s.
(** snapshot.cpp:526-541 unref; the deletion is a job *)
Definition unref (i : Z) (s : ss) : ss :=
  if refs s i =? 0 then s
  else set_refs (fun j => if j =? i then refs s i - 1 else refs s j) (if refs s i - 1 =? 0 then i :: jobs s else jobs s) s.

Inductive sout :=
| OClosing (i : Z)                (* close was given a complete writer of index i *)
| OPub (i : Z) (d : dir)          (* temp was renamed to snapshot i, with this content *)
| ORet (rc : Z)                   (* close returned *)
| OOpened (rid i : Z) (d : dir)   (* open returned a reader of this directory *)
| OOpenFail (rid : Z)             (* open returned NULL *)
| OCrash
| OCheckFailed.                   (* CHECK_EQ(old_index, _last_snapshot_index) :653 *)

Inductive sevt :=
| EvCrash
| EvBootPart (n : option Z) (k : nat) | EvBootGone (n : option Z) | EvBootDone (filter : bool)
| EvCreate (from_empty : bool) | EvCreateFail (t : option dir)
| EvUser (d : dir) | EvAdd (f : Z) | EvRemove (f : Z) | EvSaveMeta (m : Z * Z) | EvSetErr (code : Z) | EvSync (rc : Z)
| EvClose (keep : bool) (rc : Z) | EvDelPart (k : nat) | EvDelEnd (ok : bool) | EvRename (ok : bool) | EvNext
| EvTempPart (k : nat) | EvFailEnd (ok : bool)
| EvOpen (rid : Z) | EvOpenDone (rid : Z) (ok : bool) | EvCloseReader (rid : Z)
| EvJobPart (i : Z) (k : nat) | EvJobEnd (i : Z) (ok : bool).

Definition max_key (l : list (Z * dir)) : Z := fold_right (fun x m => Z.max (fst x) m) 0 l.

(** snapshot.cpp:449-510 init, interrupted anywhere: temp is deleted (unless
    filter_before_copy_remote), then every snapshot but the greatest. *)
Definition boot (s : ss) (e : sevt) : option (ss * list sout) :=
  match e with
  | EvBootPart None k => Some (set_disk (option_map (remove_nth k) (temp s)) (snaps s) s, [])
  | EvBootPart (Some i) k => if i <? max_key (snaps s) then Some (set_disk (temp s) (part i k (snaps s)) s, []) else None
  | EvBootGone None => Some (set_disk None (snaps s) s, [])
  | EvBootGone (Some i) => if i <? max_key (snaps s) then Some (set_disk (temp s) (del i (snaps s)) s, []) else None
  | EvBootDone flt =>
      if flt || (match temp s with None => true | _ => false end) then
        match snaps s with
        | [] => Some (mkS (temp s) [] true 0 (fun _ => 0) None [] [], [])
        | [(i, d)] => Some (mkS (temp s) [(i, d)] true i (fun j => if j =? i then 1 else 0) None [] [], [])
        | _ => None
        end
      else None
  | _ => None
  end.

(** snapshot.cpp:547-575 create, :195-242 LocalSnapshotWriter::init *)
Definition create (from_empty : bool) (s : ss) : ss :=
  let d := match temp s with Some d => if from_empty then [] else d | None => [] end in
  let t := match load d with Some t => t | None => mkTbl None [] end in
  let keep := fun x => match x with IMeta _ => true | IFile n _ => existsb (Z.eqb n) (t_files t) end in
  set_wr (Some (mkW t 0 PWrite)) (set_disk (Some (filter keep d)) (snaps s) s).

Definition with_pc (p : pc) (s : ss) : ss :=
  match wr s with Some w => set_wr (Some (mkW (w_tbl w) (w_err w) p)) s | None => s end.

(** snapshot.cpp:273-280 LocalSnapshotWriter::sync; [rc] is what save_to_file returns *)
Definition sync (rc : Z) (w : writer) (s : ss) : ss :=
  if rc =? 0 then set_disk (option_map (save (w_tbl w)) (temp s)) (snaps s) s
  else set_wr (Some (mkW (w_tbl w) (if w_err w =? 0 then rc else w_err w) (w_pc w))) s.

(** snapshot.cpp:617-633 close, up to the comparison of the indexes *)
Definition close1 (keep : bool) (rc : Z) (w : writer) (s : ss) : ss * list sout :=
  if negb (w_err w =? 0) then (with_pc (PFail (w_err w) keep) s, [])
  else
    let s := sync rc w s in
    if negb (rc =? 0) then (with_pc (PFail rc keep) s, [])
    else
      let new := index_of (w_tbl w) in
      if new =? last s then (with_pc (PFail S_EEXIST keep) s, [OClosing new])
      else (with_pc (PDel (last s) new keep) s, [OClosing new]).

Fixpoint find_rd (rid : Z) (l : list (Z * Z * bool)) : option (Z * bool) :=
  match l with [] => None | (r, i, b) :: l' => if r =? rid then Some (i, b) else find_rd rid l' end.
Fixpoint drop_rd (rid : Z) (l : list (Z * Z * bool)) : list (Z * Z * bool) :=
  match l with [] => [] | (r, i, b) :: l' => if r =? rid then l' else (r, i, b) :: drop_rd rid l' end.

(** snapshot.cpp:670-693 open, first part: the latest index is referenced *)
Definition open1 (rid : Z) (s : ss) : option (ss * list sout) :=
  match find_rd rid (rds s) with
  | Some _ => None
  | None => if last s =? 0 then Some (s, [OOpenFail rid])
            else Some (set_rds ((rid, last s, false) :: rds s) (ref (last s) s), [])
  end.
(** ... second part: LocalSnapshotReader::init (snapshot.cpp:298-309); [ok]: no I/O error *)
Definition open2 (rid : Z) (ok : bool) (s : ss) : option (ss * list sout) :=
  match find_rd rid (rds s) with
  | Some (i, false) =>
      match (if ok then get i (snaps s) else None) with
      | Some d => match load d with
                  | Some _ => Some (set_rds ((rid, i, true) :: drop_rd rid (rds s)) s, [OOpened rid i d])
                  | None => Some (unref i (set_rds (drop_rd rid (rds s)) s), [OOpenFail rid])
                  end
      | None => Some (unref i (set_rds (drop_rd rid (rds s)) s), [OOpenFail rid])
      end
  | _ => None
  end.
(** snapshot.cpp:695-700 close(reader) *)
Definition close_reader (rid : Z) (s : ss) : option (ss * list sout) :=
  match find_rd rid (rds s) with
  | Some (i, true) => Some (unref i (set_rds (drop_rd rid (rds s)) s), [])
  | _ => None
  end.

(** A step of a running storage that concerns the writer [w]. *)
Definition wstep (s : ss) (w : writer) (e : sevt) : option (ss * list sout) :=
  match w_pc w, e with
  | PWrite, EvUser d => Some (set_disk (Some d) (snaps s) s, [])
  | PWrite, EvAdd f =>       (* snapshot.cpp:252-263, 42-50 *)
      Some (set_wr (Some (mkW (mkTbl (t_meta (w_tbl w)) (if existsb (Z.eqb f) (t_files (w_tbl w)) then t_files (w_tbl w) else f :: t_files (w_tbl w))) (w_err w) PWrite)) s, [])
  | PWrite, EvRemove f =>    (* snapshot.cpp:248-250, 52-59 *)
      Some (set_wr (Some (mkW (mkTbl (t_meta (w_tbl w)) (filter (fun x => negb (x =? f)) (t_files (w_tbl w)))) (w_err w) PWrite)) s, [])
  | PWrite, EvSaveMeta m =>  (* snapshot.cpp:268-271 *)
      Some (set_wr (Some (mkW (mkTbl (Some m) (t_files (w_tbl w))) (w_err w) PWrite)) s, [])
  | PWrite, EvSetErr c => Some (set_wr (Some (mkW (w_tbl w) c PWrite)) s, [])
  | PWrite, EvSync rc => Some (sync rc w s, [])
  | PWrite, EvClose keep rc => Some (close1 keep rc w s)
  | PDel old new keep, EvDelPart k => Some (set_disk (temp s) (part new k (snaps s)) s, [])
  | PDel old new keep, EvDelEnd ok =>
      if ok then Some (with_pc (PRen old new keep) (set_disk (temp s) (del new (snaps s)) s), [])
      else Some (with_pc (PFail S_EIO keep) s, [])
  | PRen old new keep, EvRename ok =>
      match (if ok then temp s else None) with
      | Some d => Some (with_pc (PRef old new) (set_disk None ((new, d) :: del new (snaps s)) s), [OPub new d])
      | None => Some (with_pc (PFail S_EIO keep) s, [])
      end
  | PRef old new, EvNext => Some (with_pc (PLast old new) (ref new s), [])
  | PLast old new, EvNext => Some (with_pc (PUnref old new) (set_last new s), if old =? last s then [] else [OCheckFailed])
  | PUnref old new, EvNext => Some (set_wr None (unref old s), [ORet 0])
  | PFail ret keep, EvTempPart k => if keep then None else Some (set_disk (option_map (remove_nth k) (temp s)) (snaps s) s, [])
  | PFail ret keep, EvFailEnd ok =>
      let s := if keep || negb ok then s else set_disk None (snaps s) s in
      Some (set_wr None s, [ORet (if ret =? S_EIO then -1 else 0)])
  | _, _ => None
  end.

Definition sstep (s : ss) (e : sevt) : option (ss * list sout) :=
  match e with
  | EvCrash => Some (mkS (temp s) (snaps s) false 0 (fun _ => 0) None [] [], [OCrash])
  | _ =>
      if negb (up s) then boot s e
      else
        match e with
        | EvCreate fe => match wr s with None => Some (create fe s, []) | Some _ => None end
        | EvCreateFail t => match wr s with None => Some (set_disk t (snaps s) s, []) | Some _ => None end
        | EvOpen rid => open1 rid s
        | EvOpenDone rid ok => open2 rid ok s
        | EvCloseReader rid => close_reader rid s
        | EvJobPart i k => if existsb (Z.eqb i) (jobs s) then Some (set_disk (temp s) (part i k (snaps s)) s, []) else None
        | EvJobEnd i ok => if existsb (Z.eqb i) (jobs s)
                           then Some (set_refs (refs s) (filter (fun x => negb (x =? i)) (jobs s)) (if ok then set_disk (temp s) (del i (snaps s)) s else s), [])
                           else None
        | _ => match wr s with Some w => wstep s w e | None => None end
        end
  end.

(** An empty directory before the first start. *)
Definition s0 : ss := mkS None [] false 0 (fun _ => 0) None [] [].
Fixpoint srun (s : ss) (es : list sevt) : option (ss * list sout) :=
  match es with
  | [] => Some (s, [])
  | e :: es' => match sstep s e with
                | None => None
                | Some (s1, o1) => match srun s1 es' with None => None | Some (s2, o2) => Some (s2, o1 ++ o2) end
                end
  end.
