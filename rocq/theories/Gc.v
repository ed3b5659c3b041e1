(** Model of the deletion of a group's data: gc_raft_data (src/braft/raft.cpp:109-133), the storage URIs
    (src/braft/storage.h:70-93, src/braft/storage.cpp:45-163), gc_dir (storage.h:95-121), the gc_instance
    of the built-in storages (src/braft/log.cpp:1290-1300, memory_log.cpp:162-164, snapshot.cpp:726-736,
    raft_meta.cpp:403-433, 558-571, 607-619) and parse_mixed_path (raft_meta.cpp:131-156).

    Characters are numbers.  A directory is a list of files (name, contents); its parents, and
    subdirectories as such, are not modelled (DeleteFile is recursive).  A rename is atomic; removing a
    directory is not.  The process may die in any of these steps. *)
From Verif Require Import Base.

Definition text := list Z.
(** "://", ".tmp", "merged_path=", "&&single_path=" *)
Definition s_sep : text := [58; 47; 47].
Definition s_tmp : text := [46; 116; 109; 112].
Definition s_merged : text := [109; 101; 114; 103; 101; 100; 95; 112; 97; 116; 104; 61].
Definition s_single : text := [38; 38; 115; 105; 110; 103; 108; 101; 95; 112; 97; 116; 104; 61].

(** * URIs *)
Fixpoint strip (pat s : text) : option text :=
  match pat, s with [], _ => Some s | a :: pat, b :: s => if a =? b then strip pat s else None | _ :: _, [] => None end.
(** StringPiece::find, then what is before and what is after *)
Fixpoint cut (pat s : text) : option (text * text) :=
  match strip pat s with
  | Some r => Some ([], r)
  | None => match s with [] => None | c :: s => match cut pat s with Some (a, b) => Some (c :: a, b) | None => None end end
  end.
Definition is_space (c : Z) : bool := ((9 <=? c) && (c <=? 13)) || (c =? 32).
Fixpoint ltrim (s : text) : text := match s with c :: r => if is_space c then ltrim r else s | [] => [] end.
Definition trim (s : text) : text := rev (ltrim (rev (ltrim s))).
(** storage.h:70-93 parse_uri: protocol and parameter; None: empty protocol, which every caller refuses *)
Definition parse_uri (s : text) : option (text * text) :=
  match cut s_sep s with
  | None => None
  | Some (a, b) => match trim a with [] => None | p => Some (p, filter (fun c => negb (is_space c)) b) end
  end.
(** raft_meta.cpp:131-156 parse_mixed_path: (merged_path, single_path) *)
Definition parse_mixed (s : text) : option (text * text) :=
  let s := match cut s_sep s with Some (_, r) => r | None => s end in
  match cut s_merged s with
  | None => None
  | Some (_, r) => cut s_single r
  end.

(** * Files *)
Definition dir := list (Z * Z).
Definition fsys := text -> option dir.
Fixpoint teq (a b : text) : bool := match a, b with [], [] => true | x :: a, y :: b => (x =? y) && teq a b | _, _ => false end.
Definition fset (f : fsys) (p : text) (d : option dir) : fsys := fun q => if teq q p then d else f q.
Inductive gres := GOk | GErr | GDied.
(** What happens in DeleteFile(path, true): it stops with these files left, by an error or because the
    process dies; and in ReplaceFile *)
Inductive delo := DDone | DFail (keep : Z -> bool) | DDie (keep : Z -> bool).
Inductive reno := RDone | RFail | RDieBefore | RDieAfter.
Definition some_of (keep : Z -> bool) (d : option dir) : option dir :=
  match d with Some l => Some (filter (fun x => keep (fst x)) l) | None => None end.
Definition delete_file (p : text) (o : delo) (f : fsys) : fsys * gres :=
  match o with
  | DDone => (fset f p None, GOk)
  | DFail keep => (fset f p (some_of keep (f p)), GErr)
  | DDie keep => (fset f p (some_of keep (f p)), GDied)
  end.
Record gco := mkGco { g_del1 : delo; g_ren : reno; g_del2 : delo }.
Definition well : gco := mkGco DDone RDone DDone.
(** storage.h:95-121 gc_dir *)
Definition gc_dir (path : text) (o : gco) (f : fsys) : fsys * gres :=
  let tmp := path ++ s_tmp in
  match delete_file tmp (g_del1 o) f with
  | (f, GOk) =>
      match f path with
      | Some d =>
          match g_ren o with
          | RDone => delete_file tmp (g_del2 o) (fset (fset f path None) tmp (Some d))
          | RFail => (f, GErr)
          | RDieBefore => (f, GDied)
          | RDieAfter => (fset (fset f path None) tmp (Some d), GDied)
          end
      | None => (f, GOk)
      end
  | x => x
  end.

(** * The storages *)
Inductive lkind := LSegment | LMemory.
Inductive mkind := MFile | MMerged | MMixed.
(** One merged meta storage (a key-value store at a path): the instance of this process
    (MetaStorageManager: None if none is registered, else whether it is initialized), the stored values *)
Record kvs := mkKv { k_inst : option bool; k_db : Z -> option Z }.
Record world := mkW { w_fs : fsys; w_kv : text -> kvs }.
Definition set_fs (f : fsys) (w : world) : world := mkW f (w_kv w).
Definition on_fs (x : fsys * gres) (w : world) : world * gres := (set_fs (fst x) w, snd x).

Inductive kvo := KvDone | KvFail | KvDieBefore | KvDieAfter.
(** raft_meta.cpp:84-96 remove_instance_from_meta_storage, 834-864 delete_meta *)
Definition kv_erase (p : text) (g : Z) (w : world) : world :=
  mkW (w_fs w) (fun q => if teq q p then mkKv (k_inst (w_kv w q)) (fun h => if h =? g then None else k_db (w_kv w q) h) else w_kv w q).
Definition remove_kv (p : text) (g : Z) (o : kvo) (w : world) : world * gres :=
  match k_inst (w_kv w p) with
  | None => (w, GOk)
  | Some false => (w, GErr)
  | Some true => match o with KvDone => (kv_erase p g w, GOk) | KvFail => (w, GErr) | KvDieBefore => (w, GDied) | KvDieAfter => (kv_erase p g w, GDied) end
  end.

Section Kinds.
(** The registered extensions (log_storage_extension()->Find and the others): by protocol *)
Variables (find_log : text -> option lkind) (find_snap : text -> bool) (find_meta : text -> option mkind).

(** storage.cpp:45-61, 84-100, 124-140 create: the kind and the path of the new instance; None: NULL *)
Definition log_create (uri : text) : option (lkind * text) :=
  match parse_uri uri with None => None | Some (p, x) => match find_log p with None => None | Some k => Some (k, x) end end.
Definition snap_create (uri : text) : option text :=
  match parse_uri uri with None => None | Some (p, x) => if find_snap p then Some x else None end.
Definition meta_create (uri : text) : option (mkind * text) :=
  match parse_uri uri with None => None | Some (p, x) => match find_meta p with None => None | Some k => Some (k, x) end end.

(** storage.cpp:63-82 LogStorage::destroy; log.cpp:1290-1300, memory_log.cpp:162-164 *)
Definition log_destroy (uri : text) (o : gco) (w : world) : world * gres :=
  match parse_uri uri with
  | None => (w, GErr)
  | Some (p, x) => match find_log p with None => (w, GErr) | Some LSegment => on_fs (gc_dir x o (w_fs w)) w | Some LMemory => (w, GOk) end
  end.
(** storage.cpp:102-122 SnapshotStorage::destroy; snapshot.cpp:726-736 *)
Definition snap_destroy (uri : text) (o : gco) (w : world) : world * gres :=
  match parse_uri uri with
  | None => (w, GErr)
  | Some (p, x) => if find_snap p then on_fs (gc_dir x o (w_fs w)) w else (w, GErr)
  end.
(** storage.cpp:142-163 RaftMetaStorage::destroy; raft_meta.cpp:403-433, 558-571, 607-619 *)
Definition meta_destroy (uri : text) (g : Z) (o : gco) (ko : kvo) (w : world) : world * gres :=
  match parse_uri uri with
  | None => (w, GErr)
  | Some (p, x) =>
      match find_meta p with
      | None => (w, GErr)
      | Some MFile => on_fs (gc_dir x o (w_fs w)) w
      | Some MMerged => remove_kv x g ko w
      | Some MMixed =>
          match parse_mixed x with
          | None => (w, GErr)
          | Some (merged, single) =>
              match on_fs (gc_dir single o (w_fs w)) w with
              | (w, GOk) => remove_kv merged g ko w
              | x => x
              end
          end
      end
  end.
Record gcopts := mkG { c_group : Z; c_log : text; c_meta : text; c_snap : text }.
Record outcomes := mkO { x_log : gco; x_meta : gco; x_kv : kvo; x_snap : gco }.
(** raft.cpp:109-133 gc_raft_data: Some: what it returned; None: the process died *)
Definition gc_raft_data (c : gcopts) (x : outcomes) (w : world) : world * option Z :=
  let '(w, a) := log_destroy (c_log c) (x_log x) w in
  match a with GDied => (w, None) | _ =>
  let '(w, b) := meta_destroy (c_meta c) (c_group c) (x_meta x) (x_kv x) w in
  match b with GDied => (w, None) | _ =>
  let '(w, d) := snap_destroy (c_snap c) (x_snap x) w in
  match a, b, d with
  | _, _, GDied => (w, None)
  | GOk, GOk, GOk => (w, Some 0)
  | _, _, _ => (w, Some (-1))
  end end end.
End Kinds.
