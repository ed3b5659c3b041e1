(** Model of ProtoBufFile (src/braft/protobuf_file.cpp) on a crashable file system, and of
    the StablePBMeta file kept by FileBasedSingleMetaStorage (src/braft/raft_meta.cpp). *)
From Verif Require Import Base Conf.

(** *** The file system under ProtoBufFile: one directory with the names [path] and
    [path.tmp]. This part is an environment assumption, not code of /repo:
    - a file (inode) has bytes and a flag "synced" (everything written is durable);
    - [d_hist] are the directory states a power loss may fall back to (the current one
      and the ones since the kernel last made the directory durable): rename is atomic
      but durable only later, because nobody fsyncs the directory. *)
Record inode := mkI { i_data : list Z; i_synced : bool }.
Record dirst := mkD { d_path : option nat; d_tmp : option nat }.
Record fs := mkFS { inodes : list inode; dir : dirst; d_hist : list dirst }.

Definition fs_init : fs := mkFS [] (mkD None None) [mkD None None].

Fixpoint upd (l : list inode) (n : nat) (x : inode) : list inode :=
  match l, n with
  | [], _ => []
  | _ :: l', O => x :: l'
  | y :: l', S n' => y :: upd l' n' x
  end.

Definition set_dir (f : fs) (d : dirst) : fs := mkFS (inodes f) d (d :: d_hist f).

(** open(tmp, O_WRONLY|O_CREAT|O_TRUNC): protobuf_file.cpp:43 *)
Definition op_open (f : fs) : fs :=
  match d_tmp (dir f) with
  | Some n => mkFS (upd (inodes f) n (mkI [] false)) (dir f) (d_hist f)
  | None => let n := length (inodes f) in
            set_dir (mkFS (inodes f ++ [mkI [] false]) (dir f) (d_hist f))
                    (mkD (d_path (dir f)) (Some n))
  end.
(** write at the end of tmp *)
Definition op_write (f : fs) (bs : list Z) : fs :=
  match d_tmp (dir f) with
  | Some n => match nth_error (inodes f) n with
              | Some i => mkFS (upd (inodes f) n (mkI (i_data i ++ bs) false)) (dir f) (d_hist f)
              | None => f
              end
  | None => f
  end.
(** fsync(tmp): protobuf_file.cpp:73-78 *)
Definition op_sync (f : fs) : fs :=
  match d_tmp (dir f) with
  | Some n => match nth_error (inodes f) n with
              | Some i => mkFS (upd (inodes f) n (mkI (i_data i) true)) (dir f) (d_hist f)
              | None => f
              end
  | None => f
  end.
(** rename(tmp, path): protobuf_file.cpp:81 *)
Definition op_rename (f : fs) : fs :=
  match d_tmp (dir f) with
  | Some n => set_dir f (mkD (Some n) None)
  | None => f
  end.

(** *** ProtoBufFile.  A message is its serialised bytes. *)
Definition msg := list Z.

(** protobuf_file.cpp:58-60 the 4-byte big-endian length *)
Definition be32 (n : Z) : list Z :=
  [n / 16777216 mod 256; n / 65536 mod 256; n / 256 mod 256; n mod 256].

(** How far a save gets: it stops (error return or crash) before opening, with [k]
    bytes of the header written, with [k] bytes of the body written, before the
    sync, before the rename; or completes. *)
Inductive point := P_open | P_header (k : nat) | P_body (k : nat) | P_sync | P_rename | P_done.

(** protobuf_file.cpp:38-85 ProtoBufFile::save, up to the given point *)
Definition save_upto (sync : bool) (m : msg) (pt : point) (f : fs) : fs :=
  let f1 := op_open f in
  let f2 := op_write f1 (be32 (zlen m)) in
  let f3 := op_write f2 m in
  let f4 := if sync then op_sync f3 else f3 in
  match pt with
  | P_open => f
  | P_header k => op_write f1 (firstn k (be32 (zlen m)))
  | P_body k => op_write f2 (firstn k m)
  | P_sync => f3
  | P_rename => f4
  | P_done => op_rename f4
  end.

(** protobuf_file.cpp:87-120 ProtoBufFile::load on the file's bytes.  [None] = -1
    (short read). *)
Definition parse_file (bs : list Z) : option msg :=
  match bs with
  | a :: b :: c :: d :: rest =>
      let len := a * 16777216 + b * 65536 + c * 256 + d in
      let body := firstn (Z.to_nat len) rest in
      if zlen body =? len then Some body else None
  | _ => None
  end.

(** What loading finds: no file, a file that cannot be loaded, or a message. *)
Inductive loaded := L_none | L_bad | L_msg (m : msg).
Definition load_dir (ns : list inode) (d : dirst) : loaded :=
  match d_path d with
  | None => L_none
  | Some n => match nth_error ns n with
              | None => L_bad
              | Some i => match parse_file (i_data i) with Some m => L_msg m | None => L_bad end
              end
  end.
Definition load (f : fs) : loaded := load_dir (inodes f) (dir f).

(** *** Crashes and kernel activity *)
(** Power loss: the directory falls back to one of the possible states, files that were
    not synced hold anything ([g]). *)
Fixpoint scramble (ns : list inode) (g : nat -> list Z) (k : nat) : list inode :=
  match ns with
  | [] => []
  | i :: ns' => mkI (if i_synced i then i_data i else g k) true :: scramble ns' g (S k)
  end.
Definition power_loss (f : fs) (choice : nat) (g : nat -> list Z) : fs :=
  let d := nth choice (d_hist f) (dir f) in
  mkFS (scramble (inodes f) g 0) d [d].
(** The kernel makes the directory durable. *)
Definition flush_dir (f : fs) : fs := mkFS (inodes f) (dir f) [dir f].

Inductive fevent :=
| FSave (m : msg) (pt : point)   (* a save that reaches pt; returns 0 iff P_done. A process
                                    crash at pt leaves the same files. *)
| FFlush
| FPower (m : msg) (pt : point) (choice : nat) (g : nat -> list Z). (* power loss while a save of m is at pt *)

Definition f_step (sync : bool) (f : fs) (e : fevent) : fs :=
  match e with
  | FSave m pt => save_upto sync m pt f
  | FFlush => flush_dir f
  | FPower m pt c g => power_loss (save_upto sync m pt f) c g
  end.
Definition f_run (sync : bool) (f : fs) (es : list fevent) : fs := fold_left (f_step sync) es f.

(** *** StablePBMeta { required int64 term = 1; required string votedfor = 2; }
    (src/braft/local_storage.proto:17-20) in protobuf wire format *)
(** protobuf varint of a non-negative number *)
Fixpoint varint (fuel : nat) (n : Z) : list Z :=
  match fuel with
  | O => []
  | S k => if n <? 128 then [n] else (n mod 128 + 128) :: varint k (n / 128)
  end.
Fixpoint unvarint (bs : list Z) : option (Z * list Z) :=
  match bs with
  | [] => None
  | b :: bs' => if b <? 128 then Some (b, bs')
                else match unvarint bs' with
                     | Some (v, r) => Some (b - 128 + 128 * v, r)
                     | None => None
                     end
  end.
(** raft_meta.cpp:530-533 save: term, votedfor.to_string() *)
Definition enc_meta (term : Z) (v : peerid) : msg :=
  8 :: varint 10 term ++ 18 :: varint 10 (zlen (peer_to_string v)) ++ peer_to_string v.
(** raft_meta.cpp:498-510 load: (term, votedfor) or an error *)
Definition dec_meta (m : msg) : option (Z * peerid) :=
  match m with
  | k :: m1 =>
      if k =? 8 then
        match unvarint m1 with
        | Some (term, k2 :: m2) =>
            if k2 =? 18 then
              match unvarint m2 with
              | Some (len, s) =>
                  if zlen s =? len then
                    match peer_parse s with Some v => Some (term, v) | None => None end
                  else None
              | None => None
              end
            else None
        | _ => None
        end
      else None
  | [] => None
  end.

(** raft_meta.cpp:489-523 FileBasedSingleMetaStorage::load at start-up; no file gives
    the constructor's values (raft_meta.h:74: term 1, empty vote). [None] = error. *)
Definition meta_load (f : fs) : option (Z * peerid) :=
  match load f with
  | L_none => Some (1, peer_reset)
  | L_bad => None
  | L_msg m => dec_meta m
  end.
