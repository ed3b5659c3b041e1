(** Model of copying a file of a remote snapshot: FileSegData (src/braft/util.cpp:333-405),
    LocalDirReader (file_reader.cpp:49-122), SnapshotFileReader (snapshot.cpp:343-402),
    FileServiceImpl::get_file (file_service.cpp:32-100) and RemoteFileCopier::Session
    (remote_file_copier.cpp:199-385).

    Bytes are numbers.  The files of the snapshot do not change (a snapshot is immutable).  A read
    returns what is there up to the count asked for (file_pread loops, util.cpp:286-307); a write is a
    pwrite (file_pwrite loops), it may fail after some of the segments.  Memory, sockets and the
    throttle are reduced to the results they give: each event carries them. *)
From Verif Require Import Base MetaFile SegCodec.

(** errno values *)
Definition C_EPERM := 1.
Definition C_EIO := 5.
Definition C_EAGAIN := 11.
Definition C_EINVAL := 22.
Definition C_ECANCELED := 125.
Definition C_EREQUEST := 1003.

Definition take (n : Z) (l : list Z) : list Z := firstn (Z.to_nat n) l.
Definition drop (n : Z) (l : list Z) : list Z := skipn (Z.to_nat n) l.
Definition zeros (n : Z) : list Z := repeat 0 (Z.to_nat n).

(** * FileSegData *)

(** util.h:281-285 _data, _seg_header (its position in _data), _seg_offset, _seg_len *)
Record segd := mkSd { d_data : list Z; d_hdr : Z; d_off : Z; d_len : Z }.
Definition sd0 : segd := mkSd [] (-1) 0 0.
(** IOBuf::unsafe_assign of a 12-byte header at [pos] *)
Definition assign (pos : Z) (h : list Z) (d : list Z) : list Z := take pos d ++ h ++ drop (pos + 12) d.
Definition header (off len : Z) : list Z := be64 off ++ be32 len.
(** util.cpp:333-356 append(IOBuf).  IOBuf::reserve leaves 12 bytes that are assigned later (zero here). *)
Definition sd_append (data : list Z) (off : Z) (s : segd) : segd :=
  let len := u32 (zlen data) in
  if negb (d_off s =? 0) && (off =? d_off s + d_len s)
  then mkSd (d_data s ++ data) (d_hdr s) (d_off s) (u32 (d_len s + len))
  else
    let d := if 0 <? d_len s then assign (d_hdr s) (header (d_off s) (d_len s)) (d_data s) else d_data s in
    mkSd (d ++ zeros 12 ++ data) (zlen d) off len.
(** util.cpp:376-385 close, and util.h:269-273 data() *)
Definition sd_data (s : segd) : list Z :=
  if 0 <? d_len s then assign (d_hdr s) (header (d_off s) (d_len s)) (d_data s) else d_data s.
(** util.cpp:387-405 next, called until it returns 0 *)
Fixpoint sd_segs (fuel : nat) (d : list Z) : list (Z * list Z) :=
  match fuel with
  | O => []
  | S f => match d with
           | [] => []
           | _ => let off := unbe (take 8 d) in
                  let len := unbe (take 4 (drop 8 d)) in
                  if len =? 0 then [] else (off, take len (drop 12 d)) :: sd_segs f (drop len (drop 12 d))
           end
  end.
Definition segs (d : list Z) : list (Z * list Z) := sd_segs (length d) d.

(** * The server *)

(** file_reader.h: _is_reading, _current_filename, _eof_reached *)
Record lrd := mkL { l_reading : bool; l_cur : option Z; l_eof : bool }.
Definition l0 : lrd := mkL false None true.
(** what the file system does: open, read, size *)
Inductive io := IoOk | IoOpen (code : Z) | IoRead | IoSize.
Inductive rres := RErr (code : Z) | ROk (data : list Z) (eof : bool).

(** file_reader.cpp:49-122 read_file_with_meta *)
Definition dread (bytes : list Z) (name off mx : Z) (i : io) (l : lrd) : lrd * rres :=
  if l_reading l then (l, RErr C_EAGAIN)
  else
    let same := match l_cur l with Some c => c =? name | None => false end in
    if negb same && (negb (l_eof l) || negb (off =? 0)) then (l, RErr C_EINVAL)
    else
      match i, same with
      | IoOpen code, false => (mkL false None (l_eof l), RErr code)
      | _, _ =>
          let e0 := if same then l_eof l else false in
          match i with
          | IoRead => (mkL false (Some name) e0, RErr C_EIO)
          | _ =>
              let data := take mx (drop off bytes) in
              if zlen data <? mx then (mkL false (Some name) true, ROk data true)
              else match i with
                   | IoSize => (mkL true (Some name) e0, RErr C_EIO)     (* :107 returns with _is_reading set *)
                   | _ => let eof := zlen bytes =? off + mx in (mkL false (Some name) eof, ROk data eof)
                   end
          end
      end.

(** The name of the meta file; its content is what save_to_iobuf_as_remote gives. *)
Definition META := 0.
(** snapshot.cpp:361-397 SnapshotFileReader::read_file; [thr]: what the throttle allows (all of
    [mx] when there is none) *)
Definition sread (files : Z -> option (list Z)) (name off mx thr : Z) (partly : bool) (i : io) (l : lrd) : lrd * rres :=
  if name =? META then (l, match files META with Some b => ROk b true | None => RErr (-1) end)
  else match files name with
       | None => (l, RErr C_EPERM)
       | Some bytes => if (thr <? mx) && (negb partly || (thr =? 0)) then (l, RErr C_EAGAIN)
                       else dread bytes name off thr i l
       end.

(** file_service.cpp:82-99: the attachment.  [blocks]: the blocks of the IOBuf. *)
Fixpoint holes (off : Z) (blocks : list (list Z)) (s : segd) : segd :=
  match blocks with
  | [] => s
  | b :: r => holes (off + zlen b) r (if forallb (Z.eqb 0) b then s else sd_append b off s)
  end.
Definition attachment (check_hole : bool) (off : Z) (blocks : list (list Z)) : list Z :=
  match concat blocks with
  | [] => []
  | data => if check_hole then sd_data (holes off blocks sd0) else sd_data (sd_append data off sd0)
  end.
Inductive gres := GErr (code : Z) | GOk (eof : bool) (read_size : Z) (att : list Z).
Fixpoint nonil (l : list (list Z)) : bool := match l with [] => true | b :: r => match b with [] => false | _ => nonil r end end.
Fixpoint eqb_list (a b : list Z) : bool :=
  match a, b with [], [] => true | x :: a', y :: b' => (x =? y) && eqb_list a' b' | _, _ => false end.
(** file_service.cpp:32-100 get_file (the reader is registered).  None: [blocks] is not a way to
    cut up what was read, or a failure to open a file with error code 0. *)
Definition get_file (hole : bool) (files : Z -> option (list Z)) (name off count thr : Z) (partly : bool) (i : io) (blocks : list (list Z)) (l : lrd) : option (lrd * gres) :=
  if (count <=? 0) || (off <? 0) then Some (l, GErr C_EREQUEST)
  else match sread files name off count thr partly i l with
       | (l', RErr c) => if c =? 0 then None else Some (l', GErr c)
       | (l', ROk data eof) => if nonil blocks && eqb_list (concat blocks) data
                               then Some (l', GOk eof (zlen data) (attachment hole off blocks)) else None
       end.

(** * The copying session *)

Inductive phase := PReady | PRpc | PTimer.
(** remote_file_copier.h Session: _request (filename, offset, count, read_partly), _file or _buf,
    _retry_times, _finished, _st; [x_bad]: CHECK_GE(seg_offset, _buf->length()) failed *)
Record sess := mkX { x_name : Z; x_file : bool; x_off : Z; x_count : Z; x_partly : bool; x_retry : Z; x_fin : bool; x_st : Z; x_dest : list Z; x_ph : phase; x_bad : bool }.
Definition start (name : Z) (file : bool) : sess := mkX name file 0 0 false 0 false 0 [] PReady false.
Record ccfg := mkCfg { g_max : Z; g_hole : bool; g_retry : Z }.

(** pwrite at an offset; resize + append on the buffer *)
Definition pwrite (f : list Z) (off : Z) (d : list Z) : list Z := take off f ++ zeros (off - zlen f) ++ d ++ drop (off + zlen d) f.
Definition bufput (f : list Z) (off : Z) (d : list Z) : list Z := take off f ++ zeros (off - zlen f) ++ d.

(** remote_file_copier.cpp:350-362 on_finished *)
Definition finish (sync_ok : bool) (s : sess) : sess :=
  mkX (x_name s) (x_file s) (x_off s) (x_count s) (x_partly s) (x_retry s) true (if x_file s && negb sync_ok then C_EIO else x_st s) (x_dest s) (x_ph s) (x_bad s).
Definition set_st (c : Z) (s : sess) : sess := mkX (x_name s) (x_file s) (x_off s) (x_count s) (x_partly s) (x_retry s) (x_fin s) c (x_dest s) (x_ph s) (x_bad s).
Definition set_count (c : Z) (s : sess) : sess := mkX (x_name s) (x_file s) (x_off s) c (x_partly s) (x_retry s) (x_fin s) (x_st s) (x_dest s) (x_ph s) (x_bad s).
Definition set_retry (c : Z) (s : sess) : sess := mkX (x_name s) (x_file s) (x_off s) (x_count s) (x_partly s) c (x_fin s) (x_st s) (x_dest s) (x_ph s) (x_bad s).
Definition set_ph (p : phase) (s : sess) : sess := mkX (x_name s) (x_file s) (x_off s) (x_count s) (x_partly s) (x_retry s) (x_fin s) (x_st s) (x_dest s) p (x_bad s).
Definition set_dest (d : list Z) (bad : bool) (s : sess) : sess := mkX (x_name s) (x_file s) (x_off s) (x_count s) (x_partly s) (x_retry s) (x_fin s) (x_st s) d (x_ph s) bad.

(** remote_file_copier.cpp:199-243 send_next_rpc; [thr]: what the throttle allows *)
Definition send (g : ccfg) (partly : bool) (thr : Z) (s : sess) : option sess :=
  let mx := if x_file s then g_max g else 4294967295 in
  if (thr <? 0) || (mx <? thr) || (negb (x_file s) && negb (thr =? mx)) then None
  else
    let off := x_off s + x_count s in
    Some (mkX (x_name s) (x_file s) off thr partly (x_retry s) (x_fin s) (x_st s) (x_dest s) (if thr =? 0 then PTimer else PRpc) (x_bad s)).

(** remote_file_copier.cpp:245-292, the failed call *)
Definition failed (g : ccfg) (code : Z) (sync_ok : bool) (s : sess) : sess :=
  let s := set_count 0 s in
  if code =? C_ECANCELED then finish sync_ok (set_st code s)
  else
    let over := negb (code =? C_EAGAIN) && (g_retry g <=? x_retry s) in
    let s := if code =? C_EAGAIN then s else set_retry (x_retry s + 1) s in
    if over then finish sync_ok (set_st code s) else set_ph PTimer s.

(** remote_file_copier.cpp:306-328: the segments are written; [wfail]: the write of this many works *)
Fixpoint put_file (w : option nat) (f : list Z) (l : list (Z * list Z)) : list Z * bool :=
  match l with
  | [] => (f, true)
  | (o, d) :: r => match w with Some O => (f, false) | _ => put_file (option_map pred w) (pwrite f o d) r end
  end.
Fixpoint put_buf (f : list Z) (bad : bool) (l : list (Z * list Z)) : list Z * bool :=
  match l with [] => (f, bad) | (o, d) :: r => put_buf (bufput f o d) (bad || (o <? zlen f)) r end.

(** remote_file_copier.cpp:293-334, the successful call; [flag]:
    FLAGS_raft_allow_read_partly_when_install_snapshot at this moment *)
Definition succeeded (flag : bool) (w : option nat) (sync_ok : bool) (eof : bool) (rsize : Z) (att : list Z) (s : sess) : sess :=
  let s := set_retry 0 s in
  let s := if negb (rsize =? 0) && flag then set_count rsize s else s in
  if x_file s then
    let '(f, ok) := put_file w (x_dest s) (segs att) in
    let s := set_dest f (x_bad s) s in
    if negb ok then finish sync_ok (set_st C_EIO s)
    else if eof then finish sync_ok s else set_ph PReady s
  else
    let '(f, bad) := put_buf (x_dest s) (x_bad s) (segs att) in
    let s := set_dest f bad s in
    if eof then finish sync_ok s else set_ph PReady s.

Inductive xevt :=
| EvSend (flag : bool) (thr : Z)
| EvTimer
| EvNet (code : Z) (sync_ok : bool)                          (* the call fails before the server sees it *)
| EvLost (thr : Z) (i : io) (blocks : list (list Z)) (code : Z) (sync_ok : bool)   (* ... after the server answered *)
| EvRpc (thr : Z) (i : io) (blocks : list (list Z)) (flag : bool) (w : option nat) (sync_ok : bool)
| EvCancel (sync_ok : bool)
| EvOther (l : lrd).                                         (* other calls leave the reader in state l *)

Definition xstep (g : ccfg) (files : Z -> option (list Z)) (sl : sess * lrd) (e : xevt) : option (sess * lrd) :=
  let '(s, l) := sl in
  if x_fin s then Some (s, l)         (* every callback returns at once *)
  else
    match x_ph s, e with
    | _, EvOther l' => Some (s, l')
    | PReady, EvSend flag thr => match send g flag thr s with Some s' => Some (s', l) | None => None end
    | PTimer, EvTimer => Some (set_ph PReady s, l)
    | PRpc, EvNet code sy => if code =? 0 then None else Some (failed g code sy s, l)
    | PRpc, EvLost thr i blocks code sy =>
        if (thr <? 0) || (x_count s <? thr) || (code =? 0) then None
        else match get_file (g_hole g) files (x_name s) (x_off s) (x_count s) thr (x_partly s) i blocks l with
             | None => None
             | Some (l', _) => Some (failed g code sy s, l')
             end
    | PRpc, EvRpc thr i blocks flag w sy =>
        if (thr <? 0) || (x_count s <? thr) then None
        else match get_file (g_hole g) files (x_name s) (x_off s) (x_count s) thr (x_partly s) i blocks l with
             | None => None
             | Some (l', GErr c) => Some (failed g c sy s, l')
             | Some (l', GOk eof n att) => Some (succeeded flag w sy eof n att s, l')
             end
    | _, EvCancel sy => Some (finish sy (set_st C_ECANCELED s), l)
    | _, _ => None
    end.
Fixpoint xrun (g : ccfg) (files : Z -> option (list Z)) (sl : sess * lrd) (es : list xevt) : option (sess * lrd) :=
  match es with [] => Some sl | e :: es' => match xstep g files sl e with None => None | Some sl' => xrun g files sl' es' end end.
