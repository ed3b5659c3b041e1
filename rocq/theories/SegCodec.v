(** Model of the record format of log segments: src/braft/log.cpp (Segment::append, _load_entry) and
    of the payload of configuration entries, src/braft/log_entry.cpp.

    The two checksums of butil are arbitrary functions [hashes] of the bytes: every theorem holds for
    all of them.  Terms are the numbers 0..2^63-1 (int64_t, packed as uint64_t).  A read returns the
    bytes asked for or, at the end of the file, fewer; read errors are not modelled. *)
From Verif Require Import Base Conf MetaFile.

Record hashes := mkHash { h_murmur : list Z -> Z; h_crc : list Z -> Z }.

(** What an entry carries (log_entry.h:38-53): NO_OP, DATA with its bytes, CONFIGURATION. *)
Inductive body := BNoop | BData (d : list Z) | BConf (peers : list peerid) (old : option (list peerid)).
Record sent := mkSent { se_term : Z; se_body : body }.

(** enum.proto:4-9 *)
Definition ty_of (b : body) : Z := match b with BNoop => 1 | BData _ => 2 | BConf _ _ => 3 end.

(** log_entry.cpp:54-72 serialize_configuration_meta: ConfigurationPBMeta { repeated string peers = 1;
    repeated string old_peers = 2 } (local_storage.proto:8-11) in protobuf wire format *)
Definition pb_str (tag : Z) (p : peerid) : list Z := tag :: varint 10 (zlen (peer_to_string p)) ++ peer_to_string p.
Definition ser_conf (peers : list peerid) (old : option (list peerid)) : list Z :=
  flat_map (pb_str 10) peers ++ match old with Some l => flat_map (pb_str 18) l | None => [] end.
(** ParseFromZeroCopyStream for this message; unknown fields (which braft never writes) are refused *)
Fixpoint par_strs (fuel : nat) (bs : list Z) : option (list text * list text) :=
  match fuel, bs with
  | _, [] => Some ([], [])
  | O, _ => None
  | S k, tag :: r =>
      if (tag =? 10) || (tag =? 18) then
        match unvarint r with
        | Some (len, r1) =>
            if zlen r1 <? len then None
            else match par_strs k (skipn (Z.to_nat len) r1) with
                 | Some (ps, os) => let s := firstn (Z.to_nat len) r1 in Some (if tag =? 10 then (s :: ps, os) else (ps, s :: os))
                 | None => None
                 end
        | None => None
        end
      else None
  end.
Fixpoint parse_peers (l : list text) : option (list peerid) :=
  match l with
  | [] => Some []
  | s :: l' => match peer_parse s, parse_peers l' with Some p, Some ps => Some (p :: ps) | _, _ => None end
  end.
(** log_entry.cpp:33-52 parse_configuration_meta: [None]: a peer that does not parse aborts
    (configuration.h:57-58, CHECK_EQ(0, parse(str))); [Some None]: EINVAL *)
Definition par_conf (bs : list Z) : option (option body) :=
  match par_strs (length bs) bs with
  | None => Some None
  | Some (ps, os) =>
      match parse_peers ps, parse_peers os with
      | Some peers, Some old => Some (Some (BConf peers (match old with [] => None | _ => Some old end)))
      | _, _ => None
      end
  end.

(** log.cpp:390-411: the bytes of an entry *)
Definition payload (b : body) : list Z := match b with BNoop => [] | BData d => d | BConf p o => ser_conf p o end.

Definition u32 (n : Z) : Z := n mod 4294967296.
(** log.cpp:119-172 verify_checksum, get_checksum: type 0 is murmurhash32, 1 is crc32 *)
Definition checksum (H : hashes) (ck : Z) (bs : list Z) : option Z :=
  if ck =? 0 then Some (u32 (h_murmur H bs)) else if ck =? 1 then Some (u32 (h_crc H bs)) else None.
Definition verify (H : hashes) (ck : Z) (bs : list Z) (v : Z) : bool := match checksum H ck bs with Some c => c =? v | None => false end.
(** butil's RawPacker, RawUnpacker: network byte order *)
Definition be64 (n : Z) : list Z := be32 (n / 4294967296) ++ be32 n.
Definition unbe (bs : list Z) : Z := fold_left (fun v b => v * 256 + b) bs 0.

Definition HDR := 24.                     (* log.cpp:87 ENTRY_HEADER_SIZE *)
(** log.cpp:412-422 the header; the checksum type is the segment's, 0 or 1 (log.cpp:695-701) *)
Definition head20 (H : hashes) (ck term ty : Z) (data : list Z) : list Z :=
  be64 term ++ be32 (ty * 16777216 + ck * 65536) ++ be32 (u32 (zlen data)) ++ be32 (match checksum H ck data with Some c => c | None => 0 end).
Definition record (H : hashes) (ck : Z) (e : sent) : list Z :=
  let data := payload (se_body e) in
  let h := head20 H ck (se_term e) (ty_of (se_body e)) data in
  (h ++ be32 (match checksum H ck h with Some c => c | None => 0 end)) ++ data.

(** file_pread *)
Definition pread (f : list Z) (off n : Z) : list Z := firstn (Z.to_nat n) (skipn (Z.to_nat off) f).

(** log.cpp:89-95 EntryHeader, without the checksums *)
Record hdr := mkHdr { hd_term : Z; hd_type : Z; hd_ck : Z; hd_len : Z; hd_sum : Z }.
Inductive lres := LShort | LBad | LOk (h : hdr) (d : list Z).
(** log.cpp:174-232 _load_entry: 1 is [LShort], -1 is [LBad]; [want]: the caller asked for the data *)
Definition load_entry (H : hashes) (f : list Z) (off : Z) (want : bool) (hint : Z) : lres :=
  let to_read := Z.max hint HDR in
  let buf := pread f off to_read in
  if negb (zlen buf =? to_read) then LShort
  else
    let meta := unbe (pread buf 8 4) in
    let h := mkHdr (unbe (pread buf 0 8)) (meta / 16777216) (meta / 65536 mod 256) (unbe (pread buf 12 4)) (unbe (pread buf 16 4)) in
    if negb (verify H (hd_ck h) (pread buf 0 20) (unbe (pread buf 20 4))) then LBad
    else if negb want then LOk h []
    else
      let total := HDR + hd_len h in
      let more := pread f (off + zlen buf) (total - zlen buf) in
      if (zlen buf <? total) && negb (zlen more =? total - zlen buf) then LShort
      else
        let data := skipn 24 (if zlen buf <? total then buf ++ more else firstn (Z.to_nat total) buf) in
        if verify H (hd_ck h) data (hd_sum h) then LOk h data else LBad.
