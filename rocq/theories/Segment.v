(** Model of braft::Segment (src/braft/log.cpp:106-680, log.h:33-130): one file of records with its
    in-memory index.  The file's contents are part of the state.  Simplified: the system calls other
    than write do not fail; fsync (no effect on the contents), the fd and the mutex are left out. *)
From Verif Require Import Base Conf MetaFile SegCodec.

Record seg := mkSeg {
  sg_open : bool; sg_first : Z; sg_last : Z; sg_bytes : Z;
  sg_offs : list (Z * Z);                    (* _offset_and_term *)
  sg_file : list Z; sg_pos : Z }.            (* the file and the position of its fd *)

(** log.h:36-42 and create, log.cpp:106-122: a new open segment *)
Definition seg_create (first : Z) : seg := mkSeg true first (first - 1) 0 [] [] 0.

(** write(2) at the fd's position *)
Definition fwrite (f : list Z) (pos : Z) (bs : list Z) : list Z := firstn (Z.to_nat pos) f ++ bs ++ skipn (Z.to_nat pos + length bs) f.

Definition S_EINVAL := 22.
(** log.cpp:379-447 append of entry [e] at [idx]; [cut = Some k]: the write fails after k bytes.
    [None]: CHECK(false), line 387 *)
Definition seg_append (H : hashes) (ck : Z) (idx : Z) (e : sent) (cut : option nat) (s : seg) : option (seg * Z) :=
  if negb (sg_open s) then Some (s, S_EINVAL)
  else if negb (idx =? sg_last s + 1) then None
  else
    let bs := record H ck e in
    match cut with
    | Some k => let w := firstn k bs in
        Some (mkSeg true (sg_first s) (sg_last s) (sg_bytes s) (sg_offs s) (fwrite (sg_file s) (sg_pos s) w) (sg_pos s + zlen w), -1)
    | None =>
        Some (mkSeg true (sg_first s) (sg_last s + 1) (sg_bytes s + zlen bs) (sg_offs s ++ [(sg_bytes s, se_term e)])
                    (fwrite (sg_file s) (sg_pos s) bs) (sg_pos s + zlen bs), 0)
    end.

(** log.cpp:234-257 _get_meta: (offset, length, term) *)
Definition get_meta (s : seg) (idx : Z) : option (Z * Z * Z) :=
  if (sg_last s <? idx) || (idx <? sg_first s) then None
  else if sg_last s =? sg_first s - 1 then None
  else
    let m := idx - sg_first s in
    match znth (sg_offs s) m with
    | None => None
    | Some (cur, term) =>
        let next := if idx <? sg_last s then match znth (sg_offs s) (m + 1) with Some (n, _) => n | None => 0 end else sg_bytes s in
        Some (cur, next - cur, term)
    end.

(** log.cpp:469-524 get: [Some None] is NULL; [None]: a CHECK fails *)
Definition seg_get (H : hashes) (s : seg) (idx : Z) : option (option sent) :=
  match get_meta s idx with
  | None => Some None
  | Some (off, len, term) =>
      match load_entry H (sg_file s) off true len with
      | LOk h data =>
          if negb (term =? hd_term h) then None
          else if hd_type h =? 2 then Some (Some (mkSent (hd_term h) (BData data)))
          else if hd_type h =? 1 then match data with [] => Some (Some (mkSent (hd_term h) BNoop)) | _ => None end
          else if hd_type h =? 3 then
            match par_conf data with
            | None => None
            | Some None => Some None
            | Some (Some b) => Some (Some (mkSent (hd_term h) b))
            end
          else None
      | _ => Some None
      end
  end.
(** log.cpp:526-532 get_term *)
Definition seg_term (s : seg) (idx : Z) : Z := match get_meta s idx with Some (_, _, t) => t | None => 0 end.

(** Why the scan of load stops. *)
Inductive stop := StEnd | StTorn | StCorrupt | StConfData | StConfParse.
(** log.cpp:290-334 the scan, from offset [off] and index [i]: index of the records, configurations
    found, end offset.  [None]: a peer in a configuration does not parse (abort).  Each record has at
    least 24 bytes, so [fuel] = the length of the file is enough. *)
Fixpoint scan (H : hashes) (f : list Z) (fuel : nat) (i off : Z) : option (list (Z * Z) * list (Z * sent) * Z * stop) :=
  if zlen f <=? off then Some ([], [], off, StEnd)
  else match fuel with
  | O => Some ([], [], off, StEnd)
  | S k =>
      match load_entry H f off false HDR with
      | LShort => Some ([], [], off, StTorn)
      | LBad => Some ([], [], off, StCorrupt)
      | LOk h _ =>
          let skip := HDR + hd_len h in
          let next := fun (c : list (Z * sent)) =>
            match scan H f k (i + 1) (off + skip) with
            | Some (offs, confs, e, st) => Some ((off, hd_term h) :: offs, c ++ confs, e, st)
            | None => None
            end in
          if zlen f <? off + skip then Some ([], [], off, StTorn)
          else if hd_type h =? 3 then
            match load_entry H f off true skip with
            | LOk _ data =>
                match par_conf data with
                | None => None
                | Some None => Some ([], [], off, StConfParse)
                | Some (Some b) => next [(i, mkSent (hd_term h) b)]
                end
            | _ => Some ([], [], off, StConfData)
            end
          else next []
      end
  end.

(** log.cpp:259-377 load of a file; [last] is that of the name of a closed segment.  [None]: abort;
    [Some None]: an error; the configurations are those given to the ConfigurationManager. *)
Definition seg_load (H : hashes) (recover : bool) (opened : bool) (first last : Z) (f : list Z) : option (option (seg * list (Z * sent))) :=
  match scan H f (length f) first 0 with
  | None => None
  | Some (offs, confs, e, st) =>
      let actual := first - 1 + zlen offs in
      let ret := match st with StCorrupt | StConfParse => true | _ => false end in
      let ret := ret || (negb opened && negb (actual =? last)) in
      if ret && (negb opened || negb recover || negb (match st with StCorrupt => true | _ => false end)) then Some None
      else Some (Some (mkSeg opened first (if opened then actual else last) e offs (firstn (Z.to_nat e) f) e, confs))
  end.

(** log.cpp:534-575 close *)
Definition seg_close (s : seg) : seg := mkSeg false (sg_first s) (sg_last s) (sg_bytes s) (sg_offs s) (sg_file s) (sg_pos s).
(** log.cpp:625-680 truncate.  [None]: read past the index *)
Definition seg_truncate (kept : Z) (s : seg) : option seg :=
  if sg_last s <=? kept then Some s
  else
    let n := kept + 1 - sg_first s in
    match znth (sg_offs s) n with
    | None => None
    | Some (size, _) => Some (mkSeg true (sg_first s) kept size (firstn (Z.to_nat n) (sg_offs s)) (firstn (Z.to_nat size) (sg_file s)) size)
    end.
