(** Vocabulary of C09 and C10: what a record is, independently of how it is read. *)
From Verif Require Import Base Conf ConfSpec MetaFile SegCodec Segment.

(** Entries that can exist: a term that fits int64_t, a payload below 4 GiB, peers with a 32-bit ip,
    a known role and 32-bit port and index. *)
Definition good_peer (p : peerid) : Prop := valid_peer p /\ -2147483648 <= p_port p < 2147483648 /\ -2147483648 <= p_idx p < 2147483648.
Definition good_body (b : body) : Prop :=
  match b with BConf ps old => Forall good_peer ps /\ match old with Some l => Forall good_peer l | None => True end | _ => True end.
Definition good_entry (e : sent) : Prop := 0 <= se_term e < 9223372036854775808 /\ good_body (se_body e) /\ zlen (payload (se_body e)) < 4294967296.
(** An empty list of old peers is the same as none. *)
Definition same_entry (e : sent) : sent := mkSent (se_term e) (match se_body e with BConf ps (Some []) => BConf ps None | b => b end).

(** [n] bytes of [f] from [off]; their big-endian value. *)
Definition bytes_at (f : list Z) (off n : Z) : list Z := firstn (Z.to_nat n) (skipn (Z.to_nat off) f).
Fixpoint be_value (bs : list Z) : Z := match bs with [] => 0 | b :: r => b * 256 ^ zlen r + be_value r end.
Definition num (f : list Z) (off n : Z) : Z := be_value (bytes_at f off n).
(** The record at [off] is whole and both its checksums are those of its bytes. *)
Definition record_intact (H : hashes) (f : list Z) (off : Z) : Prop :=
  let ck := num f (off + 9) 1 in let len := num f (off + 12) 4 in
  off + 24 + len <= zlen f /\
  checksum H ck (bytes_at f off 20) = Some (num f (off + 20) 4) /\
  checksum H ck (bytes_at f (off + 24) len) = Some (num f (off + 16) 4).
(** All bytes are bytes. *)
Definition is_bytes (f : list Z) : Prop := Forall (fun b => 0 <= b < 256) f.

(** A segment that was given the entries [l] (each with the checksum type used). *)
Definition bytes_of (H : hashes) (l : list (Z * sent)) : list Z := flat_map (fun x => record H (fst x) (snd x)) l.
Definition good_item (x : Z * sent) : Prop := (fst x = 0 \/ fst x = 1) /\ good_entry (snd x).
(** The entries whose record lies within the first [k] bytes. *)
Fixpoint whole (H : hashes) (k : Z) (l : list (Z * sent)) : list (Z * sent) :=
  match l with
  | [] => []
  | x :: l' => let n := zlen (record H (fst x) (snd x)) in if n <=? k then x :: whole H (k - n) l' else []
  end.
(** The segment shows exactly the entries [l], from index [first]. *)
Definition shows (H : hashes) (s : seg) (first : Z) (l : list (Z * sent)) : Prop :=
  sg_first s = first /\ sg_last s = first + zlen l - 1 /\
  forall i, seg_get H s i = Some (option_map (fun x => same_entry (snd x)) (znth l (i - first))) /\
            seg_term s i = match znth l (i - first) with Some x => se_term (snd x) | None => 0 end.
(** Appending a list of entries one after the other, each fully written. *)
Fixpoint append_all (H : hashes) (s : seg) (l : list (Z * sent)) : option seg :=
  match l with
  | [] => Some s
  | x :: l' => match seg_append H (fst x) (sg_last s + 1) (snd x) None s with Some (s', 0) => append_all H s' l' | _ => None end
  end.
(** The configurations among the entries, with their indexes. *)
Definition conf_at (i : Z) (x : Z * sent) : list (Z * sent) := match se_body (snd x) with BConf _ _ => [(i, same_entry (snd x))] | _ => [] end.
Fixpoint confs_of (i : Z) (l : list (Z * sent)) : list (Z * sent) := match l with [] => [] | x :: l' => conf_at i x ++ confs_of (i + 1) l' end.
