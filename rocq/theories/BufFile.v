(** C64: the buffered file adaptors, for files that can only be read or written in order (src/braft/file_system_adaptor.cpp:68-149,
    file_system_adaptor.h:189-267): BufferedSequentialReadFileAdaptor and BufferedSequentialWriteFileAdaptor.  do_read, do_write are the user's.
    Offsets and sizes are natural numbers (a negative offset is below the buffer's and refused like every lower one); no overflow. *)
From Verif Require Import Base.
Local Open Scope nat_scope.

Definition B_EIO := 5. Definition B_EINVAL := 22.
Definition errno_or_eio (e : nat) : nat := if Nat.eqb e 0 then B_EIO else e.

(** ** Reading.  _buffer, _buffer_offset, _buffer_size, _reach_file_eof, _error (0: none) *)
Record rd := mkRd { r_buf : list Z; r_off : nat; r_size : nat; r_eof : bool; r_err : nat }.
Definition rd0 : rd := mkRd [] 0 0 false 0.
(** what do_read answers: a failure with errno, or [n] bytes read of which the last ones may be missing from [d] (a hole at the end) *)
Inductive rans := RFail (e : nat) | ROk (d : list Z) (n : nat).
Inductive rres := RErr (e : nat) | RData (n : nat) (d : list Z).

(** butil::IOBuf::resize: cut, or padded with zeros *)
Definition resize (n : nat) (l : list Z) : list Z := firstn n l ++ repeat 0%Z (n - length l).

(** :93-96 *)
Definition seek_to (off : nat) (s : rd) : rd :=
  if Nat.ltb (r_off s) off then mkRd (skipn (min (off - r_off s) (length (r_buf s))) (r_buf s)) off (r_size s - (off - r_off s)) (r_eof s) (r_err s) else s.
(** :98, the bytes do_read is asked for (None: not called) *)
Definition wants (off size : nat) (s : rd) : option nat :=
  if negb (r_eof s) && Nat.ltb (r_off s + r_size s) (off + size) then Some (off + size - r_off s - r_size s) else None.
(** :101-115 *)
Definition fill (need : nat) (d : list Z) (n : nat) (s : rd) : rd :=
  mkRd (match d with [] => r_buf s | _ => resize (r_size s) (r_buf s) ++ d end) (r_off s) (r_size s + n) (Nat.ltb n need) (r_err s).
(** :117-121 *)
Definition serve (size : nat) (s : rd) : rres :=
  let n := min (r_size s) size in RData n (firstn (min (length (r_buf s)) n) (r_buf s)).

(** :72-122; the call of do_read, if there is one, and its answer [a] *)
Definition read (off size : nat) (a : rans) (s : rd) : rd * option nat * rres :=
  if negb (Nat.eqb (r_err s) 0) then (s, None, RErr (r_err s))
  else if Nat.ltb off (r_off s) || Nat.ltb (r_off s + r_size s) off then (s, None, RErr B_EINVAL)
  else let s1 := seek_to off s in
       match wants off size s1 with
       | None => (s1, None, serve size s1)
       | Some need => match a with
                      | RFail e => (mkRd (r_buf s1) (r_off s1) (r_size s1) (r_eof s1) (errno_or_eio e), Some need, RErr (errno_or_eio e))
                      | ROk d n => let s2 := fill need d n s1 in (s2, Some need, serve size s2)
                      end
       end.
(** header :210; None: SSIZE_MAX *)
Definition rsize (s : rd) : option nat := if r_eof s then Some (r_off s + r_size s) else None.

(** ** Writing.  _buffer, _buffer_offset (_buffer_size is the length of _buffer), _error; the device: where it is, and what it was given. *)
Record wr := mkWr { w_buf : list Z; w_off : nat; w_err : nat; w_pos : nat; w_dev : list (nat * Z) }.
Definition wr0 : wr := mkWr [] 0 0 0 [].
(** do_write: fails with errno, or takes the first [n] bytes *)
Inductive wans := WFail (e : nat) | WOk (n : nat).
Inductive wres := WErr (e : nat) | WSize (n : nat).
Fixpoint place (o : nat) (l : list Z) : list (nat * Z) := match l with [] => [] | x :: t => (o, x) :: place (o + 1) t end.
(** header :262 seek, which an implementation with a position extends by moving it *)
Definition seek (off : nat) (s : wr) : wr := mkWr (w_buf s) off (w_err s) off (w_dev s).
(** :124-149; the CHECK at :140 only logs (brpc's crash_on_fatal_log is off by default) *)
Definition write (off : nat) (d : list Z) (a : wans) (s : wr) : wr * wres :=
  if negb (Nat.eqb (w_err s) 0) then (s, WErr (w_err s))
  else if Nat.ltb off (w_off s + length (w_buf s)) then (s, WErr B_EINVAL)
  else let s1 := if Nat.ltb (w_off s + length (w_buf s)) off then seek off s else s in
       let b := w_buf s1 ++ d in
       match b with
       | [] => (s1, WSize (length d))
       | _ => match a with
              | WFail e => (mkWr b (w_off s1) (errno_or_eio e) (w_pos s1) (w_dev s1), WErr (errno_or_eio e))
              | WOk n => (mkWr (skipn n b) (w_off s1 + min n (length b)) (w_err s1) (w_pos s1 + min n (length b)) (w_dev s1 ++ place (w_pos s1) (firstn n b)), WSize (length d))
              end
       end.
(** header :242 *)
Definition wclose (s : wr) : bool := match w_buf s with [] => true | _ => false end.
