(** Vocabulary of C11 and C42: the log as a plain list, and the histories of a log storage. *)
From Verif Require Import Base Conf MetaFile SegCodec Segment SegSpec SegStore.
From Coq Require Import Permutation.

(** The plain log: the index of its first entry, and its entries. *)
Record plog := mkPl { pl_first : Z; pl_ents : list sent }.
Definition pl_last (r : plog) : Z := pl_first r + zlen (pl_ents r) - 1.
Definition pl_at (r : plog) (i : Z) : option sent := znth (pl_ents r) (i - pl_first r).
(** What each operation does to it. *)
Definition pl_step (r : plog) (o : sop) : plog :=
  match o with
  | SAppend _ _ es => mkPl (pl_first r) (pl_ents r ++ es)
  | SPrefix k => if k <=? pl_first r then r else mkPl k (skipn (Z.to_nat (k - pl_first r)) (pl_ents r))
  | SSuffix k => mkPl (pl_first r) (firstn (Z.to_nat (k + 1 - pl_first r)) (pl_ents r))
  | SReset n => mkPl n []
  end.
(** What a process killed during the operation may leave: an append, a prefix of its entries; a
    truncation of the suffix, some of it; a truncation of the prefix, nothing or all of it. *)
Inductive pl_crash (r : plog) : sop -> plog -> Prop :=
| PcAppend : forall ck idx es n, pl_crash r (SAppend ck idx es) (mkPl (pl_first r) (pl_ents r ++ firstn n es))
| PcPrefix0 : forall k, pl_crash r (SPrefix k) r
| PcPrefix : forall k, pl_crash r (SPrefix k) (pl_step r (SPrefix k))
| PcSuffix : forall k m, k <= m -> pl_crash r (SSuffix k) (mkPl (pl_first r) (firstn (Z.to_nat (m + 1 - pl_first r)) (pl_ents r)))
| PcReset0 : forall n, pl_crash r (SReset n) r
| PcReset : forall n, pl_crash r (SReset n) (pl_step r (SReset n)).

(** The storage shows the plain log [r]: through first_log_index, last_log_index, get_entry, get_term. *)
Definition shows_log (H : hashes) (s : store) (r : plog) : Prop :=
  st_first s = pl_first r /\ st_last s = pl_last r /\
  forall i, st_get H s i = Some (option_map same_entry (pl_at r i)) /\
            st_term s i = Some (match pl_at r i with Some e => se_term e | None => 0 end).
(** Calls LogManager makes: entries that follow the last one; a suffix truncation to an index of the log
    or just before it; a reset to a positive index. *)
Definition legal (s : store) (o : sop) : Prop :=
  match o with
  | SAppend ck idx es => idx = st_last s + 1 /\ Forall (fun e => good_item (ck, e)) es
  | SPrefix _ => True
  | SSuffix k => st_first s - 1 <= k <= st_last s
  | SReset n => 0 < n
  end.
(** readdir may list the same files in another order. *)
Definition same_files (d d' : disk) : Prop := dk_meta d = dk_meta d' /\ Permutation (dk_closed d) (dk_closed d') /\ Permutation (dk_open d) (dk_open d').

(** Histories: completed calls, restarts of a process that was idle, and restarts after a kill during a call. *)
Inductive event := EOp (o : sop) | ERestart | EKill (o : sop).
Inductive reached (H : hashes) (max : Z) : list event -> store -> Prop :=
| ReInit : forall rc d s c, dk_meta d = None -> st_init H rc d = Some (Some (s, c)) -> reached H max [] s
| ReOp : forall h s o s' r, reached H max h s -> legal s o -> st_step H max s o = Some (s', r) -> reached H max (h ++ [EOp o]) s'
| ReRestart : forall h s rc d s' c, reached H max h s -> same_files (disk_of s) d -> st_init H rc d = Some (Some (s', c)) -> reached H max (h ++ [ERestart]) s'
| ReKill : forall h s o rc d d' s' c, reached H max h s -> legal s o -> (forall n, o <> SReset n) -> crash_disk H max s o d -> same_files d d' -> st_init H rc d' = Some (Some (s', c)) ->
    reached H max (h ++ [EKill o]) s'.
(** The plain logs a history allows. *)
Inductive allows : list event -> plog -> Prop :=
| AlInit : allows [] (mkPl 1 [])
| AlOp : forall h r o, allows h r -> allows (h ++ [EOp o]) (pl_step r o)
| AlRestart : forall h r, allows h r -> allows (h ++ [ERestart]) r
| AlKill : forall h r o r', allows h r -> pl_crash r o r' -> allows (h ++ [EKill o]) r'.
(** A history without kills allows one log. *)
Definition pl_event (r : plog) (e : event) : plog := match e with EOp o => pl_step r o | _ => r end.
Definition pl_run (h : list event) : plog := fold_left pl_event h (mkPl 1 []).
Definition quiet (h : list event) : Prop := forall o, ~ In (EKill o) h.
