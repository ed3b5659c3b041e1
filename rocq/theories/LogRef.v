(** Reference for every log storage (C11, C12): a plain list of entries with a first index.
    This is the specification; no code is modelled here. *)
From Verif Require Import Base LogEntry.

Record rlog := mkR { r_first : Z; r_list : list entry }.
Definition r_last (r : rlog) : Z := r_first r + zlen (r_list r) - 1.
Definition r_get (r : rlog) (i : Z) : option entry := znth (r_list r) (i - r_first r).
Definition r_term (r : rlog) (i : Z) : Z := match r_get r i with Some e => e_term e | None => 0 end.

Definition r_init : rlog := mkR 1 [].
Definition r_append (r : rlog) (e : entry) : rlog := mkR (r_first r) (r_list r ++ [e]).
(** forget everything below [k] *)
Definition r_truncate_prefix (r : rlog) (k : Z) : rlog :=
  mkR k (skipn (Z.to_nat (k - r_first r)) (r_list r)).
(** forget everything above [k] *)
Definition r_truncate_suffix (r : rlog) (k : Z) : rlog :=
  mkR (Z.min (r_first r) (k + 1)) (firstn (Z.to_nat (k + 1 - r_first r)) (r_list r)).
Definition r_reset (n : Z) : rlog := mkR n [].

(** Calls, and the ones the storage contract allows: append right after the last
    entry, truncate inside the log (src/braft/storage.h:70-120 comments). *)
Inductive lop := LAppend (e : entry) | LTruncPrefix (k : Z) | LTruncSuffix (k : Z) | LReset (n : Z).
Definition r_step (r : rlog) (o : lop) : rlog :=
  match o with
  | LAppend e => r_append r e
  | LTruncPrefix k => r_truncate_prefix r k
  | LTruncSuffix k => r_truncate_suffix r k
  | LReset n => r_reset n
  end.
Definition legal (r : rlog) (o : lop) : Prop :=
  match o with
  | LAppend e => e_index e = r_last r + 1
  | LTruncPrefix k => r_first r <= k
  | LTruncSuffix k => k <= r_last r
  | LReset n => 0 < n
  end.
Fixpoint r_run (r : rlog) (os : list lop) : rlog :=
  match os with [] => r | o :: os' => r_run (r_step r o) os' end.
Fixpoint all_legal (r : rlog) (os : list lop) : Prop :=
  match os with [] => True | o :: os' => legal r o /\ all_legal (r_step r o) os' end.
