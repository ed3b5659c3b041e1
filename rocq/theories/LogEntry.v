(** Model of LogId and LogEntry: src/braft/log_entry.h, src/braft/enum.proto. *)
From Verif Require Import Base.

(** log_entry.h:30-35 LogId *)
Record logid := mkId { li_index : Z; li_term : Z }.

(** log_entry.h:64-69 operator< and :82-84 operator>=: term first, then index *)
Definition id_ltb (a b : logid) : bool :=
  if li_term a =? li_term b then li_index a <? li_index b else li_term a <? li_term b.
Definition id_geb (a b : logid) : bool := negb (id_ltb a b).
(** log_entry.h:56-58 operator== *)
Definition id_eqb (a b : logid) : bool := (li_index a =? li_index b) && (li_term a =? li_term b).
(** log_entry.h:71-80 operator>, operator<= *)
Definition id_gtb (a b : logid) : bool :=
  if li_term a =? li_term b then li_index b <? li_index a else li_term b <? li_term a.
Definition id_leb (a b : logid) : bool := negb (id_gtb a b).

(** enum.proto:4-9 EntryType *)
Inductive etype := T_UNKNOWN | T_NO_OP | T_DATA | T_CONF.

(** log_entry.h:38-53 LogEntry.  [data] is the IOBuf's bytes; NULL peers / old_peers
    are [None]; reference counting is not modelled (entries are immutable values). *)
Record entry := mkEntry {
  e_id : logid; e_type : etype; e_data : list Z;
  e_peers : option (list peer); e_old : option (list peer) }.
Definition e_index (e : entry) : Z := li_index (e_id e).
Definition e_term (e : entry) : Z := li_term (e_id e).
