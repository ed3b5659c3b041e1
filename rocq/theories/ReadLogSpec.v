(** Vocabulary of C39. *)
From Verif Require Import Base LogEntry.

(** The log as it was written: one entry per index.  Reading gives the entry of that index, or
    nothing (deleted by a snapshot, or unreadable). *)
Definition reads (L : Z -> entry) (get : nat -> Z -> option entry) : Prop :=
  forall k i e, get k i = Some e -> e = L i.
Definition no_user_data (L : Z -> entry) (from upto : Z) : Prop :=
  forall i, from <= i < upto -> e_type (L i) <> T_DATA.
