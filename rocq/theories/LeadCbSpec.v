(** C56: what a user of the leadership callbacks relies on. *)
From Verif Require Import Base LeadCb.

(** Where the callbacks have taken the user: leading a term, following a leader of a term, or
    neither, the last term heard of being [m]. *)
Inductive ustate := UNone (m : Z) | ULead (t : Z) | UFollow (l : peer) (t : Z).

(** One callback.  A stop without a start is tolerated once, for a leadership of a term
    not heard of before; everything else must pair up exactly, and
    the terms of the starts never go back. *)
Inductive uok : ustate -> cb -> ustate -> Prop :=
| u_start : forall m t, m <= t -> uok (UNone m) (CbStart t) (ULead t)
| u_stop : forall t, uok (ULead t) (CbStop t) (UNone t)
| u_stop_early : forall m t, m < t -> uok (UNone m) (CbStop t) (UNone t)
| u_follow : forall m l t, m <= t -> uok (UNone m) (CbStartF l t) (UFollow l t)
| u_unfollow : forall l t, uok (UFollow l t) (CbStopF l t) (UNone t)
| u_apply : forall u i, uok u (CbApply i) u
| u_snap : forall u k, uok u (CbSnap k) u
| u_elected : forall u t i, uok u (OElected t i) u.

Inductive uoks : ustate -> list cb -> ustate -> Prop :=
| us_nil : forall u, uoks u [] u
| us_cons : forall u c u1 l u2, uok u c u1 -> uoks u1 l u2 -> uoks u (c :: l) u2.

(** The index the state machine has reached. *)
Fixpoint reached (h : list cb) (a : Z) : Z :=
  match h with
  | [] => a
  | CbApply i :: h' => reached h' i
  | CbSnap k :: h' => reached h' k
  | _ :: h' => reached h' a
  end.
