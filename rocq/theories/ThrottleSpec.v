(** Vocabulary of C33. *)
From Verif Require Import Base Throttle.

(** Net bytes granted since the current cycle began, given the net before [h]. *)
Fixpoint net (acc : Z) (h : list tres) : Z :=
  match h with
  | [] => acc
  | RGrant n newc :: h' => net (if newc then n else acc + n) h'
  | RReturn n true :: h' => net (acc - n) h'
  | _ :: h' => net acc h'
  end.
(** Follower-side install tasks running. *)
Fixpoint tasks (acc : Z) (h : list tres) : Z :=
  match h with
  | [] => acc
  | RAdd false true :: h' => tasks (acc + 1) h'
  | RFinish false :: h' => tasks (acc - 1) h'
  | _ :: h' => tasks acc h'
  end.
(** Callers ask for at least 0 bytes and use at most what they acquired. *)
Definition sane (c : tcall) : Prop :=
  match c with CAcquire _ b => 0 <= b | CReturn _ a u _ => 0 <= u <= a | _ => True end.

(** Start of the current throttling cycle after calls [cs] answered by [h]: the creation
    time, then the time of each acquisition that opened a new cycle, both rounded down to
    a multiple of the cycle length. *)
Fixpoint cycle_start (cycle s : Z) (cs : list tcall) (h : list tres) : Z :=
  match cs, h with
  | CAcquire now _ :: cs', RGrant _ true :: h' => cycle_start cycle (now / cycle * cycle) cs' h'
  | _ :: cs', _ :: h' => cycle_start cycle s cs' h'
  | _, _ => s
  end.
