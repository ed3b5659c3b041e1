(** Vocabulary of C14. *)
From Verif Require Import Base MetaMixed.

(** [a] is not newer than [b]: smaller term, or the same term and [a] has no vote or the
    same vote. *)
Definition ple (a b : pair) : Prop :=
  fst a < fst b \/ (fst a = fst b /\ (snd a = ANY \/ snd a = snd b)).

(** How a node uses the storage: it reads after every start, then only saves pairs that
    are not older than what it last read or saved.  [view] is what it last read or
    saved ([None] before the first read). *)
Fixpoint disciplined (view : option pair) (h : list mresult) : Prop :=
  match h with
  | [] => True
  | RRestart :: h' => disciplined None h'
  | RGet (GOk p) :: h' => disciplined (Some p) h'
  | RGet _ :: h' => disciplined view h'
  | RSet p _ :: h' => match view with Some v => ple v p /\ disciplined (Some p) h' | None => False end
  end.

(** Pairs whose save was reported successful. *)
Fixpoint acked (h : list mresult) : list pair :=
  match h with [] => [] | RSet p true :: h' => p :: acked h' | _ :: h' => acked h' end.
(** Pairs ever saved. *)
Fixpoint attempted (h : list mresult) : list pair :=
  match h with [] => [] | RSet p _ :: h' => p :: attempted h' | _ :: h' => attempted h' end.

(** Starting states: any two not conflicting contents (fresh, upgraded from either kind). *)
Definition start_ok (x : mixed) : Prop :=
  s_mem x = s_disk x /\ ple (1, ANY) (s_disk x) /\
  match m_db x with Some m => (ple m (s_disk x) \/ ple (s_disk x) m) /\ ple (1, ANY) m | None => True end.
