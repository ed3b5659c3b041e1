(** Vocabulary of C35: the automaton of visible events.  Runs never overlap; on_destroy
    happens once, between runs, and nothing follows it. *)
From Verif Require Import Base Timer.

Inductive tphase := Idle | Running | Dead.
Definition phase_step (p : tphase) (o : tout) : option tphase :=
  match p, o with
  | Idle, TBegin => Some Running
  | Running, TEnd => Some Idle
  | Idle, TDestroy => Some Dead
  | _, _ => None
  end.
Fixpoint phases (p : tphase) (os : list tout) : option tphase :=
  match os with
  | [] => Some p
  | o :: os' => match phase_step p o with None => None | Some p' => phases p' os' end
  end.
