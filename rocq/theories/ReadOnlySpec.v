(** What is seen in a history of ReadOnly (the latest step first), from its events and outputs alone. *)
From Verif Require Import Base ReadOnly.
Local Open Scope nat_scope.

(** the node's log *)
Definition log1 (l : list kind) (o : out) : list kind := match o with OAppend k => l ++ [k] | OReplace l' => l' | _ => l end.
Fixpoint hlog (h : hist) : list kind := match h with [] => [] | (_, o) :: t => fold_left log1 o (hlog t) end.
(** its role *)
Definition role1 (r : role) (o : out) : role :=
  match o with OElect => RLead | OStep => RFollow | OTransfer => RTrans | OResume => RLead | _ => r end.
Fixpoint hrole (h : hist) : role := match h with [] => RFollow | (_, o) :: t => fold_left role1 o (hrole t) end.
(** whether the user has put the node into read-only mode *)
Fixpoint hself (h : hist) : bool := match h with [] => false | (EEnter, _) :: _ => true | (ELeave, _) :: _ => false | _ :: t => hself t end.
(** whether the leader knows p to be read-only, and the length its log had when it learnt it *)
Definition mark1 (p n : nat) (m : option nat) (o : out) : option nat :=
  match o with
  | OMark q b => if Nat.eqb q p then (if b then match m with Some _ => m | None => Some n end else None) else m
  | OElect | OStep => None
  | OFresh q | ODel q => if Nat.eqb q p then None else m
  | _ => m
  end.
Fixpoint marked (p : nat) (h : hist) : option nat :=
  match h with [] => None | (_, o) :: t => fold_left (mark1 p (length (hlog t))) o (marked p t) end.

(** its term *)
Fixpoint hterm (h : hist) : nat :=
  match h with
  | [] => 0
  | (EStep t, _) :: r => max t (hterm r)
  | (EElect, o) :: r => if existsb (fun x => match x with OElect => true | _ => false end) o then hterm r + 1 else hterm r
  | _ :: r => hterm r
  end.

Definition majority (c : list nat) : nat := length c / 2 + 1.
(** the members of a configuration that can take new entries as far as the leader knows, itself by its own mode *)
Definition can_write (h : hist) (p : nat) : bool :=
  if Nat.eqb p 0 then negb (hself h) else match marked p h with None => true | Some _ => false end.

(** the configuration stays c: no change is applied, and as a follower the node receives none *)
Definition stays (c : list nat) (es : list ev) : Prop :=
  forall e, In e es -> match e with EConf _ _ => False | EReplace _ c' o' => c' = c /\ o' = [] | _ => True end.
Definition never_enters (es : list ev) : Prop := ~ In EEnter es.

(** p would be sent entry i if it lacked everything: the replicator goes back to 1 and sends up to n entries *)
Definition sent_if_asked (s : rst) (p n i : nat) (k : kind) : Prop := In (OSend p i k) (snd (step (fst (step s (ERewind p 1))) (ESend p n))).
