(** Vocabulary of C38. *)
From Verif Require Import Base LogEntry BallotBox Apply.
From Coq Require Export Permutation.

(** A life of the node: the state, the events so far (oldest first), what the user saw. *)
Inductive alife : astate -> list aev -> list aout -> Prop :=
| al_start : alife ainit [] []
| al_step : forall s es os e s' o, alife s es os -> astep s e = Some (s', o) -> alife s' (es ++ [e]) (os ++ o).

Definition submitted (es : list aev) : list task :=
  flat_map (fun e => match e with ASubmit t => [t] | _ => [] end) es.
(** Closures given by the user or by membership changes. *)
Definition given (es : list aev) : list closure :=
  flat_map (fun e => match e with ASubmit t => match t_done t with Some c => [c] | None => [] end
                                | AConfChange _ _ c => [c] | _ => [] end) es.
(** Closures run with an error, or handed to the apply path. *)
Definition ended (os : list aout) : list closure :=
  map (fun x => match x with AFailed c _ => c | AHanded _ c => c end) os.
(** Closures of tasks not yet looked at, and of tasks waiting for their commit. *)
Definition queued (s : astate) : list closure := somes (map t_done (a_queue s)).
Definition registered (s : astate) : list closure := somes (cq_q (cq (a_box s))).

(** The task may be appended in term [t]. *)
Definition expects (t : Z) (x : task) : Prop := t_exp x = -1 \/ t_exp x = t.
(** What apply has to do with a batch. *)
Fixpoint accepted (t : Z) (ts : list task) : list task :=
  match ts with
  | [] => []
  | x :: ts' => if (t_exp x =? -1) || (t_exp x =? t) then x :: accepted t ts' else accepted t ts'
  end.
Fixpoint refused (t : Z) (ts : list task) : list task :=
  match ts with
  | [] => []
  | x :: ts' => if (t_exp x =? -1) || (t_exp x =? t) then refused t ts' else x :: refused t ts'
  end.
(** The entries of the accepted tasks: consecutive indexes, this term, user data. *)
Fixpoint entries_for (i t : Z) (ts : list task) : list entry :=
  match ts with
  | [] => []
  | x :: ts' => mkEntry (mkId i t) T_DATA (t_data x) None None :: entries_for (i + 1) t ts'
  end.

(** User tasks are taken only by a leader that is not read-only and not handing over. *)
Definition can_apply (s : astate) : Prop := a_role s = RLeader /\ a_ro s = false /\ a_mro s = false.

(** Entry [e] is what was proposed with closure [c], at index [i] in term [t]. *)
Definition right_entry (es : list aev) (t i : Z) (c : closure) (e : entry) : Prop :=
  e_index e = i /\ e_term e = t /\
  ((exists x, In x (submitted es) /\ t_done x = Some c /\ expects t x /\ e_type e = T_DATA /\ e_data e = t_data x) \/
   (exists new old, In (AConfChange new old c) es /\ e_type e = T_CONF /\ e_peers e = Some new /\ e_old e = old)).
