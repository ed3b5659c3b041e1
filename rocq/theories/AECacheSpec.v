(** Specification vocabulary for the cache of out-of-order requests (C37). *)
From Coq Require Import Sorting.Permutation.
From Verif Require Import Base AECache.

(** The requests held, handed over, handled, and answered with an error so far. *)
Definition held (n : node) : list rpc := match n_cache n with Some c => c_queue c | None => [] end.
Definition stored (o : list cout) : list rpc := flat_map (fun x => match x with OStored r => [r] | _ => [] end) o.
Definition handled (o : list cout) : list rpc := flat_map (fun x => match x with OHandle l => l | _ => [] end) o.
Definition failed (o : list cout) : list rpc := flat_map (fun x => match x with OFail r => [r] | _ => [] end) o.

(** [l] is a gapless run of requests that starts at or below [last] and ends at [e]. *)
Fixpoint gapless (l : list rpc) (e : Z) : Prop :=
  match l with
  | [] => True
  | r :: l' => match l' with [] => q_last r = e | x :: _ => q_prev x = q_last r /\ gapless l' e end
  end.

(** Two requests carry no common position. *)
Definition disjoint_rpcs (a b : rpc) : Prop := q_last a <= q_prev b \/ q_last b <= q_prev a.

(** Requests arrive with non-decreasing receive times. *)
Fixpoint clock (now : Z) (es : list cevt) : Prop :=
  match es with
  | [] => True
  | EvStore _ _ _ _ r :: es' => now <= q_recv r /\ clock (q_recv r) es'
  | _ :: es' => clock now es'
  end.
(** Starting a timer never fails. *)
Definition timers_start (es : list cevt) : Prop := forall e, In e es -> match e with EvStore _ _ tm _ _ | EvRun _ _ tm => tm = true | _ => True end.
