(** Specification vocabulary for C31, C32: configurations as sets of (ip, port, idx). *)
From Verif Require Import Base Conf.

(** What identifies a peer. *)
Definition key (p : peerid) : Z * Z * Z := (p_ip p, p_port p, p_idx p).

(** The peer is a member (under its identity). *)
Definition mem (k : Z * Z * Z) (c : list peerid) : Prop := In k (map key c).

(** A std::set holds no two equivalent elements and keeps them ordered. *)
Fixpoint wf_conf (c : conf) : Prop :=
  match c with
  | [] => True
  | p :: c' => (forall q, In q c' -> peer_ltb p q = true) /\ wf_conf c'
  end.

(** An address that can exist: 32-bit ip, role REPLICA or WITNESS. *)
Definition valid_peer (p : peerid) : Prop :=
  0 <= p_ip p < 4294967296 /\ 0 <= p_role p <= 1.
