(** Model of Ballot: src/braft/ballot.h and src/braft/ballot.cpp. *)
From Verif Require Import Base.

(** src/braft/ballot.h:46-53 struct UnfoundPeerId *)
Record unfound := mkU { u_peer : peer; u_found : bool }.

(** src/braft/ballot.h:68-71, the four fields of Ballot *)
Record ballot := mkB {
  b_peers : list unfound; b_quorum : Z;
  b_old_peers : list unfound; b_old_quorum : Z }.

(** src/braft/ballot.h:26-30 struct PosHint *)
Record pos_hint := mkHint { pos0 : Z; pos1 : Z }.
Definition no_hint := mkHint (-1) (-1).

(** ballot.cpp:31-35, 40-44: fill the vector in the set's iteration order, all
    [found=false]; quorum = size/2+1 (size_t division). *)
Definition unfounds (conf : list peer) : list unfound :=
  map (fun p => mkU p false) conf.

Definition quorum_of (conf : list peer) : Z := zlen conf / 2 + 1.

(** src/braft/ballot.cpp:24-46 Ballot::init.  [old_conf = NULL] is [None]. *)
Definition ballot_init (conf : list peer) (old_conf : option (list peer)) : ballot :=
  match old_conf with
  | None => mkB (unfounds conf) (quorum_of conf) [] 0
  | Some o => mkB (unfounds conf) (quorum_of conf) (unfounds o) (quorum_of o)
  end.

(** src/braft/ballot.h:58-64: linear search from the beginning, position of the
    first match. *)
Fixpoint search (p : peer) (l : list unfound) (i : nat) : option nat :=
  match l with
  | [] => None
  | u :: l' => if u_peer u =? p then Some i else search p l' (S i)
  end.

(** src/braft/ballot.h:54-67 find_peer: use the hint when it is in range and
    names this peer, otherwise search.  [None] is peers.end(). *)
Definition find_peer (p : peer) (l : list unfound) (hint : Z) : option nat :=
  match znth l hint with
  | Some u => if u_peer u =? p then Some (Z.to_nat hint) else search p l 0
  | None => search p l 0
  end.

(** [iter->found = true] at a position (ballot.cpp:53, 70). *)
Fixpoint set_found (l : list unfound) (n : nat) : list unfound :=
  match l, n with
  | [], _ => []
  | u :: l', O => mkU (u_peer u) true :: l'
  | u :: l', S n' => u :: set_found l' n'
  end.

(** src/braft/ballot.cpp:50-59 (and, identically, 66-76): one of the two halves
    of grant: mark the peer, decrement the remaining quorum if it was not marked,
    return the new position hint. *)
Definition grant_half (p : peer) (l : list unfound) (q : Z) (hint : Z)
  : list unfound * Z * Z :=
  match find_peer p l hint with
  | Some n =>
      match nth_error l n with
      | Some u => if u_found u then (l, q, Z.of_nat n)
                  else (set_found l n, q - 1, Z.of_nat n)
      | None => (l, q, Z.of_nat n)
      end
  | None => (l, q, -1)
  end.

(** src/braft/ballot.cpp:48-79 Ballot::grant(peer, hint) *)
Definition grant (b : ballot) (p : peer) (h : pos_hint) : ballot * pos_hint :=
  let '(ps, q, h0) := grant_half p (b_peers b) (b_quorum b) (pos0 h) in
  match b_old_peers b with
  | [] => (mkB ps q (b_old_peers b) (b_old_quorum b), mkHint h0 (-1))
  | _ :: _ =>
      let '(ops, oq, h1) := grant_half p (b_old_peers b) (b_old_quorum b) (pos1 h) in
      (mkB ps q ops oq, mkHint h0 h1)
  end.

(** src/braft/ballot.cpp:81-83 Ballot::grant(peer) *)
Definition grant1 (b : ballot) (p : peer) : ballot := fst (grant b p no_hint).

(** src/braft/ballot.h:44 *)
Definition granted (b : ballot) : bool := (b_quorum b <=? 0) && (b_old_quorum b <=? 0).

(** A run of grants; each with whatever hint the caller passes. *)
Definition grant_all (b : ballot) (gs : list (peer * pos_hint)) : ballot :=
  fold_left (fun b g => fst (grant b (fst g) (snd g))) gs b.
