(** Shared vocabulary of the model. No code of /repo is modelled here. *)
From Coq Require Export ZArith List Bool Lia.
Export ListNotations.
Open Scope Z_scope.

(** A peer's identity.  PeerId::operator== and operator< (src/braft/configuration.h:101-123)
    compare (addr, idx) only and ignore the role, so everything that depends on a
    PeerId only through them is modelled over an injective code of (addr, idx).
    File Conf.v models the full PeerId record, its order and its text format. *)
Definition peer := Z.

(** Length of a list as a Z ([container.size()] cast to int64_t). *)
Definition zlen {A} (l : list A) : Z := Z.of_nat (length l).

(** Element of a list at a Z position ([container[i]]); [None] when out of range. *)
Definition znth {A} (l : list A) (i : Z) : option A :=
  if i <? 0 then None else nth_error l (Z.to_nat i).

(** Membership test of a peer in a list of peers ([std::set<PeerId>::count]). *)
Definition memb (p : peer) (l : list peer) : bool := existsb (Z.eqb p) l.

#[export] Hint Unfold peer : core.
Arguments zlen : simpl never.
Arguments znth : simpl never.
Arguments Z.of_nat : simpl never.
Arguments Z.to_nat : simpl never.
