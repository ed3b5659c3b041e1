(** Specification vocabulary for copying files (C36). *)
From Verif Require Import Base SegCodec Copier.

(** Sizes the wire format can carry. *)
Definition sizes (g : ccfg) (files : Z -> option (list Z)) : Prop :=
  1 <= g_max g < 2147483648 /\ forall n b, files n = Some b -> zlen b < 9223372036854775808 /\ (n = META -> zlen b < 4294967296).
(** The flag that allows partial reads keeps the value [b]. *)
Definition flag_is (b : bool) (es : list xevt) : Prop :=
  forall e, In e es -> match e with EvSend f _ => f = b | EvRpc _ _ _ f _ _ => f = b | _ => True end.
(** Writes of segments into a file, one after the other. *)
Definition apply (l : list (Z * list Z)) (f : list Z) : list Z := fold_left (fun f x => pwrite f (fst x) (snd x)) l f.

(** Only attempts that do not reach the server, and how many of them count against the retry limit. *)
Definition unreachable (es : list xevt) : Prop :=
  forall e, In e es -> match e with EvSend _ _ | EvTimer => True | EvNet c _ => c <> C_ECANCELED | _ => False end.
Definition failures (es : list xevt) : Z :=
  zlen (filter (fun e => match e with EvNet c _ => negb (c =? C_EAGAIN) | _ => false end) es).
