(** Vocabulary of C13. *)
From Verif Require Import Base Conf MetaFile.

(** A message whose length fits the int32 header. *)
Definition fits (m : msg) : Prop := zlen m < 2147483648.
Definition ok_fevent (e : fevent) : Prop :=
  match e with FSave m _ => fits m | FFlush => True | FPower m _ _ _ => fits m end.

(** The part of a history after which nothing older can come back: it ends with a
    directory flush or a power loss, or is empty. *)
Definition barrier (es : list fevent) : Prop :=
  es = [] \/ (exists es', es = es' ++ [FFlush]) \/
  (exists es' m pt c g, es = es' ++ [FPower m pt c g]).

(** [pre'] is [pre] or continues into a prefix of [mid]. *)
Definition prefix {A} (p l : list A) : Prop := exists r, l = p ++ r.

(** A storable pair: 0 <= term < 2^63 and a real address. *)
Definition storable (t : Z) (v : peerid) : Prop := 0 <= t < 9223372036854775808.
