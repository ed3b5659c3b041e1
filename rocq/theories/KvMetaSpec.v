(** C60: what a caller of the merged meta storage may find, read off the calls and their results only. *)
From Verif Require Import Base KvMeta.

(** The values group g may have after the calls so far, and its call under way if any.  A call under way or failed may or may not have
    taken effect; one that succeeded has, and everything before it is gone. *)
Definition poss := (list (option kval) * option (Z * kval))%type.
Definition pstep (g : Z) (st : poss) (o : kout) : poss :=
  let '(vs, cur) := st in
  let returns (i : Z) (ok : bool) := match cur with
                                     | Some (j, v) => if i =? j then (if ok then [Some v] else vs, None) else st
                                     | None => st end in
  match o with
  | OAsked i g' v => if g' =? g then (vs ++ [Some v], Some (i, v)) else st
  | OInit i g' => if g' =? g then (vs ++ [Some KINIT], Some (i, KINIT)) else st
  | OAck i code => returns i (code =? 0)
  | OGot i g' _ => if g' =? g then returns i true else st
  | OGetErr i g' _ => if g' =? g then returns i false else st
  | ODel _ g' code => if g' =? g then (if code =? 0 then [None] else vs ++ [None], None) else st
  | OGet _ _ => st
  | OKilled _ => (vs, None)
  end.
Definition follow (g : Z) (h : list kout) : poss := fold_left (pstep g) h ([None], None).
Definition may_hold (g : Z) (h : list kout) (v : option kval) : Prop := In v (fst (follow g h)).

(** Calls made, and those that returned or were cut off by the end of the process. *)
Definition k_asked (h : list kout) : list Z := flat_map (fun o => match o with OAsked i _ _ | OGet i _ => [i] | _ => [] end) h.
Definition k_ended (h : list kout) : list Z := flat_map (fun o => match o with OAck i _ | OGot i _ _ | OGetErr i _ _ => [i] | OKilled l => l | _ => [] end) h.
