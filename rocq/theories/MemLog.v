(** Model of MemoryLogStorage: src/braft/memory_log.{h,cpp}. *)
From Verif Require Import Base LogEntry LogRef ConfMgr.

(** memory_log.h:88-91 fields *)
Record mlog := mkML { ml_first : Z; ml_last : Z; ml_data : list entry }.
(** memory_log.cpp:24-28 init *)
Definition ml_init : mlog := mkML 1 0 [].

(** memory_log.cpp:30-43 get_entry: [Some None] = NULL; outer [None] = undefined
    behaviour (deque access out of range) or CHECK failure. *)
Definition ml_get (m : mlog) (i : Z) : option (option entry) :=
  if (i <? ml_first m) || (ml_last m <? i) then Some None
  else match znth (ml_data m) (i - ml_first m) with
       | Some e => if e_index e =? i then Some (Some e) else None
       | None => None
       end.

(** memory_log.cpp:45-58 get_term *)
Definition ml_term (m : mlog) (i : Z) : option Z :=
  if (i <? ml_first m) || (ml_last m <? i) then Some 0
  else match znth (ml_data m) (i - ml_first m) with
       | Some e => if e_index e =? i then Some (e_term e) else None
       | None => None
       end.

(** memory_log.cpp:60-74 append_entry; [None] = CHECK(false) *)
Definition ml_append (m : mlog) (e : entry) : option mlog :=
  if negb (e_index e =? ml_last m + 1) then None
  else Some (mkML (ml_first m) (ml_last m + 1) (ml_data m ++ [e])).

(** memory_log.cpp:76-86 append_entries: state and return value (the number given) *)
Fixpoint ml_append_all (m : mlog) (es : list entry) : option mlog :=
  match es with
  | [] => Some m
  | e :: es' => match ml_append m e with Some m' => ml_append_all m' es' | None => None end
  end.
Definition ml_append_entries (m : mlog) (es : list entry) : option (mlog * Z) :=
  option_map (fun m' => (m', zlen es)) (ml_append_all m es).

(** memory_log.cpp:91-99, 117-125 the popping loops *)
Fixpoint drop_lt (l : list entry) (k : Z) : list entry :=
  match l with [] => [] | e :: l' => if e_index e <? k then drop_lt l' k else l end.
Fixpoint drop_gt_rev (l : list entry) (k : Z) : list entry :=
  match l with [] => [] | e :: l' => if k <? e_index e then drop_gt_rev l' k else l end.

(** memory_log.cpp:88-112 truncate_prefix *)
Definition ml_truncate_prefix (m : mlog) (k : Z) : mlog :=
  mkML k (if ml_last m <? k then k - 1 else ml_last m) (drop_lt (ml_data m) k).

(** memory_log.cpp:114-138 truncate_suffix *)
Definition ml_truncate_suffix (m : mlog) (k : Z) : mlog :=
  mkML (if k <? ml_first m then k + 1 else ml_first m) k (rev (drop_gt_rev (rev (ml_data m)) k)).

(** memory_log.cpp:140-161 reset: state and return code *)
Definition ml_reset (m : mlog) (n : Z) : mlog * Z :=
  if n <=? 0 then (m, 22) else (mkML n (n - 1) [], 0).

Definition ml_step (m : mlog) (o : lop) : option mlog :=
  match o with
  | LAppend e => ml_append m e
  | LTruncPrefix k => Some (ml_truncate_prefix m k)
  | LTruncSuffix k => Some (ml_truncate_suffix m k)
  | LReset n => Some (fst (ml_reset m n))
  end.
Fixpoint ml_run (m : mlog) (os : list lop) : option mlog :=
  match os with
  | [] => Some m
  | o :: os' => match ml_step m o with Some m' => ml_run m' os' | None => None end
  end.
