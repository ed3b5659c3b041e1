(** What a caller of LogManager relies on (C06, C07, C08, C43), stated over histories of calls and
    what they returned, without the manager's own data structures. *)
From Verif Require Import Base LogEntry LogRef ConfMgr BallotBox LogMgr.

(** The logical log: what the accepted appends and the snapshots made of it. *)
Record slog := mkSL { sl_log : rlog; sl_snap : logid }.
Fixpoint accepted (o : list gout) : list entry :=
  match o with [] => [] | GAccepted _ es :: o' => es ++ accepted o' | _ :: o' => accepted o' end.
(** entries [es] replace everything from the index of their first one on *)
Definition put_entries (r : rlog) (es : list entry) : rlog :=
  match es with
  | [] => r
  | e :: _ => mkR (r_first r) (firstn (Z.to_nat (e_index e - r_first r)) (r_list r) ++ es)
  end.
(** drop everything below [k] *)
Definition cut_prefix (r : rlog) (k : Z) : rlog := mkR k (skipn (Z.to_nat (k - r_first r)) (r_list r)).
Definition spec_step (x : slog) (h : gev * list gout) : slog :=
  let r := sl_log x in
  match fst h with
  | VAppend _ _ => mkSL (put_entries r (accepted (snd h))) (sl_snap x)
  | VSnapshot i t _ _ =>
      if i <=? li_index (sl_snap x) then x
      else mkSL (match r_get r i with
                 | None => cut_prefix r (i + 1)                     (* snapshot beyond the log *)
                 | Some e => if e_term e =? t
                             then if 0 <? li_index (sl_snap x) then cut_prefix r (li_index (sl_snap x) + 1) else r
                             else mkR (i + 1) []                    (* the log disagrees with the snapshot *)
                 end) (mkId i t)
  | VClearBuffered => if li_index (sl_snap x) =? 0 then x else mkSL (cut_prefix r (li_index (sl_snap x) + 1)) (sl_snap x)
  | _ => x
  end.
Definition spec_run (r : rlog) (h : list (gev * list gout)) : slog := fold_left spec_step h (mkSL r (mkId 0 0)).
Definition last_id_of (x : slog) : logid :=
  match r_list (sl_log x) with [] => sl_snap x | e :: l => e_id (last l e) end.

(** The history of a run, newest last. *)
Inductive ran (maxbuf : Z) (r : rlog) (cm : cmgr) : list (gev * list gout) -> lmgr -> Prop :=
| R0 : ran maxbuf r cm [] (g_init r cm)
| R1 : forall h s e s' o, ran maxbuf r cm h s -> gstep maxbuf s e = Some (s', o) -> ran maxbuf r cm (h ++ [(e, o)]) s'.

(** A log: consecutive indexes from its first one, terms positive and never decreasing. *)
Fixpoint rising (t : Z) (es : list entry) : Prop := match es with [] => True | e :: es' => t <= e_term e /\ rising (e_term e) es' end.
Fixpoint consecutive (i : Z) (es : list entry) : Prop := match es with [] => True | e :: es' => e_index e = i /\ consecutive (i + 1) es' end.
Definition good_log (r : rlog) : Prop := 1 <= r_first r /\ consecutive (r_first r) (r_list r) /\ rising 1 (r_list r).

(** What NodeImpl and FSMCaller guarantee when they call.  [x] is the logical log before the call.
    - leader's batch (index 0): terms not below anything in the log or the snapshot;
    - follower's batch: consecutive indexes, not below the first kept index, terms rising, after a
      previous entry whose term was compared (handle_append_entries_request);
    - a snapshot is of an index at or above the log's start, its term not below the last snapshot's,
      and consistent with applied ids: of two committed ids the one with the larger term or index is later;
    - the last id is asked for only after the snapshot an empty log starts after was loaded (node.cpp:560-600). *)
Definition legal_batch (x : slog) (es : list entry) : Prop :=
  match es with
  | [] => True
  | e0 :: _ =>
      rising 1 es /\
      (forall e, In e es -> li_index (sl_snap x) < e_index e \/ e_index e0 = 0 -> li_term (sl_snap x) <= e_term e) /\
      (if e_index e0 =? 0
       then forall e e', In e es -> In e' (r_list (sl_log x)) -> e_term e' <= e_term e
       else consecutive (e_index e0) es /\ r_first (sl_log x) <= e_index e0 /\ r_term (sl_log x) (e_index e0 - 1) <= e_term e0)
  end.
Definition legal (x : slog) (applied : logid) (e : gev) : Prop :=
  match e with
  | VAppend _ es => legal_batch x es
  | VSnapshot i t _ _ =>
      1 <= t /\ r_first (sl_log x) - 1 <= i /\ li_term (sl_snap x) <= t /\
      (id_gtb (mkId i t) applied = true -> li_index applied <= i) /\ (id_gtb (mkId i t) applied = false -> i <= li_index applied)
  | VApplied id => id_ltb id applied = false -> li_index applied <= li_index id
  | VLastId _ => r_list (sl_log x) = [] -> r_last (sl_log x) = li_index (sl_snap x)
  | _ => True
  end.
(** every call of the history was legal when it was made *)
Definition all_legal (maxbuf : Z) (r : rlog) (cm : cmgr) (h : list (gev * list gout)) : Prop :=
  forall h1 e o h2 s, h = h1 ++ (e, o) :: h2 -> ran maxbuf r cm h1 s -> legal (spec_run r h1) (g_applied s) e.
(** no storage error was reported *)
Definition healthy (h : list (gev * list gout)) : Prop := forall e o c, In (e, o) h -> ~ In (GErr c) o.
(** every entry that joins the log has a larger id (term, then index) than everything that was ever in the log *)
Definition id_lt (a b : logid) : Prop := li_term a < li_term b \/ (li_term a = li_term b /\ li_index a < li_index b).
Definition ever (r : rlog) (h : list (gev * list gout)) : list entry := r_list r ++ flat_map (fun x => accepted (snd x)) h.
Fixpoint ids_increase (es : list entry) : Prop :=
  match es with [] => True | e :: es' => (forall e', In e' es' -> id_lt (e_id e) (e_id e')) /\ ids_increase es' end.
Definition ids_grow (r : rlog) (h : list (gev * list gout)) : Prop := ids_increase (ever r h).

(** The configuration manager was filled from the stored log (LogStorage::init). *)
Definition list_of (o : option (list peer)) : list peer := match o with Some l => l | None => [] end.
Fixpoint conf_entries (es : list entry) : list centry :=
  match es with
  | [] => []
  | e :: es' => match e_type e with
                | T_CONF => mkCE (mkId (e_index e) (e_term e)) (list_of (e_peers e)) (list_of (e_old e)) :: conf_entries es'
                | _ => conf_entries es'
                end
  end.
(** The configuration of the last snapshot that was taken note of *)
Definition snap_conf (h : list (gev * list gout)) : centry :=
  fold_left (fun c x => match fst x with VSnapshot i t cf old => if i <=? ce_index c then c else mkCE (mkId i t) cf old | _ => c end) h ce_empty.
Definition good_start (r : rlog) (cm : cmgr) : Prop := good_log r /\ cm_confs cm = conf_entries (r_list r) /\ cm_snap cm = ce_empty.
(** All the guarantees callers give, no storage failure so far, and ids of accepted entries that only grow
    (no entry is ever replaced by one of a lower term). *)
Definition good_run (maxbuf : Z) (r : rlog) (cm : cmgr) (h : list (gev * list gout)) (s : lmgr) : Prop :=
  good_start r cm /\ ran maxbuf r cm h s /\ all_legal maxbuf r cm h /\ healthy h /\ ids_grow r h /\ ids_increase (r_list r).
(** The entries a call asked to be in the log: a leader's batch gets its indexes from the log manager. *)
Definition asked (es : list entry) (o : list gout) : list entry :=
  match es with e0 :: _ => if e_index e0 =? 0 then accepted o else es | [] => [] end.

(** Counting calls and answers per closure. *)
Definition asks (c : closure) (h : list (gev * list gout)) : nat :=
  length (filter (fun x => match fst x with VAppend c' _ => c' =? c | _ => false end) h).
Definition answers (c : closure) (h : list (gev * list gout)) : nat :=
  length (filter (fun x => match x with GDone c' _ => c' =? c | _ => false end) (flat_map snd h)).
(** The disk thread has nothing left to do. *)
Definition quiet (s : lmgr) : Prop := g_q s = [] /\ match g_run s with Some (_, b) => b = [] | None => True end.
(** Two entries that differ at most in their index. *)
Definition same_but_index (e e' : entry) : Prop :=
  e_term e = e_term e' /\ e_type e = e_type e' /\ e_data e = e_data e' /\ e_peers e = e_peers e' /\ e_old e = e_old e'.
