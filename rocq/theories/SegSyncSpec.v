(** C61: what the calls promise about the log found after a failure of the process or of the machine. *)
From Verif Require Import Base SegSync.

(** A log: the index of the first entry, the entries. *)
Record glog := mkG { g_first : Z; g_ents : list dent }.
Definition g_last (r : glog) : Z := g_first r + zlen (g_ents r) - 1.
Definition g_at (r : glog) (i : Z) : option dent := znth (g_ents r) (i - g_first r).
Definition g_step (r : glog) (o : dop) : glog :=
  match o with
  | DAppend es _ => mkG (g_first r) (g_ents r ++ es)
  | DPrefix k => if k <=? g_first r then r else mkG k (skipn (Z.to_nat (k - g_first r)) (g_ents r))
  | DSuffix k => mkG (g_first r) (firstn (Z.to_nat (k + 1 - g_first r)) (g_ents r))
  end.
Definition shows (s : dst) (r : glog) : Prop := s_first s = g_first r /\ s_last s = g_last r /\ forall i, d_get s i = g_at r i.
Definition prefix (a b : list dent) : Prop := exists c, b = a ++ c.

(** The caller's view: the log now, the logs it had since the last append that was fsynced, and the index up to which it was promised. *)
Record view := mkV { v_now : glog; v_since : list glog; v_acked : Z }.
Definition v_step (fl : dflags) (v : view) (o : dop) : view :=
  let r := g_step (v_now v) o in
  match o with
  | DAppend [] _ => v
  | DAppend _ ok => if fl_sync fl && ok then mkV r [r] (g_last r) else mkV r (v_since v ++ [r]) (v_acked v)
  | DPrefix _ => mkV r (v_since v ++ [r]) (v_acked v)
  | DSuffix k => mkV r (v_since v ++ [r]) (Z.min (v_acked v) k)
  end.
(** The same with the call under way when the failure comes: it may have had any part of its effect; nothing new is promised. *)
Definition v_during (v : view) (o : option dop) : view :=
  match o with
  | None => v
  | Some o => mkV (v_now v) (v_since v ++ [g_step (v_now v) o]) (match o with DSuffix k => Z.min (v_acked v) k | _ => v_acked v end)
  end.
(** A log that may be found: part of one the caller had since the last fsynced append, and everything promised is there, unless removed
    by truncate_prefix. *)
Definition may_find (v : view) (f : glog) : Prop :=
  (exists l, In l (v_since v) /\ g_first f = g_first l /\ prefix (g_ents f) (g_ents l)) /\
  (forall i, g_first (v_now v) <= i <= v_acked v -> g_first f <= i -> g_at f i = g_at (v_now v) i).

(** Calls LogManager makes; [strict]: no single record fills a segment. *)
Definition d_legal (fl : dflags) (strict : bool) (s : dst) (o : dop) : Prop :=
  match o with
  | DAppend es _ => Forall (fun e => 0 < snd e /\ (strict = true -> snd e <= fl_max fl)) es
  | DPrefix _ => True
  | DSuffix k => s_first s - 1 <= k <= s_last s /\ strict = true
  end.
(** Histories of calls, kills and machine failures. *)
Inductive reach (fl : dflags) (strict : bool) : dst -> view -> Prop :=
| RStart : reach fl strict dst0 (mkV (mkG 1 []) [mkG 1 []] 0)
| RCall : forall s v o, reach fl strict s v -> d_legal fl strict s o -> reach fl strict (dstep fl s o) (v_step fl v o)
| RKill : forall s v o j s' r, reach fl strict s v -> (forall o', o = Some o' -> d_legal fl strict s o') -> dkill fl s o j = Some s' -> shows s' r ->
    reach fl strict s' (mkV r (v_since (v_during v o) ++ [r]) (v_acked (v_during v o)))
| RPower : forall s v o j c s' r, reach fl strict s v -> (forall o', o = Some o' -> d_legal fl strict s o') -> dpower fl s o j c -> (strict = true \/ forallb full (d_cl c) = true) ->
    dinit c [c] = Some s' -> shows s' r -> reach fl strict s' (mkV r [r] (match g_ents r with [] => 0 | _ => g_last r end)).
