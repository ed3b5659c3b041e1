(** Leadership callbacks of the state machine: property theorems (C56, C57). See LeadCbSpec.v for [uok], [uoks] and [reached]. *)
From Verif Require Import Base LeadCb LeadCbSpec LeadCbProofs LeadCbStep LeadCbStep2 LeadCbStep3 LeadCbMain LeadCbReady.

(** C56: the leadership callbacks form a well-bracketed sequence: on_leader_start / on_leader_stop and
    on_start_following / on_stop_following alternate, never overlap, a stop_following names the leader and the term of the
    preceding start_following, and terms never go back. *)
Theorem leadership_callbacks_pair : forall es s h, lrun linit es = Some (s, h) -> exists u, uoks (UNone 0) h u.
Proof. intros es s h H. destruct (init_run es s h H) as [[(u & v & U1 & _) _] _]. eauto. Qed.

(** C56: when the executor has nothing left to do, what the callbacks told the user agrees with the node's state: a follower
    that knows a leader has been announced, a node that is neither leader nor following told so, a stopped node has had
    every start matched; a leader has been started unless the first entry of its term is not committed yet. *)
Theorem leadership_callbacks_settle : forall es s h,
  lrun linit es = Some (s, h) -> l_run s = None -> l_queue s = [] ->
  exists u, uoks (UNone 0) h u /\
    match l_role s with
    | LFollower => match l_leader s with
                   | Some l => u = UFollow l (l_term s)
                   | None => exists m, u = UNone m
                   end
    | LLeader => u = ULead (l_term s) \/
                 ((exists m, u = UNone m) /\ exists i, In (OElected (l_term s) i) h /\ (l_flight s = [] -> l_commit s < i))
    | _ => exists m, u = UNone m
    end.
Proof.
  intros es s h H R Q. destruct (init_run es s h H) as [I _].
  destruct (i_u _ _ I) as (u & v & U1 & U2 & U3). rewrite R, Q in U2. cbn in U2. apply uoks_nil in U2. subst v.
  exists u. split; auto. unfold final in U3. destruct (l_role s) eqn:RR.
  - destruct U3 as [(W & m & -> & _)|[_ ->]]; auto. right. split; [eauto|].
    destruct (i_el _ _ I) as (i & E1 & E2); [rewrite RR; auto|]. exists i. split; auto. intros F.
    rewrite (E2 W). apply waiting_hd in W. destruct W as (t & W). destruct (i_wait _ _ I t W) as (_ & _ & _ & _ & _ & _ & _ & A8).
    destruct (Z.lt_ge_cases (l_commit s) (l_first s)) as [|L]; auto. destruct (A8 L) as (k & X & _).
    rewrite F, Q in X. destruct X as [[]|[]].
  - destruct U3 as (m & -> & _). eauto.
  - destruct U3 as (m & -> & _). eauto.
  - destruct (l_leader s); auto. destruct U3 as (m & -> & _). eauto.
  - destruct U3 as (m & -> & _). eauto.
Qed.

(** C57: on_leader_start for a term comes only after this node was elected in that term and after every entry up to the
    first one of the term has been applied (or loaded from a snapshot). *)
Theorem leader_start_after_catching_up : forall es s h h1 t h2,
  lrun linit es = Some (s, h) -> h = h1 ++ CbStart t :: h2 -> exists i, In (OElected t i) h1 /\ i <= reached h1 0.
Proof. intros es s h h1 t h2 H E. destruct (init_run es s h H) as [_ C]. exact (C h1 _ h2 E). Qed.

(** C57: when on_leader_start is called for the node's present leadership, the node already accepts membership changes and
    transfers (the configuration context is no longer busy with the term's first entry), so the user may start them from there. *)
Theorem leader_start_when_changes_accepted : forall es s h s' t,
  lrun linit es = Some (s, h) -> lstep s LFsm = Some (s', [CbStart t]) ->
  lleading (l_role s) = true -> l_term s = t -> l_ready s = true.
Proof.
  intros es s h s' t H E L T. destruct (init_run es s h H) as [I _].
  assert (N0 : NS [] linit) by (intros m k a t0 _ X; discriminate X).
  assert (B : A2 linit) by (split; [exact Logic.I|intros t0 []]).
  destruct (run_A2 es [] linit s h init_LI N0 B H) as [X1 X2]. unfold lstep in E.
  destruct (l_run s) as [[k [|[i|t'|t'] a]]|] eqn:R; try discriminate.
  - injection E as _ ->. destruct (X1 [] t a eq_refl) as [[]|X]. auto.
  - destruct (l_queue s) as [|x q] eqn:Q; [discriminate|]. destruct x as [k|k| |t'|l t'|l t']; try discriminate.
    + destruct (do_committed _ _); discriminate.
    + destruct (_ || _); discriminate.
    + injection E as _ ->. apply (X2 t); auto. left; auto.
Qed.

(** C57: entries are applied one by one without a gap, and a loaded snapshot never goes back. *)
Theorem applies_in_order : forall es s h h1 c h2,
  lrun linit es = Some (s, h) -> h = h1 ++ c :: h2 ->
  match c with CbApply i => i = reached h1 0 + 1 | CbSnap k => reached h1 0 <= k | _ => True end.
Proof. intros es s h h1 c h2 H E. destruct (init_run es s h H) as [_ C]. specialize (C h1 _ h2 E). destruct c; auto. Qed.

(** C57: a node wins each term at most once, and in increasing order. *)
Theorem elections_increase : forall es s h h1 t i h2 t' i',
  lrun linit es = Some (s, h) -> h = h1 ++ OElected t i :: h2 -> In (OElected t' i') h1 -> t' < t.
Proof. intros es s h h1 t i h2 t' i' H E Hi. destruct (init_run es s h H) as [_ C]. exact (C h1 _ h2 E t' i' Hi). Qed.

(** C56: the executor is never stuck: whatever is queued can be carried out, and the check on the closures of a committed
    range (closure_queue.cpp:52-57) never fails. *)
Theorem executor_never_stuck : forall es s h,
  lrun linit es = Some (s, h) -> (l_run s <> None \/ l_queue s <> []) -> exists s' o, lstep s LFsm = Some (s', o).
Proof. intros es s h H W. destruct (init_run es s h H) as [I _]. exact (fsm_enabled h s I W). Qed.

(** Non-vacuity: two followings, an election, a transfer that times out, a step-down before the executor catches up. *)
Definition ex_lc : list lev :=
  [LFollowE 1 5; LLog 2; LCommit 2; LReport 0; LFsm; LFsm; LFsm; LFsm; LFsm; LTimeout; LElect; LFsm; LWin; LAppend;
   LCommit 3; LCommit 4; LReport 1; LReport 0; LFsm; LFsm; LFsm; LFsm; LFsm; LFsm; LFsm; LTransfer; LFsm; LTransferTimeout 2;
   LFsm; LDown 5; LFollowE 5 6; LFsm; LFsm].
Example ex_leadcb : option_map (fun r => (snd r, l_role (fst r), l_term (fst r), l_queue (fst r), l_run (fst r))) (lrun linit ex_lc) =
  Some ([CbStartF 5 1; CbApply 1; CbApply 2; CbStopF 5 1; OElected 2 3; CbApply 3; CbStart 2; CbApply 4; CbStop 2;
         CbStart 2; CbStop 2; CbStartF 6 5], LFollower, 5, [], None).
Proof. vm_compute. reflexivity. Qed.

(** False of the code: on_leader_stop comes only after an on_leader_start. A leader that steps down before the first entry
    of its term is committed gets on_leader_stop without having got on_leader_start. *)
Theorem leader_stop_only_after_start_refuted :
  ~ (forall es s h h1 t h2, lrun linit es = Some (s, h) -> h = h1 ++ CbStop t :: h2 -> In (CbStart t) h1).
Proof.
  intros H. destruct (lrun linit [LElect; LWin; LDown 7; LFsm]) as [[s h]|] eqn:E; [|vm_compute in E; discriminate E].
  assert (Eh : h = [OElected 2 1] ++ CbStop 2 :: []) by (vm_compute in E; injection E as <- <-; reflexivity).
  destruct (H _ _ _ _ _ _ E Eh) as [X|[]]. discriminate X.
Qed.

Print Assumptions leadership_callbacks_pair.
Print Assumptions leadership_callbacks_settle.
Print Assumptions leader_start_after_catching_up.
Print Assumptions leader_start_when_changes_accepted.
Print Assumptions applies_in_order.
Print Assumptions elections_increase.
Print Assumptions executor_never_stuck.
Print Assumptions leader_stop_only_after_start_refuted.
