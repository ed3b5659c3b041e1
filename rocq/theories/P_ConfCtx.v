(** Property C29: membership changes of one node, over every sequence of requests, catch-up
    results, commits, elections, step-downs and resets. *)
From Verif Require Import Base BaseLemmas QuorumSpec BallotProofs BallotBox ConfCtx ConfCtxSpec ConfCtxProofs ConfCtxProofs2.

(** A step logs at most one configuration; any quorum of it shares a peer with any quorum of the
    configuration in force, and it is then in force. *)
Theorem conf_changes_overlap : forall self s h os e s' o,
  xlife self s h os -> xstep s e = Some (s', o) ->
  match logged o with
  | [] => True
  | [(new, old)] =>
      x_conf s' = (new, match old with Some [] => None | _ => old end) /\
      (forall acks1 acks2, quorum (fst (x_conf s)) (snd (x_conf s)) acks1 -> quorum new old acks2 -> exists p, In p acks1 /\ In p acks2)
  | _ => False
  end.
Proof.
  intros self s h os e s' o L H. pose proof (xlife_inv _ _ _ _ L) as I. pose proof (xstep_good _ _ _ _ I H) as [[C' _] [OV A]].
  destruct OV as [E|[n [old [E OV]]]]; rewrite E; auto. destruct (by_hand e); [congruence|]. unfold after in A. rewrite E in A. split; [exact A|].
  intros a1 a2 Q1 Q2. pose proof (k_conf _ (proj1 I)) as [W1 W2]. pose proof (k_conf _ C') as [V1 V2]. rewrite A in V1, V2.
  apply (quorums_meet (x_conf s) (n, old)); auto.
  - split; [exact W1|]. destruct (snd (x_conf s)); [apply W2|exact Logic.I].
  - split; [exact V1|]. destruct old as [[|x l]|]; cbn in *; [constructor|apply V2|exact Logic.I].
Qed.

(** The configuration a leader works with is the last one it logged in its own term; except by
    reset_peers or as a follower, it only changes by logging. *)
Theorem leader_conf_is_logged : forall self s h os,
  xlife self s h os -> leading (x_role s) = true ->
  exists pre new old post, os = pre ++ XLogged (x_term s) new old :: post /\ logged post = [] /\ x_conf s = (new, match old with Some [] => None | _ => old end).
Proof. intros self s h os L Le. exact (xlife_lastlog _ _ _ _ L Le). Qed.

(** One at a time: of the entries logged in its term at most one has not been committed and reported;
    none when a change starts, and a joint entry never is in force without a change going on. *)
Theorem one_change_at_a_time : forall self s h os,
  xlife self s h os -> leading (x_role s) = true ->
  (unreported (x_term s) s <= 1)%nat /\ (cx_stage s = SNone -> unreported (x_term s) s = O /\ snd (x_conf s) = None).
Proof.
  intros self s h os L Le. pose proof (xlife_inv _ _ _ _ L) as [C D]. rewrite (D Le). split; [destruct (cx_stage s); lia|]. intros E. rewrite E. split; auto.
  assert (R : x_role s <> RNone) by (intros R; rewrite R in Le; discriminate). pose proof (k_stage _ C R) as K. rewrite E in K. exact K.
Qed.

(** A request is refused, with nothing else done, unless the node leads, is not handing leadership
    over and has no change in progress. *)
Theorem busy_change_refused : forall s r done fail,
  x_role s <> RLeader \/ cx_stage s <> SNone ->
  xstep s (XReq r done fail) = Some (s, match done with Some c => [XRun c (match x_role s with RNone => EPERM | _ => EBUSY end)] | None => [] end).
Proof. exact denied. Qed.

(** Closures: every closure given has been run once or is the one pending. *)
Theorem change_closure_once : forall self s h os,
  xlife self s h os ->
  Permutation (asked h) (answered os ++ match cx_done s with Some c => [c] | None => [] end) /\ (cx_stage s = SNone -> Permutation (asked h) (answered os)).
Proof.
  intros self s h os L. pose proof (xlife_closures _ _ _ _ L) as P. split; [exact P|]. intros E. unfold pend in P. rewrite (k_none _ (proj1 (xlife_inv _ _ _ _ L)) E), app_nil_r in P. exact P.
Qed.

(** Success is reported only for a request whose configuration is in force, stable, and of which
    every entry of this term has been committed. *)
Theorem change_success_means_done : forall self s h os e s' o c,
  xlife self s h os -> xstep s e = Some (s', o) -> In (XRun c 0) o ->
  exists s0 r f, In (s0, XReq r (Some c) f) (h ++ [(s, e)]) /\ snd (x_conf s') = None /\
    (forall p, In p (fst (x_conf s')) <-> wanted r (fst (x_conf s0)) p) /\
    (leading (x_role s') = true -> unreported (x_term s') s' = O).
Proof. exact xstep_success. Qed.

(** Replication: a leader has a replicator for every member of the configurations in force and
    being installed, except itself and those that could not be started when it was elected; and, when
    no change is going on, for no one else. *)
Theorem leader_replicates_to_members : forall self s h os,
  xlife self s h os -> leading (x_role s) = true ->
  exists s0 f, In (s0, XElected (x_term s) f) h /\
    (forall p, In p (members (x_conf s)) -> p <> x_self s -> f p = false -> In p (x_repl s)) /\
    (cx_stage s = SNone -> forall p, In p (x_repl s) -> p = x_self s \/ In p (fst (x_conf s))).
Proof.
  intros self s h os L Le. destruct (xlife_repl _ _ _ _ L Le) as [s0 [f [H1 H2]]]. exists s0, f. split; auto. destruct (H2 Le) as [Cv W]. split.
  - intros p Hp. apply Cv. left. exact Hp.
  - intros E p Hp. destruct (one_change_at_a_time _ _ _ _ L Le) as [_ K]. destruct (K E) as [_ K2]. destruct (W p Hp) as [->|[Hm|[Hm _]]]; auto; [|congruence].
    right. unfold members in Hm. rewrite K2, app_nil_r in Hm. exact Hm.
Qed.
Theorem nonleader_has_no_replicators : forall self s h os, xlife self s h os -> leading (x_role s) = false -> x_repl s = [] /\ cx_stage s = SNone /\ cx_done s = None.
Proof.
  intros self s h os L Le. pose proof (xlife_inv _ _ _ _ L) as [C D]. assert (R : x_role s = RNone) by (destruct (x_role s); try discriminate; auto).
  destruct (k_off _ C R) as [E1 E2]. split; auto. split; auto. apply (k_none _ C E1).
Qed.

(** No CHECK of the change machinery can fail: the only request that aborts is one that changes
    nothing and has a NULL closure. *)
Theorem change_never_aborts : forall self s h os e,
  xlife self s h os ->
  (xstep s e = None <->
   match e with
   | XReq r None _ => x_role s = RLeader /\ cx_stage s = SNone /\ conf_equals (fst (x_conf s)) (target (fst (x_conf s)) r) = true
   | XCaught k _ => nth_error (x_wait s) k = None
   | XDone k => nth_error (x_cd s) k = None
   | _ => False
   end).
Proof.
  intros self s h os e L. pose proof (xlife_inv _ _ _ _ L) as I. split.
  - intros H. assert (K : enabled s e -> False). { intros K. destruct (xstep_ok s e I K) as [s' [o [H1 _]]]. congruence. }
    destruct e; try (exact (K Logic.I)).
    + destruct done; [exact (K Logic.I)|]. unfold enabled in K. destruct (x_role s), (cx_stage s), (conf_equals (fst (x_conf s)) (target (fst (x_conf s)) r)); auto; exfalso; apply K; intros [X1 [X2 X3]]; discriminate.
    + unfold enabled in K. destruct (nth_error (x_wait s) k); auto. exfalso. apply K. discriminate.
    + unfold enabled in K. destruct (nth_error (x_cd s) k); auto. exfalso. apply K. discriminate.
  - intros H. apply xstep_None. destruct e; cbn [enabled]; try (intros _; exact H).
    + destruct done; [intros _; exact H|]. intros K. exact (K H).
    + rewrite H. congruence.
    + rewrite H. congruence.
Qed.

(** The claim without that exception is false: add_peer of a member, closure NULL (node.cpp:884). *)
Theorem change_null_closure_aborts_refuted : ~ (forall self s h os r done fail, xlife self s h os -> xstep s (XReq r done fail) <> None).
Proof.
  intros N.
  pose (s1 := set_conf ([1], None) (xinit 1)).
  assert (L1 : xlife 1 s1 [(xinit 1, XFollow ([1], None))] []) by (apply (xl_step 1 _ _ _ _ _ _ (xl_start 1)); reflexivity).
  destruct (xstep s1 (XElected 2 (fun _ => false))) as [[s2 o2]|] eqn:E2; [|vm_compute in E2; discriminate]. pose proof (xl_step 1 _ _ _ _ _ _ L1 E2) as L2. vm_compute in E2. injection E2 as <- <-.
  match type of L2 with xlife _ ?s _ _ => set (s2 := s) in * end.
  destruct (xstep s2 (XDone 0)) as [[s3 o3]|] eqn:E3; [|vm_compute in E3; discriminate]. pose proof (xl_step 1 _ _ _ _ _ _ L2 E3) as L3. vm_compute in E3. injection E3 as <- <-.
  apply (N _ _ _ _ (AddPeer 1) None (fun _ => false) L3). reflexivity.
Qed.

(** A concrete life: node 1 of {1,2,3} is elected, then asked (closure 7) to move to {1,2,4,5}; asked
    again meanwhile (closure 8). *)
Fixpoint xrun (s : xstate) (es : list xev) : option (xstate * list (xstate * xev) * list xout) :=
  match es with
  | [] => Some (s, [], [])
  | e :: es => match xstep s e with None => None | Some (s1, o1) =>
      match xrun s1 es with None => None | Some (s2, h, o) => Some (s2, (s, e) :: h, o1 ++ o) end end
  end.
Lemma xrun_life : forall self es s h os s' h' os', xlife self s h os -> xrun s es = Some (s', h', os') -> xlife self s' (h ++ h') (os ++ os').
Proof.
  intros self. induction es as [|e es IH]; intros s h os s' h' os' L H; cbn in H.
  - injection H as <- <- <-. rewrite !app_nil_r. exact L.
  - destruct (xstep s e) as [[s1 o1]|] eqn:E; [|discriminate]. destruct (xrun s1 es) as [[[s2 h2] o2]|] eqn:E2; [|discriminate]. injection H as <- <- <-.
    pose proof (IH _ _ _ _ _ _ (xl_step _ _ _ _ _ _ _ L E) E2) as K. rewrite <- !app_assoc in K. exact K.
Qed.
Definition nofail : peer -> bool := fun _ => false.
Example ex_change : exists s h os, xlife 1 s h os /\ x_conf s = ([1;2;4;5], None) /\ cx_stage s = SNone /\ leading (x_role s) = true /\
  os = [XLogged 2 [1;2;3] None; XRun 8 EBUSY; XLogged 2 [1;2;4;5] (Some [1;2;3]); XLogged 2 [1;2;4;5] None; XRun 7 0].
Proof.
  destruct (xrun (xinit 1) [XFollow ([1;2;3], None); XElected 2 nofail; XDone 0; XReq (ChangePeers [1;2;4;5]) (Some 7) nofail; XReq (RemovePeer 2) (Some 8) nofail;
                            XCaught 1 CTimeoutAlive; XCaught 0 COk; XCaught 0 COk; XDone 0; XDone 0]) as [[[s h] os]|] eqn:E; [|vm_compute in E; discriminate].
  exists s, h, os. split; [exact (xrun_life 1 _ _ _ _ _ _ _ (xl_start 1) E)|]. vm_compute in E. injection E as <- <- <-. auto.
Qed.

Print Assumptions conf_changes_overlap.
Print Assumptions leader_conf_is_logged.
Print Assumptions one_change_at_a_time.
Print Assumptions busy_change_refused.
Print Assumptions change_closure_once.
Print Assumptions change_success_means_done.
Print Assumptions leader_replicates_to_members.
Print Assumptions nonleader_has_no_replicators.
Print Assumptions change_never_aborts.
Print Assumptions change_null_closure_aborts_refuted.
