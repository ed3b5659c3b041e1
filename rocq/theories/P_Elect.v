(** C62: roles, timers, elections and shutdown of a node that releases its lock while it asks for votes. *)
From Coq Require Import Sorted.
From Verif Require Import Base Elect ElectSpec ElectProofs ElectProofs2 ElectProofs3 ElectProofs4 ElectProofs5 ElectProofs6 ElectProofs7.

(** The role moves only along the edges of ElectSpec: a node leads a term only by having been its candidate, it is a candidate of a term only by having
    raised the term by one, and each such victory is announced exactly once.  For every history in which no configuration makes the node's own
    vote decide (more than one voter), with any interleaving of the moments the lock is released; and for every configuration, when nothing
    happens in these moments. *)
Theorem roles_move_along_the_edges sdv t v c o es s h : lives sdv t v c o es s h ->
  never_alone c o es \/ undisturbed sdv (fst (einit t v c o)) es -> moves RFollower t false h.
Proof. intros L H. destruct (lives_good _ _ _ _ _ _ _ _ L H) as (q & _ & _ & [M _] & _). exact M. Qed.

(** No term is won twice: the terms announced increase. *)
Theorem terms_won_increase sdv t v c o es s h : lives sdv t v c o es s h ->
  never_alone c o es \/ undisturbed sdv (fst (einit t v c o)) es -> StronglySorted Z.lt (elected h).
Proof. intros L H. apply (moves_elected RFollower t false h); [exact (roles_move_along_the_edges _ _ _ _ _ _ _ _ L H)|discriminate]. Qed.

(** A node that has reported an error or is shutting down never leads, follows or stands again. *)
Theorem no_way_back sdv t v c o es s h h1 r' t' h2 : lives sdv t v c o es s h ->
  never_alone c o es \/ undisturbed sdv (fst (einit t v c o)) es -> h = h1 ++ OState r' t' :: h2 -> active r' = false ->
  elected h2 = [] /\ forall r2 t2, In (OState r2 t2) h2 -> active r2 = false.
Proof.
  intros L H -> A. pose proof (roles_move_along_the_edges _ _ _ _ _ _ _ _ L H) as M. apply moves_suffix in M; [|intros ->; discriminate A].
  destruct (moves_final r' t' h2 M A) as [X Y]. split; [exact X|]. intros r2 t2 HI. rewrite Forall_forall in Y. exact (Y _ HI).
Qed.

(** The timers: each role has its own one running and the others stopped; a follower without one has neither a configuration nor a leader. *)
Theorem timers_fit_the_role sdv t v c o es s h : lives sdv t v c o es s h -> never_alone c o es \/ undisturbed sdv (fst (einit t v c o)) es ->
  match e_role s with
  | RLeader | RTransferring => t_sd (e_tm s) = true /\ t_el (e_tm s) = false /\ t_vt (e_tm s) = false
  | RCandidate => t_vt (e_tm s) = true /\ t_el (e_tm s) = false /\ t_sd (e_tm s) = false
  | RFollower => (t_el (e_tm s) = true \/ e_conf s = [] /\ e_old s = [] /\ e_leader s = None) /\ t_vt (e_tm s) = false /\ t_sd (e_tm s) = false
  | RError => t_vt (e_tm s) = false /\ t_sd (e_tm s) = false
  | RShutting | RShutdown => t_dead (e_tm s) = true /\ t_el (e_tm s) = false /\ t_vt (e_tm s) = false /\ t_sd (e_tm s) = false
  end.
Proof.
  intros L H. destruct (lives_good _ _ _ _ _ _ _ _ L H) as (q & I & K & _). pose proof (i_tm q s I) as T. unfold elok in K. unfold tm_ok in T.
  destruct (e_role s); tauto.
Qed.

(** Shutdown: the closures run in the order of the calls, each at most once, and after the node is down none waits; on_shutdown is called
    at most once; and while a closure waits, either the node is not told to shut down or the executor's end runs them all. *)
Theorem shutdown_runs_every_closure_once sdv t v c o es s h : lives sdv t v c o es s h -> never_alone c o es \/ undisturbed sdv (fst (einit t v c o)) es ->
  asked es = ran h ++ e_conts s /\ (e_role s <> RShutting -> asked es = ran h) /\ (shuts h <= 1)%nat /\ (shuts h = 1%nat <-> e_role s = RShutdown) /\
  (e_role s = RShutting -> exists s2 h2, estep sdv s EAfter = Some (s2, h2) /\ e_role s2 = RShutdown /\ asked es = ran (h ++ h2)).
Proof.
  intros L H. destruct (lives_good _ _ _ _ _ _ _ _ L H) as (q & I & K & _ & A & G). split; [auto|]. split.
  { intros R. rewrite <- A, (i_cont q s I R), app_nil_r. reflexivity. }
  pose proof (i_exq q s I) as X. unfold gone in G. split; [rewrite G; destruct (e_q s); lia|]. split.
  { rewrite G. destruct (e_role s); rewrite X; split; intros E; try discriminate E; reflexivity. }
  intros R. rewrite R in X. cbn [estep]. rewrite X. eexists; eexists. split; [reflexivity|]. split; [reflexivity|]. rewrite <- A. unfold ran. rewrite flat_map_app. f_equal.
  cbn [app]. unfold out, set_state, look, seq, upd. cbn. rewrite app_nil_r. clear. induction (e_conts s) as [|x l IH]; cbn; [reflexivity|f_equal; exact IH].
Qed.

(** Also in a group of one voter, whatever happens while the lock is released: the node asks for votes at most once per term and wins no term twice;
    timers that shutdown destroyed do not run. *)
Theorem once_per_term_always sdv t v c o es s h : lives sdv t v c o es s h -> NoDup (votes_asked h) /\ NoDup (elected h) /\
  (forall x, In x (votes_asked h) \/ In x (elected h) -> x <= e_term s).
Proof.
  intros L. destruct (lives_all _ _ _ _ _ _ _ _ L) as [[X1 X2 X3 X4 _ _ _ _ _] _]. rewrite Forall_forall in X3, X4. split; [auto|]. split; [auto|]. intros x [H|H]; auto.
Qed.
Theorem destroyed_timers_never_run sdv t v c o es s h es2 s2 h2 : lives sdv t v c o es s h -> t_dead (e_tm s) = true -> erun sdv s es2 = Some (s2, h2) ->
  t_dead (e_tm s2) = true /\ t_el (e_tm s2) = false /\ t_vt (e_tm s2) = false /\ t_sd (e_tm s2) = false.
Proof.
  intros L D E. destruct (lives_all _ _ _ _ _ _ _ _ L) as [_ [_ X]]. assert (Y : dead_off true s []) by (split; auto). destruct (erun_dead true _ _ _ _ _ _ Y E) as [A B]. auto.
Qed.
Example ex_destroyed : exists s h, lives true 0 None [0] [] [EShutdown 7 true; EAfter; EResume 0 false true true] s h /\ e_role s = RLeader /\ t_dead (e_tm s) = true.
Proof. eexists; eexists. split; [eexists; eexists; eexists; split; [vm_compute; reflexivity|split; [vm_compute; reflexivity|reflexivity]]|]. split; reflexivity. Qed.

(** vote(): the follower's next election timeout starts a pre-vote although its leader's lease has not run out; without the command it is ignored. *)
Theorem vote_command_overrides_the_lease sdv s p : e_role s = RFollower -> e_win s = [] -> memb 0 (e_conf s) = true ->
  (e_trig s = false -> estep sdv s (EElectTimeout true false) = Some (s, [])) /\
  exists s2 h2 s3 h3, erun sdv s [EVoteCmd; EElectTimeout true false] = Some (s2, h2) /\ e_leader s2 = None /\ e_trig s2 = false /\
    estep sdv s2 (EResume 0 p true true) = Some (s3, h3) /\ In (OAskPre (e_term s)) h3.
Proof.
  destruct s as [r tm0 vo ld cf o tm v px tr me w cs q]. cbn [e_role e_win e_conf e_trig e_term]. intros -> -> C. split; [intros ->; reflexivity|].
  exists (mkE RFollower tm0 vo None cf o tm v px false me [WPre tm0 true] cs q), (match ld with Some l => [OStopF l] | None => [] end).
  pose (z := s_p x_send (s_p (x_init cf o true) (mkE RFollower tm0 vo None cf o tm v px false me [] cs q))).
  exists (fst (grant_self_p p z)), (OAskPre tm0 :: snd (grant_self_p p z)). split; [|split; [reflexivity|split; [reflexivity|split; [|left; reflexivity]]]].
  - cbn [erun estep e_role]. unfold upd at 1. unfold election_timeout, look at 1. cbn [s_trig e_role e_trig negb andb].
    destruct ld; cbv beta iota zeta delta [pre_vote no_leader look seq upd out ret leading s_leader s_trig s_win e_role e_term e_voted e_leader e_conf e_old e_tm e_v e_p e_trig e_met e_win e_conts e_q app];
      rewrite C; reflexivity.
  - cbn [estep e_win nth_out]. unfold resume, look. cbn [s_win e_term]. rewrite Z.eqb_refl. cbn [negb]. unfold seq, upd, out. fold z.
    change (s_p x_send _) with z. destruct (grant_self_p p z) as [z2 h2]. reflexivity.
Qed.

(** * What is false: the moments without the lock, when the node's own vote decides *)
(** R1: an error reported while elect_self flushes the log: on_error puts the node in ERROR, the term does not change, elect_self goes on and
    the node leads. *)
Theorem error_is_final_refuted : exists s h h1 h2, lives true 0 None [0] [] [EError true; EResume 0 false true true] s h /\
  h = h1 ++ OState RError 1 :: h2 /\ In (OElected 1) h2 /\ e_role s = RLeader.
Proof.
  eexists; eexists. exists [OState RFollower 0; OState RCandidate 1; OFsmError; OState RFollower 1]. eexists. split.
  - eexists; eexists; eexists. split; [vm_compute; reflexivity|]. split; [vm_compute; reflexivity|reflexivity].
  - split; [reflexivity|]. split; [right; right; right; left; reflexivity|reflexivity].
Qed.
(** R2: the same with shutdown: the node that is down leads; the closure of a second call never runs although the executor is gone. *)
Theorem shutdown_is_final_refuted : exists s h h1 h2, lives true 0 None [0] [] [EShutdown 7 true; EAfter; EResume 0 false true true; EShutdown 8 true] s h /\
  h = h1 ++ OState RShutdown 1 :: h2 /\ In (OElected 1) h2 /\ e_conts s = [8] /\ ran h = [7] /\ estep true s EAfter = None.
Proof.
  eexists; eexists. exists [OState RFollower 0; OState RCandidate 1; OState RFollower 1; OState RShutting 1; OShut]. eexists. split.
  - eexists; eexists; eexists. split; [vm_compute; reflexivity|]. split; [vm_compute; reflexivity|reflexivity].
  - split; [reflexivity|]. split; [do 4 right; left; reflexivity|]. repeat split.
Qed.
(** R3: the vote timeout in the same moment: the node leads from FOLLOWER, then the pre-vote makes the leader a candidate, on_leader_stop is not called. *)
Theorem roles_move_along_the_edges_refuted : exists s h h1 h2, lives true 0 None [0] [] [EVoteTimeout false true; EResume 0 false true true; EResume 0 false true true] s h /\
  h = h1 ++ [OElected 1; OAskPre 1; OState RCandidate 2] ++ h2 /\ ~ moves RFollower 0 false h /\ ~ In OLeadStop h.
Proof.
  eexists; eexists. exists [OState RFollower 0; OState RCandidate 1; OState RFollower 1; OAskVote 1; OSave 1 (Some 0) true; OState RLeader 1], []. split.
  - eexists; eexists; eexists. split; [vm_compute; reflexivity|]. split; [vm_compute; reflexivity|reflexivity].
  - split; [reflexivity|]. split; [intros M; cbn in M; tauto|]. cbn. intuition discriminate.
Qed.

(** * Examples *)
(** Three voters: pre-vote, election, leadership; a transfer times out; the leader's disk fails; shutdown twice. *)
Definition one_life : list eev :=
  [EElectTimeout false false; EResume 0 false true true; EPreResp 1 2 5 0 true false false true 9; EResume 0 false true true; EVoteResp 2 1 6 0 true false false false true;
   ETransfer; ETransferTimeout; EError true; EShutdown 7 true; EShutdown 8 true; EAfter; EShutdown 9 true].
Example ex_never_alone : never_alone [0; 1; 2] [] one_life.
Proof. split; [intros A; discriminate A|]. intros e c o H. cbn in H. repeat (destruct H as [<-|H]; [discriminate|]). destruct H. Qed.
Example ex_life : exists s h, lives true 5 None [0; 1; 2] [] one_life s h /\ elected h = [6] /\ ran h = [7; 8; 9] /\ e_role s = RShutdown /\
  h = [OState RFollower 5; OAskPre 5; OState RCandidate 6; OAskVote 6; OSave 6 (Some 0) true; OState RLeader 6; OElected 6;
       OLeadStop; OState RTransferring 6; OLeadStart; OState RLeader 6; OFsmError; OClear; OLeadStop; OState RFollower 6; OState RError 6; OState RShutting 6;
       OShut; OState RShutdown 6; ODone 7; ODone 8; ODone 9].
Proof. eexists; eexists. split; [eexists; eexists; eexists; split; [vm_compute; reflexivity|split; [vm_compute; reflexivity|reflexivity]]|]. repeat split. Qed.
(** Messages in the window: a leader of the same term makes the node a follower again; the election goes no further. *)
Definition disturbed : list eev :=
  [EElectTimeout false false; EResume 0 false true true; EPreResp 1 2 5 0 true false false true 9; EHigher 8 true; EResume 0 false true true].
Example ex_disturbed : exists s h, lives true 5 None [0; 1; 2] [] disturbed s h /\ e_role s = RFollower /\ elected h = [] /\ ~ In (OAskVote 6) h /\ never_alone [0; 1; 2] [] disturbed.
Proof.
  eexists; eexists. split; [eexists; eexists; eexists; split; [vm_compute; reflexivity|split; [vm_compute; reflexivity|reflexivity]]|]. split; [reflexivity|]. split; [reflexivity|].
  split; [cbn; intuition discriminate|]. split; [intros A; discriminate A|]. intros e c o H. cbn in H. repeat (destruct H as [<-|H]; [discriminate|]). destruct H.
Qed.
(** Alone and undisturbed. *)
Example ex_alone : exists s h, lives true 0 None [0] [] [EResume 0 false true true; EDown true; EElectTimeout false false; EResume 0 false true true; EResume 0 false true true] s h /\
  undisturbed true (fst (einit 0 None [0] [])) [EResume 0 false true true; EDown true; EElectTimeout false false; EResume 0 false true true; EResume 0 false true true] /\
  elected h = [1; 2].
Proof.
  eexists; eexists. split; [eexists; eexists; eexists; split; [vm_compute; reflexivity|split; [vm_compute; reflexivity|reflexivity]]|]. split; [|reflexivity].
  vm_compute. repeat (split; [first [left; reflexivity | right; do 4 eexists; reflexivity]|]). exact I.
Qed.

Print Assumptions roles_move_along_the_edges. Print Assumptions terms_won_increase. Print Assumptions no_way_back. Print Assumptions timers_fit_the_role.
Print Assumptions shutdown_runs_every_closure_once. Print Assumptions vote_command_overrides_the_lease. Print Assumptions error_is_final_refuted.
Print Assumptions shutdown_is_final_refuted. Print Assumptions roles_move_along_the_edges_refuted. Print Assumptions once_per_term_always. Print Assumptions destroyed_timers_never_run.
