(** C30: leader leases, proved for the model of Lease.v in the terms of LeaseSpec.v.

    The theorems need the following of the environment, all in [timed_execution] and the hypotheses:
    clocks drift apart by at most [dr] in any span ([clocks]); the leader starts its replicators within
    [eps] of each other ([started_together]); a restarted node has kept the term in which it last
    answered a leader ([keeps_term]); whenever a follower may vote, its own wait (election timeout and
    max_clock_drift) covers the lease any leader has then or later, by [dr + eps] ([timeouts_safe]:
    [constant_timeouts] for timeouts that never change, P_LeaseReset.v for changing ones).  The last
    section shows what happens without them. *)
From Verif Require Import Base Ballot QuorumSpec BallotProofs Lease LeaseSpec LeaseProofs LeaseProofs2 LeaseProofs3 LeaseProofs4 LeaseProofs5 LeaseProofs6 LeaseProofs7.

Section P.
Variables (conf : list peer) (old : option (list peer)) (timeout fto drift : peer -> Z -> Z) (clk : peer -> Z -> Z) (eps dr : Z).
Hypothesis Wf : wf_jconf (conf, old).
Hypothesis Ce : 0 <= eps.
Hypothesis Ct : timeouts_safe conf old timeout fto drift clk dr eps.
Hypothesis Ck : clocks dr clk.
Notation exec := (timed_execution conf old timeout fto drift clk eps).

(** The holder of a valid lease is the leader of its term, and up to that moment no node was elected
    in a later term, nor another one in that term. *)
Theorem C30_valid_lease_no_later_election : forall s l now t e, exec s -> valid_lease timeout clk s l now t e ->
  n_st (c_nodes s l) = LLeader /\ n_term (c_nodes s l) = t /\ elected s l t /\ forall p t', elected s p t' -> t' <= t /\ (t' = t -> p = l).
Proof. intros. eapply lease_main; eauto. Qed.

(** Whoever else still believes to lead does so in an earlier term. *)
Theorem C30_other_leaders_are_older : forall s l now t e p, exec s -> valid_lease timeout clk s l now t e ->
  leads (n_st (c_nodes s p)) = true -> p <> l -> n_term (c_nodes s p) < t.
Proof.
  intros s l now t e p Hx Hv Hl Hp. destruct (lease_main _ _ _ _ _ _ _ _ Wf Ce Ct Ck s l now t e Hx Hv) as (_ & _ & _ & H).
  destruct (exec_inv _ _ _ _ _ _ _ _ Wf Ce Ck s Hx) as (HC & _). destruct (a_ld _ _ _ _ _ _ (k_na _ _ _ HC p) Hl) as [_ He].
  destruct (H p _ He) as [h1 h2]. assert (n_term (c_nodes s p) <> t) by (intros K; apply Hp, h2; auto). lia.
Qed.

(** At no moment do two nodes hold a valid lease. *)
Theorem C30_one_valid_lease : forall s l l' now t t' e e', exec s -> valid_lease timeout clk s l now t e -> valid_lease timeout clk s l' now t' e' -> l = l' /\ t = t' /\ e = e'.
Proof.
  intros s l l' now t t' e e' Hx Hv Hv'. destruct (lease_main _ _ _ _ _ _ _ _ Wf Ce Ct Ck s l now t e Hx Hv) as (_ & _ & h1 & h2).
  destruct (lease_main _ _ _ _ _ _ _ _ Wf Ce Ct Ck s l' now t' e' Hx Hv') as (_ & _ & h3 & h4). destruct (h2 _ _ h3) as [a b]. destruct (h4 _ _ h1) as [c d].
  assert (t' = t) by lia. assert (l' = l) by auto. subst. sp; auto. destruct Hv as [_ Hv], Hv' as [_ Hv']. rewrite Hv in Hv'. congruence.
Qed.

(** What get_leader_lease_status returns: if VALID, the lease is valid in the state it leaves. *)
Theorem C30_status_valid : forall s s' dt l t e, exec s -> lstep conf old timeout fto drift clk s (dt, l, LStatus) = Some s' ->
  snd (lease_status conf old timeout clk l (c_now s + dt) (c_nodes s l)) = LiValid t e ->
  valid_lease timeout clk s' l (c_now s') t e /\ n_st (c_nodes s' l) = LLeader /\ n_term (c_nodes s' l) = t /\ forall p t', elected s' p t' -> t' <= t /\ (t' = t -> p = l).
Proof.
  intros s s' dt l t e Hx Hs Hr. assert (Hx' : exec s').
  { econstructor; eauto; [|exact I]. apply step_form in Hs. destruct Hs as (dt' & p & e' & n & ms & rs & E & _ & Ha & ->). injection E as <- <- <-. cbn in Ha. unfold ok0 in Ha. injection Ha as <- <- <-.
    assert (K : started_together eps clk s). { clear -Hx. destruct Hx; auto. intros l t q ts f tr []. }
    exact K. }
  assert (V : valid_lease timeout clk s' l (c_now s') t e).
  { apply step_form in Hs. destruct Hs as (dt' & p & e' & n & ms & rs & E & _ & Ha & ->). injection E as <- <- <-. cbn in Ha. unfold ok0 in Ha. injection Ha as <- <- <-. split; [lia|]. cbn [c_now c_nodes]. unfold lupd. rewrite Z.eqb_refl.
    unfold lease_status in *. destruct (lease_info (timeout l (c_now s + dt)) (clk l (c_now s + dt)) (c_nodes s l)) eqn:E1; cbn [fst snd] in *; try discriminate; [congruence|]. destruct (n_st (c_nodes s l)); cbn [fst snd] in *; try discriminate.
    destruct (lease_info (timeout l (c_now s + dt)) (clk l (c_now s + dt)) (set_lts _ _)) eqn:E2; cbn [fst snd] in *; try discriminate. congruence. }
  destruct (lease_main _ _ _ _ _ _ _ _ Wf Ce Ct Ck s' l _ t e Hx' V) as (h1 & h2 & _ & h4). sp; auto; apply h4; auto.
Qed.

(** Only a leader (not one handing its leadership over) has a lease at all, and it is for its term. *)
Theorem C30_only_the_leader_holds_a_lease : forall s l timeout0 c, exec s -> lease_info timeout0 c (c_nodes s l) <> LiExpired ->
  n_st (c_nodes s l) = LLeader /\ l_term (c_nodes s l) = n_term (c_nodes s l).
Proof.
  intros s l timeout0 c Hx H. destruct (exec_inv _ _ _ _ _ _ _ _ Wf Ce Ck s Hx) as (_ & _ & HL). pose proof (s_lok _ _ _ _ _ HL l) as HO.
  assert (L : l_term (c_nodes s l) <> 0). { intros K. apply H. unfold lease_info. rewrite K. reflexivity. }
  destruct (o_lease _ _ _ _ _ _ _ HO L) as (h1 & h2 & _). auto.
Qed.

(** Before the first entry of the leader's term was committed by a quorum the lease is not valid. *)
Theorem C30_no_lease_before_first_commit : forall s l now t e, exec s -> valid_lease timeout clk s l now t e ->
  exists Q, quorum conf old Q /\ forall q, In q Q -> q = l \/ exists a, In (RRenew q l t a) (c_trace s).
Proof.
  intros s l now t e Hx Hv. destruct (lease_main _ _ _ _ _ _ _ _ Wf Ce Ct Ck s l now t e Hx Hv) as (h1 & h2 & _ & _). destruct (exec_inv _ _ _ _ _ _ _ _ Wf Ce Ck s Hx) as (_ & _ & HL). pose proof (s_lok _ _ _ _ _ HL l) as HO.
  destruct Hv as [_ Hv]. unfold lease_info in Hv. destruct (Z.eqb_spec (l_term (c_nodes s l)) 0) as [|Lt]; try discriminate. destruct (Z.eqb_spec (l_ts (c_nodes s l)) 0) as [|Ls]; try discriminate.
  destruct (o_lease _ _ _ _ _ _ _ HO Lt) as (_ & _ & J). destruct (J Ls) as [Fi _]. subst t. apply (o_first _ _ _ _ _ _ _ HO); auto. rewrite h1. auto.
Qed.

(** The time the lease counts from: a majority with the leader in it was sent to no earlier, or its
    replicators started no earlier, in each configuration the leader belongs to. *)
Theorem C30_lease_time_backed_by_majority : forall p c reps cf, (cf = conf \/ old = Some cf) -> In p cf ->
  exists S, majority cf (p :: S) /\ ~ In p S /\ forall q, In q S -> last_active conf old p c reps <= ts_of q reps.
Proof.
  intros p c reps cf Hc Hp. assert (Hn : NoDup cf). { destruct Wf as [w1 w2]. destruct Hc as [->|Hc]; [exact w1|]. cbn in w2. rewrite Hc in w2. exact w2. }
  destruct (active_majority p c reps cf Hn Hp) as (S & h1 & h2 & h3 & h4). exists S. sp; auto. intros q Hq. specialize (h4 q Hq).
  assert (last_active conf old p c reps <= active_in p c reps cf); [|lia]. unfold last_active. destruct Hc as [->|Hc]; [destruct old; lia|rewrite Hc; lia].
Qed.

(** A confirmation that comes late, for a lease since stopped or restarted, changes nothing. *)
Theorem C30_stale_epoch_ignored : forall p epoch now n n' ms rs, lease_begin conf old clk p epoch now n = Some (n', ms, rs) -> epoch <> l_epoch n \/ l_term n = 0 -> n' = n.
Proof.
  intros p epoch now n n' ms rs H K. unfold lease_begin in H. destruct (negb (n_first n)); try discriminate. destruct (n_st n); injection H as <- _ _; auto.
  destruct (Z.eqb_spec (l_term n) 0); cbn [orb]; auto. destruct K as [K|K]; [|contradiction]. apply Z.eqb_neq in K. rewrite K. auto.
Qed.

(** get_leader_lease_status never leaves a leader with a lease that ran out: either a majority was
    reached within the election timeout, or the node steps down. *)
Theorem C30_status_renews_or_steps_down : forall p now n n' i, lease_status conf old timeout clk p now n = (n', i) -> n_st n = LLeader -> lease_info (timeout p now) (clk p now) n = LiSuspect ->
  (i = LiValid (l_term n) (l_epoch n) /\ n_st n' = LLeader /\ clk p now - timeout p now < last_active conf old p (clk p now) (n_reps n) /\ last_active conf old p (clk p now) (n_reps n) <> 0)
  \/ (i = LiExpired /\ n_st n' = LFollower /\ n_reps n' = [] /\ lease_info (timeout p now) (clk p now) n' = LiExpired).
Proof.
  intros p now n n' i H S L. unfold lease_status in H. rewrite L, S in H. set (x := last_active conf old p (clk p now) (n_reps n)) in *.
  assert (Lt : (l_term n =? 0) = false). { unfold lease_info in L. destruct (l_term n =? 0); try discriminate. auto. }
  assert (Sd : forall m, n_st m = LLeader -> n_st (step_down (n_term n) m) = LFollower /\ n_reps (step_down (n_term n) m) = [] /\ lease_info (timeout p now) (clk p now) (step_down (n_term n) m) = LiExpired).
  { intros m E. unfold step_down. rewrite E. cbn [lease_stop set_role set_reps n_term]. destruct (n_term m <? n_term n); cbn; auto. }
  destruct (lease_info (timeout p now) (clk p now) (set_lts x n)) eqn:E; injection H as <- <-.
  - right. destruct (Sd (set_lts x n) S) as (a & b & c). auto.
  - right. destruct (Sd (set_lts x n) S) as (a & b & c). auto.
  - left. unfold lease_info in E. cbn [set_lts l_term l_ts l_epoch] in E. rewrite Lt in E. destruct (Z.eqb_spec x 0); try discriminate. destruct (Z.ltb_spec (clk p now) (x + timeout p now)); try discriminate. injection E as <- <-. sp; auto. lia.
  - right. destruct (Sd (set_lts x n) S) as (a & b & c). auto.
Qed.

(** Votes: as long as a follower heard from a leader within [fto + drift] it lets no request be granted. *)
Theorem C30_follower_lease_refuses : forall p k ok now n n' ms rs, vote_2 fto drift clk p k ok now n = Some (n', ms, rs) -> clk p now < f_ts n + fto p now + drift p now ->
  rs = [] /\ n_term n' = n_term n /\ n_voted n' = n_voted n /\ n_st n' = n_st n.
Proof.
  intros p k ok now n n' ms rs H K. unfold vote_2 in H. destruct (find_w k (n_vw n)) as [w|]; try discriminate. set (n1 := set_vw _ _ n) in *.
  assert (E : votable fto drift clk p now n1 = false). { unfold votable, n1. cbn [set_vw f_ts]. apply Z.leb_gt. auto. }
  rewrite E in H. cbn [negb] in H. rewrite Bool.orb_true_r in H. injection H as <- _ <-. sp; reflexivity.
Qed.
End P.

(** Timeouts that never change: no follower's election timeout (twice that of the options at a witness)
    is shorter than the leader's, and max_clock_drift covers the clocks. *)
Theorem constant_timeouts : forall conf old (timeout : Z) (fto : peer -> Z) drift clk dr eps, (forall p, timeout <= fto p) -> dr + eps <= drift ->
  timeouts_safe conf old (fun _ _ => timeout) (fun p _ => fto p) (fun _ _ => drift) clk dr eps.
Proof. intros conf old timeout fto drift clk dr eps H1 H2 l q v c _ _ Hc. right. specialize (H1 q). lia. Qed.

(** * Non-vacuity: a group of three with a drifting clock, where a lease becomes valid *)
Lemma exec_run : forall conf old timeout fto drift clk eps xs s0 s, timed_execution conf old timeout fto drift clk eps s0 -> lrun conf old timeout fto drift clk s0 xs = Some s ->
  started_together eps clk s -> (forall dt p lt, ~ In (dt, p, LCrash lt) xs) -> timed_execution conf old timeout fto drift clk eps s.
Proof.
  intros conf old timeout fto drift clk eps. induction xs as [|x xs IH]; intros s0 s H0 Hr Hs Hc; cbn [lrun] in Hr; [congruence|].
  destruct (lstep conf old timeout fto drift clk s0 x) as [s1|] eqn:E; try discriminate. assert (I : incl (c_trace s1) (c_trace s)).
  { clear -Hr. revert s1 Hr. induction xs as [|x xs IH]; intros s1 Hr; cbn [lrun] in Hr; [injection Hr as <-; intros y Hy; auto|]. destruct (lstep conf old timeout fto drift clk s1 x) as [s2|] eqn:E; try discriminate.
    apply IH in Hr. apply step_form in E. destruct E as (dt & p & e & n & ms & rs & _ & _ & _ & ->). intros y Hy. apply Hr. cbn [c_trace]. apply in_or_app. auto. }
  apply (IH s1); auto.
  - econstructor; eauto. + intros l t q ts f tr h1 h2. eapply Hs; eauto.
    + destruct x as [[dt p] e]. cbn. destruct e; auto. exfalso. eapply Hc. left. reflexivity.
  - intros dt p lt K. eapply Hc. right. exact K.
Qed.
Definition demo_clk (p : peer) (t : Z) : Z := Z.max 1 t + (if p =? 2 then Z.min 3 (Z.max 0 t) else 0).
Lemma demo_clocks : clocks (5 - 2) demo_clk.
Proof. unfold clocks, demo_clk. sp; intros; repeat match goal with |- context [if ?b then _ else _] => destruct b end; lia. Qed.
Definition demo_lead : list (Z * peer * lev) :=
  [(100, 1, LElect1); (0, 1, LElect2); (1, 2, LVote1 1 2 1 None); (0, 2, LVote2 0 true); (1, 1, LVoteResp 2 2 1 true None 2 false);
   (0, 1, LStartRep 2); (0, 1, LStartRep 3); (1, 1, LSend 2); (1, 2, LAppend 1 2 103 false); (1, 1, LAck 2 2 103); (0, 1, LFirst); (0, 1, LBegin 1)].
Notation demo_run clk xs := (lrun [1; 2; 3] None (fun _ _ => 10) (fun _ _ => 10) (fun _ _ => 5) clk lc0 xs).
Definition state_of (o : option lcl) : lcl := match o with Some s => s | None => lc0 end.
Lemma state_of_some : forall o, (match o with Some _ => true | None => false end) = true -> o = Some (state_of o).
Proof. intros [s|] H; [reflexivity|discriminate]. Qed.
Definition starts_ok (eps : Z) (clk : peer -> Z -> Z) (s : lcl) : bool :=
  forallb (fun a => match a with RStart l t q ts => forallb (fun b => match b with RRenew f l' t' tr => negb ((l =? l') && (t =? t')) || (clk l ts <=? clk l tr + eps) | _ => true end) (c_trace s) | _ => true end) (c_trace s).
Lemma starts_ok_spec : forall eps clk s, starts_ok eps clk s = true -> started_together eps clk s.
Proof.
  intros eps clk s H l t q ts f tr H1 H2. unfold starts_ok in H. rewrite forallb_forall in H. specialize (H _ H1). cbn in H. rewrite forallb_forall in H. specialize (H _ H2). cbn in H. rewrite !Z.eqb_refl in H. cbn in H. apply Z.leb_le. exact H.
Qed.
Definition no_crash (xs : list (Z * peer * lev)) : bool := forallb (fun x => match x with (_, _, LCrash _) => false | _ => true end) xs.
Lemma no_crash_spec : forall xs, no_crash xs = true -> forall dt p lt, ~ In (dt, p, LCrash lt) xs.
Proof. intros xs H dt p lt K. unfold no_crash in H. rewrite forallb_forall in H. specialize (H _ K). discriminate. Qed.
Definition was_elected (s : lcl) (p : peer) (t : Z) : bool := existsb (fun r => match r with RElect p' t' _ => (p =? p') && (t =? t') | _ => false end) (c_trace s).
Lemma was_elected_spec : forall s p t, was_elected s p t = true -> elected s p t.
Proof. intros s p t H. unfold was_elected in H. apply existsb_exists in H. destruct H as [[] [h1 h2]]; try discriminate. apply andb_true_iff in h2. destruct h2 as [a b]. apply Z.eqb_eq in a, b. subst. eexists; eauto. Qed.
Example C30_demo : exists s, demo_run demo_clk demo_lead = Some s /\ timed_execution [1; 2; 3] None (fun _ _ => 10) (fun _ _ => 10) (fun _ _ => 5) demo_clk 2 s /\
  valid_lease (fun _ _ => 10) demo_clk s 1 112 2 1 /\ lease_info 10 (demo_clk 1 113) (c_nodes s 1) = LiSuspect /\ wf_jconf ([1; 2; 3], None) /\ clocks (5 - 2) demo_clk /\ timeouts_safe [1; 2; 3] None (fun _ _ => 10) (fun _ _ => 10) (fun _ _ => 5) demo_clk (5 - 2) 2.
Proof.
  exists (state_of (demo_run demo_clk demo_lead)). assert (E : demo_run demo_clk demo_lead = Some (state_of (demo_run demo_clk demo_lead))) by (apply state_of_some; vm_compute; reflexivity).
  sp; [exact E|..].
  - apply (exec_run _ _ _ _ _ _ _ demo_lead lc0); [constructor|exact E| |]. + apply starts_ok_spec. vm_compute. reflexivity. + apply no_crash_spec. vm_compute. reflexivity.
  - split; vm_compute; [discriminate|reflexivity].
  - vm_compute. reflexivity.
  - split; cbn; auto. repeat constructor; cbn; intuition discriminate.
  - apply demo_clocks.
  - apply constant_timeouts; intros; lia.
Qed.
(** ... and a later election once it ran out: the follower that answered votes when its own lease is over. *)
Definition demo_later : list (Z * peer * lev) :=
  demo_lead ++ [(15, 3, LElect1); (0, 3, LElect2); (1, 2, LVote1 3 2 1 None); (0, 2, LVote2 1 true); (1, 3, LElect1); (0, 3, LElect2); (0, 2, LVote1 3 3 2 None); (0, 2, LVote2 2 true); (1, 3, LVoteResp 2 3 2 true None 3 false)].
Example C30_demo_later : exists s, demo_run demo_clk demo_later = Some s /\ elected s 3 3 /\ elected s 1 2 /\ n_st (c_nodes s 1) = LLeader /\ lease_info 10 (demo_clk 1 (c_now s)) (c_nodes s 1) = LiSuspect.
Proof.
  exists (state_of (demo_run demo_clk demo_later)). sp; [apply state_of_some; vm_compute; reflexivity|..]; try (apply was_elected_spec); vm_compute; reflexivity.
Qed.

(** * What goes wrong without the hypotheses *)
Definition plain_clk (p : peer) (t : Z) : Z := Z.max 1 t.
Lemma plain_clocks : clocks 0 plain_clk.
Proof. unfold clocks, plain_clk. sp; intros; lia. Qed.
(** last_leader_active_timestamp counts this node in configurations it is not in: there the time it
    returns is backed by half of the peers only, and with one peer by none at all. *)
Theorem C30_leader_outside_configuration_refuted :
  ~ (forall p c reps cf, NoDup cf -> exists S, majority cf S /\ forall q, In q S -> q = p \/ active_in p c reps cf <= ts_of q reps).
Proof.
  intros H. destruct (H 1 100 [] [2]) as (S & h1 & h2); [repeat constructor; auto|]. unfold majority in h1.
  assert (In 2 S). { unfold ackers_in in h1. cbn [filter] in h1. destruct (memb 2 S) eqn:E; [|vm_compute in h1; discriminate]. unfold memb in E. apply existsb_exists in E. destruct E as [x [a b]]. apply Z.eqb_eq in b. subst. auto. }
  destruct (h2 2 H0) as [K|K]; [discriminate|vm_compute in K; apply K; reflexivity].
Qed.
(** A replicator started late counts as a contact although its follower never answered: with perfect
    clocks and no restart, two leaders, the older with a valid lease. *)
Definition late_start : list (Z * peer * lev) :=
  [(100, 1, LElect1); (0, 1, LElect2); (1, 2, LVote1 1 2 1 None); (0, 2, LVote2 0 true); (1, 1, LVoteResp 2 2 1 true None 2 false);
   (0, 1, LStartRep 2); (1, 1, LSend 2); (1, 2, LAppend 1 2 103 false); (1, 1, LAck 2 2 103); (0, 1, LFirst);
   (15, 1, LStartRep 3); (0, 1, LBegin 1);
   (0, 3, LElect1); (0, 3, LElect2); (0, 3, LElect1); (0, 3, LElect2); (0, 2, LVote1 3 3 2 None); (0, 2, LVote2 1 true); (0, 3, LVoteResp 2 3 2 true None 3 false)].
Theorem C30_late_replicator_start_refuted : exists s, demo_run plain_clk late_start = Some s /\ valid_lease (fun _ _ => 10) plain_clk s 1 (c_now s) 2 1 /\ elected s 3 3 /\ n_st (c_nodes s 3) = LLeader.
Proof.
  exists (state_of (demo_run plain_clk late_start)). sp; [apply state_of_some; vm_compute; reflexivity|..]; [split; vm_compute; [discriminate|reflexivity]|apply was_elected_spec; vm_compute; reflexivity|vm_compute; reflexivity].
Qed.
(** A node answers a leader in a term it has not saved (it had just become candidate in it), restarts in
    term 1 and may vote at once (node.cpp:606-608): two leaders, the older with a valid lease. *)
Definition lost_term : list (Z * peer * lev) :=
  [(100, 2, LElect1); (0, 1, LElect1); (0, 1, LElect2); (1, 3, LVote1 1 2 1 None); (0, 3, LVote2 0 true); (1, 1, LVoteResp 3 2 1 true None 2 false);
   (0, 1, LStartRep 2); (0, 1, LStartRep 3); (1, 1, LSend 2); (1, 2, LAppend 1 2 103 false); (1, 1, LAck 2 2 103); (0, 1, LFirst); (0, 1, LBegin 1);
   (1, 2, LCrash 0); (0, 3, LElect1); (0, 3, LElect2); (1, 2, LVote1 3 3 1 None); (0, 2, LVote2 0 true); (1, 3, LVoteResp 2 3 1 true None 3 false)].
Theorem C30_restart_with_unsaved_term_refuted : exists s, demo_run plain_clk lost_term = Some s /\ started_together 0 plain_clk s /\ valid_lease (fun _ _ => 10) plain_clk s 1 (c_now s) 2 1 /\ elected s 3 3 /\ n_st (c_nodes s 3) = LLeader.
Proof.
  exists (state_of (demo_run plain_clk lost_term)). sp; [apply state_of_some; vm_compute; reflexivity|..]; [apply starts_ok_spec; vm_compute; reflexivity|split; vm_compute; [discriminate|reflexivity]|apply was_elected_spec; vm_compute; reflexivity|vm_compute; reflexivity].
Qed.

Print Assumptions C30_valid_lease_no_later_election.
Print Assumptions C30_other_leaders_are_older.
Print Assumptions C30_one_valid_lease.
Print Assumptions C30_status_valid.
Print Assumptions C30_only_the_leader_holds_a_lease.
Print Assumptions C30_no_lease_before_first_commit.
Print Assumptions C30_lease_time_backed_by_majority.
Print Assumptions C30_stale_epoch_ignored.
Print Assumptions C30_status_renews_or_steps_down.
Print Assumptions C30_follower_lease_refuses.
Print Assumptions C30_leader_outside_configuration_refuted.
Print Assumptions C30_late_replicator_start_refuted.
Print Assumptions C30_restart_with_unsaved_term_refuted.
