(** C67: changing the timeouts of a running group (raft.h:714-743), for the group of Lease.v whose nodes
    have, at every moment, the timeouts the calls of a history left them (LeaseReset.v). *)
From Verif Require Import Base Ballot QuorumSpec BallotProofs Lease LeaseSpec LeaseReset LeaseResetSpec LeaseResetProofs
  LeaseProofs LeaseProofs2 LeaseProofs3 LeaseProofs4 LeaseProofs5 LeaseProofs6 LeaseProofs7 P_Lease.

Section P.
Variables (conf : list peer) (old : option (list peer)) (wit : peer -> bool) (wlead : bool) (e0 d0 : Z) (clk : peer -> Z -> Z) (eps dr : Z).
Hypothesis Wf : wf_jconf (conf, old).
Hypothesis Ce : 0 <= eps.
Hypothesis Ck : clocks dr clk.
Hypothesis E0 : 0 <= e0.
(** An execution in which the timeouts of the nodes are those left by the calls of [h], and a lease that
    is valid under them *)
Definition execution_with (h : history) (s : lcl) : Prop :=
  timed_execution conf old (lead_timeout wit wlead e0 d0 h) (follow_timeout wit wlead e0 d0 h) (follow_drift wit wlead e0 d0 h) clk eps s.
Definition lease_with (h : history) (s : lcl) (l : peer) (now t e : Z) : Prop := valid_lease (lead_timeout wit wlead e0 d0 h) clk s l now t e.
(** [l] leads in term [t], and no node was elected later *)
Definition undisputed (s : lcl) (l : peer) (t : Z) : Prop :=
  n_st (c_nodes s l) = LLeader /\ n_term (c_nodes s l) = t /\ elected s l t /\ forall p t', elected s p t' -> t' <= t /\ (t' = t -> p = l).
Notation at_ := (at_time wit wlead e0 d0).

Lemma safe_main : forall h s l now t e, timeouts_safe conf old (lead_timeout wit wlead e0 d0 h) (follow_timeout wit wlead e0 d0 h) (follow_drift wit wlead e0 d0 h) clk dr eps ->
  execution_with h s -> lease_with h s l now t e -> undisputed s l t.
Proof. intros h s l now t e Hs Hx Hv. exact (C30_valid_lease_no_later_election conf old _ _ _ clk eps dr Wf Ce Hs Ck s l now t e Hx Hv). Qed.

(** vote() and the one-argument reset_election_timeout_ms(), any number of them, on any nodes, at any
    time: no lease is valid beside a later leader, if no election timeout asked for uses up the time
    the clocks need. *)
Theorem resets_with_one_argument_are_safe : forall h m s l now t e, keeps_sum (e0 + d0) m h -> e0 <= m -> m + dr + eps <= e0 + d0 ->
  execution_with h s -> lease_with h s l now t e -> undisputed s l t.
Proof.
  intros h m s l now t e K Hm Hs. apply safe_main. intros a q v c _ _ Hc. right. unfold lead_timeout, follow_timeout, follow_drift.
  set (Q := fun e d => 0 <= e <= m /\ e + d = e0 + d0). set (L := fun e => e <= m).
  assert (QL : forall e d, Q e d -> 0 <= e /\ L e) by (unfold Q, L; lia).
  assert (G : forall p t', inv Q L (at_ h p t')).
  { intros p t'. unfold at_time. apply (inv_sums Q L QL (e0 + d0) m); [unfold Q; tauto|apply inv_init; auto; unfold Q; lia|].
    intros x Hx. destruct (calls_in _ _ _ _ Hx) as (t2 & _ & h2). exact (K _ _ _ h2). }
  destruct (G a c) as [_ i2 _ _ _]. destruct (G q v) as [i1 _ _ i4 i5]. unfold Q, L in *. lia.
Qed.

(** The three steps of raft.h:730-736 to a larger election timeout *)
Theorem raising_as_documented_is_safe : forall h e1 big t1 t3 s l now t e, in_order h -> raised_as_documented (member conf old) wit wlead e0 d0 e1 big t1 t3 clk h ->
  e0 <= e1 -> dr + eps <= d0 -> execution_with h s -> lease_with h s l now t e -> undisputed s l t.
Proof.
  intros h e1 big t1 t3 s l now t e O (H1 & H2 & H3 & [w H4] & H5) He Hd. apply safe_main. intros a q v c Ma Mq Hc. unfold lead_timeout, follow_timeout, follow_drift.
  set (Qa := fun e d => e = e0 /\ (d = d0 \/ d = big)). set (Qb := fun e d => (e = e0 /\ (d = d0 \/ d = big)) \/ (e = e1 /\ d = d0)). set (Qc := fun e d => (e = e0 /\ d = big) \/ (e = e1 /\ d = d0)).
  set (La := fun e => e = e0). set (Lb := fun e => e <= e1).
  assert (QLa : forall e d, Qa e d -> 0 <= e /\ La e) by (unfold Qa, La; lia). assert (QLb : forall e d, Qb e d -> 0 <= e /\ Lb e) by (unfold Qb, Lb; lia). assert (QLc : forall e d, Qc e d -> 0 <= e /\ Lb e) by (unfold Qc, Lb; lia).
  assert (A : forall p t', t' < t3 -> inv Qa La (at_ h p t')).
  { intros p t' Ht. apply at_inv; auto; [unfold Qa; lia|]. intros t2 x h1 h2. specialize (H5 _ _ _ h2). destruct x; cbn [given] in *; try contradiction; auto; destruct (Z.leb_spec t2 t1); unfold Qa; lia. }
  assert (B : forall p t', inv Qb Lb (at_ h p t')).
  { intros p t'. apply at_inv; auto; [unfold Qb; lia|]. intros t2 x h1 h2. specialize (H5 _ _ _ h2). destruct x; cbn [given] in *; try contradiction; auto; destruct (Z.leb_spec t2 t1); unfold Qb; lia. }
  assert (C : forall p t', member conf old p -> t1 <= t' -> inv Qc Lb (at_ h p t')).
  { intros p t' Mp Ht. apply (from_inv wit wlead e0 d0 Qc Lb h p t1 t'); auto.
    - destruct (B p t1) as [b1 b2 b3 b4 b5]. destruct (H2 p Mp) as [k1 k2]. constructor; auto. unfold Qc. auto.
    - intros t2 x h1 h2. specialize (H5 _ _ _ h2). destruct x; cbn [given] in *; try contradiction; auto; destruct (Z.leb_spec t2 t1); unfold Qc; lia. }
  destruct (Z.lt_ge_cases c t3) as [Lc|Lc].
  - right. destruct (A a c Lc) as [_ i2 _ _ _]. destruct (A q v ltac:(lia)) as [i1 _ _ i4 i5]. unfold Qa, La in *. lia.
  - destruct (B a c) as [_ i2 _ _ _]. unfold Lb in i2. destruct (Z.le_gt_cases t1 v) as [Lv|Lv].
    + right. destruct (C q v Mq Lv) as [i1 _ _ i4 i5]. unfold Qc in i1. lia.
    + left. destruct Ck as (_ & Cm & Cd). pose proof (Cd a w t1 t3 H3) as K1. pose proof (Cm a v t1 ltac:(lia)) as K2. pose proof (Cm a t3 c Lc) as K3. lia.
Qed.

(** The three steps of raft.h:737-743 to a smaller one: no wait is needed, but no member may be a witness
    that can lead. *)
Theorem lowering_as_documented_is_safe : forall h e1 t1 s l now t e, in_order h -> lowered_as_documented (member conf old) wit wlead e0 d0 e1 t1 h ->
  (forall p, member conf old p -> wit p && wlead = false) ->
  0 <= e1 <= e0 -> dr + eps <= d0 -> execution_with h s -> lease_with h s l now t e -> undisputed s l t.
Proof.
  intros h e1 t1 s l now t e O (H2 & H5) Hw He Hd. apply safe_main. intros a q v c Ma Mq Hc. right. unfold lead_timeout, follow_timeout, follow_drift.
  set (Qa := fun e d => (e = e0 /\ d = d0) \/ (e = e1 /\ d = e0 + d0 - e1)). set (Qb := fun e d => (e = e0 /\ d = d0) \/ (e = e1 /\ (d = e0 + d0 - e1 \/ d = d0))). set (Qc := fun e d => e = e1 /\ (d = e0 + d0 - e1 \/ d = d0)).
  set (Lb := fun e => e <= e0).
  assert (QLa : forall e d, Qa e d -> 0 <= e /\ Lb e) by (unfold Qa, Lb; lia). assert (QLb : forall e d, Qb e d -> 0 <= e /\ Lb e) by (unfold Qb, Lb; lia). assert (QLc : forall e d, Qc e d -> 0 <= e /\ Lb e) by (unfold Qc, Lb; lia).
  assert (A : forall p t', t' <= t1 -> inv Qa Lb (at_ h p t')).
  { intros p t' Ht. apply at_inv; auto; [unfold Qa; lia|]. intros t2 x h1 h2. specialize (H5 _ _ _ h2). destruct x; cbn [given] in *; try contradiction; auto; destruct (Z.leb_spec t2 t1); unfold Qa; lia. }
  assert (C : forall p t', member conf old p -> t1 <= t' -> inv Qc Lb (at_ h p t')).
  { intros p t' Mp Ht. apply (from_inv wit wlead e0 d0 Qc Lb h p t1 t'); auto.
    - destruct (A p t1 ltac:(lia)) as [b1 b2 b3 b4 b5]. pose proof (H2 p Mp) as k1. constructor; auto. unfold Qc, Qa in *. lia.
    - intros t2 x h1 h2. specialize (H5 _ _ _ h2). destruct x; cbn [given] in *; try contradiction; auto; destruct (Z.leb_spec t2 t1); unfold Qc; lia. }
  destruct (Z.lt_ge_cases v t1) as [Lv|Lv].
  - destruct (A q v ltac:(lia)) as [i1 _ _ i4 i5]. assert (i2 : Lb (t_lead (at_ h a c))). { destruct (Z.lt_ge_cases c t1); [apply (A a c); lia|apply (C a c Ma); lia]. } unfold Qa, Lb in *. lia.
  - destruct (C q v Mq Lv) as [i1 _ _ i4 i5]. destruct (C a c Ma ltac:(lia)) as [k1 _ k3 _ _]. destruct (at_fixed wit wlead e0 d0 h a c) as [f1 f2]. rewrite f1, f2 in k3. specialize (k3 (Hw a Ma)). unfold Qc in *. lia.
Qed.
End P.

(** * What the calls do to the node they are made on *)
(** reset_election_timeout_ms(et): refused above the sum of the two options, and then nothing changes;
    otherwise the leases, the election timer and the replicators get the new timeout and the rest of the
    sum is the clock drift. *)
Theorem reset_obeys_the_threshold : forall et n,
  (o_et n + o_drift n < et -> reset1 et n = (n, REinval)) /\
  (et <= o_et n + o_drift n -> exists n', reset1 et n = (n', ROk) /\ o_et n' = et /\ o_drift n' = o_et n + o_drift n - et /\ t_trig n' = t_trig n /\
     t_fdrift n' = o_drift n' /\ t_rep n' = et /\ (o_wit n && o_wlead n = false -> t_lead n' = et /\ t_fet n' = et /\ t_elect n' = et) /\
     (o_wit n && o_wlead n = true -> t_lead n' = t_lead n /\ t_fet n' = 2 * et /\ t_elect n' = 2 * et)).
Proof.
  intros et n. unfold reset1. split; intros H; destruct (Z.ltb_spec (o_drift n + o_et n) et); try lia; auto.
  rewrite Z.min_l by lia. eexists. split; [reflexivity|]. unfold unsafe_reset. destruct (o_wit n && o_wlead n); cbn [o_et o_drift t_lead t_fet t_fdrift t_elect t_rep t_trig]; repeat split; intros; try discriminate; lia.
Qed.
(** vote(et) is for followers; it makes the same change, and the next election timeout starts a pre-vote
    even if the leader is alive, once. *)
Theorem vote_triggers_one_election : forall et n,
  vote_call ROther et n = (n, REperm) /\
  (o_et n + o_drift n < et -> vote_call RFollower et n = (n, REinval)) /\
  (et <= o_et n + o_drift n -> exists n', vote_call RFollower et n = (n', ROk) /\ o_et n' = et /\ o_et n' + o_drift n' = o_et n + o_drift n /\
     forall x, exists n'', election_timeout RFollower x n' = (n'', true) /\ election_timeout RFollower false n'' = (n'', false)).
Proof.
  intros et n. unfold vote_call. split; auto. split; intros H; destruct (Z.ltb_spec (o_drift n + o_et n) et); try lia; auto.
  rewrite Z.min_l by lia. eexists. split; [reflexivity|]. assert (U : forall e d, o_et (unsafe_reset e d n) = e /\ o_drift (unsafe_reset e d n) = d) by (intros; unfold unsafe_reset; destruct (o_wit n && o_wlead n); auto).
  destruct (U et (o_drift n + o_et n - et)) as [U1 U2]. cbn [set_trig o_et o_drift]. rewrite U1, U2. split; auto. split; [lia|]. intros x. eexists. unfold election_timeout. cbn [set_trig t_trig negb andb]. split; reflexivity.
Qed.
(** A follower that nobody asked to vote starts no pre-vote as long as it heard from its leader within
    its election timeout and clock drift. *)
Theorem quiet_follower_waits : forall ts c n, t_trig n = false -> c < ts + t_fet n + t_fdrift n -> election_timeout RFollower (follower_expired ts c n) n = (n, false).
Proof. intros ts c n H K. unfold election_timeout, follower_expired. rewrite H. destruct (Z.leb_spec (t_fet n + t_fdrift n) (c - ts)); [lia|reflexivity]. Qed.
(** The calls leave the periods of two timers alone: a leader looks at its followers, and a candidate
    starts over, as often as before. *)
Theorem resets_keep_two_timers : forall cs n, (forall et d, ~ In (CInit et d) cs) -> t_sdown (rrun cs n) = t_sdown n /\ t_vote (rrun cs n) = t_vote n.
Proof.
  assert (U : forall e d n, t_sdown (unsafe_reset e d n) = t_sdown n /\ t_vote (unsafe_reset e d n) = t_vote n) by (intros; unfold unsafe_reset; destruct (o_wit n && o_wlead n); auto).
  unfold rrun. induction cs as [|c cs IH]; intros n H; cbn [fold_left]; auto.
  destruct (IH (rstep c n)) as [a b]. { intros et d K. apply (H et d). right. auto. } rewrite a, b. clear IH a b.
  destruct c as [r et|et|et d|r x|e d]; cbn [rstep].
  - unfold vote_call. destruct r; cbn [fst]; auto. destruct (_ <? _); cbn [fst]; auto. apply U.
  - unfold reset1. destruct (_ <? _); cbn [fst]; auto.
  - apply U.
  - unfold election_timeout. destruct r; cbn [fst]; auto. destruct (_ && _); cbn [fst]; auto.
  - exfalso. apply (H e d). left. auto.
Qed.

(** * Cases *)
Notation run_with wit wlead e0 d0 clk h xs := (lrun [1; 2; 3] None (lead_timeout wit wlead e0 d0 h) (follow_timeout wit wlead e0 d0 h) (follow_drift wit wlead e0 d0 h) clk lc0 xs).
Definition nobody (_ : peer) : bool := false.
(** a heartbeat answered by 2, and the lease looked at *)
Definition heartbeat (dt ts : Z) : list (Z * peer * lev) := [(dt, 1, LSend 2); (1, 2, LAppend 1 2 ts false); (1, 1, LAck 2 2 ts); (0, 1, LStatus)].
(** node 3 becomes leader of term 3 with the vote of 2 *)
Definition usurp (dt : Z) : list (Z * peer * lev) :=
  [(dt, 3, LElect1); (0, 3, LElect2); (0, 2, LVote1 3 2 1 None); (0, 2, LVote2 1 true); (0, 3, LElect1); (0, 3, LElect2); (0, 2, LVote1 3 3 2 None); (0, 2, LVote2 2 true); (0, 3, LVoteResp 2 3 2 true None 3 false)].
Definition all3 (t : Z) (c : rcall) : history := [(t, 1, c); (t, 2, c); (t, 3, c)].
Lemma exec_case : forall wit wlead e0 d0 clk eps h xs, (match run_with wit wlead e0 d0 clk h xs with Some _ => true | None => false end) = true ->
  starts_ok eps clk (state_of (run_with wit wlead e0 d0 clk h xs)) = true -> no_crash xs = true ->
  run_with wit wlead e0 d0 clk h xs = Some (state_of (run_with wit wlead e0 d0 clk h xs)) /\ execution_with [1; 2; 3] None wit wlead e0 d0 clk eps h (state_of (run_with wit wlead e0 d0 clk h xs)).
Proof.
  intros wit wlead e0 d0 clk eps h xs H1 H2 H3. pose proof (state_of_some _ H1) as E. split; auto. unfold execution_with. apply (exec_run _ _ _ _ _ _ _ xs lc0); [constructor|exact E| |]; [apply starts_ok_spec; auto|apply no_crash_spec; auto].
Qed.

(** one-argument calls while a leader works *)
Definition sum_calls : history := [(106, 2, CVote RFollower 4); (106, 1, CReset1 12); (107, 3, CReset1 30); (120, 1, CReset1 8)].
Example sum_case : exists s, run_with nobody false 10 5 plain_clk sum_calls (demo_lead ++ heartbeat 12 117) = Some s /\
  execution_with [1; 2; 3] None nobody false 10 5 plain_clk 1 sum_calls s /\ keeps_sum (10 + 5) 12 sum_calls /\ clocks 0 plain_clk /\
  lease_with nobody false 10 5 plain_clk sum_calls s 1 124 2 1 /\ ~ lease_with nobody false 10 5 plain_clk sum_calls s 1 125 2 1.
Proof.
  destruct (exec_case nobody false 10 5 plain_clk 1 sum_calls (demo_lead ++ heartbeat 12 117)) as [E X]; [vm_compute; reflexivity..|].
  eexists. split; [exact E|]. split; [exact X|].
  split; [intros t p c H; cbn in H; repeat (destruct H as [H|H]; [injection H as <- <- <-; cbn; lia|]); destruct H|].
  split; [apply plain_clocks|].
  split; [split; vm_compute; [discriminate|reflexivity]|]. intros [_ K]. vm_compute in K. discriminate K.
Qed.
(** 10 + 5 raised to 20 + 5 *)
Definition raise_calls : history := all3 106 (CReset2 10 20) ++ [(107, 3, CInit 10 20)] ++ all3 140 (CReset2 20 5).
Example raise_case : exists s, run_with nobody false 10 5 plain_clk raise_calls (demo_lead ++ heartbeat 40 145) = Some s /\
  execution_with [1; 2; 3] None nobody false 10 5 plain_clk 1 raise_calls s /\ in_order raise_calls /\
  raised_as_documented (member [1; 2; 3] None) nobody false 10 5 20 20 106 140 plain_clk raise_calls /\
  lease_with nobody false 10 5 plain_clk raise_calls s 1 164 2 1 /\ clocks 0 plain_clk.
Proof.
  destruct (exec_case nobody false 10 5 plain_clk 1 raise_calls (demo_lead ++ heartbeat 40 145)) as [E X]; [vm_compute; reflexivity..|].
  eexists. split; [exact E|]. split; [exact X|].
  split; [cbn; repeat split; intros y H; repeat (destruct H as [<-|H]; [cbn; lia|]); destruct H|].
  split. { split; [lia|]. split. { intros p [H|[]]. cbn in H. destruct H as [<-|[<-|[<-|[]]]]; split; vm_compute; reflexivity. }
    split; [lia|]. split; [exists 1; vm_compute; discriminate|].
    intros t p c H. cbn in H. repeat (destruct H as [H|H]; [injection H as <- <- <-; cbn; lia|]). destruct H. }
  split; [split; vm_compute; [discriminate|reflexivity]|apply plain_clocks].
Qed.
(** 20 + 5 lowered to 5 + 5 *)
Definition lower_calls : history := all3 106 (CReset2 5 20) ++ all3 107 (CReset2 5 5).
Example lower_case : exists s, run_with nobody false 20 5 plain_clk lower_calls (demo_lead ++ heartbeat 10 115) = Some s /\
  execution_with [1; 2; 3] None nobody false 20 5 plain_clk 1 lower_calls s /\ in_order lower_calls /\
  lowered_as_documented (member [1; 2; 3] None) nobody false 20 5 5 106 lower_calls /\
  lease_with nobody false 20 5 plain_clk lower_calls s 1 119 2 1.
Proof.
  destruct (exec_case nobody false 20 5 plain_clk 1 lower_calls (demo_lead ++ heartbeat 10 115)) as [E X]; [vm_compute; reflexivity..|].
  eexists. split; [exact E|]. split; [exact X|].
  split; [cbn; repeat split; intros y H; repeat (destruct H as [<-|H]; [cbn; lia|]); destruct H|].
  split. { split. { intros p [H|[]]. cbn in H. destruct H as [<-|[<-|[<-|[]]]]; vm_compute; reflexivity. }
    intros t p c H. cbn in H. repeat (destruct H as [H|H]; [injection H as <- <- <-; cbn; lia|]). destruct H. }
  split; vm_compute; [discriminate|reflexivity].
Qed.

(** * Refuted *)
(** Without the wait between the steps, the lease of a leader that lost its followers comes back to life
    when its election timeout is raised: two leaders, the older with a valid lease, with perfect clocks. *)
Definition hasty_calls : history := all3 124 (CReset2 10 100) ++ all3 125 (CReset2 100 5).
Theorem raising_without_waiting_refuted : exists s, run_with nobody false 10 5 plain_clk hasty_calls (demo_lead ++ usurp 18 ++ [(10, 1, LStatus)]) = Some s /\
  execution_with [1; 2; 3] None nobody false 10 5 plain_clk 1 hasty_calls s /\
  lease_with nobody false 10 5 plain_clk hasty_calls s 1 (c_now s) 2 1 /\ elected s 3 3 /\ n_st (c_nodes s 3) = LLeader.
Proof.
  destruct (exec_case nobody false 10 5 plain_clk 1 hasty_calls (demo_lead ++ usurp 18 ++ [(10, 1, LStatus)])) as [E X]; [vm_compute; reflexivity..|].
  eexists. split; [exact E|]. split; [exact X|]. split; [split; vm_compute; [discriminate|reflexivity]|]. split; [apply was_elected_spec; vm_compute; reflexivity|vm_compute; reflexivity].
Qed.
(** "larger than safety threshold" is not what vote() and reset_election_timeout_ms() refuse: a timeout
    up to the sum is accepted, and at the sum nothing is left for the clocks, although they drift apart
    by less than the max_clock_drift_ms the group was started with. *)
Definition ahead_clk (p : peer) (t : Z) : Z := Z.max 1 t + (if p =? 2 then Z.min 4 (Z.max 0 (t - 105)) else 0).
Theorem threshold_is_not_safe_refuted : exists s, clocks 4 ahead_clk /\ keeps_sum 15 15 (all3 0 (CReset1 15)) /\
  run_with nobody false 10 5 ahead_clk (all3 0 (CReset1 15)) (demo_lead ++ usurp 11) = Some s /\
  execution_with [1; 2; 3] None nobody false 10 5 ahead_clk 1 (all3 0 (CReset1 15)) s /\
  lease_with nobody false 10 5 ahead_clk (all3 0 (CReset1 15)) s 1 (c_now s) 2 1 /\ elected s 3 3 /\ n_st (c_nodes s 3) = LLeader.
Proof.
  destruct (exec_case nobody false 10 5 ahead_clk 1 (all3 0 (CReset1 15)) (demo_lead ++ usurp 11)) as [E X]; [vm_compute; reflexivity..|].
  eexists. split; [unfold clocks, ahead_clk; split; [|split]; intros; repeat match goal with |- context [if ?b then _ else _] => destruct b end; lia|].
  split; [intros t p c H; cbn in H; repeat (destruct H as [H|H]; [injection H as <- <- <-; cbn; lia|]); destruct H|].
  split; [exact E|]. split; [exact X|]. split; [split; vm_compute; [discriminate|reflexivity]|]. split; [apply was_elected_spec; vm_compute; reflexivity|vm_compute; reflexivity].
Qed.
(** A witness that may lead keeps the lease time it was started with (node.cpp:1338-1340): lowering the
    election timeout as documented leaves its lease valid beside a later leader. *)
Definition first_is_witness (p : peer) : bool := p =? 1.
Theorem lowering_with_a_witness_refuted : exists s, in_order lower_calls /\ lowered_as_documented (member [1; 2; 3] None) first_is_witness true 20 5 5 106 lower_calls /\ clocks 0 plain_clk /\
  run_with first_is_witness true 20 5 plain_clk lower_calls (demo_lead ++ usurp 10) = Some s /\
  execution_with [1; 2; 3] None first_is_witness true 20 5 plain_clk 1 lower_calls s /\
  lease_with first_is_witness true 20 5 plain_clk lower_calls s 1 (c_now s) 2 1 /\ elected s 3 3 /\ n_st (c_nodes s 3) = LLeader.
Proof.
  destruct (exec_case first_is_witness true 20 5 plain_clk 1 lower_calls (demo_lead ++ usurp 10)) as [E X]; [vm_compute; reflexivity..|].
  eexists. split; [cbn; repeat split; intros y H; repeat (destruct H as [<-|H]; [cbn; lia|]); destruct H|].
  split. { split. { intros p [H|[]]. cbn in H. destruct H as [<-|[<-|[<-|[]]]]; vm_compute; reflexivity. }
    intros t p c H. cbn in H. repeat (destruct H as [H|H]; [injection H as <- <- <-; cbn; lia|]). destruct H. }
  split; [apply plain_clocks|]. split; [exact E|]. split; [exact X|]. split; [split; vm_compute; [discriminate|reflexivity]|]. split; [apply was_elected_spec; vm_compute; reflexivity|vm_compute; reflexivity].
Qed.

Print Assumptions resets_with_one_argument_are_safe.
Print Assumptions raising_as_documented_is_safe.
Print Assumptions lowering_as_documented_is_safe.
Print Assumptions reset_obeys_the_threshold.
Print Assumptions vote_triggers_one_election.
Print Assumptions quiet_follower_waits.
Print Assumptions resets_keep_two_timers.
Print Assumptions raising_without_waiting_refuted.
Print Assumptions threshold_is_not_safe_refuted.
Print Assumptions lowering_with_a_witness_refuted.
