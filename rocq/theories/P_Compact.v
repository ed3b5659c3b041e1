(** C50-C53: a group whose nodes take snapshots, drop log entries and bring others up to date
    with snapshots, while leaders fail and members come and go. *)
From Verif Require Import Base BaseLemmas LogEntry Node QuorumSpec LogPrefix Reconf ReconfStatic ReconfInv ReconfGhost ReconfNode ReconfVote ReconfFollow ReconfTrace P_Reconf.
From Verif Require Import Compact CompactInv CompactSim CompactFollow CompactSnap CompactInst CompactRel CompactRun CompactSpec.
From Verif Require BallotBox ConfCtx ReconfSpec.

Section Props.
Variable conf0 : list peer.
Variable boot : peer -> bool.
Variable dec : Z -> option jconf.
Notation reachable := (reachable conf0 boot dec).
Notation in_force := (in_force conf0 dec).
Notation describes_itself := (describes_itself conf0 dec).
Notation cfg := (cfg conf0 dec).
Notation scstep := (scstep conf0 boot dec).
Notation sstep := (sstep conf0 boot dec).
Notation SI := (SI dec).
Notation NI := (NI conf0 boot dec).

Lemma sim : forall c, reachable c -> exists ca, ReconfSpec.reachable conf0 boot dec ca /\ Rel dec c ca.
Proof. intros c [es E]. eapply sim_all; eauto. Qed.
Lemma did_did : forall c ca p o, Rel dec c ca -> did c p o -> ReconfSpec.did ca p o.
Proof. intros c ca p o R H. exact (x_tr _ _ _ R _ _ H). Qed.
Lemma state : forall c p, reachable c -> exists G, SF conf0 dec G /\ NI G p (abs (snodes c p)) /\ SI (snodes c p).
Proof.
  intros c p H. destruct (sim _ H) as (ca & RA & R). destruct (reach_inv _ _ _ _ RA) as [G I].
  exists G. sp; [apply I| |apply R]. rewrite <- (x_nodes _ _ _ R). apply I.
Qed.
Lemma entry_znth : forall l i e, ReconfSpec.entry l i = Some e <-> znth l (i - 1) = Some e.
Proof.
  intros l i e. unfold ReconfSpec.entry, znth. destruct (Z.leb_spec 1 i); destruct (Z.ltb_spec (i - 1) 0); try lia; tauto.
Qed.
Lemma starts_znth : forall a b, (forall i e, znth a (i - 1) = Some e -> znth b (i - 1) = Some e) -> prefix (a : list lent) b.
Proof.
  induction a as [|x a IH] using rev_ind; intros b H; [exists b; reflexivity|].
  assert (P : prefix a b). { apply IH. intros i e Hi. apply H. rewrite znth_app1; [exact Hi|]. apply znth_some_bound in Hi. lia. }
  destruct P as [r ->]. assert (E : znth (a ++ r) (zlen a) = Some x).
  { replace (zlen a) with (zlen a + 1 - 1) by lia. apply H. rewrite znth_app2 by lia. replace (zlen a + 1 - 1 - zlen a) with 0 by lia. reflexivity. }
  rewrite znth_app2 in E by lia. replace (zlen a - zlen a) with 0 in E by lia.
  destruct r as [|y r]; [discriminate E|]. cbn in E. injection E as ->. exists r. rewrite <- app_assoc. reflexivity.
Qed.
Lemma two_fed : forall ca p q a b, ReconfSpec.reachable conf0 boot dec ca -> fed ca p a -> fed ca q b -> zlen a <= zlen b -> prefix (a : list lent) b.
Proof.
  intros ca p q a b RA A B L. apply starts_znth. intros i e Hi. destruct (znth_in_bound b (i - 1)) as [e' He'].
  { apply znth_some_bound in Hi. lia. }
  assert (e = e') as -> by (eapply reconf_state_machines_agree; [exact RA|apply (A i); auto|apply (B i); auto]). exact He'.
Qed.
Lemma fed_starts : forall ca p q a b, ReconfSpec.reachable conf0 boot dec ca -> fed ca p a -> fed ca q b -> starts a b \/ starts b a.
Proof.
  intros ca p q a b RA A B. destruct (Z_le_gt_dec (zlen a) (zlen b)); [left|right]; eapply two_fed; eauto. lia.
Qed.
Lemma fed_committed : forall ca p a, ReconfSpec.reachable conf0 boot dec ca -> fed ca p a -> a <> [] ->
  exists q t es, ReconfSpec.did ca q (ROCommit t es) /\ starts a es.
Proof.
  intros ca p a RA A N. assert (L : 0 < zlen a). { destruct a; [congruence|]. rewrite zlen_cons. pose proof (zlen_nonneg a). lia. }
  destruct (znth_in_bound a (zlen a - 1)) as [e He]; [lia|].
  destruct (reconf_applied_is_committed _ _ _ _ _ _ _ RA (A _ _ He)) as (q & t & es & D & EN).
  exists q, t, es. split; auto. apply starts_znth. intros i x Hx. apply entry_znth.
  pose proof (znth_some_bound _ _ _ Hx). apply entry_znth in EN. apply znth_some_bound in EN.
  eapply reconf_applied_in_commits; [exact RA|apply (A i); exact Hx|exact D|lia].
Qed.

(** * C50 *)
(** Of any two state machines one is ahead of the other and otherwise they are the same, however
    each of them got there. *)
Theorem compact_state_machines_agree : forall c p q, reachable c ->
  starts (content c p) (content c q) \/ starts (content c q) (content c p).
Proof. intros c p q H. destruct (sim _ H) as (ca & RA & R). eapply fed_starts; eauto; apply R. Qed.
(** Entries handed over and snapshots loaded, now or before, on any nodes, tell the same. *)
Theorem compact_applied_agree : forall c p q i e e', reachable c ->
  did c p (ROApply i e) -> did c q (ROApply i e') -> e = e'.
Proof.
  intros c p q i e e' H A B. destruct (sim _ H) as (ca & RA & R). eapply reconf_state_machines_agree; [exact RA| |]; eapply did_did; eauto.
Qed.
Theorem compact_loaded_agrees_applied : forall c p q l i e, reachable c ->
  loaded c p l -> did c q (ROApply i e) -> i <= zlen l -> entry l i = Some e.
Proof.
  intros c p q l i e H A B L. destruct (sim _ H) as (ca & RA & R). apply (x_tr _ _ _ R) in A. cbn [done_ok] in A.
  pose proof (did_did _ _ _ _ R B) as B'.
  destruct (reconf_applied_is_committed _ _ _ _ _ _ _ RA B') as (q0 & t & es & _ & X). apply entry_znth in X. apply znth_some_bound in X.
  destruct (znth_in_bound l (i - 1)) as [x Hx]; [lia|]. apply entry_znth. rewrite Hx. f_equal.
  eapply reconf_state_machines_agree; [exact RA|apply (A i); exact Hx|exact B'].
Qed.
Theorem compact_loaded_agree : forall c p q l l', reachable c ->
  loaded c p l -> loaded c q l' -> starts l l' \/ starts l' l.
Proof.
  intros c p q l l' H A B. destruct (sim _ H) as (ca & RA & R). apply (x_tr _ _ _ R) in A, B. cbn [done_ok] in *. eapply fed_starts; eauto.
Qed.
(** A state machine never contains anything that no leader reported committed. *)
Theorem compact_content_is_committed : forall c p, reachable c -> content c p <> [] ->
  exists q t es, did c q (ROCommit t es) /\ starts (content c p) es.
Proof.
  intros c p H N. destruct (sim _ H) as (ca & RA & R). destruct (fed_committed ca p (content c p) RA) as (q & t & es & D & S); auto.
  { apply R. }
  exists q, t, es. split; auto. apply R; auto. exact I.
Qed.
(** As long as a node runs, its state machine is only ever handed more; a snapshot from the
    leader never takes anything back. *)
Theorem compact_content_grows : forall c p e c', reachable c -> scstep c (p, e) = Some c' -> (forall k, e <> CCrash k) ->
  starts (content c p) (content c' p).
Proof.
  intros c p e c' H E NC. destruct (sim _ H) as (ca & RA & R). destruct (reach_inv _ _ _ _ RA) as [G I].
  assert (N : NI G p (abs (snodes c p))). { rewrite <- (x_nodes _ _ _ R). apply I. }
  pose proof (x_si _ _ _ R p) as HS. assert (S : SF conf0 dec G) by apply I.
  unfold Compact.scstep in E. destruct (sdeliverable c p e) eqn:DL; [|discriminate E].
  destruct (sstep (snodes c p) e) as [[n' o]|] eqn:ST; [|discriminate E]. injection E as <-.
  unfold content. cbn [snodes]. unfold supd. rewrite Z.eqb_refl. set (n := snodes c p) in *.
  assert (PL : forall (r : option (snode * list rout)), plain r = Some (n', o) -> exists o', r = Some (n', o')).
  { intros [[m o']|] X; [|discriminate X]. injection X as <- <-. eauto. }
  assert (SAME : s_sm n' = s_sm n -> starts (s_sm n) (s_sm n')) by (intros ->; exists []; rewrite app_nil_r; reflexivity).
  destruct e; cbn [Compact.sstep] in ST; try (destruct (PL _ ST) as (o' & X)).
  - apply SAME. unfold Compact.elect in X. cbv zeta in X. destruct (r_st (core n)); try discriminate X; destruct (contains _ _); injection X as <- _; reflexivity.
  - apply SAME. injection X as X. eapply sm_vote; eauto.
  - apply SAME. eapply sm_got; eauto.
  - apply SAME. eapply sm_got; eauto.
  - apply SAME. destruct (r_term (core n) <=? t); injection ST as <- <-; reflexivity.
  - apply SAME. eapply sm_append; eauto.
  - apply SAME. injection X as X. unfold ack in X. destruct (r_st (core n)); try (injection X as <- _; reflexivity). destruct (t =? _); [eapply sm_commit_to; eauto|injection X as <- _; reflexivity].
  - apply SAME. unfold disk in X. destruct (k <=? _); [|discriminate X]. cbv zeta in X. destruct (r_st _); injection X as X; try (injection X as <- _; reflexivity); try (subst; reflexivity).
    apply sm_commit_to in X. exact X.
  - apply SAME. unfold propose in X. destruct (r_st (core n)); try (injection X as <- _; reflexivity). destruct (dec v); [injection X as <- _; reflexivity|].
    destruct (lead_append _ _ _ _ _) eqn:Y; [|discriminate X]. injection X as <- _. eapply sm_lead_append; eauto.
  - apply SAME. injection ST as <- <-. unfold request. destruct (r_st (core n)); auto. destruct (r_stage (core n)); auto. cbv zeta. destruct (ConfCtx.conf_equals _ _); reflexivity.
  - apply SAME. unfold caught in X. destruct (r_st (core n)); try (injection X as <- _; reflexivity). destruct (r_stage (core n)); try (injection X as <- _; reflexivity).
    destruct ok; [eapply sm_next; eauto|injection X as <- _; reflexivity].
  - apply SAME. unfold conf_done in X. destruct (existsb _ _ && _); [|discriminate X]. cbv zeta in X. destruct (r_st _); try (injection X as <- _; reflexivity).
    destruct (t =? _); [apply sm_next in X; exact X|injection X as <- _; reflexivity].
  - apply SAME. unfold send in X. destruct (r_st (core n)); try (injection X as <- _; reflexivity). cbv zeta in X. destruct (_ && _); [|discriminate X]. injection X as <- _; reflexivity.
  - apply SAME. injection ST as ST. unfold send_snapshot in ST. destruct (r_st (core n)); try (injection ST as <- _; reflexivity). destruct (0 <? _); injection ST as <- _; reflexivity.
  - unfold apply_one in X. destruct (_ <? _); [|injection X as <- _; exists []; rewrite app_nil_r; reflexivity].
    destruct (znth _ _) as [x|]; [|discriminate X]. injection X as <- _. exists [x]. reflexivity.
  - exfalso. eapply NC. reflexivity.
  - injection ST as <- <-. apply SAME. eapply sim_save_start; eauto.
  - injection ST as <- <-. apply SAME. eapply sim_save_store; eauto.
  - destruct (save_set n) as [m|] eqn:X; [|discriminate ST]. injection ST as <- <-. apply SAME. eapply sim_save_set; eauto.
  - destruct (clear_buffered n) as [m|] eqn:X; [|discriminate ST]. injection ST as <- <-. apply SAME. eapply sim_clear; eauto.
  - destruct (sdeliver _ _ _ _ _ DL eq_refl) as [NP M]. apply (x_net _ _ _ R) in M. destruct M as (M1 & M2 & M3 & M4).
    destruct (v_net _ _ _ _ _ I _ M1) as [((xa & xb & EF & Za & _) & [l0 HL] & CM) _].
    assert (xa = []) as -> by (apply zlen_0_nil; auto).
    destruct CM as [CM|(T0 & i0 & C & LT & LI)]; [lia|].
    destruct (sim_install conf0 boot dec G p from t s ok n n' o T0 i0 l0 S N HS) as [_ [(_ & SM & _)|(_ & SM & PS & _)]]; auto.
    { cbn [app] in EF. exists xb. exact EF. }
    rewrite SM. exact PS.
Qed.

(** * C51 *)
Theorem compact_one_leader_per_term : forall c p q t l l', reachable c ->
  did c p (ROElected t l) -> did c q (ROElected t l') -> p = q /\ l = l'.
Proof.
  intros c p q t l l' H A B. destruct (sim _ H) as (ca & RA & R). eapply reconf_one_leader_per_term; [exact RA| |]; eapply did_did; eauto.
Qed.
(** What was reported committed is in the snapshot and the log of every later leader. *)
Theorem compact_committed_survive : forall c p q t es t' l, reachable c ->
  did c p (ROCommit t es) -> did c q (ROElected t' l) -> t < t' -> starts es l.
Proof.
  intros c p q t es t' l H A B L. destruct (sim _ H) as (ca & RA & R).
  eapply reconf_committed_survive; [exact RA| | |exact L]; eapply did_did; eauto.
Qed.
Theorem compact_commits_agree : forall c p q t es t' es', reachable c ->
  did c p (ROCommit t es) -> did c q (ROCommit t' es') -> starts es es' \/ starts es' es.
Proof.
  intros c p q t es t' es' H A B. destruct (sim _ H) as (ca & RA & R). eapply reconf_commits_agree; [exact RA| |]; eapply did_did; eauto.
Qed.
Theorem compact_leader_was_elected : forall c p q t l, reachable c ->
  r_st (core (snodes c p)) = RLead -> t = r_term (core (snodes c p)) -> did c q (ROElected t l) ->
  q = p /\ starts l (hist (snodes c p)).
Proof.
  intros c p q t l H L -> D. destruct (sim _ H) as (ca & RA & R).
  destruct (reconf_leader_was_elected _ _ _ ca p q (r_term (core (snodes c p))) l RA) as [X Y].
  - rewrite (x_nodes _ _ _ R). exact L.
  - rewrite (x_nodes _ _ _ R). reflexivity.
  - eapply did_did; eauto.
  - rewrite (x_nodes _ _ _ R) in Y. auto.
Qed.
Lemma keeps_disk : forall c ca p a, reachable c -> Rel dec c ca -> ReconfSpec.on_disk ca p a -> keeps c p a.
Proof.
  intros c ca p a H R D. unfold ReconfSpec.on_disk in D. rewrite (x_nodes _ _ _ R) in D.
  destruct (state c p H) as (G & S & N & HS). set (n := snodes c p) in *.
  change (r_sync (abs n)) with (r_sync (core n)) in D. change (r_log (abs n)) with (hist n) in D. split; fold n.
  - eapply prefix_trans; [exact D|apply prefix_firstn].
  - intros k n' o E. fold n in E. destruct (sim_crash conf0 boot dec G p n k n' o N HS E) as (_ & x & RC & AX & _).
    assert (HX : hist n' = r_log x) by (rewrite <- AX; reflexivity). rewrite HX. unfold Reconf.crash in RC.
    destruct (_ && _) eqn:BB; [|discriminate RC]. injection RC as <-. cbn [r_log].
    unfold crash in E. cbv zeta in E. destruct ((r_sync (core n) <=? k) && (k <=? last_index n)) eqn:B; [|discriminate E].
    apply andb_prop in B. destruct B as [K1 _]. apply Z.leb_le in K1. eapply prefix_trans; [exact D|]. change (r_log (abs n)) with (hist n). apply prefix_firstn2. lia.
Qed.
(** A majority of the configuration in force, of both configurations of a joint one, keeps what
    was reported committed, whatever is compacted and whoever dies and starts again. *)
Theorem compact_committed_on_quorum : forall c p t es, reachable c -> did c p (ROCommit t es) ->
  exists cc Q, in_force es cc /\ quorum (fst cc) (snd cc) Q /\ forall n, In n Q -> keeps c n es.
Proof.
  intros c p t es H D. destruct (sim _ H) as (ca & RA & R).
  destruct (reconf_committed_on_quorum _ _ _ _ _ _ _ RA (did_did _ _ _ _ R D)) as (cc & Q & A & B & C).
  exists cc, Q. sp; auto. intros n Hn. eapply keeps_disk; eauto.
Qed.
Theorem compact_reported_change_stays : forall c p t new es, reachable c -> did c p (ROChanged t new es) ->
  in_force es (new, None) /\
  (exists Q, majority new Q /\ forall n, In n Q -> keeps c n es) /\
  (forall q t' l, did c q (ROElected t' l) -> t < t' -> starts es l) /\
  (forall q t' es', did c q (ROCommit t' es') -> starts es es' \/ starts es' es).
Proof.
  intros c p t new es H D. destruct (sim _ H) as (ca & RA & R).
  destruct (reconf_reported_change_stays _ _ _ _ _ _ _ _ RA (did_did _ _ _ _ R D)) as (A & (Q & B & C) & E & F). sp; auto.
  - exists Q. split; auto. intros n Hn. eapply keeps_disk; eauto.
  - intros q t' l X. apply E with q. eapply did_did; eauto.
  - intros q t' es' X. apply F with q t'. eapply did_did; eauto.
Qed.
(** Snapshot and log together: two nodes that agree on the term of an entry agree up to it. *)
Theorem compact_logs_match : forall c p q i a b, reachable c ->
  entry (hist (snodes c p)) i = Some a -> entry (hist (snodes c q)) i = Some b -> l_term a = l_term b ->
  firstn (Z.to_nat i) (hist (snodes c p)) = firstn (Z.to_nat i) (hist (snodes c q)).
Proof.
  intros c p q i a b H A B T. destruct (sim _ H) as (ca & RA & R).
  pose proof (reconf_logs_match _ _ _ ca p q i a b RA) as X. rewrite !(x_nodes _ _ _ R) in X. apply X; auto.
Qed.

(** * C52 *)
Lemma snap_desc : forall s h, snap_is dec s h -> 0 < p_idx s -> describes_itself s.
Proof.
  intros s h (A & B & C & D) L. assert (ZD : zlen (p_data s) = p_idx s) by (rewrite A; apply zlen_firstn_le; lia).
  unfold CompactSpec.describes_itself. sp; auto; try lia.
  - destruct (znth_in_bound (p_data s) (p_idx s - 1)) as [e He]; [lia|]. exists e. split; [apply entry_znth; exact He|].
    rewrite C. unfold term_at. rewrite A in He. rewrite znth_firstn_eq in He by lia. rewrite He. reflexivity.
  - unfold CompactSpec.in_force. rewrite <- (D L (nodup Z.eq_dec conf0, None)). apply in_force_cfg.
Qed.
(** The meta data of a snapshot in the storage are those of what its files contain. *)
Theorem compact_stored_snapshot_ok : forall c p, reachable c -> 0 < p_idx (s_disk (snodes c p)) ->
  describes_itself (s_disk (snodes c p)) /\ starts (p_data (s_disk (snodes c p))) (content c p).
Proof.
  intros c p H L. destruct (state c p H) as (G & _ & _ & HS). split; [eapply snap_desc; [apply HS|exact L]|].
  unfold content. rewrite (q_sm _ _ HS). destruct (q_data _ _ HS) as (A & _). rewrite A. apply prefix_firstn2. pose proof (q_disk _ _ HS). lia.
Qed.
(** So is every snapshot ever sent; its content was reported committed. *)
Theorem compact_sent_snapshot_ok : forall c p L t s, reachable c -> In (p, SOInst L t s) (strace c) ->
  describes_itself s /\ exists q t' es, did c q (ROCommit t' es) /\ starts (p_data s) es.
Proof.
  intros c p L t s H D. destruct (sim _ H) as (ca & RA & R). apply (x_tr _ _ _ R) in D. cbn [done_ok] in D. destruct D as (A & B & C).
  pose proof (snap_desc _ _ A B) as DD. split; auto.
  destruct (fed_committed ca p (p_data s) RA C) as (q & t' & es & X & Y).
  { intros E. destruct DD as (Z0 & Z1 & _). rewrite E in Z0. change (zlen (@nil lent)) with 0 in Z0. lia. }
  exists q, t', es. split; auto. apply R; auto. exact I.
Qed.
(** Nothing is dropped from a log unless the snapshot in the storage covers it. *)
Theorem compact_dropped_is_in_snapshot : forall c p i, reachable c -> 1 <= i < s_first (snodes c p) ->
  exists e, entry (p_data (s_disk (snodes c p))) i = Some e /\ entry (hist (snodes c p)) i = Some e.
Proof.
  intros c p i H L. destruct (state c p H) as (G & _ & _ & HS). set (n := snodes c p) in *.
  destruct (SI_bounds dec n HS) as (B1 & B2 & B3 & B4 & B5). pose proof (q_mid _ _ HS). pose proof (q_disk _ _ HS).
  destruct (znth_in_bound (hist n) (i - 1)) as [e He]; [lia|]. exists e. split; apply entry_znth; auto.
  destruct (q_data _ _ HS) as (A & _). rewrite A, znth_firstn_eq by lia. exact He.
Qed.

(** * C53 *)
(** A leader can serve every follower: it has the next entry and its predecessor's term, or a
    snapshot that covers the entry. *)
Theorem compact_leader_can_serve : forall c p i, reachable c -> let n := snodes c p in
  r_st (core n) = RLead -> 1 <= i <= zlen (hist n) ->
  (i <= p_idx (s_disk n) /\ send_snapshot n = (n, [SOInst (r_self (core n)) (r_term (core n)) (s_disk n)])) \/
  (forall m, 1 <= m -> exists pt es lc, send (i - 1) m n = Some (n, [ROSend (RApp (r_self (core n)) (r_term (core n)) (i - 1) pt es lc)]) /\
     entry es 1 = entry (hist n) i).
Proof.
  intros c p i H n L B. destruct (state c p H) as (G & _ & N & HS). fold n in N, HS.
  destruct (SI_bounds dec n HS) as (B1 & B2 & B3 & B4 & B5). pose proof (q_mid _ _ HS) as Q1.
  destruct (Z_le_gt_dec i (p_idx (s_disk n))) as [C|C].
  - left. split; auto. unfold send_snapshot. rewrite L. destruct (Z.ltb_spec 0 (p_idx (s_disk n))); [reflexivity|lia].
  - right. intros m Lm. unfold send. rewrite L. cbv zeta.
    assert (PT : i - 1 = 0 \/ sterm n (i - 1) <> 0).
    { destruct (Z.eq_dec (i - 1) 0); auto. right. rewrite (sterm_at dec n (i - 1) HS) by lia.
      pose proof (posl_term (hist n) (i - 1) (NI_posl conf0 boot dec _ _ _ N)). lia. }
    destruct (Z.leb_spec 0 (i - 1)); [|lia]. destruct (Z.leb_spec (i - 1) (last_index n)); [|lia]. cbn [andb].
    assert (X : ((i - 1 =? 0) || negb (sterm n (i - 1) =? 0)) = true).
    { destruct PT as [E|E]; [rewrite E; reflexivity|]. destruct (Z.eqb_spec (sterm n (i - 1)) 0); [congruence|]. apply orb_true_r. }
    rewrite X. destruct (Z.leb_spec (s_first n) (i - 1 + 1)); [|lia]. do 3 eexists. split; [reflexivity|].
    destruct (znth_in_bound (hist n) (i - 1)) as [e He]; [lia|]. unfold entry. rewrite (proj2 (entry_znth _ _ _) He). apply entry_znth.
    rewrite (znth_hist dec n i HS) in He by lia. rewrite znth_firstn_eq by lia. rewrite znth_skipn by lia. rewrite <- He. f_equal. lia.
Qed.
(** Whoever answers 0 for the term of an entry it once had has dropped it (the CHECK at
    replicator.cpp:533). *)
Theorem compact_unknown_term_is_dropped : forall c p i, reachable c -> let n := snodes c p in
  1 <= i <= zlen (hist n) -> sterm n i = 0 -> i < s_first n.
Proof.
  intros c p i H n B E. destruct (state c p H) as (G & _ & N & HS). fold n in N, HS.
  destruct (sterm_hist dec n i HS) as [X|[_ X]]; [|lia]. rewrite E in X.
  pose proof (posl_term (hist n) i (NI_posl conf0 boot dec _ _ _ N) B). lia.
Qed.
Lemma set_snapshot_runs : forall s n, s_first n <= mid n + 1 -> set_snapshot s n <> None.
Proof.
  intros s n L E. unfold set_snapshot in E. change (li_index (s_snap n)) with (mid n) in E. destruct (Z.leb_spec (p_idx s) (mid n)); [discriminate E|]. cbv zeta in E.
  destruct (_ =? 0).
  - unfold truncate_prefix in E. cbn [set_virt set_snap s_first] in E. destruct (Z.ltb_spec (p_idx s + 1) (s_first n)); [lia|discriminate E].
  - destruct (_ =? _); [|discriminate E]. destruct (0 <? mid n); [|discriminate E].
    unfold truncate_prefix in E. cbn [set_virt set_snap s_first] in E. destruct (Z.ltb_spec (mid n + 1) (s_first n)); [lia|discriminate E].
Qed.
(** Saving, loading and dropping, handing over committed entries and starting again after a crash
    never fail on a missing entry or a failed CHECK. *)
Definition snapshot_step (n : snode) (e : sev) : Prop :=
  match e with
  | CSaveStart | CSaveStore | CSaveSet | CClear | CInst _ _ _ _ | CApply | CSendSnap => True
  | CCrash k => r_sync (core n) <= k <= zlen (hist n)
  | _ => False
  end.
Theorem compact_snapshot_steps_never_abort : forall c p e, reachable c ->
  snapshot_step (snodes c p) e -> sstep (snodes c p) e <> None.
Proof.
  intros c p e H SS E. destruct (state c p H) as (G & _ & N & HS). set (n := snodes c p) in *.
  destruct (SI_bounds dec n HS) as (B1 & B2 & B3 & B4 & B5). pose proof (q_mid _ _ HS) as Q1.
  destruct e; cbn [snapshot_step] in SS; try destruct SS; cbn [Compact.sstep] in E; try discriminate E.
  - unfold plain in E. destruct (apply_one n) eqn:X; [discriminate E|]. unfold apply_one in X. cbv zeta in X.
    destruct (Z.ltb_spec (r_applied (core n)) (BallotBox.lc (r_box (core n)))); [|discriminate X].
    destruct (i_lc _ _ _ _ _ _ N) as [LL _]. unfold lc in LL. change (BallotBox.lc (r_box (abs n))) with (Z.max (BallotBox.lc (r_box (core n))) (mid n)) in LL.
    change (r_log (abs n)) with (hist n) in LL.
    destruct (znth_in_bound (hist n) (r_applied (core n) + 1 - 1)) as [x Hx]; [lia|]. rewrite (znth_hist dec n _ HS) in Hx by lia. rewrite Hx in X. discriminate X.
  - unfold crash in E. cbv zeta in E. destruct (Z.leb_spec (r_sync (core n)) k); [|lia]. destruct (Z.leb_spec k (last_index n)); [|lia]. cbn [andb] in E.
    destruct (Z.ltb_spec 0 (p_idx (s_disk n))); [|discriminate E].
    match type of E with option_map _ ?x = None => destruct x eqn:X; [discriminate E|] end. unfold load in X.
    unfold set_snapshot in X. cbn [set_sm s_snap li_index] in X. destruct (Z.leb_spec (p_idx (s_disk n)) 0); [lia|]. cbv zeta in X.
    destruct (_ =? 0).
    + unfold truncate_prefix in X. cbn [set_virt set_snap set_sm s_first] in X. destruct (Z.ltb_spec (p_idx (s_disk n) + 1) (s_first n)); [lia|discriminate X].
    + destruct (_ =? _); [|discriminate X]. change (0 <? 0) with false in X. discriminate X.
  - destruct (save_set n) eqn:X; [discriminate E|]. unfold save_set in X. destruct (s_save n) as [[s []]|]; try discriminate X.
    destruct (set_snapshot s n) eqn:Y; [discriminate X|]. apply (set_snapshot_runs s n); auto. lia.
  - destruct (clear_buffered n) eqn:X; [discriminate E|]. unfold clear_buffered in X. destruct (_ =? 0); [discriminate X|]. unfold truncate_prefix in X. cbn [set_virt s_first] in X.
    change (li_index (s_snap n)) with (mid n) in X. destruct (Z.ltb_spec (mid n + 1) (s_first n)); [lia|discriminate X].
  - unfold install in E. destruct (t <? _); [discriminate E|]. cbv zeta in E. destruct (negb _); [discriminate E|]. destruct ok; [|discriminate E].
    destruct (s_save _); [discriminate E|]. destruct (_ <=? _); [discriminate E|]. destruct (id_gtb _ _); [discriminate E|].
    match type of E with match ?x with _ => _ end = None => destruct x eqn:X; [discriminate E|] end. unfold load in X.
    eapply set_snapshot_runs; [|exact X]. cbn [set_sm set_disk on s_first]. change (mid _) with (mid n). lia.
Qed.
End Props.

(** * The theorems say something *)
(** Node 1 leads, three entries are committed with node 2's help; node 1 saves a snapshot and drops
    them; node 3 gets the snapshot and then a fourth entry; node 1 dies and starts again from its
    snapshot; node 3 is elected, and brings node 2 up to date. *)
Definition cx_data : list lent := map (mkL 2) [100; 7; 8].
Definition cx_snap : snapshot := mkSnap 3 2 ([1; 2; 3], None) cx_data.
Definition cx_run1 : list (peer * sev) :=
  [(1, CElect); (1, CGrantSelf 100); (2, CVoteReq 1 2 (mkId 0 0) false); (1, CVoteOk 2 2 100);
   (1, CPropose 7); (1, CPropose 8); (1, CDisk 1 3);
   (1, CSend 0 3); (2, CApp 1 2 0 0 cx_data 0); (1, CAck 2 2 3 1);
   (1, CApply); (1, CApply); (1, CApply); (1, CSaveStart); (1, CSaveStore); (1, CSaveSet); (1, CClear);
   (1, CSendSnap); (3, CInst 1 2 cx_snap true);
   (1, CPropose 9); (1, CDisk 4 4); (1, CSend 3 1); (3, CApp 1 2 3 2 [mkL 2 9] 3); (1, CAck 3 2 4 4)].
Definition cx_run : list (peer * sev) := cx_run1 ++
  [(1, CCrash 4); (3, CElect); (3, CGrantSelf 100); (2, CVoteReq 3 3 (mkId 4 2) false); (3, CVoteOk 2 3 100);
   (3, CDisk 5 5); (3, CSend 3 2); (2, CApp 3 3 3 2 [mkL 2 9; mkL 3 100] 3); (3, CAck 2 3 5 4);
   (3, CApply); (3, CApply); (3, CSend 5 0); (2, CApp 3 3 5 3 [] 5);
   (2, CApply); (2, CApply); (2, CApply); (2, CApply)].
Definition cx_state (es : list (peer * sev)) : scluster :=
  match scrun ex_conf ex_boot ex_dec scinit es with Some c => c | None => scinit end.
Definition cx_ok (es : list (peer * sev)) : bool :=
  match scrun ex_conf ex_boot ex_dec scinit es with Some _ => true | None => false end.
Lemma cx_reach : forall es, cx_ok es = true -> reachable ex_conf ex_boot ex_dec (cx_state es).
Proof.
  intros es H. exists es. unfold cx_ok, cx_state in *.
  destruct (scrun ex_conf ex_boot ex_dec scinit es); [reflexivity|discriminate H].
Qed.
Definition sout_eqb (a b : sout) : bool :=
  match a, b with
  | SO x, SO y => rout_eqb x y
  | SOInst l t s, SOInst l' t' s' => (l =? l') && (t =? t') && if snapshot_dec s s' then true else false
  | SOLoad l, SOLoad l' => if list_eq_dec Reconf.lent_dec l l' then true else false
  | _, _ => false
  end.
Lemma sout_eqb_eq : forall a b, sout_eqb a b = true -> a = b.
Proof.
  intros a b H. destruct a, b; cbn [sout_eqb] in H; try discriminate H.
  - apply rout_eqb_eq in H. congruence.
  - destruct (snapshot_dec s s0); [|rewrite andb_false_r in H; discriminate H]. rewrite andb_true_r in H. apply andb_prop in H.
    destruct H as [A B]. apply Z.eqb_eq in A, B. congruence.
  - destruct (list_eq_dec _ l l0); [congruence|discriminate H].
Qed.
Definition in_b (c : scluster) (p : peer) (o : sout) : bool := existsb (fun x => (fst x =? p) && sout_eqb (snd x) o) (strace c).
Lemma in_b_in : forall c p o, in_b c p o = true -> In (p, o) (strace c).
Proof.
  intros c p o H. apply existsb_exists in H. destruct H as ([q x] & A & B). cbn [fst snd] in B.
  apply andb_prop in B. destruct B as [B1 B2]. apply Z.eqb_eq in B1. apply sout_eqb_eq in B2. subst. exact A.
Qed.
Definition same (a b : list lent) : bool := if list_eq_dec Reconf.lent_dec a b then true else false.
Lemma same_eq : forall a b, same a b = true -> a = b.
Proof. intros a b H. unfold same in H. destruct (list_eq_dec _ a b); [auto|discriminate H]. Qed.
Definition cx_all : list lent := cx_data ++ [mkL 2 9; mkL 3 100].
Definition cx_facts (c : scluster) : bool :=
  in_b c 1 (SO (ROElected 2 [])) && in_b c 1 (SO (ROCommit 2 cx_data)) && in_b c 1 (SOInst 1 2 cx_snap) &&
  in_b c 3 (SOLoad cx_data) && in_b c 1 (SO (ROCommit 2 (cx_data ++ [mkL 2 9]))) && in_b c 1 (SOLoad cx_data) &&
  in_b c 3 (SO (ROElected 3 (cx_data ++ [mkL 2 9]))) && in_b c 3 (SO (ROCommit 3 cx_all)) && in_b c 2 (SO (ROApply 4 (mkL 2 9))) &&
  same (content c 1) cx_data && same (content c 2) (cx_data ++ [mkL 2 9]) && same (content c 3) cx_all &&
  (s_first (snodes c 1) =? 4) && (s_first (snodes c 3) =? 4) && (s_first (snodes c 2) =? 1) &&
  (match r_st (core (snodes c 3)) with RLead => true | _ => false end).
Lemma cx_holds : cx_ok cx_run = true /\ cx_facts (cx_state cx_run) = true.
Proof. vm_compute. split; reflexivity. Qed.
Example compact_example : exists c, reachable ex_conf ex_boot ex_dec c /\
  did c 1 (ROElected 2 []) /\ did c 1 (ROCommit 2 cx_data) /\ In (1, SOInst 1 2 cx_snap) (strace c) /\
  loaded c 3 cx_data /\ did c 1 (ROCommit 2 (cx_data ++ [mkL 2 9])) /\ loaded c 1 cx_data /\
  did c 3 (ROElected 3 (cx_data ++ [mkL 2 9])) /\ did c 3 (ROCommit 3 cx_all) /\ did c 2 (ROApply 4 (mkL 2 9)) /\
  content c 1 = cx_data /\ content c 2 = cx_data ++ [mkL 2 9] /\ content c 3 = cx_all /\
  s_first (snodes c 1) = 4 /\ s_first (snodes c 3) = 4 /\ s_first (snodes c 2) = 1 /\ r_st (core (snodes c 3)) = RLead.
Proof.
  exists (cx_state cx_run). destruct cx_holds as [A B]. split; [apply cx_reach; exact A|].
  clear A. revert B. generalize (cx_state cx_run). intros c B.
  unfold cx_facts in B. rewrite !andb_true_iff in B.
  destruct B as (((((((((((((((B1 & B2) & B3) & B4) & B5) & B6) & B7) & B8) & B9) & B10) & B11) & B12) & B13) & B14) & B15) & B16).
  sp; try (apply in_b_in; assumption); try (apply same_eq; assumption); try (apply Z.eqb_eq; assumption).
  destruct (r_st (core (snodes c 3))); [reflexivity|discriminate B16|discriminate B16].
Qed.

(** The full claim "no message makes a node abort" is false.  Node 2 has applied three entries,
    saved a snapshot and dropped them, and has a fourth entry; a request with all four
    entries that was delayed arrives.  check_and_resolve_conflict knows no term for the first
    one, takes it for a conflict and calls unsafe_truncate_suffix(0), which is below what is
    applied: LOG(FATAL) (log_manager.cpp:310).  (If that does not end the process, brpc's
    default, the four entries are appended once more behind the fourth.) *)
Definition cx_bad : list (peer * sev) :=
  firstn 7 cx_run1 ++
  [(1, CPropose 9); (1, CSend 0 4); (1, CSend 0 3); (2, CApp 1 2 0 0 cx_data 0); (1, CAck 2 2 3 1);
   (1, CSend 3 1); (2, CApp 1 2 3 2 [mkL 2 9] 3); (2, CApply); (2, CApply); (2, CApply);
   (2, CSaveStart); (2, CSaveStore); (2, CSaveSet); (2, CClear)].
Definition cx_late : sev := CApp 1 2 0 0 (cx_data ++ [mkL 2 9]) 0.
Lemma cx_bad_holds : cx_ok cx_bad && sdeliverable (cx_state cx_bad) 2 cx_late &&
  match sstep ex_conf ex_boot ex_dec (snodes (cx_state cx_bad) 2) cx_late with None => true | Some _ => false end = true.
Proof. vm_compute. reflexivity. Qed.
Theorem compact_no_message_aborts_refuted :
  ~ (forall c p e, reachable ex_conf ex_boot ex_dec c -> sdeliverable c p e = true -> sreceived p e <> None ->
       sstep ex_conf ex_boot ex_dec (snodes c p) e <> None).
Proof.
  intros H. pose proof cx_bad_holds as B. rewrite !andb_true_iff in B. destruct B as ((B1 & B2) & B3).
  apply (H (cx_state cx_bad) 2 cx_late (cx_reach _ B1) B2); [discriminate|].
  revert B3. generalize (sstep ex_conf ex_boot ex_dec (snodes (cx_state cx_bad) 2) cx_late). intros [x|] B3; [discriminate B3|reflexivity].
Qed.

Print Assumptions compact_state_machines_agree.
Print Assumptions compact_applied_agree.
Print Assumptions compact_loaded_agrees_applied.
Print Assumptions compact_loaded_agree.
Print Assumptions compact_content_is_committed.
Print Assumptions compact_content_grows.
Print Assumptions compact_one_leader_per_term.
Print Assumptions compact_committed_survive.
Print Assumptions compact_commits_agree.
Print Assumptions compact_leader_was_elected.
Print Assumptions compact_committed_on_quorum.
Print Assumptions compact_reported_change_stays.
Print Assumptions compact_logs_match.
Print Assumptions compact_stored_snapshot_ok.
Print Assumptions compact_sent_snapshot_ok.
Print Assumptions compact_dropped_is_in_snapshot.
Print Assumptions compact_leader_can_serve.
Print Assumptions compact_unknown_term_is_dropped.
Print Assumptions compact_snapshot_steps_never_abort.
Print Assumptions compact_example.
Print Assumptions compact_no_message_aborts_refuted.
