(** Properties C28, C44, C45, C46: the replicator. *)
From Verif Require Import Base BaseLemmas LogEntry Repl ReplSpec ReplProofs ReplProofs2 ReplProofs3 ReplProofs4 ReplProofs5 ReplProofs6 ReplProofs7 ReplProofs8.

(** C28.  The leader counts positions a..b for this peer only when the peer answered, with
    success and in the leader's term, a request whose entries end at b.  Calls are identified
    by their id: no two requests share one. *)
Theorem acknowledged_means_answered : forall c v0 h s o e v s' o' a b,
  rlife c v0 h = Some (s, o) -> rstep c s (e, v) = Some (s', o') -> In (OCommit a b) o' ->
  exists call last p t es cm, e = EvResp call (Resp true (c_term c) last) /\
    In (OReq call p t es cm) o /\ es <> [] /\ b = p + zlen es.
Proof. exact ack_justified. Qed.
Theorem call_ids_unique : forall c v0 h s o k p1 t1 es1 c1 p2 t2 es2 c2, rlife c v0 h = Some (s, o) ->
  In (OReq k p1 t1 es1 c1) o -> In (OReq k p2 t2 es2 c2) o -> p1 = p2 /\ zlen es1 = zlen es2.
Proof. exact call_unique. Qed.

(** C28.  Whatever is answered and whenever, every request names a position of the leader's
    log with its term and carries the entries that follow it in that log, in order, without
    their data when the peer is a witness. *)
Theorem requests_carry_the_log : forall c L v0 h s o k p t es cm, 0 <= c_entries c -> reads L v0 -> (forall e v, In (e, v) h -> reads L v) ->
  rlife c v0 h = Some (s, o) -> In (OReq k p t es cm) o ->
  (p = 0 /\ t = 0 \/ exists e, L p = Some e /\ e_term e = t) /\ zlen es <= c_entries c /\
  forall j x, znth es j = Some x -> exists e, L (p + 1 + j) = Some e /\
    e_id x = e_id e /\ e_type x = e_type e /\ e_peers x = e_peers e /\ e_old x = e_old e /\ e_data x = (if c_strip c then [] else e_data e).
Proof.
  intros c L v0 h s o k p t es cm Hc R0 R H I. assert (G := life_goods _ _ _ _ _ _ Hc R0 R H). unfold Goods in G. rewrite Forall_forall in G.
  specialize (G _ I). cbn in G. destruct G as (G1 & G2 & G3). split; auto. split; auto. intros j x K. destruct (G3 _ _ K) as (_ & e & E & ->).
  exists e. split; auto. unfold wire. destruct (c_strip c); auto 8.
Qed.

(** C28.  As long as read-only mode is not switched off, no position that was sent is forgotten:
    it is at or above the lowest unconfirmed position, or was counted, or is covered by an
    installed snapshot; and the window's consistency CHECKs never fail. *)
Theorem sent_entries_not_lost : forall c v0 h s o, no_readonly_off h -> rlife c v0 h = Some (s, o) ->
  (forall call p t es cm i, In (OReq call p t es cm) o -> p < i <= p + zlen es ->
    r_next s - r_fsize s <= i \/ counted o i \/ exists j v, In (EvInstalled j true, v) h /\ i <= j) /\
  (forall n, In (OCheck n) o -> n <> 2 /\ n <> 3).
Proof.
  intros c v0 h s o N H. destruct (life_hist _ _ _ _ _ N H) as [A B]. split; [exact (h_sent _ _ _ _ A)|].
  intros n K. split; intros ->; apply B in K; auto.
Qed.

(** C28.  Between the lowest unconfirmed position and the position to be sent next there is no
    gap: each position is in a request that was sent and is still in flight. *)
Theorem window_has_no_gap : forall c v0 h s o i, no_readonly_off h -> rlife c v0 h = Some (s, o) -> r_dead s = false ->
  r_next s - r_fsize s <= i < r_next s ->
  exists call p t es cm, In (OReq call p t es cm) o /\ p < i <= p + zlen es /\ In call (map snd (r_fly s)).
Proof.
  intros c v0 h s o i N H D R. destruct (life_hist _ _ _ _ _ N H) as [A _]. destruct (h_inv _ _ _ _ A) as [X|[Co M]]; [congruence|].
  assert (X : exists a n k, In (a, n, k) (r_fly s) /\ a <= i < a + n).
  { destruct M as [(Ch & _)|[(_ & F & _)|(_ & F & _)]]; [|lia|lia]. unfold min_flying in Ch. revert Ch R. generalize (r_next s - r_fsize s). generalize (r_next s).
    induction (r_fly s) as [|[[a n] k] l IH]; intros j b Ch R; cbn [chain] in Ch; [lia|]. destruct Ch as (-> & Hn & Ch).
    destruct (Z.lt_ge_cases i (b + n)); [exists b, n, k; split; [left; auto|lia]|].
    destruct (IH _ _ Ch) as (a' & n' & k' & I & J); [lia|]. exists a', n', k'. split; [right; auto|auto]. }
  destruct X as (a & n & k & I & J). assert (S := Co _ _ _ I). destruct (life_sent _ _ _ _ _ H) as (E & _). rewrite E, <- in_rev in S.
  apply (proj1 (reqs_in _ _ _ _)) in S. destruct S as (t & es & cm & S & ->). exists k, (a - 1), t, es, cm. split; auto. split; [lia|].
  apply in_map_iff. exists (a, zlen es, k). auto.
Qed.

(** C46.  TimeoutNow is sent for a leadership transfer only once the peer has confirmed the
    position the transfer asked for. *)
Theorem transfer_waits_for_the_log : forall c v0 h s o e v s' o', no_readonly_off (h ++ [(e, v)]) -> rlife c v0 h = Some (s, o) ->
  rstep c s (e, v) = Some (s', o') -> In (OTimeoutNow false) o' ->
  exists i m, asked (h ++ [(e, v)]) i /\ confirmed c (h ++ [(e, v)]) (o ++ o') m /\ i <= m.
Proof.
  intros c v0 h s o e v s' o' N H S I.
  assert (N1 : no_readonly_off h) by (intros w K; apply (N w); apply in_app_iff; auto).
  assert (Ne : e <> EvReadonly false) by (intros ->; apply (N v); apply in_app_iff; right; left; auto).
  destruct (life_hist _ _ _ _ _ N1 H) as [A _]. destruct (hist_step _ _ _ _ _ _ _ _ _ A H Ne S) as [St _].
  destruct (st_tn _ _ _ _ _ _ St I) as (i & C & D & E). destruct (succ_confirmed _ _ _ _ _ _ _ _ _ A H St E) as (m & F & G).
  exists i, m. split; [|split; auto; lia].
  destruct C as [->|(-> & C1 & C2 & C3)]; [apply asked_now|]. apply asked_snoc; auto. apply (h_tni _ _ _ _ A). lia.
Qed.
(** C46.  A catch-up closure is told 0 only when the peer has confirmed a position within its
    margin of the log's end. *)
Theorem caught_up_means_confirmed : forall c v0 h s o e v s' o' k, no_readonly_off (h ++ [(e, v)]) -> rlife c v0 h = Some (s, o) ->
  rstep c s (e, v) = Some (s', o') -> In (OCaught k 0) o' ->
  exists margin t v1, In (EvCatch k margin t, v1) (h ++ [(e, v)]) /\ caught c (h ++ [(e, v)]) (o ++ o') margin.
Proof.
  intros c v0 h s o e v s' o' k N H S I.
  assert (N1 : no_readonly_off h) by (intros w K; apply (N w); apply in_app_iff; auto).
  assert (Ne : e <> EvReadonly false) by (intros ->; apply (N v); apply in_app_iff; right; left; auto).
  destruct (life_hist _ _ _ _ _ N1 H) as [A _]. destruct (hist_step _ _ _ _ _ _ _ _ _ A H Ne S) as [St _].
  assert (Cg : forall m, caught_now v s' m -> caught c (h ++ [(e, v)]) (o ++ o') m).
  { intros m (X & Y). destruct (succ_confirmed _ _ _ _ _ _ _ _ _ A H St X) as (q & C & D). exists q, e, v. split; [apply in_app_iff; right; left; auto|]. split; auto. lia. }
  destruct (st_caught _ _ _ _ _ _ St k I) as [(m & t & -> & C)|(kk & C & <- & D)].
  - exists m, t, v. split; auto. apply in_app_iff; right; left; auto.
  - destruct (h_catch _ _ _ _ A _ C) as ((t & v1 & E) & F). exists (k_margin kk), t, v1. split; [apply in_app_iff; auto|].
    destruct D as [D|[D1 D2]]; auto. apply caught_mono; auto.
Qed.
(** C46.  The next index the leader reports for a peer is past confirmed positions only. *)
Theorem reported_next_index_confirmed : forall c v0 h s o, no_readonly_off h -> rlife c v0 h = Some (s, o) -> next_index s <> 0 ->
  exists m, confirmed c h o m /\ next_index s <= m + 1.
Proof.
  intros c v0 h s o N H K. destruct (life_hist _ _ _ _ _ N H) as [A _]. unfold next_index in *. destruct (r_succ s) eqn:E; [|congruence].
  destruct (h_conf _ _ _ _ A E) as (m & B & C). exists m. split; auto. unfold min_flying in C. lia.
Qed.

(** C45.  A living replicator that is not read-only and has something left to send has an
    answer, a timer or a callback on its way; when it has sent everything, either the same
    holds or it is registered with the log manager, which wakes it when the log grows. *)
Theorem no_lost_wakeup : forall c v0 h s o, 0 < c_entries c -> 1 <= c_parallel c -> log_ok (v_first v0) (v_last v0) v0 ->
  log_grows (v_first v0) (v_last v0) h -> undisturbed c h -> rlife c v0 h = Some (s, o) -> r_dead s = false -> r_ro s = 0 ->
  r_next s <= log_end v0 h + 1 /\
  (r_next s <= log_end v0 h -> pending s) /\
  (pending s \/ (r_cancel s = false /\ In (r_wait s) (r_regs s))).
Proof.
  intros c v0 h s o C1 C2 K G U H D R. destruct (life_lv _ _ _ _ _ C1 C2 K G U H) as [X|[A B]]; [congruence|]. rewrite log_end_last.
  split; [apply (l_next _ _ _ A)|]. unfold pending. destruct B as [B|[B|[B|[B|[B1 [(B2 & B3)|B2]]]]]]; [congruence|auto 8..| |auto 8].
  split; auto. lia.
Qed.

(** C44.  From the moment a replicator is told that its peer is read-only, entries appended
    later are not sent to it, except configuration entries; as long as no snapshot beyond
    that point is installed and read-only mode stays on. *)
Theorem readonly_freezes : forall c L v0 h1 s1 o1 v h2 s2 o2, log_ok (v_first v0) (v_last v0) v0 ->
  log_grows (v_first v0) (v_last v0) (h1 ++ (EvReadonly true, v) :: h2) ->
  rlife c v0 h1 = Some (s1, o1) -> r_ro s1 = 0 ->
  rrun c s1 ((EvReadonly true, v) :: h2) = Some (s2, o2) ->
  (forall e w, In (e, w) h2 -> reads L w /\ e <> EvReadonly false /\ forall i, e = EvInstalled i true -> i <= v_last v) ->
  forall k p t es cm j x, In (OReq k p t es cm) o2 -> znth es j = Some x -> v_last v < p + 1 + j -> e_type x = T_CONF.
Proof.
  intros c L v0 h1 s1 o1 v h2 s2 o2 K G H R0 H2 E k p t es cm j x I J Hj.
  assert (G1 : log_grows (v_first v0) (v_last v0) h1 /\ log_ok (v_first v) (v_last v) v /\ v_last v = log_end v0 h1).
  { clear - G. assert (X : forall h f l, log_grows f l (h ++ (EvReadonly true, v) :: h2) -> log_grows f l (h ++ [(EvReadonly true, v)])).
    { induction h as [|[e w] h IH]; intros f l Y; cbn [app log_grows] in *; [tauto|]. destruct Y as (Y1 & Y2 & Y3 & Y4). auto. }
    apply X in G. destruct (log_grows_app _ _ _ _ _ G) as (G1 & f1 & l1 & G2 & -> & _). cbn [log_grows] in G2. rewrite log_end_last. tauto. }
  destruct G1 as (G1 & Kv & El). cbn [rrun rstep] in H2. destruct (r_dead s1) eqn:D; [discriminate|].
  unfold change_readonly in H2. rewrite R0 in H2. cbn in H2. destruct (rrun c _ h2) as [[s3 o3]|] eqn:Rn; [|discriminate]. injection H2 as <- <-.
  destruct (life_nx _ _ _ _ _ K G1 H) as [X|(X1 & X2 & X3)]; [congruence|].
  assert (B := lo_range _ _ _ Kv).
  refine (rz_run _ L (v_last v + 1) _ _ _ _ _ _ Rn k p t es cm I j x J _); [|intros e w W; destruct (E e w W) as (E1 & E2 & E3); sp; auto; intros i Hi; specialize (E3 i Hi); lia|lia].
  unfold RZ. rs. sp; auto; try lia. all: intros; lia.
Qed.

(** ** The hypotheses are met: a log whose entry 7 is a configuration. *)
Definition Lx (i : Z) : option entry :=
  if (1 <=? i) && (i <=? 9) then Some (mkEntry (mkId i (if i <=? 3 then 1 else 2)) (if i =? 7 then T_CONF else T_DATA) [i] None None) else None.
Definition vx (last : Z) : renv :=
  mkEnv 1 last (fun i => if i <=? last then match Lx i with Some e => e_term e | None => 0 end else 0) (fun i => if i <=? last then Lx i else None) 2 (SnOk 2) false.
Definition cx : rcfg := mkCfg 2 2 100 2 false.
(** The peer's log is shorter: one probe is refused, the next succeeds, entries go out in two
    pipelined requests, a catch-up waiter and a transfer are registered, the answers arrive. *)
Definition hx : list (revt * renv) :=
  [(EvResp 1 (Resp false 2 2), vx 5); (EvCatch 8 1 true, vx 5); (EvTransfer 5, vx 5); (EvResp 2 (Resp true 2 2), vx 5);
   (EvResp 3 (Resp true 2 4), vx 5); (EvResp 4 (Resp true 2 5), vx 5)].
Lemma vx_reads : forall last, reads Lx (vx last).
Proof.
  intros last. split; cbn.
  - intros i e H. destruct (i <=? last); [auto|discriminate].
  - intros i H. destruct (i <=? last); [|congruence]. destruct (Lx i) as [e|]; [eauto|congruence].
Qed.
Lemma vx_ok : forall last, 2 <= last <= 9 -> log_ok 1 last (vx last).
Proof.
  intros last H. constructor; cbn; auto; try lia.
  - intros i e. destruct (Z.leb_spec i last); [|discriminate]. unfold Lx. destruct (Z.leb_spec 1 i); [|discriminate]. intros _. lia.
  - intros i N. destruct (Z.leb_spec i last); [|auto]. unfold Lx. destruct (Z.leb_spec 1 i); [|left; lia]. destruct (Z.leb_spec i 9); [|lia]. cbn. destruct (i <=? 3); discriminate.
  - intros i K. injection K as <-. lia.
  - split; discriminate.
Qed.
Example repl_run_ok : exists s o, rlife cx (vx 5) hx = Some (s, o) /\ no_readonly_off hx /\ undisturbed cx hx /\
  log_ok 1 5 (vx 5) /\ log_grows 1 5 hx /\ (forall e v, In (e, v) hx -> reads Lx v) /\ r_dead s = false /\ r_ro s = 0 /\
  In (OCommit 3 4) o /\ In (OCommit 5 5) o /\ In (OCaught 8 0) o /\ In (OTimeoutNow false) o /\ next_index s = 6 /\ r_regs s = [1].
Proof.
  destruct (rlife cx (vx 5) hx) as [[s o]|] eqn:E; [|exfalso; vm_compute in E; discriminate].
  exists s, o. vm_compute in E. injection E as <- <-. split; [reflexivity|].
  split; [intros v K; repeat destruct K as [K|K]; try discriminate; destruct K|].
  split; [intros e v K; repeat (destruct K as [K|K]; [injection K as <- <-; try reflexivity; try exact I|]); destruct K|].
  split; [apply vx_ok; lia|].
  split. { assert (X := vx_ok 5 ltac:(lia)). repeat (split; [first [exact X|cbn; lia]|]). exact I. }
  split; [intros e v K; repeat (destruct K as [K|K]; [injection K as <- <-; apply vx_reads|]); destruct K|].
  repeat (split; [reflexivity|]). cbn [In next_index]. repeat split; auto 20.
Qed.
(** Read-only at 6, then the log grows to 9 with a configuration entry at 7: it goes out alone. *)
Example readonly_run_ok : exists s1 o1 s2 o2, rlife cx (vx 5) (hx ++ [(EvLmWake, vx 6); (EvWoken false, vx 6)]) = Some (s1, o1) /\ r_ro s1 = 0 /\
  rrun cx s1 ((EvReadonly true, vx 6) :: (EvResp 5 (Resp true 2 6), vx 6) :: [(EvLmWake, vx 9); (EvWoken false, vx 9)]) = Some (s2, o2) /\
  log_grows 1 5 ((hx ++ [(EvLmWake, vx 6); (EvWoken false, vx 6)]) ++ (EvReadonly true, vx 6) :: (EvResp 5 (Resp true 2 6), vx 6) :: [(EvLmWake, vx 9); (EvWoken false, vx 9)]) /\
  (exists e cm, In (OReq 6 6 2 [e] cm) o2 /\ e_type e = T_CONF /\ e_index e = 7).
Proof.
  destruct (rlife cx (vx 5) (hx ++ [(EvLmWake, vx 6); (EvWoken false, vx 6)])) as [[s1 o1]|] eqn:E; [|exfalso; vm_compute in E; discriminate].
  destruct (rrun cx s1 ((EvReadonly true, vx 6) :: (EvResp 5 (Resp true 2 6), vx 6) :: [(EvLmWake, vx 9); (EvWoken false, vx 9)])) as [[s2 o2]|] eqn:E2;
    vm_compute in E; injection E as <- <-; [|exfalso; vm_compute in E2; discriminate].
  exists (fst (match rlife cx (vx 5) (hx ++ [(EvLmWake, vx 6); (EvWoken false, vx 6)]) with Some x => x | None => rstart (vx 5) end)).
  eexists. exists s2, o2. split; [vm_compute; reflexivity|]. split; [reflexivity|]. split; [rewrite <- E2; reflexivity|]. split.
  { assert (X := vx_ok 5 ltac:(lia)). assert (Y := vx_ok 6 ltac:(lia)). assert (W := vx_ok 9 ltac:(lia)).
    repeat (split; [first [exact X|exact Y|exact W|cbn; lia]|]). exact I. }
  vm_compute in E2. injection E2 as <- <-. eexists _, _. split; [cbn [In]; auto 20|]. split; reflexivity.
Qed.

(** ** Without the restriction on read-only mode the claims are false.
    Switching read-only mode off calls _wait_more_entries whatever is in flight
    (replicator.cpp:1243-1275).  With two parallel calls, entries can then follow a probe that is
    still in flight, from the same position; the probe's success removes both from the window
    (replicator.cpp:506-512), the answer for the entries is ignored, entry 6 is never counted, and
    a transfer of leadership to the peer starts though only position 5 was confirmed. *)
Definition h30 : list (revt * renv) :=
  [(EvLmWake, vx 6); (EvReadonly true, vx 6); (EvReadonly false, vx 6); (EvWoken false, vx 6); (EvResp 1 (Resp true 2 5), vx 6)].
Theorem readonly_off_loses_entry_refuted : exists s o, rlife cx (vx 5) h30 = Some (s, o) /\
  (exists e cm, In (OReq 2 5 2 [e] cm) o) /\ ~ r_next s - r_fsize s <= 6 /\ ~ counted o 6 /\ (forall j v, ~ In (EvInstalled j true, v) h30) /\
  (exists s' , rstep cx s (EvResp 2 (Resp true 2 6), vx 6) = Some (s', [])) /\
  (exists s', rstep cx s (EvTransfer 6, vx 6) = Some (s', [OTimeoutNow false])).
Proof.
  destruct (rlife cx (vx 5) h30) as [[s o]|] eqn:E; [|exfalso; vm_compute in E; discriminate].
  exists s, o. split; [reflexivity|]. vm_compute in E. injection E as <- <-.
  split; [eexists _, _; cbn [In]; auto 20|]. split; [cbn; lia|].
  split. { intros (a & b & K & _). repeat (destruct K as [K|K]; [discriminate|]). destruct K. }
  split. { intros j v K. repeat (destruct K as [K|K]; [discriminate|]). destruct K. }
  split; eexists; vm_compute; reflexivity.
Qed.
(** With one call at a time: the peer is blocked after a failed call, read-only mode is switched
    off, entries are sent, and the block timer sends a probe although a call is in flight; the
    CHECK at replicator.cpp:575 fails. *)
Theorem readonly_off_check_refuted : exists h s o, rlife (mkCfg 2 1 100 2 false) (vx 5) h = Some (s, o) /\ In (OCheck 2) o.
Proof.
  exists [(EvResp 1 RpcFailed, vx 5); (EvLmWake, vx 6); (EvReadonly true, vx 6); (EvReadonly false, vx 6); (EvWoken false, vx 6); (EvBlock1, vx 6); (EvBlock2, vx 6)].
  destruct (rlife _ (vx 5) _) as [[s o]|] eqn:E; [|exfalso; vm_compute in E; discriminate].
  exists s, o. split; [reflexivity|]. vm_compute in E. injection E as <- <-. cbn [In]. auto 20.
Qed.

Print Assumptions acknowledged_means_answered.
Print Assumptions call_ids_unique.
Print Assumptions requests_carry_the_log.
Print Assumptions sent_entries_not_lost.
Print Assumptions window_has_no_gap.
Print Assumptions transfer_waits_for_the_log.
Print Assumptions caught_up_means_confirmed.
Print Assumptions reported_next_index_confirmed.
Print Assumptions no_lost_wakeup.
Print Assumptions readonly_freezes.
Print Assumptions readonly_off_loses_entry_refuted.
Print Assumptions readonly_off_check_refuted.
