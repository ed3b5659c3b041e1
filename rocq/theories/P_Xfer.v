(** C58: moving the leadership (transfer_leadership_to, its time-out, and the wake-up of a candidate by shutdown). *)
From Verif Require Import Base Xfer XferSpec XferProofs.

(** Who is told to take over.  transfer_leadership_to makes the target start an election only if it has acknowledged the whole
    log of the leader; at most once per transfer; not after the transfer timed out, the node stepped down or was elected
    again; with the term the node leads. *)
Theorem transfer_tells_only_the_caught_up_target self wit es s h h1 p t h2 :
  trun self wit tinit es = Some (s, h) -> h = h1 ++ OTimeoutNow p t false :: h2 ->
  exists i, pending h1 None = Some (p, i) /\ i < acked p h1 0 /\ t = led h1 0.
Proof. intros H E. destruct (init_run _ _ _ _ _ H) as [_ C]. exact (C h1 _ h2 E). Qed.

(** While the leadership is being moved the leader appends nothing, so the target does not fall behind, and no second transfer
    begins. *)
Theorem nothing_appended_while_transferring self wit es s h h1 c h2 :
  trun self wit tinit es = Some (s, h) -> h = h1 ++ c :: h2 -> (c = OAppended \/ exists p i, c = OStarted p i) ->
  moving h1 false = false.
Proof.
  intros H E Hc. assert (M : mvst [] tinit) by (split; discriminate).
  destruct (run_mv self wit es [] tinit s h init_XI M H) as [_ C]. specialize (C h1 c h2 E). destruct Hc as [->|(p & i & ->)]; exact C.
Qed.
Theorem transferring_iff_moving self wit es s h : trun self wit tinit es = Some (s, h) -> (t_role s = TTransferring <-> moving h false = true).
Proof.
  intros H. assert (M : mvst [] tinit) by (split; discriminate). destruct (run_mv self wit es [] tinit s h init_XI M H) as [C _].
  unfold mvst in C. cbn in C. tauto.
Qed.

(** A transfer never hangs: while it is in progress exactly one time-out of the current term is armed, and its delivery makes the
    node lead on, with no target left to be told. *)
Theorem transfer_never_hangs self wit es s h : trun self wit tinit es = Some (s, h) -> t_role s = TTransferring ->
  exists p, In (t_term s, p) (t_timers s) /\ (forall q, In (t_term s, q) (t_timers s) -> q = p) /\
  exists s', tstep self wit s (VTimer (t_term s) p) = Some (s', [OResumed]) /\
    t_role s' = TLeader /\ t_term s' = t_term s /\ t_conf s' = t_conf s /\ t_last s' = t_last s /\ t_busy s' = t_busy s /\
    (forall q r, In (q, r) (t_reps s') -> q_tni r = 0).
Proof.
  intros H R. destruct (init_run _ _ _ _ _ H) as [I _]. destruct (x_tr _ _ I R) as (p & A & B & C). exists p. split; auto. split; auto.
  cbn [tstep]. replace (existsb (fun x => (fst x =? t_term s) && (snd x =? p)) (t_timers s)) with true.
  2: { symmetry. apply existsb_exists. exists (t_term s, p). split; auto. cbn. rewrite !Z.eqb_refl. reflexivity. }
  cbv zeta. rewrite Z.eqb_refl. cbn [set_tmr t_reps]. pose proof (x_keys _ _ I) as K.
  destruct (rfind p (t_reps s)) as [r|] eqn:F; cbn [set_reps set_tmr t_role]; rewrite R; (eexists; split; [reflexivity|]); cbn;
    (do 5 (split; [reflexivity|])); intros q v Hi.
  - apply rset_in in Hi. destruct Hi as [[-> ->]|[N Hi]]; [reflexivity|]. destruct (Z.eq_dec (q_tni v) 0); auto. exfalso. eauto.
  - destruct (Z.eq_dec (q_tni v) 0); auto. assert (q = p) by eauto. subst q. pose proof (in_rfind _ _ _ K Hi). congruence.
Qed.

(** A time-out left over from an earlier leadership, or delivered after the node stepped down, does nothing. *)
Theorem stale_timeout_harmless self wit es s h t p s' o : trun self wit tinit es = Some (s, h) ->
  t <> t_term s \/ t_role s <> TTransferring -> tstep self wit s (VTimer t p) = Some (s', o) ->
  o = [] /\ exists l, s' = set_tmr l s.
Proof.
  intros H N E. destruct (init_run _ _ _ _ _ H) as [I _]. cbn [tstep] in E.
  destruct (existsb (fun x => (fst x =? t) && (snd x =? p)) (t_timers s)) eqn:X; [|discriminate E].
  apply existsb_exists in X. destruct X as ([t0 p0] & X1 & X2). cbn in X2. apply andb_true_iff in X2. destruct X2 as [X2 X3].
  apply Z.eqb_eq in X2, X3. subst t0 p0. cbv zeta in E. destruct (t =? t_term s) eqn:T.
  - apply Z.eqb_eq in T. subst t. destruct N as [N|N]; [congruence|].
    destruct (t_role s) eqn:R; [exfalso; exact (x_lead _ _ I R p X1)|congruence|].
    pose proof (x_other _ _ I R) as Z0. cbn [set_tmr t_reps] in E. rewrite Z0 in E. cbn in E. rewrite R in E. injection E as <- <-. split; auto. eexists. reflexivity.
  - injection E as <- <-. split; auto. eexists. reflexivity.
Qed.

(** What transfer_leadership_to answers. *)
Lemma transfer_to_form self p ok api s s' o : NoDup (map fst (t_reps s)) -> t_role s = TLeader -> t_busy s = false ->
  transfer_to self p ok api s = (s', o) ->
  (may_transfer self s p /\ t_role s' = TTransferring /\ In (t_term s, p) (t_timers s') /\
     exists m, (m = [] \/ m = [OTimeoutNow p (t_term s) false]) /\ o = OStarted p (t_last s) :: m ++ [OTransfer api (if ok then 0 else -1)]) \/
  (exists rc, refusal self s p rc /\ ~ may_transfer self s p /\ s' = s /\ o = [OTransfer api rc]).
Proof.
  intros K R B H. unfold transfer_to in H.
  destruct (p =? self) eqn:E1.
  { apply Z.eqb_eq in E1. injection H as <- <-. right. exists 0. split; [unfold refusal; tauto|]. split; [intros (_ & _ & X & _); congruence|auto]. }
  apply Z.eqb_neq in E1. destruct (existsb (Z.eqb p) (t_conf s)) eqn:E2; cbn [negb] in H.
  2: { assert (~ In p (t_conf s)) by (intros X; apply existsb_mem in X; congruence).
       injection H as <- <-. right. exists T_EINVAL. split; [unfold refusal; tauto|]. split; [intros (_ & _ & _ & X & _); auto|auto]. }
  apply existsb_mem in E2. destruct (rfind p (t_reps s)) as [r|] eqn:F.
  2: { assert (N : forall r, ~ In (p, r) (t_reps s)) by (intros r X; pose proof (in_rfind _ _ _ K X); congruence).
       injection H as <- <-. right. exists T_EINVAL. split.
       - unfold refusal. do 4 right. left. do 3 (split; [solve [auto]|]). split; auto. right. intros r X. exfalso. exact (N r X).
       - split; [intros (_ & _ & _ & _ & r & X & _); exact (N r X)|auto]. }
  pose proof (rfind_in _ _ _ F) as Fi. destruct (q_dead r) eqn:D.
  - unfold errs_of in H. rewrite D in H. change (0 <? -1) with false in H. cbn iota in H. injection H as <- <-. right. exists T_EINVAL. split.
    + unfold refusal. do 4 right. left. do 3 (split; [solve [auto]|]). split; auto. right. intros r' X. pose proof (in_rfind _ _ _ K X). congruence.
    + split; auto. intros (_ & _ & _ & _ & r' & X & Y & _). pose proof (in_rfind _ _ _ K X). congruence.
  - unfold errs_of in H. rewrite D in H. destruct (0 <? q_err r) eqn:Q.
    + apply Z.ltb_lt in Q. injection H as <- <-. right. exists T_EHOSTUNREACH. split.
      * unfold refusal. do 5 right. do 4 (split; [solve [auto]|]). split; auto. exists r. auto.
      * split; auto. intros (_ & _ & _ & _ & r' & X & _ & Y). pose proof (in_rfind _ _ _ K X). assert (r' = r) by congruence. subst. lia.
    + apply Z.ltb_ge in Q. left. split; [unfold may_transfer; do 4 (split; [solve [auto]|]); exists r; auto|].
      unfold rtransfer in H. destruct (q_succ r && (t_last s <? q_ack r)); injection H as <- <-; cbn; (split; [reflexivity|]); (split; [apply in_app_iff; right; left; reflexivity|]).
      * exists [OTimeoutNow p (t_term s) false]. split; auto.
      * exists []. split; auto.
Qed.

Theorem transfer_answers self wit es s h p ok s' o : trun self wit tinit es = Some (s, h) -> tstep self wit s (VTransfer p ok) = Some (s', o) ->
  (may_transfer self s p /\ t_role s' = TTransferring /\ In (t_term s, p) (t_timers s') /\
     exists m, (m = [] \/ m = [OTimeoutNow p (t_term s) false]) /\ o = OStarted p (t_last s) :: m ++ [OTransfer (Some p) (if ok then 0 else -1)]) \/
  (exists rc, refusal self s p rc /\ ~ may_transfer self s p /\ s' = s /\ o = [OTransfer (Some p) rc]).
Proof.
  intros H E. destruct (init_run _ _ _ _ _ H) as [I _]. cbn [tstep] in E. destruct (t_role s) eqn:R.
  - destruct (t_busy s) eqn:B.
    + injection E as <- <-. right. exists T_EBUSY. split; [unfold refusal; tauto|]. split; [intros (_ & X & _); congruence|auto].
    + injection E as E. apply (transfer_to_form self p ok (Some p) s s' o); auto. apply (x_keys _ _ I).
  - injection E as <- <-. right. exists T_EBUSY. split; [unfold refusal; tauto|]. split; [intros (X & _); congruence|auto].
  - injection E as <- <-. right. exists T_EPERM. split; [unfold refusal; tauto|]. split; [intros (X & _); congruence|auto].
Qed.

(** With ANY_PEER, the target is a member that is not a witness and has acknowledged at least as much as every other such member
    whose RPCs succeed; -1 is answered only if there is none. *)
Theorem transfer_any_picks_the_best self wit es s h order ok s' o : trun self wit tinit es = Some (s, h) -> t_role s = TLeader -> t_busy s = false ->
  tstep self wit s (VTransferAny order ok) = Some (s', o) ->
  (exists p, best wit s p /\
     ((p = self /\ s' = s /\ o = [OTransfer None 0]) \/
      (t_role s' = TTransferring /\ exists m, (m = [] \/ m = [OTimeoutNow p (t_term s) false]) /\
         o = OStarted p (t_last s) :: m ++ [OTransfer None (if ok then 0 else -1)]))) \/
  ((forall p a, ~ eligible wit s p a) /\ s' = s /\ o = [OTransfer None (-1)]).
Proof.
  intros H R B E. destruct (init_run _ _ _ _ _ H) as [I _]. pose proof (x_keys _ _ I) as K. cbn [tstep] in E. rewrite R, B in E.
  destruct (in_order order (t_reps s)) as [l|] eqn:O; [|discriminate E]. destruct (scan wit (t_conf s) l 0 None) as [p|] eqn:S.
  - injection E as E. pose proof (pick_best _ _ _ _ _ K O S) as Bp. left. exists p. split; auto.
    destruct (transfer_to_form self p ok None s s' o K R B E) as [(M1 & M2 & M3 & M4)|(rc & F & M & -> & ->)]; [right; auto|].
    left. destruct Bp as (a & (Q1 & Q2 & r & Q3 & Q4 & Q5 & Q6 & _) & _).
    destruct (Z.eq_dec p self) as [->|N].
    + split; auto. split; auto. unfold refusal in F. destruct F as [F|[F|[F|[F|[F|F]]]]]; destruct F as (F1 & F2); try congruence.
      * destruct F2. congruence.
      * destruct F2 as (_ & _ & ->). reflexivity.
      * tauto.
      * tauto.
    + exfalso. apply M. unfold may_transfer. do 4 (split; [solve [auto]|]). exists r. split; auto. split; auto. lia.
  - injection E as <- <-. right. split; auto. exact (pick_none _ _ _ _ K O S).
Qed.

Theorem transfer_any_refused self wit s order ok s' o : t_role s <> TLeader \/ t_busy s = true -> tstep self wit s (VTransferAny order ok) = Some (s', o) ->
  s' = s /\ o = [OTransfer None (match t_role s with TOther => T_EPERM | _ => T_EBUSY end)].
Proof.
  intros N E. cbn [tstep] in E. destruct (t_role s) eqn:R; [|injection E as <- <-; auto|injection E as <- <-; auto].
  destruct N as [N|N]; [congruence|]. rewrite N in E. injection E as <- <-. auto.
Qed.

(** A leader that is shut down wakes exactly one member: the best one, if any. *)
Theorem shutdown_wakes_the_best self wit es s h t order s' o : trun self wit tinit es = Some (s, h) ->
  tstep self wit s (VStepWake t order) = Some (s', o) -> t_role s' = TOther /\
  ((exists p, best wit s p /\ o = [OTimeoutNow p (t_term s) true; OStepped]) \/ ((forall p a, ~ eligible wit s p a) /\ o = [OStepped])).
Proof.
  intros H E. destruct (init_run _ _ _ _ _ H) as [I _]. pose proof (x_keys _ _ I) as K. cbn [tstep] in E.
  destruct (in_order order (t_reps s)) as [l|] eqn:O; [|discriminate E]. destruct (scan wit (t_conf s) l 0 None) as [p|] eqn:S.
  - pose proof (pick_best _ _ _ _ _ K O S) as Bp. pose proof Bp as (a & (Q1 & Q2 & r & Q3 & Q4 & _) & _). rewrite (in_rfind _ _ _ K Q3), Q4 in E.
    injection E as <- <-. split; [reflexivity|]. left. exists p. auto.
  - injection E as <- <-. split; [reflexivity|]. right. split; auto. exact (pick_none _ _ _ _ K O S).
Qed.

(** What is not guaranteed: a witness, which never becomes leader by itself unless configured to, can be named explicitly and is
    told to take over; transfer_leadership_to does not look at the role of the peer. *)
Definition witness3 (p : peer) : bool := p =? 3.
Definition xfer_ev : list tev :=
  [VElect 2 [1; 2; 3] [2; 3]; VChanged; VAck 2 2; VAck 3 1; VAppend; VAck 2 3; VTransfer 3 true; VAppend; VAck 3 2; VAck 3 3].
Theorem transfer_spares_witnesses_refuted :
  ~ (forall self wit es s h p t, trun self wit tinit es = Some (s, h) -> In (OTimeoutNow p t false) h -> wit p = false).
Proof.
  intros H. destruct (trun 1 witness3 tinit xfer_ev) as [[s h]|] eqn:E.
  - specialize (H 1 witness3 xfer_ev s h 3 2 E). vm_compute in E. injection E as <- <-. assert (X : witness3 3 = false) by (apply H; cbn; tauto). discriminate X.
  - vm_compute in E. discriminate E.
Qed.
(** ... and the answer -1 does not mean that nothing was started. *)
Theorem failed_transfer_sends_nothing_refuted :
  ~ (forall self wit es s h p ok s' o, trun self wit tinit es = Some (s, h) -> tstep self wit s (VTransfer p ok) = Some (s', o) ->
       In (OTransfer (Some p) (-1)) o -> forall q t b, ~ In (OTimeoutNow q t b) o).
Proof.
  intros H. destruct (trun 1 witness3 tinit [VElect 2 [1; 2; 3] [2; 3]; VChanged; VAck 2 2]) as [[s h]|] eqn:E.
  - destruct (tstep 1 witness3 s (VTransfer 2 false)) as [[s' o]|] eqn:E2.
    + pose proof (H 1 witness3 _ s h 2 false s' o E E2) as X. vm_compute in E. injection E as <- <-. vm_compute in E2. injection E2 as <- <-.
      eapply (X ltac:(cbn; tauto) 2 2 false). cbn. tauto.
    + vm_compute in E. injection E as <- <-. vm_compute in E2. discriminate E2.
  - vm_compute in E. discriminate E.
Qed.

(** Concrete runs: a transfer to a lagging peer waits for its acknowledgement; the entry offered meanwhile is not taken. *)
Example xfer_run : exists s, trun 1 witness3 tinit xfer_ev = Some (s,
  [OElected 2; OAppended; OAck 2 2; OAck 3 1; OAppended; OAck 2 3; OStarted 3 2; OTransfer (Some 3) 0; OAck 3 2; OAck 3 3; OTimeoutNow 3 2 false])
  /\ t_role s = TTransferring /\ t_timers s = [(2, 3)].
Proof. eexists. split; [vm_compute; reflexivity|]. split; reflexivity. Qed.
(** A time-out, the node leads on; a new transfer to the best peer; it steps down; the old time-outs fire and change nothing. *)
Example xfer_timeout_run : exists s, trun 1 witness3 tinit
  (xfer_ev ++ [VTimer 2 3; VAppend; VErr 3; VTransfer 3 true; VTransferAny [3; 2] true; VTransfer 2 true; VStepDown 3; VTransfer 2 true; VTimer 2 2]) = Some (s,
  [OElected 2; OAppended; OAck 2 2; OAck 3 1; OAppended; OAck 2 3; OStarted 3 2; OTransfer (Some 3) 0; OAck 3 2; OAck 3 3; OTimeoutNow 3 2 false;
   OResumed; OAppended; OTransfer (Some 3) T_EHOSTUNREACH; OStarted 2 3; OTransfer None 0; OTransfer (Some 2) T_EBUSY; OStepped; OTransfer (Some 2) T_EPERM])
  /\ t_role s = TOther /\ t_timers s = [].
Proof. eexists. split; [vm_compute; reflexivity|]. split; reflexivity. Qed.
Example xfer_wake_run : exists s, trun 1 witness3 tinit [VElect 2 [1; 2; 3; 4] [2; 3; 4]; VChanged; VAck 3 2; VAck 2 1; VAck 4 2; VStepWake 2 [3; 4; 2]] = Some (s,
  [OElected 2; OAppended; OAck 3 2; OAck 2 1; OAck 4 2; OTimeoutNow 4 2 true; OStepped]).
Proof. eexists. vm_compute. reflexivity. Qed.

Print Assumptions transfer_tells_only_the_caught_up_target.
Print Assumptions nothing_appended_while_transferring.
Print Assumptions transferring_iff_moving.
Print Assumptions transfer_never_hangs.
Print Assumptions stale_timeout_harmless.
Print Assumptions transfer_answers.
Print Assumptions transfer_any_picks_the_best.
Print Assumptions transfer_any_refused.
Print Assumptions shutdown_wakes_the_best.
Print Assumptions transfer_spares_witnesses_refuted.
Print Assumptions failed_transfer_sends_nothing_refuted.
