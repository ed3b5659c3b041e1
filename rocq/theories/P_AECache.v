(** Property C37: the cache of out-of-order AppendEntries requests.  [crun mx n0 es = Some (n, o)]:
    from an empty cache of at most [mx] requests, the events [es] (requests arriving, log growing,
    timers, clearing) happen; [n] is the state reached, [o] what was done. *)
From Coq Require Import Sorted Sorting.Permutation.
From Verif Require Import Base BaseLemmas AECache AECacheSpec AECacheProofs.

(** C37.  Every request handed to the cache is handled exactly once, or answered with an error
    exactly once, or still held: none is lost and none is processed twice. *)
Theorem cached_requests_released_once : forall mx es n o, crun mx n0 es = Some (n, o) ->
  Permutation (stored o) (handled o ++ failed o ++ held n).
Proof. intros mx es n o H. destruct (crun_ok _ _ _ _ _ (n0_ok mx) H) as [_ P]. exact P. Qed.

(** C37.  At most [mx] requests are held, and no two of them carry the same position. *)
Theorem held_requests_bounded_and_disjoint : forall mx es n o, 0 <= mx -> crun mx n0 es = Some (n, o) ->
  zlen (held n) <= mx /\ exists l, Permutation l (held n) /\ StronglySorted (fun a b => q_last a <= q_prev b) l /\ Forall (fun r => 1 <= q_n r) l.
Proof.
  intros mx es n o Hm H. destruct (crun_ok _ _ _ _ _ (n0_ok mx) H) as [K _]. unfold nok, held in *. destruct (n_cache n) as [c|].
  - destruct K as ((K1 & K2 & _) & K3). split; [|exists (c_map c); destruct K1; auto]. apply Permutation_length in K2. unfold zlen in *. lia.
  - split; [unfold zlen; cbn [length]; lia|]. exists []. split; auto. split; constructor.
Qed.

(** C37.  When the log has grown to [last], the requests released form a gapless run that starts
    at or below [last]; every request that stays held starts above the end of the run. *)
Theorem released_requests_contiguous : forall mx es n o last n' o', crun mx n0 es = Some (n, o) -> cstep mx n (EvCheck true last) = Some (n', o') ->
  exists run, handled o' = run /\ failed o' = [] /\ Permutation (held n) (run ++ held n') /\
    match run with
    | [] => forall x, In x (held n') -> last < q_prev x
    | r :: _ => q_prev r <= last /\ exists e, gapless run e /\ forall x, In x (held n') -> e < q_prev x
    end.
Proof.
  intros mx es n o last n' o' H S. destruct (crun_ok _ _ _ _ _ (n0_ok mx) H) as [K _]. unfold nok, cstep in *. destruct (n_cache n) as [c|] eqn:E.
  - destruct K as [K1 K2]. destruct (process true last c (n_ts n)) as [[c1 ts1] o1] eqn:P. injection S as <- <-. destruct (process_ok _ _ _ _ _ _ _ K1 P) as (A1 & _).
    unfold process in P. destruct (runable last (c_map c) (c_queue c)) as [[m q] out] eqn:R. assert (G := runable_run _ _ _ _ _ _ R (proj1 K1)). destruct (runable_ok _ _ _ _ _ _ R (proj1 (proj2 K1))) as (B1 & B2 & B3 & _).
    destruct (match m with [] => stop_timer (mkC m q (c_timer c) (c_cv c) (c_tv c)) (n_ts n) | _ => (mkC m q (c_timer c) (c_cv c) (c_tv c), n_ts n) end) as [c2 ts2] eqn:E2. injection P as <- <- <-.
    assert (Sm : c_map c2 = m /\ c_queue c2 = q). { destruct m; [apply stop_same in E2; csi E2; tauto|injection E2 as <- <-; auto]. }
    rewrite held_keep by auto. rewrite (proj2 Sm). unfold held at 1. rewrite E. exists out.
    assert (Hn : handled (nonempty c) = [] /\ failed (nonempty c) = []) by (unfold nonempty; destruct (c_map c), (c_queue c); auto).
    assert (Ho : handled (match out with [] => [] | _ => [OHandle out] end) = out /\ failed (match out with [] => [] | _ => [OHandle out] end) = []) by (destruct out; cbn; rewrite ?app_nil_r; auto).
    rewrite handled_app, failed_app, (proj1 Hn), (proj2 Hn), (proj1 Ho), (proj2 Ho). sp; auto.
    destruct out as [|r out]; [intros x Hx; apply G; eapply Permutation_in; [symmetry; exact B2|auto]|]. destruct G as (G1 & e & G2 & G3). split; auto. exists e. split; auto. intros x Hx. apply G3. eapply Permutation_in; [symmetry; exact B2|auto].
  - injection S as <- <-. exists []. sp; auto. unfold held. rewrite E. auto. intros x [].
Qed.

(** C37.  Requests are not held for ever: for each held request a timer is pending that was started
    for a request no younger than it (so it comes due at most max(election_timeout/4, 1) ms after the
    request's arrival); and whenever that timer runs, the request is released, or the timer is
    replaced by a later one with the same promise.  The CHECKs of the cache do not fail.
    (Positive size of the cache, receive times in order, timers that can be started.) *)
Theorem held_requests_have_a_deadline : forall mx es n o r now, 1 <= mx -> clock now es -> timers_start es -> crun mx n0 es = Some (n, o) -> In r (held n) ->
  exists t, In t (armed (n_ts n) ++ running (n_ts n)) /\ t_start t <= q_recv r /\
    forall ok n' o', In t (running (n_ts n)) -> cstep mx n (EvRun (t_id t) ok true) = Some (n', o') ->
      In r (handled o' ++ failed o') \/
      In r (held n') /\ exists t', In t' (armed (n_ts n')) /\ t_start t < t_start t' <= q_recv r.
Proof.
  intros mx es n o r now Hm Cl Ts H Hr. destruct (crun_ti _ _ _ _ _ _ Hm (n0_ok mx) (n0_ti now) Cl Ts H) as (K & (now' & T) & _).
  unfold held in Hr. destruct (n_cache n) as [c|] eqn:E; [|destruct Hr]. destruct (ti_c _ _ T _ E) as (C1 & C2 & C3 & t & V1 & V2 & V3 & V4). exists t. sp; auto.
  intros ok n' o' Rt S. unfold nok in K. rewrite E in K. destruct K as [K1 K2]. unfold cstep in S.
  destruct (find (fun x => t_id x =? t_id t) (running (n_ts n))) as [t2|] eqn:F; [|discriminate]. apply find_some_id in F. destruct F as [F1 F2].
  assert (t2 = t). { apply (same_id (running (n_ts n))); auto. destruct (ti_ts _ _ T) as [N _]. apply nodup_l in N. tauto. } subst t2.
  rewrite E, V3, Z.eqb_refl in S. unfold timedout in S. rewrite V2, Z.eqb_refl in S. cbn [negb] in S. rewrite (no_check_nonempty _ K1 C1) in S. cbn [app] in S.
  destruct (c_queue c) as [|x q] eqn:Q; [destruct Hr|].
  destruct (Z.leb_spec (q_recv x) (t_start t)) as [L|L].
  - destruct (clear ok c _) as [[c1 ts1] o1] eqn:E1. injection S as <- <-. destruct (clear_ok _ _ _ _ _ _ E1) as (_ & _ & _ & (R & _)). left. eapply Permutation_in; [symmetry; exact R|]. rewrite Q. auto.
  - unfold start_timer in S. injection S as <- <-. right. unfold keep, held. cs. destruct (c_map c) as [|y m] eqn:M; [congruence|]. cs. rewrite Q. split; auto. eexists. split; [left; reflexivity|]. cs. rewrite ?Q.
    split; auto. destruct Hr as [->|Hr]; [lia|]. inversion C2 as [|? ? S1 S2]; subst. rewrite Forall_forall in S2. apply S2. auto.
Qed.
Theorem cache_checks_hold : forall mx es n o now, 1 <= mx -> clock now es -> timers_start es -> crun mx n0 es = Some (n, o) -> ~ In OCheckFail o.
Proof. intros mx es n o now Hm Cl Ts H. apply (crun_ti _ _ _ _ _ _ Hm (n0_ok mx) (n0_ti now) Cl Ts H). Qed.

(** A case that meets the hypotheses: three requests arrive out of order, the log grows, and the
    two that continue it are released; the third is cleared by the timer. *)
Definition ra := mkR 1 20 5 100.
Definition rb := mkR 2 10 5 101.
Definition rc := mkR 3 15 3 102.
Definition ex_es : list cevt := [EvStore true true true 9 ra; EvStore true true true 9 rb; EvStore true true true 9 rc; EvCheck true 10].
Example cache_case : exists n o, crun 8 n0 ex_es = Some (n, o) /\ clock 0 ex_es /\ timers_start ex_es /\ handled o = [rb; rc] /\ held n = [ra].
Proof.
  destruct (crun 8 n0 ex_es) as [[n o]|] eqn:E; [|vm_compute in E; discriminate]. exists n, o. split; [reflexivity|]. vm_compute in E. injection E as <- <-. sp; auto.
  - cbn. lia.
  - intros e H. repeat (destruct H as [<-|H]; [reflexivity|]). destruct H.
Qed.
Example cache_timeout : exists n o, crun 8 n0 (ex_es ++ [EvDue 1; EvRun 1 true true]) = Some (n, o) /\ handled o = [rb; rc; ra] /\ held n = [].
Proof. destruct (crun 8 n0 (ex_es ++ [EvDue 1; EvRun 1 true true])) as [[n o]|] eqn:E; [|vm_compute in E; discriminate]. exists n, o. split; [reflexivity|]. vm_compute in E. injection E as <- <-. auto. Qed.

(** C37, what does not hold.  A request that could be processed may stay in the cache: after the
    log grew past the first held request in one step, the run ends at that request's end. *)
Theorem runnable_request_held_back_refuted : exists es n o last n' o' r, crun 8 n0 es = Some (n, o) /\ cstep 8 n (EvCheck true last) = Some (n', o') /\ In r (held n') /\ q_prev r <= last.
Proof.
  exists [EvStore true true true 9 (mkR 1 10 2 100); EvStore true true true 9 (mkR 2 13 2 101)].
  destruct (crun 8 n0 [EvStore true true true 9 (mkR 1 10 2 100); EvStore true true true 9 (mkR 2 13 2 101)]) as [[n o]|] eqn:E; [|vm_compute in E; discriminate].
  destruct (cstep 8 n (EvCheck true 14)) as [[n' o']|] eqn:E2; [|vm_compute in E; injection E as <- <-; vm_compute in E2; discriminate].
  exists n, o, 14, n', o', (mkR 2 13 2 101). split; auto. split; auto. vm_compute in E. injection E as <- <-. vm_compute in E2. injection E2 as <- <-. split; [left; auto|cbn; lia].
Qed.
(** When a timer cannot be started the emptied cache object stays, and the next check of the cache
    fails the CHECK that it is not empty. *)
Theorem timer_failure_trips_check_refuted : exists es n o, crun 8 n0 es = Some (n, o) /\ In OCheckFail o.
Proof.
  exists [EvStore true true false 9 (mkR 1 10 2 100); EvCheck true 10].
  destruct (crun 8 n0 [EvStore true true false 9 (mkR 1 10 2 100); EvCheck true 10]) as [[n o]|] eqn:E; [|vm_compute in E; discriminate]. exists n, o. split; auto. vm_compute in E. injection E as <- <-. cbn. auto.
Qed.
(** The version given to a new cache is ignored (every cache has version 0): a timer left over from
    a deleted cache is taken for the new cache's own, and clears requests that just arrived. *)
Theorem stale_timer_clears_new_cache_refuted : exists es n o i n' o', crun 8 n0 es = Some (n, o) /\ In (mkR 2 20 2 100) (held n) /\ n_ver n = 2 /\ i = 1 /\
  (exists t, In t (armed (n_ts n)) /\ t_id t = 2) /\ cstep 8 n (EvRun i true true) = Some (n', o') /\ held n' = [].
Proof.
  exists [EvStore true true true 9 (mkR 1 10 2 100); EvDue 1; EvClear true; EvStore true true true 9 (mkR 2 20 2 100)].
  destruct (crun 8 n0 [EvStore true true true 9 (mkR 1 10 2 100); EvDue 1; EvClear true; EvStore true true true 9 (mkR 2 20 2 100)]) as [[n o]|] eqn:E; [|vm_compute in E; discriminate].
  destruct (cstep 8 n (EvRun 1 true true)) as [[n' o']|] eqn:E2; [|vm_compute in E; injection E as <- <-; vm_compute in E2; discriminate].
  exists n, o, 1, n', o'. split; auto. vm_compute in E. injection E as <- <-. vm_compute in E2. injection E2 as <- <-. sp; auto.
  - left; auto.
  - eexists. split; [left; reflexivity|auto].
Qed.

Print Assumptions cached_requests_released_once.
Print Assumptions held_requests_bounded_and_disjoint.
Print Assumptions released_requests_contiguous.
Print Assumptions held_requests_have_a_deadline.
Print Assumptions cache_checks_hold.
Print Assumptions runnable_request_held_back_refuted.
Print Assumptions timer_failure_trips_check_refuted.
Print Assumptions stale_timer_clears_new_cache_refuted.
