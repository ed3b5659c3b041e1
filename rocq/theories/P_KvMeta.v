(** C60: the merged meta storage keeps every group's term and vote. *)
From Verif Require Import Base KvMeta KvMetaSpec KvMetaProofs.
From Coq Require Import Permutation.

(** What get_term_and_votedfor answers is a value the group may have: that of its last successful call, or of a later one that failed or was
    cut off; the initial record only if nothing was stored successfully.  It holds whatever the other groups do in the same batches, and
    across process kills and (with sync) machine crashes. *)
Theorem kv_get_answers sync power bs es s h id g rd ok s' o v : sync = true \/ power = false ->
  krun true sync power bs kinit es = Some (s, h) -> kstep true sync power bs s (KGet id g rd ok) = Some (s', o) -> In (OGot id g v) o ->
  may_hold g h (Some v).
Proof.
  intros SP H E K. pose proof (krun_KI sync power bs es SP [] kinit s h (kinit_KI power) H) as I. cbn [kstep] in E.
  destruct (_ || _); [discriminate E|]. destruct rd; cbn [negb] in E; [|injection E as <- <-; destruct K as [K|[K|[]]]; discriminate K].
  destruct (stored g (k_db s)) as [w|] eqn:S.
  - injection E as <- <-. destruct K as [K|[K|[]]]; [discriminate K|]. injection K as ->. pose proof (n_may _ _ _ _ I g (length (k_db s))) as M. rewrite firstn_all, S in M. apply M; auto.
    pose proof (n_dur _ _ _ _ I). destruct power; auto.
  - destruct ok; injection E as <- <-; cbn in K; repeat (destruct K as [K|K]; [discriminate K|]); destruct K.
Qed.

(** The same for the store itself at every moment, so also for what is found after the next kill or crash. *)
Theorem kv_store_holds sync power bs es s h g n : sync = true \/ power = false -> krun true sync power bs kinit es = Some (s, h) ->
  (n <= length (k_db s))%nat -> (if power then k_dur s <= n else n = length (k_db s))%nat -> may_hold g h (stored g (firstn n (k_db s))).
Proof. intros SP H. exact (n_may _ _ _ _ (krun_KI sync power bs es SP [] kinit s h (kinit_KI power) H) g n). Qed.

(** In particular: once a call succeeded and no other call for the group was made, that value is found, even after crashes. *)
Definition quiet (g : Z) (o : kout) : Prop :=
  match o with OAsked _ g' _ | OInit _ g' | ODel _ g' _ => g' <> g | _ => True end.
Lemma follow_quiet g h2 : forall vs, Forall (quiet g) h2 -> exists c, fold_left (pstep g) h2 (vs, None) = (vs, c) /\ c = None.
Proof.
  induction h2 as [|o h2 IH]; intros vs F; cbn; [eauto|]. inversion F as [|? ? Q F']. subst.
  destruct o; cbn in Q |- *; auto; try (replace (g0 =? g) with false by (symmetry; apply Z.eqb_neq; auto)); auto; destruct (g0 =? g); auto.
Qed.
Theorem kv_acknowledged_survives sync power bs es s h h1 h2 id v g : sync = true \/ power = false ->
  krun true sync power bs kinit es = Some (s, h) -> h = h1 ++ OAck id 0 :: h2 -> snd (follow g h1) = Some (id, v) -> Forall (quiet g) h2 ->
  forall n, (n <= length (k_db s))%nat -> (if power then k_dur s <= n else n = length (k_db s))%nat -> stored g (firstn n (k_db s)) = Some v.
Proof.
  intros SP H E C F n H1 H2. pose proof (kv_store_holds sync power bs es s h g n SP H H1 H2) as M. subst h. unfold may_hold in M. rewrite follow_app in M.
  destruct (follow g h1) as [vs cur]. cbn in C. subst cur. cbn in M. rewrite Z.eqb_refl in M. destruct (follow_quiet g h2 [Some v] F) as (c & Q & _). rewrite Q in M.
  destruct M as [M|[]]. auto.
Qed.

(** Every call returns exactly once, or was waiting when the process ended, or is still queued. *)
Theorem kv_calls_end_once serial sync power bs es s h : krun serial sync power bs kinit es = Some (s, h) ->
  Permutation (k_asked h) (k_ended h ++ map t_id (k_q s)).
Proof.
  assert (G : forall es s0 s1 o, krun serial sync power bs s0 es = Some (s1, o) -> Permutation (map t_id (k_q s0) ++ k_asked o) (k_ended o ++ map t_id (k_q s1))).
  { clear. induction es as [|e es IH]; intros s0 s1 o H; cbn [krun] in H.
    - injection H as <- <-. cbn. rewrite app_nil_r. auto.
    - destruct (kstep serial sync power bs s0 e) as [[sa oa]|] eqn:E1; [|discriminate H]. destruct (krun serial sync power bs sa es) as [[sb ob]|] eqn:E2; [|discriminate H].
      injection H as <- <-. pose proof (kstep_ended _ _ _ _ _ _ _ _ E1) as P1. pose proof (IH _ _ _ E2) as P2.
      unfold k_asked, k_ended in *. rewrite !flat_map_app. rewrite app_assoc, P1, <- !app_assoc. apply Permutation_app_head. exact P2. }
  intros H. exact (G es kinit s h H).
Qed.
(** ... and the executor, handed the whole queue, answers every call. *)
Theorem kv_executor_drains serial sync power bs s rs s' o : kstep serial sync power bs s (KRun (length (k_q s)) rs) = Some (s', o) ->
  k_q s' = [] /\ k_ended o = map t_id (k_q s).
Proof.
  intros H. cbn [kstep] in H. destruct (kloop _ _ _ _ _ _) as [s1 o1] eqn:E. injection H as <- <-. rewrite (kloop_q _ _ _ _ _ _ _ _ E).
  destruct (kloop_ended _ _ _ _ _ _ _ _ E) as [A _]. rewrite A. cbn. rewrite skipn_all, firstn_all. auto.
Qed.
(** A call succeeds only if its batch was written: the batches cover the tasks in order, none left out, none twice. *)
Theorem kv_batches sync bs its : forall cur rs s s' o, (0 < bs)%nat -> (length cur <= bs)%nat -> kloop sync bs its cur rs s = (s', o) ->
  exists bss : list (list ktask), concat bss = cur ++ its /\ (forall b, In b bss -> b <> [] /\ (length b <= bs)%nat) /\
    exists ws : list kres, length ws = length bss /\ o = concat (map (fun bw => map (kanswer (snd bw)) (fst bw)) (combine bss ws)) /\
      k_db s' = k_db s ++ map (fun bw => map (fun t => KPut (t_grp t) (t_val t)) (fst bw)) (filter (fun bw => match snd bw with KFail => false | _ => true end) (combine bss ws)).
Proof.
  induction its as [|t its IH]; intros cur rs s s' o B L H; cbn [kloop] in H.
  - destruct cur as [|c cur].
    + injection H as <- <-. exists []. split; auto. split; [intros b []|]. exists []. cbn. rewrite app_nil_r. auto.
    + unfold run_tasks in H. injection H as <- <-. exists [c :: cur]. cbn [concat]. split; [rewrite !app_nil_r; auto|]. split; [intros b [<-|[]]; split; [discriminate|auto]|].
      exists [hd KOk rs]. cbn [length combine map concat fst snd app]. rewrite app_nil_r. split; auto. split; auto.
      unfold kwrite. destruct (hd KOk rs); cbn [filter snd map fst k_db]; auto; rewrite app_nil_r; auto.
  - destruct (Nat.eqb (length cur) bs) eqn:Q.
    + apply Nat.eqb_eq in Q. destruct (run_tasks sync cur (hd KOk rs) s) as [s1 o1] eqn:E1. destruct (kloop sync bs its [t] (tl rs) s1) as [s2 o2] eqn:E2. injection H as <- <-.
      destruct (IH [t] (tl rs) s1 s2 o2 B ltac:(cbn; lia) E2) as (bss & C1 & C2 & ws & C3 & C4 & C5). unfold run_tasks in E1. injection E1 as <- <-.
      exists (cur :: bss). cbn [concat]. split; [rewrite C1, app_assoc; cbn; rewrite <- app_assoc; auto|]. split.
      * intros b [<-|Hb]; [|auto]. split; [intros ->; cbn in Q; lia|lia].
      * exists (hd KOk rs :: ws). cbn [length combine map concat fst snd]. split; [congruence|]. split; [congruence|]. rewrite C5.
        unfold kwrite. destruct (hd KOk rs); cbn [filter snd map fst k_db]; rewrite <- ?app_assoc; auto.
    + apply Nat.eqb_neq in Q. destruct (IH (cur ++ [t]) rs s s' o B ltac:(rewrite app_length; cbn; lia) H) as (bss & C1 & C2). exists bss. rewrite <- app_assoc in C1. auto.
Qed.

(** What is not guaranteed. If the callers of one group do not wait for each other, an acknowledged vote can be overwritten by the initial
    record that a concurrent get writes (:779-797), although nobody asked to store anything else for that group. *)
Theorem kv_unserialised_get_overwrites_refuted :
  ~ (forall bs es s h id v g, krun false true false bs kinit es = Some (s, h) -> In (OAsked id g v) h -> In (OAck id 0) h ->
       (forall id' g' v', In (OAsked id' g' v') h -> g' = g -> v' = v) -> (forall id' g' c, ~ In (ODel id' g' c) h) ->
       stored g (k_db s) = Some v).
Proof.
  intros H. destruct (krun false true false 8 kinit [KSet 1 7 (5, 3) true; KGet 2 7 true true; KRun 2 [KOk]]) as [[s h]|] eqn:E; [|vm_compute in E; discriminate E].
  specialize (H 8%nat _ s h 1 (5, 3) 7 E). vm_compute in E. injection E as <- <-.
  assert (X : Some KINIT = Some (5, 3)); [|discriminate X]. apply H; cbn; auto.
  - intros id' g' v' [K|[K|[K|[K|[K|[]]]]]] _; try discriminate K; injection K; auto.
  - intros id' g' c [K|[K|[K|[K|[K|[]]]]]]; discriminate K.
Qed.
(** And without sync the machine's failure loses an acknowledged vote. *)
Theorem kv_survives_power_loss_without_sync_refuted :
  ~ (forall bs es s h g, krun true false true bs kinit es = Some (s, h) -> may_hold g h (stored g (k_db s))).
Proof.
  intros H. destruct (krun true false true 8 kinit [KSet 1 7 (5, 3) true; KRun 1 [KOk]; KPower 0]) as [[s h]|] eqn:E; [|vm_compute in E; discriminate E].
  specialize (H 8%nat _ s h 7 E). vm_compute in E. injection E as <- <-. vm_compute in H. destruct H as [H|[]]. discriminate H.
Qed.

(** A concrete history: three groups share batches of two, one batch fails, the process is killed with a call waiting, the machine fails. *)
Definition kex : list kev :=
  [KGet 1 7 true true; KSet 2 8 (4, 11) true; KSet 3 9 (2, 12) true; KRun 3 [KOk; KOk];
   KSet 4 7 (6, 13) true; KSet 5 8 (5, 0) true; KRun 2 [KFail]; KSet 6 7 (7, 14) true; KKill;
   KSet 7 9 (3, 15) true; KRun 1 [KOk]; KDel 8 8 KOk; KPower 4; KGet 9 7 true true; KGet 10 8 true true; KGet 11 9 true true].
Example kex_run : exists s h, krun true true true 2 kinit kex = Some (s, h) /\ In (OGot 1 7 KINIT) h /\ In (OAck 2 0) h /\ In (OAck 4 K_EIO) h /\
  In (OKilled [6]) h /\ In (OGot 9 7 KINIT) h /\ In (OInit 10 8) h /\ In (OGot 11 9 (3, 15)) h /\
  stored 7 (k_db s) = Some KINIT /\ stored 8 (k_db s) = None /\ map t_id (k_q s) = [10] /\
  fst (follow 7 h) = [Some KINIT; Some (6, 13); Some (7, 14)] /\ fst (follow 9 h) = [Some (3, 15)].
Proof. eexists. eexists. split; [vm_compute; reflexivity|]. cbn. repeat (split; [auto 40|]). vm_compute. auto. Qed.
(** The hypotheses of kv_acknowledged_survives are met after the vote of group 9. *)
Example kex_ack : exists s h h1 h2, krun true true true 2 kinit (firstn 13 kex) = Some (s, h) /\ h = h1 ++ OAck 7 0 :: h2 /\
  snd (follow 9 h1) = Some (7, (3, 15)) /\ Forall (quiet 9) h2 /\ (k_dur s <= length (k_db s))%nat.
Proof.
  eexists. eexists. exists [OGet 1 7; OInit 1 7; OAsked 2 8 (4, 11); OAsked 3 9 (2, 12); OGot 1 7 KINIT; OAck 2 0; OAck 3 0; OAsked 4 7 (6, 13); OAsked 5 8 (5, 0); OAck 4 K_EIO; OAck 5 K_EIO; OAsked 6 7 (7, 14); OKilled [6]; OAsked 7 9 (3, 15)].
  exists [ODel 8 8 0; OKilled []]. split; [vm_compute; reflexivity|]. split; [reflexivity|]. split; [reflexivity|]. split; [|cbn; lia].
  constructor; [cbn; lia|]. constructor; [exact I|constructor].
Qed.

Print Assumptions kv_get_answers.
Print Assumptions kv_store_holds.
Print Assumptions kv_acknowledged_survives.
Print Assumptions kv_calls_end_once.
Print Assumptions kv_executor_drains.
Print Assumptions kv_batches.
Print Assumptions kv_unserialised_get_overwrites_refuted.
Print Assumptions kv_survives_power_loss_without_sync_refuted.
