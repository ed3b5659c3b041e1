From Verif Require Import Base LeadCb LeadCbSpec LeadCbProofs.

Ltac red_lc := unfold push, set_node, set_log, set_cq, set_q, set_fsm in *; cbn [lleading l_role l_term l_leader l_ready l_last l_commit l_first l_cq l_queue l_flight l_timers l_applied l_err l_run] in *.

Lemma not_waiting_nil s : l_cq s = [] -> ~ waiting s.
Proof. intros E (t & tl & H). congruence. Qed.

Lemma follower_cq h s : LI h s -> lleading (l_role s) = false -> l_cq s = [].
Proof. intros I R. pose proof (i_cq _ _ I) as H. rewrite R in H. auto. Qed.

Lemma clear_LI h s : LI h s -> lleading (l_role s) = false -> LI h (clear_leader s).
Proof.
  intros I R. pose proof (follower_cq _ _ I R) as C0. pose proof I as [U T BC BF BQ BA CQ NO WA RU ER LE CA RD TR RE EL RY TS ON].
  unfold clear_leader. rewrite R.
  assert (NT : forall t, In (TStart t) (l_queue s ++ match l_leader s with Some l => [TStopF l (l_term s)] | None => [] end) -> In (TStart t) (l_queue s)).
  { intros t H. apply in_app_iff in H. destruct H as [H|H]; auto. destruct (l_leader s); [destruct H as [H|[]]; discriminate|destruct H]. }
  destruct (l_leader s) as [l|] eqn:L; red_lc; constructor; red_lc; rewrite ?R, ?C0 in *; auto; try (intros ?; discriminate); try (intros; discriminate).
  - destruct U as (u & v & U1 & U2 & U3). exists u. unfold final in *. red_lc.
    destruct (l_role s) eqn:E; cbn in R; try discriminate.
    + specialize (CA (or_introl eq_refl)). discriminate.
    + rewrite L in U3. subst v. exists (UNone (l_term s)). split; auto. split.
      * rewrite qcb_app, app_assoc. apply uoks_app. eexists; split; eauto. cbn. apply uoks_one. constructor.
      * exists (l_term s). split; auto. lia.
    + specialize (CA (or_intror eq_refl)). discriminate.
  - apply Forall_app. split; auto. constructor; [exact Logic.I|constructor].
  - destruct (l_run s) as [[k a]|]; auto. intros x Hx. specialize (RU x Hx). split; [lia|]. intros _ (? & ? & W). red_lc. congruence.
  - destruct U as (u & v & U1 & U2 & U3). exists u, v. split; auto. split; auto. unfold final in *. red_lc. rewrite L in U3.
    destruct (l_role s); auto; discriminate.
  - destruct (l_run s) as [[k a]|]; auto. intros x Hx. specialize (RU x Hx). split; [lia|]. intros _ (? & ? & W). red_lc. congruence.
Qed.

Lemma sd_role t s : lactive (l_role s) = true -> l_role (lstep_down t s) = LFollower /\ l_leader (lstep_down t s) = None /\ l_term (lstep_down t s) = Z.max t (l_term s) /\ l_run (lstep_down t s) = l_run s /\ l_err (lstep_down t s) = l_err s /\ l_applied (lstep_down t s) = l_applied s.
Proof.
  intros A. unfold lstep_down. rewrite A. cbn [negb]. unfold clear_leader.
  destruct (l_role s) eqn:R; cbn [lleading] in *; try discriminate; red_lc; rewrite ?R; cbn [lleading]; destruct (l_leader s); red_lc; auto 10.
Qed.

Lemma won_le h t r r' : won h t r -> r <= r' -> won h t r'.
Proof. intros (i & H & L) E. exists i. split; auto. lia. Qed.

Lemma awon_in h a : forall r t, awon h r a -> In (ADone t) a \/ In (AStart t) a -> exists i, In (OElected t i) h.
Proof.
  induction a as [|x a IH]; intros r t; cbn; [tauto|]. intros A H.
  destruct x; destruct H as [[H|H]|[H|H]]; try discriminate; try (injection H as ->; destruct A as [(i & Hi & _) _]; eauto); eauto;
  try (eapply IH; [exact (proj2 A)|auto]).
Qed.

(** Becoming a follower with no leader, with no queued closure. *)
Lemma retire_LI h s t : LI h s -> l_cq s = [] -> (exists u m, uoks (UNone 0) h u /\ uoks u (acb (l_run s) ++ qcb (l_queue s)) (UNone m) /\ m <= l_term s) ->
  l_term s <= t -> l_err s = false ->
  LI h (set_node LFollower t None false (l_timers s) s).
Proof.
  intros I C0 (u & m & U1 & U2 & U3) Ht Er. pose proof I as [U T BC BF BQ BA CQ NO WA RU ER LE CA RD TR RE EL RY TS ON].
  red_lc. constructor; red_lc; rewrite ?C0 in *; auto; try (intros; discriminate).
  - exists u, (UNone m). split; auto. split; auto. unfold final; red_lc. exists m; split; auto; lia.
  - lia.
  - destruct (l_run s) as [[k a]|]; auto. intros x Hx. specialize (RU x Hx). split; [lia|]. intros _ (? & ? & W). red_lc. congruence.
  - intros E. congruence.
  - intros x i Hx. specialize (ON x i Hx). split; [lia|]. intros E. discriminate.
Qed.

(** The leader's closures are dropped and, if [b], the user is told. *)
Lemma sd_LI h s t : LI h s -> LI h (lstep_down t s).
Proof.
  intros I. pose proof I as [U T BC BF BQ BA CQ NO WA RU ER LE CA RD TR RE EL RY TS ON].
  unfold lstep_down. destruct (lactive (l_role s)) eqn:A; cbn [negb]; auto.
  assert (Er : l_err s = false). { destruct (l_err s) eqn:E; auto. destruct (ER eq_refl) as [X _]. rewrite X in A. discriminate. }
  destruct (lleading (l_role s)) eqn:LD.
  - (* leading: build the state directly *)
    assert (exists v, (forall u, uoks u (acb (l_run s) ++ qcb (l_queue s)) v -> True) /\ True) as _ by (exists (UNone 0); auto).
    destruct U as (u & v & U1 & U2 & U3).
    set (q := match l_role s with LLeader => l_queue s ++ [TStop (l_term s)] | _ => l_queue s end).
    assert (V : exists m, uoks u (acb (l_run s) ++ qcb q) (UNone m) /\ m <= l_term s).
    { unfold q, final in *. destruct (l_role s); try discriminate.
      - rewrite qcb_app, app_assoc. destruct U3 as [[_ (m & -> & Hm)]|[_ ->]].
        + exists (l_term s). split; [|lia]. apply uoks_app. eexists; split; eauto. apply uoks_one. constructor; auto.
        + exists (l_term s). split; [|lia]. apply uoks_app. eexists; split; eauto. apply uoks_one. constructor.
      - destruct U3 as (m & -> & Hm). eauto. }
    destruct V as (m & V & Hm).
    assert (E : set_node LFollower (Z.max t (l_term s)) None false (l_timers s) (set_q q (l_flight s) (set_cq 0 [] s)) =
            (let s3 := clear_leader (match l_role s with LLeader => push (TStop (l_term s)) (set_cq 0 [] s) | _ => set_cq 0 [] s end) in
             set_node LFollower (Z.max t (l_term s3)) (l_leader s3) false (l_timers s3) s3)).
    { unfold q, clear_leader. destruct (l_role s) eqn:R; try discriminate; red_lc; rewrite ?R; cbn [lleading]; destruct (l_leader s); red_lc; reflexivity. }
    cbv zeta in E. rewrite <- E. clear E.
    assert (NT : forall x, In (TStart x) q -> In (TStart x) (l_queue s)).
    { intros x Hx. unfold q in Hx. destruct (l_role s); auto. apply in_app_iff in Hx. destruct Hx as [Hx|[Hx|[]]]; auto; discriminate. }
    red_lc. constructor; red_lc; auto; try (intros; discriminate).
    + exists u, (UNone m). split; auto. split; auto. unfold final; red_lc. exists m. split; auto. lia.
    + lia.
    + unfold q. destruct (l_role s); auto. apply Forall_app; split; auto. constructor; [exact Logic.I|constructor].
    + constructor.
    + destruct (l_run s) as [[k a]|]; auto. intros x Hx. specialize (RU x Hx). split; [lia|]. intros _ (? & ? & W). red_lc. discriminate.
    + intros E; congruence.
    + intros x i Hx. specialize (ON x i Hx). split; [lia|]. discriminate.
  - assert (I' : LI h (clear_leader s)) by (apply clear_LI; auto).
    assert (M : (match l_role s with LLeader => push (TStop (l_term s)) s | _ => s end) = s) by (destruct (l_role s); auto; discriminate).
    rewrite M.
    assert (Q : l_role (clear_leader s) = l_role s /\ l_leader (clear_leader s) = None /\ l_term (clear_leader s) = l_term s /\ l_err (clear_leader s) = l_err s).
    { unfold clear_leader. destruct (l_leader s); [rewrite LD|]; red_lc; auto. }
    destruct Q as (Q1 & Q2 & Q3 & Q4).
    cbv zeta. rewrite Q2. apply retire_LI; auto.
    + apply (follower_cq h); auto. congruence.
    + destruct (i_u _ _ I') as (u & v & V1 & V2 & V3). unfold final in V3. rewrite Q1, Q2 in V3.
      assert (exists m, v = UNone m /\ m <= l_term (clear_leader s)) as (m & -> & Hm) by (destruct (l_role s); auto; try discriminate; destruct V3 as (m & -> & V3); exists m; split; auto; lia).
      exists u, m. auto.
    + lia.
    + congruence.
Qed.

Lemma die_LI h s : LI h s -> LI h (die s).
Proof.
  intros I. unfold die. pose proof (sd_LI h s (l_term s) I) as I'.
  assert (Q : l_leader (lstep_down (l_term s) s) = None /\ l_cq (lstep_down (l_term s) s) = [] /\ (l_role (lstep_down (l_term s) s) = LFollower \/ l_role (lstep_down (l_term s) s) = LDead)).
  { destruct (lactive (l_role s)) eqn:A.
    - destruct (sd_role (l_term s) s A) as (R & L & _). split; auto. split; auto. apply (follower_cq h); auto. rewrite R; auto.
    - unfold lstep_down. rewrite A. cbn [negb]. assert (R : l_role s = LDead) by (destruct (l_role s); auto; discriminate).
      split; [apply (i_cand _ _ I); auto|]. split; auto. apply (follower_cq h); auto. rewrite R; auto. }
  set (s' := lstep_down (l_term s) s) in *. clearbody s'. clear s I.
  destruct Q as (L & C0 & R). destruct I' as [U T BC BF BQ BA CQ NO WA RU ER LE CA RD TR RE EL RY TS ON].
  red_lc. constructor; red_lc; rewrite ?L, ?C0 in *; auto; try (intros; discriminate).
  - destruct U as (u & v & U1 & U2 & U3). exists u, v. split; auto. split; auto. unfold final in *. red_lc.
    destruct R as [R|R]; rewrite R in U3; rewrite ?L in U3; auto.
  - destruct (l_run s') as [[k a]|]; auto. intros x Hx. specialize (RU x Hx). split; [lia|]. intros _ (? & ? & W). red_lc. congruence.
  - intros E. split; auto. apply ER; auto.
  - intros x i Hx. specialize (ON x i Hx). split; [lia|discriminate].
Qed.

(** A follower or candidate starts an election. *)
Lemma elect_LI h s s' o : LI h s -> lstep s LElect = Some (s', o) -> o = [] /\ LI h s'.
Proof.
  intros I H. cbn [lstep] in H.
  assert (R : l_role s = LFollower \/ l_role s = LCandidate) by (destruct (l_role s); auto; discriminate).
  assert (LD : lleading (l_role s) = false) by (destruct R as [R|R]; rewrite R; auto).
  assert (H' : (let s1 := clear_leader s in set_node LCandidate (l_term s1 + 1) None false (l_timers s1) s1) = s' /\ o = []).
  { destruct R as [R|R]; rewrite R in H; injection H as <- <-; auto. }
  clear H. destruct H' as [<- ->]. split; auto.
  pose proof (clear_LI h s I LD) as I'.
  assert (Q : l_role (clear_leader s) = l_role s /\ l_leader (clear_leader s) = None /\ l_err (clear_leader s) = false).
  { unfold clear_leader. destruct (l_leader s); [rewrite LD|]; red_lc; split; auto; split; auto;
    (destruct (l_err s) eqn:E; auto; destruct (i_err _ _ I E) as [X _]; destruct R; congruence). }
  destruct Q as (Q1 & Q2 & Q3). assert (C0 : l_cq (clear_leader s) = []) by (apply (follower_cq h); auto; congruence).
  cbv zeta. set (s' := clear_leader s) in *. clearbody s'. rewrite <- Q1 in R. clear s I LD Q1.
  destruct I' as [U T BC BF BQ BA CQ NO WA RU ER LE CA RD TR RE EL RY TS ON].
  red_lc. constructor; red_lc; rewrite ?Q2, ?C0 in *; auto; try (intros; discriminate).
  - destruct U as (u & v & U1 & U2 & U3). exists u, v. split; auto. split; auto. unfold final in *. red_lc.
    assert (exists m, v = UNone m /\ m <= l_term s') as (m & -> & Hm). { destruct R as [R|R]; rewrite R in U3; rewrite ?Q2 in U3; auto. destruct U3 as (m & -> & U3). exists m. split; auto; lia. }
    exists m. split; auto. lia.
  - lia.
  - destruct (l_run s') as [[k a]|]; auto. intros x Hx. specialize (RU x Hx). split; [lia|]. intros _ (? & ? & W). red_lc. congruence.
  - intros E. congruence.
  - intros x i Hx. specialize (ON x i Hx). split; [lia|]. intros _. lia.
Qed.

(** An election is won. *)
Lemma win_LI h s s' o : LI h s -> lstep s LWin = Some (s', o) -> o = [OElected (l_term s) (l_last s + 1)] /\ LI (h ++ o) s'.
Proof.
  intros I H. cbn [lstep] in H. destruct (l_role s) eqn:R; try discriminate. injection H as <- <-. split; auto.
  assert (LD : lleading (l_role s) = false) by (rewrite R; auto). pose proof (follower_cq h s I LD) as C0.
  destruct I as [U T BC BF BQ BA CQ NO WA RU ER LE CA RD TR RE EL RY TS ON].
  assert (NE : l_err s = false). { destruct (l_err s) eqn:E; auto. destruct (ER eq_refl); congruence. }
  assert (RR : reached (h ++ [OElected (l_term s) (l_last s + 1)]) 0 = reached h 0) by (rewrite reached_app; auto).
  red_lc. constructor; red_lc; rewrite ?RR; auto; try (intros; discriminate).
  - destruct U as (u & v & U1 & U2 & U3). exists u, v. split.
    + apply uoks_app. exists u. split; auto. apply uoks_one. constructor.
    + split; auto. unfold final in *. rewrite R in U3. red_lc. left. split; auto. exists (l_term s), []. auto.
  - lia.
  - constructor.
  - cbn [hd]. intros t [= <-]. split; auto. split; auto. split; auto. split; [lia|].
    split; [destruct (l_run s) as [[k a]|]; auto; lia|]. rewrite Forall_forall in BQ. split; [|split].
    + intros k Hk. apply BQ in Hk. cbn in Hk. lia.
    + intros q1 k q2 E Hk. exfalso. assert (In (TCommitted k) (l_queue s)) as Hk' by (rewrite E; apply in_app_iff; right; left; auto).
      apply BQ in Hk'. cbn in Hk'. lia.
    + lia.
  - destruct (l_run s) as [[k a]|]; auto. intros x Hx. specialize (RU x Hx). split; [lia|]. intros -> _.
    destruct (RE NE) as [_ RE2]. destruct (awon_in _ _ _ _ RE2 Hx) as (i & Hi). destruct (ON _ _ Hi) as [_ ON2]. specialize (ON2 R). lia.
  - intros E; congruence.
  - intros [E|E]; discriminate.
  - intros E. specialize (RE E). destruct (l_run s) as [[k a]|]; auto. destruct RE; split; auto. apply awon_app; auto.
  - intros _. exists (l_last s + 1). split; auto. apply in_app_iff; right; left; auto.
  - intros t Hx. apply won_app with (reached h 0); auto. lia.
  - intros t i Hx. apply in_app_iff in Hx. split; [|discriminate]. destruct Hx as [Hx|[[= <- <-]|[]]]; [apply ON in Hx; lia|lia].
Qed.
