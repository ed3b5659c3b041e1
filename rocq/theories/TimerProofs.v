From Verif Require Import Base Timer TimerSpec.

Definition tok (t : timer) : nat := ((if armed t then 1 else 0) + fired t + inrun t)%nat.

Definition TmI (t : timer) (p : tphase) : Prop :=
  tok t = (if running t then 1 else 0)%nat /\
  (stopped t = false -> running t = true /\ destroyed t = false) /\
  (match p with
   | Idle => inrun t = O /\ due t = (if destroyed t && negb (running t) then 1 else 0)%nat
   | Running => inrun t = 1%nat /\ due t = O
   | Dead => inrun t = O /\ due t = O /\ destroyed t = true /\ running t = false
   end).

Ltac crush := unfold TmI, tok in *; cbn in *; intuition (try congruence; try discriminate; try lia).

Lemma step_ok : forall t e p, TmI t p ->
  exists t' o p', tm_step t e = Some (t', o) /\ phases p o = Some p' /\ TmI t' p'.
Proof.
  intros [st ru de ar fi ir du] e p [I1 [I2 I3]]. unfold tok in I1. cbn in *.
  destruct e; cbn; unfold tm_stop, tm_start, tm_reset, tm_destroy, tm_run_once, tm_begin, tm_end, schedule,
    disarm, set_stopped, set_running, add_due; cbn.
  - destruct st; cbn; [eexists; eexists; exists p; split; [reflexivity|]; split; [reflexivity|]; crush|].
    destruct (I2 eq_refl) as [-> ->]. cbn.
    destruct ar; cbn; eexists; eexists; exists p; (split; [reflexivity|]; split; [reflexivity|]);
      destruct p; crush.
  - destruct de; cbn; [eexists; eexists; exists p; split; [reflexivity|]; split; [reflexivity|]; destruct p; crush|].
    destruct st; cbn; [|eexists; eexists; exists p; split; [reflexivity|]; split; [reflexivity|]; destruct p; crush].
    destruct ru; cbn; [eexists; eexists; exists p; split; [reflexivity|]; split; [reflexivity|]; destruct p; crush|].
    destruct add; cbn; eexists; eexists; exists p; (split; [reflexivity|]; split; [reflexivity|]);
      destruct ar; destruct p; crush.
  - destruct st; cbn; [eexists; eexists; exists p; split; [reflexivity|]; split; [reflexivity|]; destruct p; crush|].
    destruct (I2 eq_refl) as [-> ->]. cbn.
    destruct ar; cbn; [destruct add; cbn|]; eexists; eexists; exists p; (split; [reflexivity|]; split; [reflexivity|]);
      destruct p; crush.
  - destruct ar; cbn; eexists; eexists; exists p; (split; [reflexivity|]; split; [reflexivity|]); destruct ru; destruct p; crush.
  - destruct de; cbn; [eexists; eexists; exists p; split; [reflexivity|]; split; [reflexivity|]; destruct p; crush|].
    destruct ru; cbn.
    + destruct st; cbn; [eexists; eexists; exists p; split; [reflexivity|]; split; [reflexivity|]; destruct p; crush|].
      destruct ar; cbn; eexists; eexists; exists p; (split; [reflexivity|]; split; [reflexivity|]); destruct p; crush.
    + destruct st; cbn; [|destruct (I2 eq_refl); discriminate].
      eexists; eexists; exists p; (split; [reflexivity|]; split; [reflexivity|]); destruct p; crush.
  - destruct ar; cbn; eexists; eexists; exists p; (split; [reflexivity|]; split; [reflexivity|]); destruct ru; destruct p; crush.
  - destruct fi as [|fi]; cbn; [eexists; eexists; exists p; split; [reflexivity|]; split; [reflexivity|]; destruct p; crush|].
    destruct ru; [|destruct ar; lia].
    destruct p; [|destruct ar; lia|intuition discriminate].
    eexists; eexists; exists Running; split; [reflexivity|]; split; [reflexivity|].
    rewrite andb_false_r in I3. destruct ar; crush.
  - destruct ir as [|ir]; cbn; [eexists; eexists; exists p; split; [reflexivity|]; split; [reflexivity|]; destruct p; crush|].
    destruct ru; [|destruct ar; lia]. cbn.
    assert (ar = false /\ fi = O /\ ir = O) by (destruct ar; lia). destruct H as [-> [-> ->]].
    destruct p; [destruct I3; discriminate| |destruct I3; discriminate].
    destruct st; cbn.
    + destruct de; cbn; eexists; eexists; exists Idle; (split; [reflexivity|]; split; [reflexivity|]); crush.
    + destruct (I2 eq_refl) as [_ ->].
      destruct add; cbn; eexists; eexists; exists Idle; (split; [reflexivity|]; split; [reflexivity|]); crush.
  - destruct du as [|du]; cbn; [eexists; eexists; exists p; split; [reflexivity|]; split; [reflexivity|]; destruct p; crush|].
    destruct p; try (intuition discriminate).
    destruct I3 as [-> I3]. destruct de, ru; cbn in I3; try discriminate.
    eexists; eexists; exists Dead; split; [reflexivity|]; split; [reflexivity|]. inversion I3; subst. crush.
Qed.

Lemma phases_app : forall a b p q, phases p a = Some q -> phases p (a ++ b) = phases q b.
Proof.
  induction a as [|o a IH]; intros b p q H; cbn in *; [inversion H; auto|].
  destruct (phase_step p o); [|discriminate]. auto.
Qed.

Lemma run_ok : forall es t p, TmI t p ->
  exists t' o p', tm_run t es = Some (t', o) /\ phases p o = Some p' /\ TmI t' p'.
Proof.
  induction es as [|e es IH]; intros t p I; cbn.
  - exists t, [], p. auto.
  - destruct (step_ok t e p I) as [t1 [o1 [p1 [-> [P1 I1]]]]].
    destruct (IH t1 p1 I1) as [t2 [o2 [p2 [-> [P2 I2]]]]].
    exists t2, (o1 ++ o2), p2. split; auto. split; auto. rewrite (phases_app _ _ _ _ P1). auto.
Qed.

Lemma timer_ok : forall es, exists t o p, tm_run tm_init es = Some (t, o) /\ phases Idle o = Some p /\
  (stopped t = false -> destroyed t = false /\
     ((if armed t then 1 else 0) + fired t + inrun t = 1)%nat) /\
  (destroyed t = true -> armed t = false -> fired t = O -> inrun t = O -> due t = O -> p = Dead) /\
  (p = Dead -> armed t = false /\ fired t = O /\ inrun t = O).
Proof.
  intros es. assert (I : TmI tm_init Idle) by (unfold TmI, tok; cbn; intuition discriminate).
  destruct (run_ok es _ _ I) as [t [o [p [E [P [I1 [I2 I3]]]]]]].
  exists t, o, p. split; auto. split; auto. unfold tok in I1. split; [|split].
  - intros S. destruct (I2 S) as [R D]. rewrite R in I1. auto.
  - intros D A F N U. rewrite A, F, N in I1. destruct (running t) eqn:R; [discriminate|].
    destruct p; auto; [|destruct I3; congruence].
    destruct I3 as [_ I3]. rewrite D, U in I3. discriminate.
  - intros ->. destruct I3 as [N [U [D R]]]. rewrite R in I1. destruct (armed t); lia.
Qed.
