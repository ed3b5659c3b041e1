(** C66: a leader stays leader exactly as long as it hears from a majority. *)
From Verif Require Import Base StepDown StepDownSpec StepDownProofs.

(** When the timer of a leader fires (the clock has passed the timeout once), it stays exactly if it is no witness and, within the election timeout, heard from a majority
    of its configuration, and of the previous one while a change is under way.  A member counts as heard from since its replicator was started. *)
Theorem tick_keeps_the_leader_exactly : forall self witness c et h s os now s' o,
  drun self witness (dinit c et) h = Some (s, os) -> is_leading (d_st s) = true ->
  NoDup (conf_after c h) -> NoDup (old_after h) -> timeout_after et h < now ->
  dstep self witness s (ETick now) = Some (s', o) ->
  (is_leading (d_st s') = true <-> may_stay self witness c et h now) /\ (is_leading (d_st s') = true -> s' = s /\ o = []).
Proof.
  intros self witness c et h s os now s' o R L N1 N2 T E. destruct (conf_run self witness c et h s os R) as (C1 & C2 & C3).
  pose proof (inv_run self witness c et h s os R) as I. unfold may_stay. cbv zeta. rewrite <- C1, <- C2, <- C3 in *.
  pose proof (majority_count self h s now (d_conf s) I L T N1) as M1. pose proof (majority_count self h s now (d_old s) I L T N2) as M2.
  cbn [dstep] in E. injection E as E. destruct (tick_cases self witness now s s' o E) as [(L' & _)|(_ & [(-> & -> & W & A & B)|(-> & -> & D)])]; [congruence| |].
  - split; [|auto]. split; [intros _|intros _; exact L]. split; [exact W|]. split; [apply M1, A|]. destruct B as [B|B]; [left; exact B|right; apply M2, B].
  - split; [|intro X; discriminate X]. split; [intro X; discriminate X|]. intros (W & A & B). exfalso. destruct D as [D|[D|[D1 D2]]].
    + congruence.
    + apply M1 in A. lia.
    + destruct B as [B|B]; [contradiction|]. apply M2 in B. lia.
Qed.

(** A leader that does not stay steps down with the reason told to the user exactly once (not when a transfer is under way: it was told then). *)
Theorem tick_tells_the_reason_once : forall self witness s now s' o, is_leading (d_st s) = true -> dstep self witness s (ETick now) = Some (s', o) ->
  is_leading (d_st s') = false ->
  o = match d_st s with DLeader => [OStop (if witness then WitnessLeads else MajorityDies)] | _ => [] end.
Proof.
  intros self witness s now s' o L E D. cbn [dstep] in E. injection E as E.
  destruct (tick_cases self witness now s s' o E) as [(L' & _)|(_ & [(-> & -> & _)|(-> & -> & _)])]; [congruence|congruence|reflexivity].
Qed.
Theorem tick_of_a_follower_does_nothing : forall self witness s now, is_leading (d_st s) = false -> dstep self witness s (ETick now) = Some (s, []).
Proof. intros self witness s now L. cbn [dstep]. unfold handle_stepdown_timeout. rewrite L. reflexivity. Qed.

(** A leader cut off: nothing of at least half of the members (of the current or of the previous configuration) that was sent, and no replicator to them that was started, in the last
    election timeout was answered: it steps down at this tick. *)
Lemma majority_meets : forall c b P, NoDup b -> incl b c -> zlen c <= 2 * zlen b -> majority_of c P -> exists q, In q b /\ P q.
Proof.
  intros c b P NB IB LB (l & NL & IL & PL & LL).
  destruct (existsb (fun x => memb x b) l) eqn:X.
  - apply existsb_exists in X as (x & X1 & X2). unfold memb in X2. apply existsb_exists in X2 as (y & Y1 & Y2). apply Z.eqb_eq in Y2. subst y. exists x. auto.
  - exfalso. assert (N : NoDup (l ++ b)).
    { clear - NL NB X. induction l as [|a l IH]; [exact NB|]. cbn [app]. inversion NL as [|? ? A1 A2]; subst. cbn [existsb] in X. apply orb_false_iff in X as [X1 X2].
      constructor; [|auto]. rewrite in_app_iff. intros [H|H]; [auto|]. unfold memb in X1. assert (T : existsb (Z.eqb a) b = true).
      { apply existsb_exists. exists a. split; [exact H|apply Z.eqb_refl]. }
      congruence. }
    assert (K : (length (l ++ b) <= length c)%nat).
    { apply NoDup_incl_length; [exact N|]. intros q Q. apply in_app_iff in Q as [Q|Q]; auto. }
    rewrite app_length in K. unfold zlen in *. lia.
Qed.
Theorem cut_off_leader_steps_down : forall self witness c et h s os now s' o b,
  drun self witness (dinit c et) h = Some (s, os) -> NoDup (conf_after c h) -> NoDup (old_after h) -> timeout_after et h < now ->
  NoDup b -> ~ In self b ->
  (incl b (conf_after c h) /\ zlen (conf_after c h) <= 2 * zlen b \/ old_after h <> [] /\ incl b (old_after h) /\ zlen (old_after h) <= 2 * zlen b) ->
  (forall q id t, In q b -> In (EStart q id t) h -> t < now - timeout_after et h) ->
  (forall q id t snt, In q b -> In (EStart q id t) h -> In (EAnswer id snt) h -> snt < now - timeout_after et h) ->
  dstep self witness s (ETick now) = Some (s', o) -> is_leading (d_st s') = false.
Proof.
  intros self witness c et h s os now s' o b R N1 N2 T NB SB B ST AN E. destruct (is_leading (d_st s)) eqn:L.
  2:{ rewrite tick_of_a_follower_does_nothing in E by exact L. injection E as <- <-. exact L. }
  destruct (is_leading (d_st s')) eqn:L'; [|reflexivity]. exfalso.
  destruct (tick_keeps_the_leader_exactly self witness c et h s os now s' o R L N1 N2 T E) as [[M _] _]. destruct (M L') as (_ & M1 & M2).
  assert (K : forall q, In q b -> ~ (q = self \/ heard_since h q (now - timeout_after et h))).
  { intros q Q [H|(h1 & h2 & id & t & H & _ & _ & X)]; [subst q; contradiction|]. assert (I : In (EStart q id t) h) by (rewrite H; apply in_elt).
    pose proof (ST q id t Q I). destruct X as [X|(snt & X1 & X2)]; [lia|]. assert (I2 : In (EAnswer id snt) h).
    { rewrite H. apply in_app_iff. right. right. exact X1. }
    pose proof (AN q id t snt Q I I2). lia. }
  destruct B as [[B1 B2]|(B0 & B1 & B2)].
  - destruct (majority_meets _ b _ NB B1 B2 M1) as (q & Q & H). exact (K q Q H).
  - destruct M2 as [M2|M2]; [contradiction|]. destruct (majority_meets _ b _ NB B1 B2 M2) as (q & Q & H). exact (K q Q H).
Qed.

(** So leadership is never older than the last tick allows: every tick since a leader's election found it hearing from its majorities. *)
Theorem leadership_was_confirmed_at_every_tick : forall self witness c et h1 now h2 s os,
  drun self witness (dinit c et) (h1 ++ ETick now :: h2) = Some (s, os) -> is_leading (d_st s) = true -> ~ In ELead h2 ->
  NoDup (conf_after c h1) -> NoDup (old_after h1) -> timeout_after et h1 < now -> may_stay self witness c et h1 now.
Proof.
  intros self witness c et h1 now h2 s os R L D N1 N2 T. rewrite drun_app in R.
  destruct (drun self witness (dinit c et) h1) as [[s1 o1]|] eqn:R1; [|discriminate R]. cbn [drun] in R.
  destruct (dstep self witness s1 (ETick now)) as [[s2 o2]|] eqn:E; [|discriminate R]. destruct (drun self witness s2 h2) as [[s3 o3]|] eqn:R2; [|discriminate R].
  injection R as <- <-. assert (BK : forall h2 s2 s3 o3, drun self witness s2 h2 = Some (s3, o3) -> ~ In ELead h2 -> is_leading (d_st s3) = true -> is_leading (d_st s2) = true).
  { clear. induction h2 as [|e h2 IH]; intros s2 s3 o3 R D L; cbn [drun] in R; [injection R as <- <-; exact L|].
    destruct (dstep self witness s2 e) as [[s4 o4]|] eqn:E; [|discriminate R]. destruct (drun self witness s4 h2) as [[s5 o5]|] eqn:R2; [|discriminate R]. injection R as <- <-.
    assert (L4 : is_leading (d_st s4) = true) by (apply (IH _ _ _ R2); [intro H; apply D; right; exact H|exact L]).
    destruct e as [|q id t|q|id snt|c oc|et| | | |now]; cbn [dstep] in E; try (injection E as <- <-; exact L4).
    - exfalso. apply D. left. reflexivity.
    - destruct (is_leading (d_st s2)); [reflexivity|discriminate E].
    - destruct (d_st s2); try discriminate E; reflexivity.
    - destruct (d_st s2); try discriminate E; reflexivity.
    - injection E as <- <-. discriminate L4.
    - injection E as E. destruct (tick_cases self witness now s2 s4 o4 E) as [(_ & -> & _)|(L' & _)]; [exact L4|exact L']. }
  pose proof (BK h2 s2 s3 o3 R2 D L) as L2.
  destruct (is_leading (d_st s1)) eqn:L1.
  - apply (tick_keeps_the_leader_exactly self witness c et h1 s1 o1 now s2 o2 R1 L1 N1 N2 T E). exact L2.
  - rewrite tick_of_a_follower_does_nothing in E by exact L1. injection E as <- <-. congruence.
Qed.

(** ** What it does not do *)
(** While the clock has not passed the election timeout (right after the machine was started), members without a replicator count as heard from:
    a leader that never reached anybody stays. *)
Theorem cut_off_leader_with_young_clock_refuted :
  ~ (forall self c et h s os now s' o, drun self false (dinit c et) h = Some (s, os) -> is_leading (d_st s) = true ->
      NoDup (conf_after c h) -> old_after h = [] -> 0 < now -> dstep self false s (ETick now) = Some (s', o) ->
      is_leading (d_st s') = true -> may_stay self false c et h now).
Proof.
  intro H. specialize (H 1 [1; 2; 3] 1000 [ELead] (mkDN DLeader [1; 2; 3] [] 1000 []) [] 900 (mkDN DLeader [1; 2; 3] [] 1000 []) []).
  assert (M : may_stay 1 false [1; 2; 3] 1000 [ELead] 900).
  { apply H; try reflexivity. cbn. repeat constructor; cbn; intuition lia. }
  destruct M as (_ & M & _). cbn [conf_after timeout_after fold_left] in M.
  destruct (majority_meets [1; 2; 3] [2; 3] _ ltac:(repeat constructor; cbn; intuition lia) ltac:(intros q Q; right; exact Q) ltac:(unfold zlen; cbn [length]; lia) M) as (q & Q & [X|(h1 & h2 & id & t & X & _)]).
  - subst q. cbn in Q. intuition lia.
  - destruct h1 as [|? [|]]; discriminate X.
Qed.
(** A leader that stays need not have been answered by anybody since its election: starting the replicators counts. *)
Theorem staying_leader_was_answered_refuted :
  ~ (forall self c et h s os now s' o, drun self false (dinit c et) h = Some (s, os) -> is_leading (d_st s) = true -> timeout_after et h < now ->
      dstep self false s (ETick now) = Some (s', o) -> is_leading (d_st s') = true -> 1 < zlen c -> exists id snt, In (EAnswer id snt) h).
Proof.
  intro H. specialize (H 1 [1; 2; 3] 1000 [ELead; EStart 2 7 5000; EStart 3 8 5000] (mkDN DLeader [1; 2; 3] [] 1000 [mkRep 3 8 5000; mkRep 2 7 5000]) [] 6000
    (mkDN DLeader [1; 2; 3] [] 1000 [mkRep 3 8 5000; mkRep 2 7 5000]) []).
  destruct H as (id & snt & I); try reflexivity. cbn in I. intuition discriminate.
Qed.

(** ** Non-vacuity: five members, two answer: stays; one answers: steps down; an answer to a stopped replicator does not help; joint configuration; witness *)
Definition h5 : list dev := [ELead; EStart 2 1 100; EStart 3 2 100; EStart 4 3 100; EStart 5 4 100; EAnswer 1 1500; EAnswer 2 1600; EAnswer 3 500].
Example stays : exists s, drun 1 false (dinit [1; 2; 3; 4; 5] 1000) h5 = Some (s, []) /\ dstep 1 false s (ETick 2500) = Some (s, []) /\ is_leading (d_st s) = true.
Proof. eexists. split; [vm_compute; reflexivity|]. vm_compute. repeat split. Qed.
Example stays_may : may_stay 1 false [1; 2; 3; 4; 5] 1000 h5 2500.
Proof.
  destruct stays as (s & R & E & L). apply (leadership_was_confirmed_at_every_tick 1 false [1; 2; 3; 4; 5] 1000 h5 2500 [] s []).
  - rewrite drun_app, R. cbn [drun]. rewrite E. reflexivity.
  - exact L.
  - intros [].
  - cbn. repeat constructor; cbn; intuition lia.
  - constructor.
  - reflexivity.
Qed.
Example falls : exists s, drun 1 false (dinit [1; 2; 3; 4; 5] 1000) h5 = Some (s, []) /\ dstep 1 false s (ETick 2501) = Some (mkDN DOther [1; 2; 3; 4; 5] [] 1000 [], [OStop MajorityDies]).
Proof. eexists. split; [vm_compute; reflexivity|]. vm_compute. repeat split. Qed.
Example stopped : drun 1 false (dinit [1; 2; 3] 1000) [ELead; EStart 2 1 100; EStart 3 2 100; EStop 2; EAnswer 1 1500; ETick 1200]
  = Some (mkDN DOther [1; 2; 3] [] 1000 [], [OStop MajorityDies]).
Proof. vm_compute. reflexivity. Qed.
Example joint : drun 1 false (dinit [1; 2; 3] 1000) [ELead; EStart 2 1 100; EStart 3 2 100; EStart 4 3 100; EConf [1; 4] [1; 2; 3]; EAnswer 3 900; EAnswer 1 900; ETick 1800; EAnswer 3 1900; ETick 2000]
  = Some (mkDN DOther [1; 4] [1; 2; 3] 1000 [], [OStop MajorityDies]).
Proof. vm_compute. reflexivity. Qed.
Example witness_falls : drun 1 true (dinit [1; 2; 3] 1000) [ELead; EStart 2 1 100; EStart 3 2 100; ETick 300] = Some (mkDN DOther [1; 2; 3] [] 1000 [], [OStop WitnessLeads]).
Proof. vm_compute. reflexivity. Qed.
(** a leader outside its configuration does not count itself *)
Example outside : drun 9 false (dinit [1; 2] 1000) [ELead; EStart 1 1 100; EStart 2 2 100; EAnswer 1 1500; ETick 1600] = Some (mkDN DOther [1; 2] [] 1000 [], [OStop MajorityDies]).
Proof. vm_compute. reflexivity. Qed.
Example transfer_silent : drun 1 false (dinit [1; 2; 3] 1000) [ELead; ETransfer; ETick 1600] = Some (mkDN DOther [1; 2; 3] [] 1000 [], []).
Proof. vm_compute. reflexivity. Qed.
Example back_told : drun 1 false (dinit [1; 2; 3] 1000) [ELead; ETransfer; EBack; ETimeout 700; EStart 2 1 900; ETick 1600; ETick 1601; ETick 1602] = Some (mkDN DOther [1; 2; 3] [] 700 [], [OStop MajorityDies]).
Proof. vm_compute. reflexivity. Qed.
Print Assumptions tick_keeps_the_leader_exactly.
Print Assumptions tick_tells_the_reason_once.
Print Assumptions tick_of_a_follower_does_nothing.
Print Assumptions cut_off_leader_steps_down.
Print Assumptions leadership_was_confirmed_at_every_tick.
Print Assumptions cut_off_leader_with_young_clock_refuted.
Print Assumptions staying_leader_was_answered_refuted.
