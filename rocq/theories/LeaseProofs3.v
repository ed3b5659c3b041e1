(** Lemmas on the timed group model, part 3: every event keeps the votes, terms and elections in order. *)
From Verif Require Import Base Ballot QuorumSpec BallotProofs Lease LeaseSpec LeaseProofs LeaseProofs2.

Section P.
Variables (conf : list peer) (old : option (list peer)) (timeout fto drift : peer -> Z -> Z) (clk : peer -> Z -> Z).
Hypothesis Wf : wf_jconf (conf, old).
Notation NA := (NA conf old).
Notation mem := (mem conf old).
Notation good := (good conf old).

Lemma vr_good : forall tr net p f t v g d rt again now n n' ms rs, NA tr net p n -> In (MResp f p t v g d rt) net -> GM tr net (MResp f p t v g d rt) ->
  vote_resp conf old p f t v g d rt again now n = Some (n', ms, rs) -> good tr net p n n' ms rs.
Proof.
  intros tr net p f t v g d rt again now n n' ms rs H Hi Hg Hv. unfold vote_resp in Hv. pose proof (a_m _ _ _ _ _ _ H) as Hm.
  assert (Z0 : good tr net p n n [] []) by (apply good_plain; auto; apply keep_refl; lia).
  destruct (Z.eqb_spec v (n_ver n)) as [Ev|]; cbn [negb] in Hv; [|injection Hv as <- <- <-; auto].
  destruct (n_st n) eqn:S; try (injection Hv as <- <- <-; auto; fail).
  destruct (Z.eqb_spec t (n_term n)) as [Et|]; cbn [negb] in Hv; [|injection Hv as <- <- <-; auto].
  destruct (n_term n <? rt).
  { injection Hv as <- <- <-. apply good_plain; [apply NA_step_down; auto|apply keep_step_down; lia]. }
  destruct (negb g && negb again); [injection Hv as <- <- <-; auto|].
  cbn in Hg. destruct Hg as [Hfp [[d' Hd'] Hgv]].
  assert (Ms : n_mterm n = n_term n) by (eapply (a_rq _ _ _ _ _ _ H); eauto).
  set (n1 := match d with Some pt => set_ctx (n_ver n) (n_grants n) (Some (Some f, pt)) n | None => n end) in *.
  assert (G1 : good tr net p n n1 [] []) by (unfold n1; destruct d; [apply good_agree; auto|auto]).
  assert (E1 : n_st n1 = LCandidate /\ n_term n1 = n_term n /\ n_mterm n1 = n_mterm n /\ n_ver n1 = n_ver n /\ n_grants n1 = n_grants n) by (unfold n1; destruct d; auto).
  clearbody n1. destruct E1 as (S1 & T1 & M1 & V1 & R1). pose proof (g_na _ _ _ _ _ _ _ _ _ G1) as H1. cbn [app] in H1.
  destruct (if g then _ else (n1, [])) as [n2 r2] eqn:E2.
  assert (G2 : good tr net p n1 n2 [] r2 /\ n_st n2 = LCandidate /\ n_term n2 = n_term n /\ n_mterm n2 = n_mterm n /\ n_ver n2 = n_ver n).
  { destruct g; [|injection E2 as <- <-; split; [apply good_plain; auto; apply keep_refl; apply H1|auto]].
    destruct (opeer_eqb (f_last n1) (Some f)); injection E2 as <- <-; (split; [|cbn [set_wait set_ctx n_st n_term n_mterm n_ver]; auto]).
    - apply self_vote; auto; try lia. cbn [set_wait set_ctx n_grants]. intros q [<-|[<-|Hq]]; auto. right. right. rewrite T1, <- Et. auto.
    - apply good_plain; [|apply keep_same; reflexivity]. destruct H1. constructor; auto. cbn [set_ctx n_grants n_term]. intros _ q [<-|Hq]; auto. rewrite T1, <- Et. auto. }
  destruct G2 as (G2 & S2 & T2 & M2 & V2). pose proof (good_trans _ _ _ _ _ _ _ _ _ _ _ _ G1 G2) as G3. cbn [app] in G3. rewrite app_nil_r in G3.
  destruct (g && wins conf old (n_grants n2)) eqn:Ew.
  - apply andb_true_iff in Ew. destruct Ew as [_ Ew]. destruct (become_leader p now n2) as [[[n3 m3] r3]|] eqn:Eb; try discriminate. injection Hv as <- <- <-.
    eapply bl_good in Eb; [|exact Wf|exact (g_na _ _ _ _ _ _ _ _ _ G3)|lia|exact Ew]. destruct Eb as [G4 _].
    pose proof (good_trans _ _ _ _ _ _ _ _ _ _ _ _ G3 G4) as G. rewrite app_nil_r in G. exact G.
  - injection Hv as <- <- <-. destruct again; auto. destruct (n_dis n2); auto. apply good_req; auto; lia.
Qed.

Lemma csd_good : forall tr net p f t n, NA tr net p n -> n_term n <= t -> el tr f t -> NA tr net p (check_step_down t f n) /\ keep n (check_step_down t f n) /\ n_term (check_step_down t f n) = t /\ n_st (check_step_down t f n) = LFollower.
Proof.
  intros tr net p f t n H Ht He. destruct (csd_form t f n Ht) as (n1 & h1 & h2 & h3 & h4). rewrite h4. pose proof (a_m _ _ _ _ _ _ H) as Hm.
  assert (H1 : NA tr net p n1 /\ keep n n1). { destruct h1 as [->| ->]; split; auto; [apply keep_refl; lia|apply NA_step_down; auto|apply keep_step_down; lia]. }
  destruct H1 as [H1 K1]. destruct (n_leader n1) eqn:Ld; [auto|]. sp; auto.
  - destruct H1. constructor; auto; cbn [set_role n_st n_leader n_term]; try discriminate; intros.
    + destruct (a_gs v H0). split; auto. discriminate.
    + destruct (a_rq t0 v d H0). split; auto. discriminate.
    + injection H0 as <-. rewrite h2. auto.
  - eapply keep_trans; eauto. apply keep_same; auto.
Qed.

Lemma ap_good : forall tr net p f t snt cd now n n' ms rs, NA tr net p n -> el tr f t -> append_req clk p f t snt cd now n = Some (n', ms, rs) -> good tr net p n n' ms rs.
Proof.
  intros tr net p f t snt cd now n n' ms rs H He Ha. unfold append_req in Ha. pose proof (a_m _ _ _ _ _ _ H) as Hm.
  destruct (Z.ltb_spec t (n_term n)); [injection Ha as <- <- <-; apply good_plain; auto; apply keep_refl; lia|].
  destruct (csd_good _ _ _ _ _ _ H H0 He) as (H1 & K1 & T1 & S1). set (n1 := check_step_down t f n) in *. clearbody n1.
  destruct (negb (opeer_eqb (n_leader n1) (Some f))).
  - injection Ha as <- <- <-. apply good_plain; [apply NA_step_down; auto|]. eapply keep_trans; eauto. apply keep_step_down. apply H1.
  - destruct cd; injection Ha as <- <- <-; [apply good_plain; auto|].
    assert (G : good tr net p n (set_f (n_leader n1) (clk p now) n1) [] [RRenew p f t now]).
    { constructor; [|eapply keep_trans; [exact K1|]; apply keep_same; auto|constructor; [reflexivity|constructor]|intros m []|intros ? ? ? ? []|cbn; auto|apply VU_plain; congruence].
      cbn [app]. eapply NA_mono; [eapply NA_agree; eauto; reflexivity| | | | |]; auto.
      - intros x Hx; right; auto. - intros x Hx; auto.
      - intros t0 K. apply el_cons in K. destruct K as [[a K]|K]; [discriminate|auto].
      - intros t0 c K. apply vt_cons in K. destruct K as [[a K]|K]; [discriminate|auto]. }
    apply good_msg; auto. + congruence. + exact I.
Qed.

Lemma restart_good : forall tr net p c lt n, NA tr net p n -> good tr net p n (restart c lt n) [] [].
Proof.
  intros tr net p c lt n H. pose proof (a_m _ _ _ _ _ _ H) as Hm. unfold restart.
  set (n0 := mkLN _ _ _ _ _ _ _ _ _ _ _ _ _ _ _ _ _ _ _ _ _ _).
  assert (H0 : NA tr net p n0 /\ keep n n0).
  { split; [|split; [cbn; lia|left; reflexivity]]. destruct H. constructor; cbn [n0 n_st n_term n_voted n_leader n_mterm n_mvoted n_led n_ver n_grants n_gself n_vw leads]; auto; try lia; try discriminate; try (intros ? []; fail).
    intros t v d K. destruct (a_rq t v d K). split; [lia|discriminate]. }
  assert (S0 : n_st n0 = LFollower) by reflexivity. assert (L0 : n_leader n0 = None) by reflexivity. clearbody n0. destruct H0 as [H0 K0].
  set (n1 := if n_term n0 <? lt then _ else n0). assert (H1 : NA tr net p n1 /\ keep n n1).
  { unfold n1. destruct (Z.ltb_spec (n_term n0) lt); auto. pose proof (a_m _ _ _ _ _ _ H0) as M0. destruct H0. split.
    - constructor; cbn [save set_term n_st n_term n_voted n_leader n_mterm n_mvoted n_led n_ver n_grants n_gself n_vw]; auto; try lia; try (rewrite S0; discriminate); try discriminate; intros.
      + destruct (a_el t H0). sp; auto; lia.
      + destruct (a_vt t c0 H0). split; lia.
      + destruct (a_gs v H0). split; auto. 
      + destruct (a_rq t v d H0). split; auto.
      + rewrite L0 in H0. discriminate.
    - eapply keep_trans; [exact K0|]. split; cbn [save set_term n_st n_term n_mterm]; [lia|]. intros. left. auto. }
  clearbody n1. destruct H1 as [H1 K1]. destruct (_ && _); apply good_plain; auto. eapply NA_agree; eauto.
Qed.

Lemma role_good : forall tr net p n s, NA tr net p n -> (n_st n = LLeader /\ s = LTransferring \/ n_st n = LTransferring /\ s = LLeader \/ s = LFollower /\ n_st n = LFollower) -> forall ld, (ld = n_leader n \/ ld = None) -> good tr net p n (set_role s ld n) [] [].
Proof.
  intros tr net p n s H Hs ld Hl. apply good_plain.
  - destruct H. constructor; cbn [set_role n_st n_term n_voted n_leader n_mterm n_mvoted n_led n_ver n_grants n_gself n_vw]; auto; intros.
    + apply a_ld. destruct Hs as [[-> ->]|[[-> ->]|[-> ->]]]; auto.
    + destruct Hs as [[? ->]|[[? ->]|[-> ?]]]; discriminate.
    + destruct (a_gs v H). split; auto. intros. destruct Hs as [[? ->]|[[? ->]|[-> ?]]]; discriminate.
    + destruct Hs as [[? ->]|[[? ->]|[-> ?]]]; discriminate.
    + destruct (a_rq t v d H). split; auto. intros. destruct Hs as [[? ->]|[[? ->]|[-> ?]]]; discriminate.
    + destruct Hl as [->| ->]; [auto|discriminate].
  - split; cbn [set_role n_st n_term n_mterm]; [lia|]. intros _ E. destruct Hs as [[E1 ->]|[[E1 ->]|[-> ?]]]; auto; right; split; auto; congruence.
Qed.

Lemma upd_good : forall tr net p n n' n2, good tr net p n n' [] [] ->
  n_st n2 = n_st n' -> n_term n2 = n_term n' -> n_voted n2 = n_voted n' -> n_leader n2 = n_leader n' ->
  n_mterm n2 = n_mterm n' -> n_mvoted n2 = n_mvoted n' -> n_led n2 = n_led n' -> n_ver n2 = n_ver n' ->
  n_grants n2 = n_grants n' -> n_gself n2 = n_gself n' -> n_vw n2 = n_vw n' -> good tr net p n n2 [] [].
Proof. intros tr net p n n' n2 [] E1 E2 E3 E4 E5 E6 E7 E8 E9 E10 E11. apply good_plain; [eapply NA_agree; eauto|]. eapply keep_trans; eauto. apply keep_same; auto. Qed.

Lemma act_good : forall s p now e n' ms rs, NA (c_trace s) (c_net s) p (c_nodes s p) -> (forall m, In m (c_net s) -> GM (c_trace s) (c_net s) m) ->
  lact conf old timeout fto drift clk s p now e = Some (n', ms, rs) -> good (c_trace s) (c_net s) p (c_nodes s p) n' ms rs.
Proof.
  intros s p now e n' ms rs H HG Ha. pose proof (a_m _ _ _ _ _ _ H) as Hm.
  assert (Z0 : good (c_trace s) (c_net s) p (c_nodes s p) (c_nodes s p) [] []) by (apply good_plain; auto; apply keep_refl; lia).
  set (n := c_nodes s p) in *. destruct e; cbn [lact] in Ha; fold n in Ha; unfold ok0 in Ha.
  - destruct (leads (n_st n)) eqn:S; try discriminate. injection Ha as <- <- <-. apply e1_good; auto.
  - destruct (_ && _) eqn:S; try discriminate. injection Ha as <- <- <-. apply andb_true_iff in S. destruct S as [_ S]. apply e1_good; auto. destruct (n_st n); auto; discriminate.
  - eapply e2_good; eauto.
  - eapply gt_good; eauto.
  - destruct (_ && _) eqn:S; try discriminate. apply andb_true_iff in S. destruct S as [S1 S2]. apply sent_in in S1. apply negb_true_iff, Z.eqb_neq in S2. eapply v1_good; eauto.
  - eapply v2_good; eauto.
  - destruct (_ && _) eqn:S; try discriminate. apply andb_true_iff in S. destruct S as [S1 S2]. apply sent_in in S1. eapply vr_good; eauto. 
  - destruct (n_term n <=? t); try discriminate. injection Ha as <- <- <-.
    assert (G : good (c_trace s) (c_net s) p n (step_down t n) [] []) by (apply good_plain; [apply NA_step_down; auto|apply keep_step_down; lia]).
    destruct (wake && leads (n_st n)); auto. apply good_msg; auto. + congruence. + exact I.
  - destruct (n_st n) eqn:S; try discriminate. injection Ha as <- <- <-. apply role_good; auto.
  - destruct (existsb (Z.eqb t) (n_led n)) eqn:S; try discriminate. injection Ha as <- <- <-. apply good_msg; auto. + congruence. + cbn.
    apply existsb_exists in S. destruct S as [x [h1 h2]]. apply Z.eqb_eq in h2. subst x. apply (a_led _ _ _ _ _ _ H); auto.
  - destruct (_ && _) eqn:S; try discriminate. apply andb_true_iff in S. destruct S as [S1 S2]. apply sent_in in S1. eapply ap_good; eauto. exact (HG _ S1).
  - destruct (sent _ s); try discriminate. unfold ack in Ha. destruct (_ && _); injection Ha as <- <- <-; auto. apply good_agree; auto.
  - unfold start_rep in Ha. destruct (_ && _ && _); injection Ha as <- <- <-; auto.
    constructor; [|apply keep_same; auto|constructor; [reflexivity|constructor]|intros m []|intros ? ? ? ? []|cbn; auto|apply VU_plain; congruence].
    cbn [app]. eapply NA_mono; [eapply NA_agree; eauto; reflexivity| | | | |]; auto.
    + intros x Hx; right; auto. + intros x Hx; auto.
    + intros t0 K. apply el_cons in K. destruct K as [[a K]|K]; [discriminate|auto].
    + intros t0 c K. apply vt_cons in K. destruct K as [[a K]|K]; [discriminate|auto].
  - unfold first_commit in Ha. destruct (_ && _); try discriminate. injection Ha as <- <- <-. apply good_agree; auto.
  - unfold lease_begin in Ha. destruct (negb _); try discriminate. destruct (n_st n) eqn:S; injection Ha as <- <- <-; auto.
    destruct (_ || _); auto. apply good_agree; auto.
  - injection Ha as <- <- <-. unfold lease_status. destruct (lease_info _ _ n); cbn [fst]; auto. destruct (n_st n) eqn:S; auto.
    set (n1 := set_lts _ n). assert (G1 : good (c_trace s) (c_net s) p n n1 [] []) by (apply good_agree; auto). clearbody n1.
    assert (G2 : good (c_trace s) (c_net s) p n (step_down (n_term n1) n1) [] []).
    { destruct G1. apply good_plain; [apply NA_step_down; auto|]. eapply keep_trans; eauto. apply keep_step_down. apply g_na. }
    destruct (lease_info _ _ n1); auto.
  - injection Ha as <- <- <-. unfold transfer. destruct (n_st n) eqn:S; auto. destruct (n_first n); auto.
    eapply upd_good; [apply role_good with (s := LTransferring) (ld := n_leader n); auto|..]; reflexivity.
  - injection Ha as <- <- <-. unfold transfer_timeout. destruct (n_st n) eqn:S; auto.
    eapply upd_good; [apply role_good with (s := LLeader) (ld := n_leader n); auto|..]; reflexivity.
  - injection Ha as <- <- <-. apply restart_good; auto.
Qed.

(** ** The whole group *)
Record core (s : lcl) : Prop := {
  k_na : forall p, NA (c_trace s) (c_net s) p (c_nodes s p);
  k_gm : forall m, In m (c_net s) -> GM (c_trace s) (c_net s) m;
  k_te : TE conf old (c_trace s);
  k_vu : VU (c_trace s) }.

Lemma core0 : core lc0.
Proof.
  constructor; cbn; auto.
  - intros p. constructor; cbn; try discriminate; try lia; try (intros; contradiction); auto.
    + intros t [a []]. + intros t c [a []].
  - intros m []. - intros q t c1 c2 [a []].
Qed.

Lemma step_form : forall s x s', lstep conf old timeout fto drift clk s x = Some s' ->
  exists dt p e n ms rs, x = (dt, p, e) /\ 0 <= dt /\ lact conf old timeout fto drift clk s p (c_now s + dt) e = Some (n, ms, rs) /\
    s' = mkCl (c_now s + dt) (lupd (c_nodes s) p n) (ms ++ c_net s) (rs ++ c_trace s).
Proof.
  intros s [[dt p] e] s' H. unfold lstep in H. destruct (Z.ltb_spec dt 0); try discriminate.
  destruct (lact _ _ _ _ _ _ s p (c_now s + dt) e) as [[[n ms] rs]|] eqn:E; try discriminate. injection H as <-. exists dt, p, e, n, ms, rs. auto.
Qed.

Lemma about_el : forall p q rs tr t, Forall (about p) rs -> q <> p -> el (rs ++ tr) q t -> el tr q t.
Proof.
  intros p q rs tr t H Hq [a K]. exists a. apply in_app_or in K. destruct K as [K|K]; auto. rewrite Forall_forall in H. apply H in K. cbn in K. congruence.
Qed.
Lemma about_vt : forall p q rs tr t c, Forall (about p) rs -> q <> p -> vt (rs ++ tr) q t c -> vt tr q t c.
Proof.
  intros p q rs tr t c H Hq [a K]. exists a. apply in_app_or in K. destruct K as [K|K]; auto. rewrite Forall_forall in H. apply H in K. cbn in K. congruence.
Qed.
Lemma GM_mono : forall tr net tr' net' m, incl tr tr' -> incl net net' -> GM tr net m -> GM tr' net' m.
Proof.
  intros tr net tr' net' m I1 I2 H. destruct m; auto; cbn in *.
  - destruct H as [h1 [[d' h2] h3]]. sp; eauto. intros G. eapply vt_mono; eauto.
  - eapply el_mono; eauto.
Qed.

Lemma core_step : forall s x s', core s -> lstep conf old timeout fto drift clk s x = Some s' -> core s' /\ (forall q, keep (c_nodes s q) (c_nodes s' q)).
Proof.
  intros s x s' H Hs. apply step_form in Hs. destruct Hs as (dt & p & e & n & ms & rs & -> & Hd & Ha & ->).
  destruct H. pose proof (act_good _ _ _ _ _ _ _ (k_na0 p) k_gm0 Ha) as G. destruct G. split; [constructor; cbn [c_trace c_net c_nodes]; auto|].
  - intros q. unfold lupd. destruct (Z.eqb_spec q p) as [->|N]; auto. eapply NA_mono; eauto.
    + intros y Hy. apply in_or_app; auto. + intros y Hy. apply in_or_app; auto.
    + intros t. eapply about_el; eauto. + intros t c. eapply about_vt; eauto.
    + intros t v d K. apply in_app_or in K. destruct K as [K|K]; auto. apply g_req in K. congruence.
  - intros m Hm. apply in_app_or in Hm. destruct Hm as [Hm|Hm]; auto. eapply GM_mono; [| |apply k_gm0; auto]; intros y Hy; apply in_or_app; auto.
  - intros q. cbn [c_nodes]. unfold lupd. destruct (Z.eqb_spec q p) as [->|N]; auto. apply keep_refl. apply (k_na0 q).
Qed.

Lemma quorums_meet1 : forall a b, quorum conf old a -> quorum conf old b -> exists p, In p a /\ In p b.
Proof. intros a b [Ha _] [Hb _]. destruct (majorities_meet_same _ _ _ Ha Hb) as [p [_ h]]. exists p. auto. Qed.

Lemma TE_in : forall tr p t, TE conf old tr -> el tr p t -> exists Q, quorum conf old Q /\ forall q, In q Q -> vt tr q t p.
Proof.
  induction tr as [|r tr IH]; intros p t H [a K]; [destruct K|]. destruct H as [H1 H2].
  assert (M : forall q t c, vt tr q t c -> vt (r :: tr) q t c) by (intros; apply vt_cons; auto).
  destruct K as [->|K].
  - destruct H1 as [Q [h1 h2]]. exists Q. split; auto.
  - destruct (IH p t H2) as [Q [h1 h2]]; [exists a; auto|]. exists Q. split; auto.
Qed.
Lemma el_unique : forall tr p p' t, TE conf old tr -> VU tr -> el tr p t -> el tr p' t -> p = p'.
Proof.
  intros tr p p' t HT HV H1 H2. destruct (TE_in _ _ _ HT H1) as [Q [q1 q2]]. destruct (TE_in _ _ _ HT H2) as [Q' [q1' q2']].
  destruct (quorums_meet1 _ _ q1 q1') as [q [i1 i2]]. eapply HV; eauto.
Qed.
End P.
