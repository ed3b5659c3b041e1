(** Lemmas on the timed group model, part 5: every event keeps the follower leases' promises. *)
From Verif Require Import Base Ballot QuorumSpec BallotProofs Lease LeaseSpec LeaseProofs LeaseProofs2 LeaseProofs3 LeaseProofs4.

Section P.
Variables (conf : list peer) (old : option (list peer)) (timeout fto drift : peer -> Z -> Z) (clk : peer -> Z -> Z) (dd : Z).
Hypothesis Wf : wf_jconf (conf, old).
Hypothesis Ck : clocks dd clk.
Notation NA := (NA conf old).
Notation good := (good conf old).
Notation core := (core conf old).
Notation fol := (fol fto drift clk).
Notation floc := (floc fto drift clk).

Lemma gs_form : forall p now n n' ms rs, grant_self conf old fto drift clk p now n = Some (n', ms, rs) -> ms = [] /\ n_term n' = n_term n /\
  ((f_ts n' = f_ts n /\ f_last n' = f_last n /\ n_dis n' = n_dis n /\ rs = []) \/
   (votable fto drift clk p now n = true /\ f_ts n' = f_ts n /\ f_last n' = f_last n /\ n_dis n' = n_dis n /\ rs = [RVote p (n_term n) p now]) \/
   (votable fto drift clk p now n = true /\ n_dis n' = None /\ rs = [RElect p (n_term n) now; RVote p (n_term n) p now])).
Proof.
  intros p now n n' ms rs H. unfold grant_self in H. destruct (votable _ _ _ _ _).
  - set (n1 := set_ctx (n_ver n) (p :: n_grants n) (n_dis n) n) in *. change (n_st n1) with (n_st n) in H. change (n_term n1) with (n_term n) in H. destruct (wins _ _ _).
    + destruct (become_leader p now n1) as [[[n2 m2] r2]|] eqn:Eb; try discriminate. injection H as <- <- <-.
      unfold become_leader in Eb. change (n_st n1) with (n_st n) in Eb. destruct (n_st n); try discriminate. injection Eb as <- <- <-. sp; auto.
    + injection H as <- <- <-. sp; auto. destruct (n_st n); auto 10.
  - injection H as <- <- <-. sp; auto.
Qed.

(** granting oneself, after changes which do not touch the lease *)
Lemma gs_fol : forall s p now n1 n' ms rs ms0, core s -> fol s -> c_now s <= now -> keep (c_nodes s p) n' ->
  f_ts n1 = f_ts (c_nodes s p) -> f_last n1 = f_last (c_nodes s p) -> n_dis n1 = n_dis (c_nodes s p) -> n_term n1 = n_term (c_nodes s p) ->
  grant_self conf old fto drift clk p now n1 = Some (n', ms, rs) ->
  TE conf old (rs ++ c_trace s) -> VU (rs ++ c_trace s) ->
  (forall m, In m ms0 -> dis_ok (lupd (c_nodes s) p n') (rs ++ c_trace s) m) -> floc s p now n' (ms0 ++ ms) rs.
Proof.
  intros s p now n1 n' ms rs ms0 HC HF Hn HK E1 E2 E3 E4 Hg HT HV Hm. apply gs_form in Hg. destruct Hg as [-> [Ht Hg]]. rewrite app_nil_r.
  assert (Vt : votable fto drift clk p now n1 = votable fto drift clk p now (c_nodes s p)) by (unfold votable; rewrite E1; auto). rewrite Vt in Hg. rewrite E1, E2, E3, E4 in Hg.
  destruct Hg as [(h1 & h2 & h3 & ->)|[(h0 & h1 & h2 & h3 & ->)|(h0 & h3 & ->)]].
  - apply ev_quiet; auto.
  - eapply ev_vote; eauto. eapply votable_ok; eauto.
  - eapply ev_elect; eauto. right. exists p. split; auto. eapply votable_ok; eauto.
Qed.

Lemma v2_fol : forall s p k ok now n' ms rs, core s -> fol s -> c_now s <= now -> keep (c_nodes s p) n' ->
  vote_2 fto drift clk p k ok now (c_nodes s p) = Some (n', ms, rs) -> n_term (c_nodes s p) <= n_term n' /\ floc s p now n' ms rs.
Proof.
  intros s p k ok now n' ms rs HC HF Hn HK Hv. set (n := c_nodes s p) in *. unfold vote_2 in Hv.
  pose proof (k_na _ _ _ HC p) as HA. fold n in HA.
  destruct (find_w k (n_vw n)) as [w|] eqn:Ew; try discriminate. apply find_w_in in Ew. destruct (a_vw _ _ _ _ _ _ HA w Ew) as [Wp [Wc _]].
  set (n1 := set_vw _ _ n) in *. change (votable fto drift clk p now n1) with (votable fto drift clk p now n) in Hv. change (n_term n1) with (n_term n) in Hv. change (n_st n1) with (n_st n) in Hv.
  destruct (Z.eqb_spec (w_prev w) (n_term n)) as [Ep|]; cbn [negb orb] in Hv.
  2: { injection Hv as <- <- <-. split; [reflexivity|]. apply ev_quiet; auto. intros m [<-|[]]. exact I. }
  destruct (votable fto drift clk p now n) eqn:V; cbn [negb] in Hv.
  2: { injection Hv as <- <- <-. split; [reflexivity|]. apply ev_quiet; auto. intros m [<-|[]]. exact I. }
  destruct (if n_term n <? w_term w then _ else (n1, None)) as [n3 d3] eqn:E3.
  assert (K3 : f_ts n3 = f_ts n /\ f_last n3 = f_last n /\ (n_dis n3 = n_dis n \/ n_dis n3 = None) /\ n_term n3 = w_term w /\
     (d3 = None \/ (d3 = Some (n_term n) /\ leads (n_st n) = true /\ n_term n < n_mterm n3 /\ n_mterm n3 = n_term n3))).
  { destruct (Z.ltb_spec (n_term n) (w_term w)); injection E3 as <- <-.
    - assert (T3 : n_term (step_down (w_term w) n1) = w_term w). { rewrite sd_term. change (n_term n1) with (n_term n). destruct (Z.ltb_spec (n_term n) (w_term w)); lia. }
      assert (M3 : n_mterm (step_down (w_term w) n1) = w_term w). { rewrite sd_mterm. change (n_term n1) with (n_term n). destruct (Z.ltb_spec (n_term n) (w_term w)); lia. }
      sp; try rewrite sd_fts; try rewrite sd_flast; auto. + rewrite sd_dis. change (n_st n1) with (n_st n). destruct (n_st n); auto.
      + destruct (leads (n_st n)) eqn:Ld; auto. right. rewrite Ep. sp; auto; lia.
    - sp; auto. change (n_term n1) with (n_term n). lia. }
  destruct K3 as (F3 & L3 & D3 & T3 & G3). clear E3.
  destruct (ok && opeer_eqb (n_voted n3) None).
  - injection Hv as <- <- <-. set (n6 := step_down (w_term w) n3) in *.
    assert (E6 : f_ts n6 = f_ts n /\ f_last n6 = f_last n /\ (n_dis n6 = n_dis n \/ n_dis n6 = None)).
    { unfold n6. rewrite sd_fts, sd_flast, sd_dis. sp; auto. destruct (n_st n3); auto. }
    destruct E6 as (F6 & L6 & D6). split; [cbn [save set_term n_term]; lia|].
    eapply ev_vote; eauto.
    + eapply votable_ok; eauto.
    + intros m [<-|[]]. cbn [dis_ok]. destruct G3 as [->|(-> & ld & m1 & m2)]; auto. exists p. split.
      * apply vt_cons || apply el_cons. right. destruct (a_ld _ _ _ _ _ _ HA ld). auto.
      * unfold lupd. rewrite Z.eqb_refl. left. cbn [save set_term n_mterm n_term]. lia.
  - injection Hv as <- <- <-. split; [lia|]. apply ev_quiet; auto. intros m [<-|[]]. cbn [dis_ok]. destruct G3 as [->|(-> & ld & m1 & m2)]; auto. exists p. split.
      * destruct (a_ld _ _ _ _ _ _ HA ld). auto.
      * unfold lupd. rewrite Z.eqb_refl. left. lia.
Qed.

Lemma csd_f : forall t f n, n_term n <= t -> f_ts (check_step_down t f n) = f_ts n /\ f_last (check_step_down t f n) = f_last n /\ (n_dis (check_step_down t f n) = n_dis n \/ n_dis (check_step_down t f n) = None).
Proof.
  intros t f n H. destruct (csd_form t f n H) as (n1 & h1 & h2 & h3 & h4). rewrite h4.
  assert (E : f_ts n1 = f_ts n /\ f_last n1 = f_last n /\ (n_dis n1 = n_dis n \/ n_dis n1 = None)).
  { destruct h1 as [->| ->]; auto. rewrite sd_fts, sd_flast, sd_dis. sp; auto. destruct (n_st n); auto. }
  destruct (n_leader n1); auto.
Qed.

Lemma ap_fol : forall s p f t snt cd now n' ms rs, core s -> fol s -> c_now s <= now -> keep (c_nodes s p) n' -> f <> p -> el (c_trace s) f t ->
  append_req clk p f t snt cd now (c_nodes s p) = Some (n', ms, rs) -> n_term (c_nodes s p) <= n_term n' /\ floc s p now n' ms rs.
Proof.
  intros s p f t snt cd now n' ms rs HC HF Hn HK Hfp He Ha. set (n := c_nodes s p) in *. unfold append_req in Ha. pose proof (k_na _ _ _ HC p) as HA. fold n in HA.
  destruct (Z.ltb_spec t (n_term n)) as [|Ht]; [injection Ha as <- <- <-; split; [lia|]; apply ev_quiet; auto; intros m []|].
  destruct (csd_good _ _ _ _ _ _ _ _ HA Ht He) as (H1 & K1 & T1 & S1). destruct (csd_f t f n Ht) as (F1 & L1 & D1). set (n1 := check_step_down t f n) in *. clearbody n1.
  destruct (opeer_eqb (n_leader n1) (Some f)) eqn:El; cbn [negb] in Ha.
  2: { injection Ha as <- <- <-. split; [rewrite sd_term; destruct (Z.ltb_spec (n_term n1) (t + 1)); lia|]. apply ev_quiet; auto; rewrite ?sd_fts, ?sd_flast, ?sd_dis; auto. rewrite S1; auto. intros m []. }
  destruct cd; injection Ha as <- <- <-; (split; [cbn [set_f n_term]; lia|]); [apply ev_quiet; auto; intros m []|].
  apply opeer_eqb_eq in El. destruct Ck as [_ [Cm _]].
  constructor; cbn [app].
  - apply (ev_dis fto drift clk s p (set_f (n_leader n1) (clk p now) n1)) with (rs := [_]); auto.
  - intros m [<-|[]]. exact I.
  - intros r [<-|[]]. reflexivity.
  - intros f0 l t0 a [K|[]]. injection K as <- <- <- <-. sp; auto; [cbn [set_f n_term]; lia|]. left. unfold lupd. rewrite Z.eqb_refl. cbn [set_f f_ts f_last]. split; [lia|].
    intros x E. rewrite El in E. injection E as <-. exists t. split; [lia|]. apply el_cons. auto.
  - intros l t0 a H [k1 k2]. left. unfold lupd. rewrite Z.eqb_refl. cbn [set_f f_ts f_last]. pose proof (x_time _ _ _ _ HF _ H) as Hta. cbn in Hta. split; [apply Cm; lia|].
    intros x E. rewrite El in E. injection E as <-. pose proof (x_term _ _ _ _ HF _ _ _ _ H). fold n in H0. exists t. split; [lia|]. apply el_cons. auto.
  - split; [|eapply ev_ti; eauto]. sp; auto. intros t' c K. destruct (a_vt _ _ _ _ _ _ HA t' c K). pose proof (a_m _ _ _ _ _ _ HA). lia.
Qed.

Lemma vr_fol : forall s p f t v g d rt again now n' ms rs, core s -> fol s -> c_now s <= now -> keep (c_nodes s p) n' -> In (MResp f p t v g d rt) (c_net s) ->
  TE conf old (rs ++ c_trace s) -> VU (rs ++ c_trace s) ->
  vote_resp conf old p f t v g d rt again now (c_nodes s p) = Some (n', ms, rs) -> n_term (c_nodes s p) <= n_term n' /\ floc s p now n' ms rs.
Proof.
  intros s p f t v g d rt again now n' ms rs HC HF Hn HK Hi HT HV Hv. set (n := c_nodes s p) in *. unfold vote_resp in Hv.
  pose proof (k_gm _ _ _ HC _ Hi) as Hg. cbn in Hg. destruct Hg as [_ [_ Hgv]]. pose proof (x_net _ _ _ _ HF _ Hi) as Hd. cbn in Hd.
  assert (Q : forall n2, n_term n <= n_term n2 -> keep n n2 -> f_ts n2 = f_ts n -> f_last n2 = f_last n -> (n_dis n2 = n_dis n \/ n_dis n2 = None) -> n_term n <= n_term n2 /\ floc s p now n2 [] []).
  { intros n2 h0 h h1 h2 h3. split; auto. apply ev_quiet; auto. intros m []. }
  destruct (Z.eqb_spec v (n_ver n)) as [Ev|]; cbn [negb] in Hv; [|injection Hv as <- <- <-; apply Q; auto; lia].
  destruct (n_st n) eqn:S; try (injection Hv as <- <- <-; apply Q; auto; lia).
  destruct (Z.eqb_spec t (n_term n)) as [Et|]; cbn [negb] in Hv; [|injection Hv as <- <- <-; apply Q; auto; lia].
  destruct (n_term n <? rt) eqn:Ert.
  { injection Hv as <- <- <-. apply Q; auto; rewrite ?sd_term, ?sd_fts, ?sd_flast, ?sd_dis, ?Ert, ?S; auto. apply Z.ltb_lt in Ert. lia. }
  destruct (negb g && negb again); [injection Hv as <- <- <-; apply Q; auto; lia|].
  set (n1 := match d with Some pt => set_ctx (n_ver n) (n_grants n) (Some (Some f, pt)) n | None => n end) in *.
  assert (E1 : n_st n1 = LCandidate /\ n_term n1 = n_term n /\ f_ts n1 = f_ts n /\ f_last n1 = f_last n /\ (forall l lt, n_dis n1 = Some (l, lt) -> gone (c_nodes s) (c_trace s) lt)).
  { unfold n1. destruct d; cbn [set_ctx n_st n_term f_ts f_last n_dis]; sp; auto; intros l lt E; [injection E as <- <-; auto|eapply (x_dis _ _ _ _ HF); eauto]. }
  clearbody n1. destruct E1 as (S1 & T1 & F1 & L1 & D1).
  destruct (if g then _ else (n1, [])) as [n2 r2] eqn:E2.
  assert (G2 : n_st n2 = LCandidate /\ n_term n2 = n_term n /\ f_ts n2 = f_ts n /\ f_last n2 = f_last n /\ n_dis n2 = n_dis n1 /\ (r2 = [] \/ (g = true /\ r2 = [RVote p (n_term n) p now] /\ f_last n = Some f))).
  { destruct g; [|injection E2 as <- <-; sp; auto]. destruct (opeer_eqb (f_last n1) (Some f)) eqn:Eo; injection E2 as <- <-; cbn [set_wait set_ctx n_st n_term f_ts f_last n_dis]; sp; auto.
    right. rewrite T1. sp; auto. apply opeer_eqb_eq in Eo. congruence. }
  destruct G2 as (S2 & T2 & F2 & L2 & D2 & R2).
  assert (VO : forall nn, keep n nn -> r2 = [] \/ exists c, r2 = [RVote p (n_term n) c now] /\ vote_ok fto drift clk (lupd (c_nodes s) p nn) (c_trace s) p (n_term n) now).
  { intros nn Hk. destruct R2 as [->|[hg [-> hf]]]; auto. right. exists p. split; auto. eapply last_leader_ok; eauto.
    pose proof (Hgv hg) as K. rewrite Et in K. eapply (a_vt _ _ _ _ _ _ (k_na _ _ _ HC f)). exact K. }
  destruct (g && wins conf old (n_grants n2)) eqn:Ew.
  - destruct (become_leader p now n2) as [[[n3 m3] r3]|] eqn:Eb; try discriminate. injection Hv as <- <- <-. unfold become_leader in Eb. rewrite S2 in Eb. injection Eb as <- <- <-.
    split; [cbn [set_led set_reps lease_start set_f set_ctx set_role n_term]; lia|]. cbn [set_led set_reps lease_start set_f set_ctx set_role n_term]. cbn [set_led set_reps lease_start set_f set_ctx set_role n_term] in HT, HV, HK. rewrite T2 in *. eapply ev_elect; eauto.
    intros m [].
  - injection Hv as <- <- <-. split; [lia|].
    assert (Hms : forall m, In m (if again then match n_dis n2 with Some _ => [MReq p (n_term n2) (n_ver n2) (n_dis n2)] | None => [] end else []) -> dis_ok (lupd (c_nodes s) p n2) (r2 ++ c_trace s) m).
    { intros m Hm. destruct again; [|destruct Hm]. destruct (n_dis n2) as [[l lt]|] eqn:Ed; [|destruct Hm]. destruct Hm as [<-|[]]. cbn. eapply ev_gone; eauto. }
    assert (Hds : forall l lt, n_dis n2 = Some (l, lt) -> gone (lupd (c_nodes s) p n2) (r2 ++ c_trace s) lt).
    { intros l lt E. eapply ev_gone; eauto. eapply D1. rewrite <- D2. eauto. }
    constructor; auto.
    + intros r Hr. destruct R2 as [->|[_ [-> _]]]; [destruct Hr|]. destruct Hr as [<-|[]]. reflexivity.
    + intros f0 l t0 a K. destruct R2 as [->|[_ [-> _]]]; [destruct K|]. destruct K as [K|[]]. discriminate.
    + intros l t0 a. apply ev_same; auto.
    + destruct (VO n2 HK) as [->|[c [-> V]]]; cbn [app TI]; [|split; auto]; eapply ev_ti; eauto.
Qed.

Lemma act_fol : forall s p now e n' ms rs, core s -> fol s -> c_now s <= now ->
  lact conf old timeout fto drift clk s p now e = Some (n', ms, rs) ->
  (match e with LCrash _ => forall l t a, In (RRenew p l t a) (c_trace s) -> t <= n_term n' | _ => True end) ->
  (n_term (c_nodes s p) <= n_term n' \/ forall l t a, In (RRenew p l t a) (c_trace s) -> t <= n_term n') /\ floc s p now n' ms rs.
Proof.
  intros s p now e n' ms rs HC HF Hn Ha Hcr. pose proof (k_na _ _ _ HC p) as HA.
  pose proof (act_good conf old timeout fto drift clk Wf _ _ _ _ _ _ _ HA (k_gm _ _ _ HC) Ha) as G. destruct G. clear g_na g_about g_gm g_req. specialize (g_te (k_te _ _ _ HC)). specialize (g_vu (k_vu _ _ _ HC)).
  assert (Q : forall n2, n_term (c_nodes s p) <= n_term n2 -> keep (c_nodes s p) n2 -> f_ts n2 = f_ts (c_nodes s p) -> f_last n2 = f_last (c_nodes s p) -> (n_dis n2 = n_dis (c_nodes s p) \/ n_dis n2 = None) ->
     (n_term (c_nodes s p) <= n_term n2 \/ forall l t a, In (RRenew p l t a) (c_trace s) -> t <= n_term n2) /\ floc s p now n2 [] []).
  { intros n2 h0 h h1 h2 h3. split; auto. apply ev_quiet; auto. intros m []. }
  assert (SD : forall t n, n_term n <= n_term (step_down t n)). { intros t n. rewrite sd_term. destruct (Z.ltb_spec (n_term n) t); lia. }
  destruct e; cbn [lact] in Ha; unfold ok0 in Ha.
  - destruct (leads (n_st (c_nodes s p))); try discriminate. injection Ha as <- <- <-. unfold elect_1 in *. destruct (_ || _); apply Q; auto; cbn [set_wait set_ctx set_term set_role n_term f_ts f_last n_dis]; auto; lia.
  - destruct (_ && _) eqn:E; try discriminate. injection Ha as <- <- <-. apply andb_true_iff in E. destruct E as [E E3]. apply andb_true_iff in E. destruct E as [E1 E2]. apply sent_in in E1. apply Z.eqb_eq in E2. subst t.
    pose proof (x_net _ _ _ _ HF _ E1) as Hg. cbn [dis_ok] in Hg. unfold elect_1 in *. destruct (_ || _); [|apply Q; auto; lia].
    split; [left; cbn [set_wait set_f set_ctx set_term set_role n_term]; lia|]. constructor; auto.
    + cbn [set_wait set_f set_ctx set_term set_role n_dis n_term]. intros l lt K. injection K as <- <-. eapply ev_gone; eauto.
    + intros m [].
    + intros r [].
    + intros f l t a [].
    + intros l t a H _. eapply ev_gone_cov with (rs := []); eauto.
    + eapply ev_ti; eauto.
  - unfold elect_2 in Ha. destruct (n_win (c_nodes s p)) as [t|]; try discriminate. set (n0 := set_wait (n_gself (c_nodes s p)) None (c_nodes s p)) in *.
    destruct (n_term n0 =? t).
    + destruct (grant_self conf old fto drift clk p now (save n0)) as [[[n2 m2] r2]|] eqn:Eg; try discriminate. injection Ha as <- <- <-.
      pose proof (gs_form _ _ _ _ _ _ Eg) as [_ [Et _]]. split; [left; rewrite Et; cbn; lia|].
      apply (gs_fol s p now (save n0) n2 m2 r2 [MReq p (n_term n0) (n_ver n0) (n_dis n0)]); auto. intros m [<-|[]]. cbn [n0 set_wait n_dis dis_ok]. destruct (n_dis (c_nodes s p)) as [[l lt]|] eqn:Ed; auto. eapply ev_gone; eauto. eapply (x_dis _ _ _ _ HF); eauto.
    + injection Ha as <- <- <-. apply Q; auto. cbn; lia.
  - unfold grant_timer in Ha. destruct (n_gself (c_nodes s p)) as [v|]; try discriminate. destruct (v =? _).
    + pose proof (gs_form _ _ _ _ _ _ Ha) as [_ [Et _]]. split; [left; rewrite Et; cbn; lia|]. apply (gs_fol s p now _ n' ms rs []) in Ha; auto. intros m [].
    + injection Ha as <- <- <-. apply Q; auto. cbn; lia.
  - destruct (_ && _) eqn:E; try discriminate. apply andb_true_iff in E. destruct E as [E1 E2]. apply sent_in in E1. unfold vote_1 in Ha. pose proof (x_net _ _ _ _ HF _ E1) as Hg. cbn [dis_ok] in Hg.
    set (n := c_nodes s p) in *. set (n1 := match n_st n with LFollower => _ | _ => n end) in *.
    assert (E : n1 = n \/ (n1 = set_f (f_last n) 0 n /\ gone (c_nodes s) (c_trace s) (n_term n))).
    { unfold n1. destruct (n_st n); auto. destruct dis as [[l lt]|]; auto. destruct (n_term n =? lt) eqn:El; cbn [andb]; auto. destruct (opeer_eqb _ _); auto. right. apply Z.eqb_eq in El. rewrite El. auto. }
    clearbody n1. assert (T1 : n_term n1 = n_term n) by (destruct E as [->|[-> _]]; auto).
    assert (X : forall n2 ms2, n_term n2 = n_term n1 -> f_ts n2 = f_ts n1 -> f_last n2 = f_last n1 -> n_dis n2 = n_dis n1 -> keep n n2 -> (forall m, In m ms2 -> dis_ok (lupd (c_nodes s) p n2) (c_trace s) m) -> 
       (n_term n <= n_term n2 \/ forall l t a, In (RRenew p l t a) (c_trace s) -> t <= n_term n2) /\ floc s p now n2 ms2 []).
    { intros n2 ms2 h1 h2 h3 h4 hk hm. split; [left; lia|]. destruct E as [->|[-> Hgo]].
      - apply ev_quiet; auto.
      - constructor; auto. + intros l lt K. eapply ev_dis; eauto. + intros r []. + intros f l t0 a []. + intros l t0 a H _. eapply ev_gone_cov with (rs := []); eauto. + eapply ev_ti; eauto. }
    destruct (t <? n_term n1); injection Ha as <- <- <-; apply X; auto. intros m [<-|[]]. exact I. intros m [].
  - destruct (v2_fol _ _ _ _ _ _ _ _ HC HF Hn g_keep Ha). auto.
  - destruct (_ && _) eqn:E; try discriminate. apply andb_true_iff in E. destruct E as [E1 E2]. apply sent_in in E1.
    destruct (vr_fol _ _ _ _ _ _ _ _ _ _ _ _ _ HC HF Hn g_keep E1 g_te g_vu Ha). auto.
  - destruct (Z.leb_spec (n_term (c_nodes s p)) t); try discriminate. injection Ha as <- <- <-. split; auto.
    apply ev_quiet; auto; rewrite ?sd_fts, ?sd_flast, ?sd_dis; auto. { destruct (n_st (c_nodes s p)); auto. }
    intros m Hm. destruct (wake && leads (n_st (c_nodes s p))) eqn:E; [|destruct Hm]. destruct Hm as [<-|[]]. apply andb_true_iff in E. destruct E as [_ Ld]. destruct (a_ld _ _ _ _ _ _ HA Ld) as [h1 h2].
    cbn. exists p. split; auto. unfold lupd. rewrite Z.eqb_refl. unfold left. rewrite sd_mterm, sd_st. destruct (Z.ltb_spec (n_term (c_nodes s p)) t); [left; lia|right; auto].
  - destruct (n_st (c_nodes s p)) eqn:S; try discriminate. injection Ha as <- <- <-. apply Q; auto. cbn; lia.
  - destruct (existsb _ _); try discriminate. injection Ha as <- <- <-. split; [left; lia|]. apply ev_quiet; auto. intros m [<-|[]]. exact I.
  - destruct (_ && _) eqn:E; try discriminate. apply andb_true_iff in E. destruct E as [E1 E2]. apply sent_in in E1. apply negb_true_iff, Z.eqb_neq in E2.
    pose proof (k_gm _ _ _ HC _ E1) as Hm. cbn in Hm. destruct (ap_fol _ _ _ _ _ _ _ _ _ _ HC HF Hn g_keep E2 Hm Ha). auto.
  - destruct (sent _ s); try discriminate. unfold ack in Ha. destruct (_ && _); injection Ha as <- <- <-; apply Q; auto; cbn; lia.
  - unfold start_rep in Ha. destruct (_ && _ && _); injection Ha as <- <- <-; [|apply Q; auto; lia]. split; [left; cbn; lia|].
    constructor; cbn [app]; auto. + intros l lt K. eapply ev_dis with (rs := [_]); eauto. + intros m []. + intros r [<-|[]]. reflexivity. + intros f l t a [K|[]]. discriminate.
    + apply ev_same with (rs := [_]); auto. + split; auto. eapply ev_ti; eauto.
  - unfold first_commit in Ha. destruct (_ && _); try discriminate. injection Ha as <- <- <-. apply Q; auto. cbn; lia.
  - unfold lease_begin in Ha. destruct (negb _); try discriminate. destruct (n_st (c_nodes s p)); injection Ha as <- <- <-; try (apply Q; auto; lia).
    destruct (_ || _); apply Q; auto; cbn; lia.
  - injection Ha as <- <- <-. unfold lease_status in *. destruct (lease_info _ _ (c_nodes s p)); cbn [fst] in *; try (apply Q; auto; lia).
    destruct (n_st (c_nodes s p)) eqn:S; cbn [fst] in *; try (apply Q; auto; lia). set (n1 := set_lts _ (c_nodes s p)) in *.
    assert (X : (n_term (c_nodes s p) <= n_term (step_down (n_term n1) n1) \/ forall l t a, In (RRenew p l t a) (c_trace s) -> t <= n_term (step_down (n_term n1) n1)) /\ (keep (c_nodes s p) (step_down (n_term n1) n1) -> floc s p now (step_down (n_term n1) n1) [] [])).
    { split; [left; apply (SD _ n1)|]. intros K. apply ev_quiet; auto; rewrite ?sd_fts, ?sd_flast, ?sd_dis; auto. change (n_st n1) with (n_st (c_nodes s p)). rewrite S. auto. intros m []. }
    destruct (lease_info _ _ n1); cbn [fst] in *; try (destruct X; auto; fail). apply Q; auto. cbn; lia.
  - injection Ha as <- <- <-. unfold transfer in *. destruct (n_st (c_nodes s p)); try (apply Q; auto; lia). destruct (n_first _); apply Q; auto; cbn; lia.
  - injection Ha as <- <- <-. unfold transfer_timeout in *. destruct (n_st (c_nodes s p)); apply Q; auto; cbn; lia.
  - injection Ha as <- <- <-. split; auto. destruct Ck as [_ [Cm _]].
    assert (D : n_dis (restart (clk p now) lt (c_nodes s p)) = None). { unfold restart. set (n0 := mkLN _ _ _ _ _ _ _ _ _ _ _ _ _ _ _ _ _ _ _ _ _ _). destruct (n_term n0 <? lt); destruct (_ && _); reflexivity. }
    assert (L : f_last (restart (clk p now) lt (c_nodes s p)) = None). { unfold restart. set (n0 := mkLN _ _ _ _ _ _ _ _ _ _ _ _ _ _ _ _ _ _ _ _ _ _). destruct (n_term n0 <? lt); destruct (_ && _); reflexivity. }
    assert (F : f_ts (restart (clk p now) lt (c_nodes s p)) = clk p now \/ n_term (restart (clk p now) lt (c_nodes s p)) = 1).
    { unfold restart. set (n0 := mkLN _ _ _ _ _ _ _ _ _ _ _ _ _ _ _ _ _ _ _ _ _ _). set (n1 := if n_term n0 <? lt then _ else n0).
      assert (f_ts n1 = clk p now) by (unfold n1; destruct (n_term n0 <? lt); reflexivity). clearbody n1. destruct (Z.eqb_spec (n_term n1) 1); cbn [andb]; auto. destruct (n_voted n1); auto. }
    constructor; auto.
    + intros l lt0 E. congruence. + intros m []. + intros r []. + intros f l t a [].
    + intros l t a H _. pose proof (x_time _ _ _ _ HF _ H) as Hta. cbn in Hta. destruct F as [F|F].
      * left. unfold lupd. rewrite Z.eqb_refl, F, L. split; [apply Cm; lia|]. discriminate.
      * exfalso. apply Hcr in H as Hc. destruct (TI_renew _ _ _ _ _ _ _ _ _ (x_ti _ _ _ _ HF) H) as [_ He]. apply (a_el _ _ _ _ _ _ (k_na _ _ _ HC l)) in He. lia.
    + eapply ev_ti; eauto.
Qed.

Lemma fol_step : forall s x s', core s -> fol s -> lstep conf old timeout fto drift clk s x = Some s' -> keeps_term s s' x -> fol s'.
Proof.
  intros s x s' HC HF Hs Hk. destruct (core_step conf old timeout fto drift clk Wf _ _ _ HC Hs) as [_ K]. apply step_form in Hs. destruct Hs as (dt & p & e & n & ms & rs & -> & Hd & Ha & ->).
  specialize (K p). cbn [c_nodes] in K. unfold lupd in K. rewrite Z.eqb_refl in K.
  assert (Hcr : match e with LCrash _ => forall l t a, In (RRenew p l t a) (c_trace s) -> t <= n_term n | _ => True end).
  { destruct e; auto. cbn [keeps_term c_nodes] in Hk. unfold lupd in Hk. rewrite Z.eqb_refl in Hk. exact Hk. }
  assert (Hn : c_now s <= c_now s + dt) by lia. destruct (act_fol _ _ _ _ _ _ _ HC HF Hn Ha Hcr) as [h1 h2]. eapply fol_build; eauto.
Qed.
End P.
