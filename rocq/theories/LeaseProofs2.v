(** Lemmas on the timed group model, part 2: what each event does to votes, terms and elections. *)
From Verif Require Import Base Ballot QuorumSpec BallotProofs Lease LeaseSpec LeaseProofs.

Section P.
Variables (conf : list peer) (old : option (list peer)) (timeout fto drift : peer -> Z -> Z) (clk : peer -> Z -> Z).
Hypothesis Wf : wf_jconf (conf, old).
Notation NA := (NA conf old).
Notation mem := (mem conf old).

Definition about (p : peer) (r : lrec) : Prop := match r with RVote q _ _ _ | RRenew q _ _ _ | RElect q _ _ | RStart q _ _ _ => q = p end.
Definition GM (tr : list lrec) (net : list lmsg) (m : lmsg) : Prop :=
  match m with
  | MResp f c t v g d rt => f <> c /\ (exists d', In (MReq c t v d') net) /\ (g = true -> vt tr f t c)
  | MApp f t snt => el tr f t
  | _ => True
  end.
(** Every election has its votes before it. *)
Fixpoint TE (tr : list lrec) : Prop :=
  match tr with
  | [] => True
  | r :: tl => match r with RElect p t _ => exists Q, quorum conf old Q /\ forall q, In q Q -> vt tl q t p | _ => True end /\ TE tl
  end.

(** A node votes for one candidate in a term. *)
Definition VU (tr : list lrec) : Prop := forall q t c1 c2, vt tr q t c1 -> vt tr q t c2 -> c1 = c2.

Record good (tr : list lrec) (net : list lmsg) (p : peer) (n n' : lnode) (ms : list lmsg) (rs : list lrec) : Prop := {
  g_na : NA (rs ++ tr) (ms ++ net) p n';
  g_keep : keep n n';
  g_about : Forall (about p) rs;
  g_gm : forall m, In m ms -> GM (rs ++ tr) (ms ++ net) m;
  g_req : forall c t v d, In (MReq c t v d) ms -> c = p;
  g_te : TE tr -> TE (rs ++ tr);
  g_vu : VU tr -> VU (rs ++ tr) }.

Lemma good_plain : forall tr net p n n', NA tr net p n' -> keep n n' -> good tr net p n n' [] [].
Proof. intros. constructor; auto. - intros m []. - intros ? ? ? ? []. Qed.
Lemma good_agree : forall tr net p n n', NA tr net p n ->
  n_st n' = n_st n -> n_term n' = n_term n -> n_voted n' = n_voted n -> n_leader n' = n_leader n ->
  n_mterm n' = n_mterm n -> n_mvoted n' = n_mvoted n -> n_led n' = n_led n -> n_ver n' = n_ver n ->
  n_grants n' = n_grants n -> n_gself n' = n_gself n -> n_vw n' = n_vw n -> good tr net p n n' [] [].
Proof. intros. apply good_plain. eapply NA_agree; eauto. apply keep_same; auto. Qed.

Lemma el_cons : forall r tr p t, el (r :: tr) p t <-> (exists a, r = RElect p t a) \/ el tr p t.
Proof. intros r tr p t. split. - intros [a [E|H]]; [left|right]; exists a; auto. - intros [[a E]|[a H]]; exists a; [left|right]; auto. Qed.
Lemma vt_cons : forall r tr p t c, vt (r :: tr) p t c <-> (exists a, r = RVote p t c a) \/ vt tr p t c.
Proof. intros r tr p t c. split. - intros [a [E|H]]; [left|right]; exists a; auto. - intros [[a E]|[a H]]; exists a; [left|right]; auto. Qed.

Lemma VU_plain : forall r tr, (forall q t c a, r <> RVote q t c a) -> VU tr -> VU (r :: tr).
Proof.
  intros r tr Hr H q t c1 c2 K1 K2. apply vt_cons in K1. apply vt_cons in K2. destruct K1 as [[a E]|K1]; [exfalso; eapply Hr; eauto|]. destruct K2 as [[a E]|K2]; [exfalso; eapply Hr; eauto|]. eapply H; eauto.
Qed.
Lemma VU_vote : forall tr net p n t c a, NA (RVote p t c a :: tr) net p n -> t = n_mterm n -> VU tr -> VU (RVote p t c a :: tr).
Proof.
  intros tr net p n t c a H Ht Hv q t1 c1 c2 K1 K2. destruct (Z.eq_dec q p) as [->|Nq].
  - destruct (Z.eq_dec t1 t) as [->|Nt].
    + apply (a_vt _ _ _ _ _ _ H) in K1. apply (a_vt _ _ _ _ _ _ H) in K2. destruct K1 as [_ K1], K2 as [_ K2]. specialize (K1 Ht). specialize (K2 Ht). congruence.
    + apply vt_cons in K1. apply vt_cons in K2. destruct K1 as [[b E]|K1]; [congruence|]. destruct K2 as [[b E]|K2]; [congruence|]. eapply Hv; eauto.
  - apply vt_cons in K1. apply vt_cons in K2. destruct K1 as [[b E]|K1]; [congruence|]. destruct K2 as [[b E]|K2]; [congruence|]. eapply Hv; eauto.
Qed.
Lemma keep_sv : forall tr net p n n', NA tr net p n -> n_term n' = n_term n -> n_mterm n' = n_term n -> n_st n' = n_st n -> keep n n'.
Proof.
  intros tr net p n n' [] H1 H2 H3. split; [lia|]. intros e1 e2. rewrite H3. destruct (n_st n) eqn:K; auto; right; split; try congruence; lia.
Qed.
Lemma NA_save : forall tr net p n, NA tr net p n -> NA tr net p (save n).
Proof.
  intros tr net p n H. pose proof (a_m _ _ _ _ _ _ H) as M. destruct H. unfold save. constructor; cbn [n_st n_term n_voted n_leader n_mterm n_mvoted n_led n_ver n_grants n_gself n_vw]; auto; try lia; intros.
  - destruct (a_ld H). auto.
  - destruct (a_el t H). sp; auto; lia.
  - destruct (a_vt t c H). split; [lia|]. intros E. subst t. destruct (Z.eq_dec (n_mterm n) (n_term n)); [|lia]. rewrite a_sv; auto.
  - destruct (Z.eq_dec (n_mterm n) (n_term n)) as [E|E]; [|rewrite a_un in H; [|lia]; congruence].
    rewrite <- E. apply a_mv; auto. rewrite <- a_sv; auto.
  - destruct (a_gs v H). split; auto.
  - destruct (a_rq t v d H). split; auto.
Qed.

(** becoming leader, when saved *)
Lemma bl_good : forall tr net p now n n' ms rs, NA tr net p n -> n_mterm n = n_term n -> wins conf old (n_grants n) = true ->
  become_leader p now n = Some (n', ms, rs) -> good tr net p n n' ms rs /\ rs = [RElect p (n_term n) now] /\ n_term n' = n_term n.
Proof.
  intros tr net p now n n' ms rs H M Wn Hb. unfold become_leader in Hb. destruct (n_st n) eqn:S; try discriminate.
  injection Hb as <- <- <-. split; [|split; reflexivity]. pose proof H as HA. destruct H. destruct (a_cd S) as [c1 [c2 c3]].
  constructor.
  - cbn [app]. constructor; cbn [n_st n_term n_voted n_leader n_mterm n_mvoted n_led n_ver n_grants n_gself n_vw set_led set_reps lease_start set_f set_ctx set_role]; auto; intros.
    + split; auto. apply el_cons. left. eauto.
    + apply el_cons in H. destruct H as [[a E]|H]; auto. injection E as <- _. sp; auto; lia.
    + apply vt_cons in H. destruct H as [[a E]|H]; [discriminate|auto].
    + apply vt_cons. auto.
    + discriminate.
    + destruct (a_gs v H). split; [lia|discriminate].
    + destruct (a_rq t v d H). split; [lia|discriminate].
    + injection H as <-. apply el_cons. left. eauto.
    + destruct H as [<-|H]; apply el_cons; [left; eauto|right; auto].
  - split; cbn [n_st n_term n_mterm set_led set_reps lease_start set_f set_ctx set_role]; [lia|]. intros _ _. right. split; auto. congruence.
  - constructor; [reflexivity|constructor].
  - intros m [].
  - intros ? ? ? ? [].
  - intros T. cbn. split; auto. exists (n_grants n). split; [apply wins_quorum; auto|]. intros q Hq. apply (a_gr S); auto.
  - apply VU_plain. congruence.
Qed.

Lemma good_trans : forall tr net p n n1 n2 ms1 rs1 ms2 rs2, good tr net p n n1 ms1 rs1 -> good (rs1 ++ tr) (ms1 ++ net) p n1 n2 ms2 rs2 ->
  good tr net p n n2 (ms2 ++ ms1) (rs2 ++ rs1).
Proof.
  intros tr net p n n1 n2 ms1 rs1 ms2 rs2 [] []. constructor; rewrite <- ?app_assoc; auto.
  - eapply keep_trans; eauto.
  - apply Forall_app; auto.
  - intros m H. apply in_app_or in H. destruct H as [H|H]; auto. apply g_gm0 in H.
    destruct m; auto; cbn in *.
    + destruct H as [h1 [[d' h2] h3]]. sp; auto. exists d'. apply in_or_app; auto. intros G. apply h3 in G. destruct G as [a G]. exists a. apply in_or_app; auto.
    + destruct H as [a H]. exists a. apply in_or_app; auto.
  - intros c t v d H. apply in_app_or in H. destruct H; eauto.
Qed.

(** one's own vote, when saved *)
Lemma self_vote : forall tr net p now n n', NA tr net p n -> n_st n = LCandidate -> n_mterm n = n_term n ->
  (forall q, In q (n_grants n') -> q = p \/ In q (n_grants n) \/ vt tr q (n_term n) p) ->
  n_st n' = n_st n -> n_term n' = n_term n -> n_voted n' = n_voted n -> n_leader n' = n_leader n ->
  n_mterm n' = n_mterm n -> n_mvoted n' = n_mvoted n -> n_led n' = n_led n -> n_ver n' = n_ver n ->
  (n_gself n' = n_gself n \/ n_gself n' = None) -> n_vw n' = n_vw n ->
  good tr net p n n' [] [RVote p (n_term n) p now].
Proof.
  intros tr net p now n n' H S M Hg E1 E2 E3 E4 E5 E6 E7 E8 E10 E11. destruct H.
  assert (HN : NA ([RVote p (n_term n) p now] ++ tr) ([] ++ net) p n').
  { cbn [app]. constructor; rewrite ?E1, ?E2, ?E3, ?E4, ?E5, ?E6, ?E7, ?E8, ?E11; auto; intros.
    + rewrite S in H. discriminate.
    + apply el_cons in H. destruct H as [[a E]|H]; [discriminate|auto].
    + apply vt_cons in H. destruct H as [[a E]|H]; [|auto]. injection E as <- <- _. split; [lia|]. intros _. rewrite <- a_sv; auto. apply a_cd; auto.
    + apply vt_cons. auto.
    + apply vt_cons. destruct (Hg q H0) as [->|[K|K]]; [left; eauto|right; auto|right; auto].
    + destruct E10 as [E10|E10]; rewrite E10 in H; [auto|discriminate].
    + apply el_cons. right. auto.
    + apply el_cons. right. auto. }
  constructor; [exact HN|apply keep_same; auto|constructor; [reflexivity|constructor]|intros m []|intros ? ? ? ? []|cbn; auto|].
  eapply VU_vote; [exact HN|lia].
Qed.

Lemma gs_good : forall tr net p now n n' ms rs, NA tr net p n -> (n_st n = LCandidate -> n_mterm n = n_term n) ->
  grant_self conf old fto drift clk p now n = Some (n', ms, rs) -> good tr net p n n' ms rs.
Proof.
  intros tr net p now n n' ms rs H M Hg. unfold grant_self in Hg. destruct (votable fto drift clk p now n).
  - set (n1 := set_ctx (n_ver n) (p :: n_grants n) (n_dis n) n) in *. change (n_st n1) with (n_st n) in *. change (n_term n1) with (n_term n) in *.
    assert (G1 : good tr net p n n1 [] (match n_st n with LCandidate => [RVote p (n_term n) p now] | _ => [] end)).
    { destruct (n_st n) eqn:S; [| |apply self_vote; auto|].
      3: { unfold n1. cbn [set_ctx n_grants]. intros q [<-|Hq]; auto. }
      all: apply good_plain; [|apply keep_same; auto]; destruct H; constructor; auto; cbn [n_st n1 set_ctx]; rewrite S; discriminate. }
    destruct (wins conf old (n_grants n1)) eqn:Wn.
    + destruct (become_leader p now n1) as [[[n2 m2] r2]|] eqn:Eb; try discriminate. injection Hg as <- <- <-.
      pose proof Eb as Eb'. unfold become_leader in Eb'. destruct (n_st n1) eqn:S; try discriminate. change (n_st n1) with (n_st n) in S.
      eapply bl_good in Eb; [|exact (g_na _ _ _ _ _ _ _ G1)|exact (M S)|exact Wn]. destruct Eb as [G2 _].
      pose proof (good_trans _ _ _ _ _ _ _ _ _ _ G1 G2) as G. rewrite app_nil_r in G. exact G.
    + injection Hg as <- <- <-. exact G1.
  - injection Hg as <- <- <-. apply good_plain; [|apply keep_same; auto]. destruct H.
    constructor; auto; cbn [set_wait n_gself n_ver n_st n_mterm n_term]. intros v E. injection E as <-. split; [lia|auto].
Qed.

(** a plain message *)
Lemma good_msg : forall tr net p n n' ms rs m, good tr net p n n' ms rs -> (forall c t v d, m <> MReq c t v d) -> GM (rs ++ tr) (ms ++ net) m -> good tr net p n n' (m :: ms) rs.
Proof.
  intros tr net p n n' ms rs m [] Hm Hg. constructor; auto.
  - cbn [app]. eapply NA_mono; eauto. + intros x Hx; auto. + intros x Hx; right; auto. + intros t v d [E|E]; auto. exfalso. eapply Hm; eauto.
  - intros x [<-|Hx]; [|apply g_gm0 in Hx]; [destruct m|destruct x]; auto; cbn in *.
    + destruct Hg as [h1 [[d' h2] h3]]. sp; auto. exists d'. auto.
    + destruct Hx as [h1 [[d' h2] h3]]. sp; auto. exists d'. auto.
  - intros c t v d [E|E]; eauto. exfalso. eapply Hm; eauto.
Qed.
(** a request, when saved *)
Lemma good_req : forall tr net p n n' ms rs t d v, good tr net p n n' ms rs -> v <= n_ver n' -> (v = n_ver n' -> n_st n' = LCandidate -> n_mterm n' = n_term n') -> good tr net p n n' (MReq p t v d :: ms) rs.
Proof.
  intros tr net p n n' ms rs t d v [] Hv Hm. constructor; auto.
  - cbn [app]. destruct g_na0. constructor; auto.
    + intros t0 v0 d0 [E|E]; eauto. injection E as <- <- <-. auto.
    + intros w Hw. destruct (a_vw w Hw) as [h0 [h1 [d' h2]]]. sp; auto. exists d'. right. auto.
  - intros x [<-|Hx]; [exact I|apply g_gm0 in Hx]. destruct x; auto; cbn in *.
    destruct Hx as [h1 [[d' h2] h3]]. sp; auto. exists d'. auto.
  - intros c t0 v0 d0 [E|E]; eauto. congruence.
Qed.

Lemma gs_ver : forall p now n n' ms rs, grant_self conf old fto drift clk p now n = Some (n', ms, rs) -> n_ver n <= n_ver n' /\ (n_ver n = n_ver n' -> n_st n' = n_st n /\ n_mterm n' = n_mterm n /\ n_term n' = n_term n).
Proof.
  intros p now n n' ms rs H. unfold grant_self in H. destruct (votable _ _ _ _ _).
  - set (n1 := set_ctx (n_ver n) (p :: n_grants n) (n_dis n) n) in *. destruct (wins _ _ _).
    + destruct (become_leader p now n1) as [[[n2 m2] r2]|] eqn:Eb; try discriminate. injection H as <- <- <-.
      unfold become_leader in Eb. destruct (n_st n1); try discriminate. injection Eb as <- <- <-. cbn [set_led set_reps lease_start set_f set_ctx set_role n_ver n1]. split; lia.
    + injection H as <- <- <-. cbn [n1 set_ctx n_ver n_st n_mterm n_term]. split; [lia|auto].
  - injection H as <- <- <-. cbn [set_wait n_ver n_st n_mterm n_term]. split; [lia|auto].
Qed.

Lemma e2_good : forall tr net p now n n' ms rs, NA tr net p n -> elect_2 conf old fto drift clk p now n = Some (n', ms, rs) -> good tr net p n n' ms rs.
Proof.
  intros tr net p now n n' ms rs H He. unfold elect_2 in He. destruct (n_win n) as [t|]; try discriminate.
  set (n0 := set_wait (n_gself n) None n) in *. assert (H0 : NA tr net p n0) by (eapply NA_agree; eauto; reflexivity).
  assert (K0 : keep n n0) by (apply keep_same; reflexivity).
  destruct (n_term n0 =? t).
  - destruct (grant_self conf old fto drift clk p now (save n0)) as [[[n2 m2] r2]|] eqn:Eg; try discriminate. injection He as <- <- <-.
    pose proof (gs_ver _ _ _ _ _ _ Eg) as [V1 V2]. eapply gs_good in Eg; [|apply NA_save; exact H0|reflexivity].
    assert (G0 : good tr net p n (save n0) [] []).
    { apply good_plain; [apply NA_save; auto|]. eapply keep_trans; [exact K0|]. eapply keep_sv; eauto; reflexivity. }
    pose proof (good_trans _ _ _ _ _ _ _ _ _ _ G0 Eg) as G. rewrite !app_nil_r in G. apply good_req; auto. intros E S. destruct (V2 E) as [e1 [e2 e3]]. rewrite e2, e3. reflexivity.
  - injection He as <- <- <-. apply good_plain; auto.
Qed.

Lemma gt_good : forall tr net p now n n' ms rs, NA tr net p n -> grant_timer conf old fto drift clk p now n = Some (n', ms, rs) -> good tr net p n n' ms rs.
Proof.
  intros tr net p now n n' ms rs H Hg. unfold grant_timer in Hg. destruct (n_gself n) as [v|] eqn:Ev; try discriminate.
  assert (G0 : good tr net p n (set_wait None (n_win n) n) [] []).
  { apply good_plain; [|apply keep_same; reflexivity]. destruct H. constructor; auto. cbn [set_wait n_gself]. discriminate. }
  destruct (Z.eqb_spec v (n_ver (set_wait None (n_win n) n))) as [E|E].
  - eapply gs_good in Hg; [|exact (g_na _ _ _ _ _ _ _ G0)|].
    + pose proof (good_trans _ _ _ _ _ _ _ _ _ _ G0 Hg) as G. rewrite !app_nil_r in G. exact G.
    + intros S. apply (a_gs _ _ _ _ _ _ H v); auto.
  - injection Hg as <- <- <-. exact G0.
Qed.

Lemma e1_good : forall tr net p b n, NA tr net p n -> leads (n_st n) = false -> good tr net p n (elect_1 conf old p b n) [] [].
Proof.
  intros tr net p b n H S. unfold elect_1.
  destruct (memb p conf || match old with Some o => memb p o | None => false end) eqn:M; [|apply good_plain; auto; apply keep_refl; apply H].
  assert (Hm : mem p).
  { apply orb_true_iff in M. unfold LeaseProofs.mem. destruct M as [M|M]; [left|right]; [|destruct old; try discriminate]; unfold memb in M; apply existsb_exists in M; destruct M as [x [h1 h2]]; apply Z.eqb_eq in h2; subst; auto. }
  set (n2 := set_wait _ _ _). assert (E : n_st n2 = LCandidate /\ n_term n2 = n_term n + 1 /\ n_voted n2 = Some p /\ n_leader n2 = None /\ n_mterm n2 = n_mterm n /\ n_mvoted n2 = n_mvoted n /\ n_led n2 = n_led n /\ n_ver n2 = n_ver n + 1 /\ n_grants n2 = [] /\ n_gself n2 = n_gself n /\ n_vw n2 = n_vw n).
  { unfold n2. destruct b; cbn; sp; reflexivity. }
  clearbody n2. destruct E as (E1&E2&E3&E4&E5&E6&E7&E8&E9&E10&E11). pose proof (a_m _ _ _ _ _ _ H) as Hmm. destruct H.
  apply good_plain.
  - constructor; rewrite ?E1, ?E2, ?E3, ?E4, ?E5, ?E6, ?E7, ?E8, ?E9, ?E10, ?E11; auto; try lia; try discriminate; intros; try contradiction.
    + destruct (a_gs v H). split; lia.
    + sp; auto. lia.
    + destruct (a_rq t v d H). split; lia.
  - split; [lia|]. rewrite E2, E5. lia.
Qed.

Lemma find_w_in : forall k l w, find_w k l = Some w -> In w l.
Proof. induction l as [|x l]; intros w H; cbn in H; [discriminate|]. destruct (w_id x =? k); [injection H as ->; left; auto|right; auto]. Qed.

Lemma v1_good : forall tr net p c t v d n n' ms rs, NA tr net p n -> c <> p -> In (MReq c t v d) net ->
  vote_1 p c t v d n = Some (n', ms, rs) -> good tr net p n n' ms rs.
Proof.
  intros tr net p c t v d n n' ms rs H Hc Hr Hv. unfold vote_1 in Hv.
  set (n1 := match n_st n with LFollower => _ | _ => n end) in *.
  assert (E : n1 = n \/ n1 = set_f (f_last n) 0 n).
  { unfold n1. destruct (n_st n); auto. destruct d as [[l lt]|]; auto. destruct (_ && _); auto. }
  assert (G1 : good tr net p n n1 [] []).
  { destruct E as [->| ->]; [apply good_plain; auto; apply keep_refl; apply H|]. apply good_agree; auto. }
  clearbody n1. clear E. destruct (Z.ltb_spec t (n_term n1)) as [Hl|Hl].
  - injection Hv as <- <- <-. apply good_msg; auto; [congruence|]. cbn. sp; eauto. discriminate.
  - injection Hv as <- <- <-.
    assert (G2 : good tr net p n1 (set_vw (mkVw (n_fresh n1) c t v (n_term n1) :: n_vw n1) (n_fresh n1 + 1) n1) [] []).
    { apply good_plain; [|apply keep_same; reflexivity]. destruct (g_na _ _ _ _ _ _ _ G1). constructor; auto. cbn [set_vw n_vw]. intros w [<-|Hw]; auto. cbn. sp; eauto. }
    apply (good_trans _ _ _ _ _ _ [] [] [] [] G1 G2).
Qed.

Lemma v2_good : forall tr net p k ok now n n' ms rs, NA tr net p n -> vote_2 fto drift clk p k ok now n = Some (n', ms, rs) -> good tr net p n n' ms rs.
Proof.
  intros tr net p k ok now n n' ms rs H Hv. unfold vote_2 in Hv. destruct (find_w k (n_vw n)) as [w|] eqn:Ew; try discriminate.
  apply find_w_in in Ew. destruct (a_vw _ _ _ _ _ _ H w Ew) as [Wp [Wc [Wd Wr]]].
  set (n1 := set_vw _ _ n) in *. assert (G1 : good tr net p n n1 [] []).
  { apply good_plain; [|apply keep_same; reflexivity]. destruct H. constructor; auto. cbn [n1 set_vw n_vw]. intros x Hx. apply filter_In in Hx. apply a_vw; tauto. }
  clearbody n1.
  destruct (if negb (w_prev w =? n_term n1) || negb (votable fto drift clk p now n1) then (n1, None, []) else _) as [[n2 d] r2] eqn:E.
  assert (G2 : good tr net p n1 n2 [] r2).
  { pose proof (g_na _ _ _ _ _ _ _ G1) as H1. pose proof (a_m _ _ _ _ _ _ H1) as M1. cbn [app] in H1.
    destruct (Z.eqb_spec (w_prev w) (n_term n1)) as [Ep|]; cbn [negb orb] in E; [|injection E as <- <- <-; apply good_plain; auto; apply keep_refl; apply H1]. destruct (negb _); [injection E as <- <- <-; apply good_plain; auto; apply keep_refl; apply H1|].
    destruct (if n_term n1 <? w_term w then (step_down (w_term w) n1, if leads (n_st n1) then Some (w_prev w) else None) else (n1, None)) as [n3 d3] eqn:E3.
    assert (K3 : NA tr net p n3 /\ keep n1 n3 /\ w_term w = n_term n3).
    { destruct (Z.ltb_spec (n_term n1) (w_term w)); injection E3 as <- <-.
      - sp; [apply NA_step_down; auto|apply keep_step_down; lia|]. rewrite sd_term. destruct (Z.ltb_spec (n_term n1) (w_term w)); lia.
      - sp; auto; [apply keep_refl; lia|lia]. }
    destruct K3 as [K3 [K4 K5]]. pose proof (a_m _ _ _ _ _ _ K3) as M3. clear E3.
    destruct (ok && opeer_eqb (n_voted n3) None) eqn:Eo.
    - injection E as <- <- <-. apply andb_true_iff in Eo. destruct Eo as [_ Eo]. apply opeer_none in Eo.
      pose proof (NA_step_down conf old _ _ _ _ (w_term w) K3) as K6. assert (K7 : keep n3 (step_down (w_term w) n3)) by (apply keep_step_down; lia).
      assert (V6 : n_voted (step_down (w_term w) n3) = None) by (rewrite sd_voted; destruct (_ <? _); auto).
      assert (S6 : n_st (step_down (w_term w) n3) = LFollower) by apply sd_st.
      assert (T6 : n_term (step_down (w_term w) n3) = n_term n3). { rewrite sd_term. destruct (Z.ltb_spec (n_term n3) (w_term w)); lia. }
      set (n6 := step_down (w_term w) n3) in *. clearbody n6. pose proof (a_m _ _ _ _ _ _ K6) as M6.
      assert (Es : n_mterm n6 = n_term n6). { destruct (Z.eq_dec (n_mterm n6) (n_term n6)); auto. exfalso. assert (n_mterm n6 < n_term n6) by lia. apply (a_un _ _ _ _ _ _ K6) in H0. congruence. }
      assert (Et : w_term w = n_term n6) by lia. rewrite <- T6 in Hv. rewrite <- T6.
      assert (HN : NA ([RVote p (w_term w) (w_cand w) now] ++ tr) ([] ++ net) p (save (set_term (n_term n6) (Some (w_cand w)) n6))).
      { destruct K6. cbn [app]. constructor; cbn [save set_term n_st n_term n_voted n_leader n_mterm n_mvoted n_led n_ver n_grants n_gself n_vw]; auto; try lia; intros.
        * rewrite S6 in H0. discriminate.
        * apply el_cons in H0. destruct H0 as [[a Ea]|H0]; [discriminate|]. rewrite <- Es. auto.
        * apply vt_cons in H0. destruct H0 as [[a Ea]|H0]; [injection Ea as <- <- _; split; [lia|auto]|].
          destruct (a_vt _ _ H0) as [h1 h2]. split; [lia|]. intros e. rewrite <- Es in e. apply h2 in e. rewrite <- a_sv in e by auto. congruence.
        * injection H0 as <-. rewrite <- Et. apply vt_cons. left. eauto.
        * rewrite S6 in H0. discriminate.
        * destruct (a_gs v H0). auto.
        * rewrite S6 in H0. discriminate.
        * destruct (a_rq t v d H0). auto.
        * apply el_cons. right. auto.
        * apply el_cons. right. auto. }
      constructor; [exact HN| | | | | |].
      + eapply keep_trans; [exact K4|]. eapply keep_trans; [exact K7|]. split; cbn [save set_term n_st n_term n_mterm]; [lia|]. intros _ _. left. auto.
      + constructor; [reflexivity|constructor].
      + intros m [].
      + intros ? ? ? ? [].
      + cbn. auto.
      + eapply VU_vote; [exact HN|exact Et].
    - injection E as <- <- <-. apply good_plain; auto. }
  injection Hv as <- <- <-. pose proof (good_trans _ _ _ _ _ _ _ _ _ _ G1 G2) as G. rewrite !app_nil_r in G.
  apply good_msg; auto; [congruence|]. cbn. sp; eauto. intros g. apply andb_true_iff in g. destruct g as [g1 g2]. apply Z.eqb_eq in g1. apply opeer_eqb_eq in g2.
  pose proof (g_na _ _ _ _ _ _ _ G) as H2. pose proof (a_m _ _ _ _ _ _ H2). destruct (Z.eq_dec (n_mterm n2) (n_term n2)) as [Es|Es].
  - rewrite g1, <- Es. apply (a_mv _ _ _ _ _ _ H2); auto. rewrite <- (a_sv _ _ _ _ _ _ H2); auto.
  - rewrite (a_un _ _ _ _ _ _ H2) in g2; [congruence|lia].
Qed.
End P.
