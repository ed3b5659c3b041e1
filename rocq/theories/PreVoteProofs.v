From Verif Require Import Base BaseLemmas LogEntry Ballot QuorumSpec BallotProofs Node NodeVoteSpec NodeVoteProofs LogPrefix PreVote PreVoteSpec.

(** * The disk queue of a node: appended to at the end, executed from the front *)
Definition grows (n n' : node) : Prop := n_disk n' = n_disk n /\ exists x, n_q n' = n_q n ++ x /\ fin (n_log n) x = n_log n'.
Lemma grows_refl : forall n n', n_disk n' = n_disk n -> n_q n' = n_q n -> n_log n' = n_log n -> grows n n'.
Proof. intros n n' H1 H2 H3. split; auto. exists []. rewrite app_nil_r. auto. Qed.
Lemma grows_trans : forall a b c, grows a b -> grows b c -> grows a c.
Proof.
  intros a b c [H1 [x [H2 H3]]] [K1 [y [K2 K3]]]. split; [congruence|]. exists (x ++ y). rewrite K2, H2, app_assoc, fin_app. split; congruence.
Qed.
Lemma save_same : forall r v n, n_disk (save r v n) = n_disk n /\ n_q (save r v n) = n_q n /\ n_log (save r v n) = n_log n.
Proof. intros [] v n; auto. Qed.
Lemma step_down_grows : forall t r n, grows n (step_down t r n).
Proof.
  intros t r n. unfold step_down. apply grows_refl; destruct (n_st n); cbn; destruct (_ <? _); cbn; try reflexivity; destruct r; reflexivity.
Qed.
Lemma check_grows : forall t f r n, grows n (check_step_down t f r n).
Proof.
  intros t f r n. unfold check_step_down.
  assert (H : grows n (if n_term n <? t then step_down t r n else match n_st n with
     | Follower => match n_leader n with None => step_down t r n | Some _ => n end | _ => step_down t r n end)).
  { destruct (n_term n <? t); [apply step_down_grows|]. destruct (n_st n); try apply step_down_grows.
    destruct (n_leader n); [apply grows_refl; auto|apply step_down_grows]. }
  revert H. generalize (if n_term n <? t then step_down t r n else match n_st n with
     | Follower => match n_leader n with None => step_down t r n | Some _ => n end | _ => step_down t r n end).
  intros m H. destruct (n_leader m); [exact H|eapply grows_trans; [exact H|]; apply grows_refl; reflexivity].
Qed.
Lemma lead_append_grows : forall conf vs n n', lead_append conf vs n = Some n' -> grows n n'.
Proof.
  intros conf vs n n' H. unfold lead_append in H. destruct (pend_all _ _ _); inversion H; subst. split; [reflexivity|].
  cbn. eexists. split; [reflexivity|]. rewrite fin_app, fin_map_app. reflexivity.
Qed.
Lemma become_grows : forall conf cv n n' o, become_leader conf cv n = Some (n', o) -> grows n n'.
Proof.
  intros conf cv n n' o H. unfold become_leader in H. destruct (n_st n); try discriminate. destruct (BallotBox.reset_pending_index _ _); try discriminate.
  destruct (lead_append _ _ _) eqn:E; inversion H; subst. apply lead_append_grows in E. eapply grows_trans; [|exact E]. apply grows_refl; reflexivity.
Qed.
Lemma grant_self_grows : forall conf cv n n' o, grant_self conf cv n = Some (n', o) -> grows n n'.
Proof.
  intros conf cv n n' o H. unfold grant_self in H. destruct (granted _); [|inversion H; subst; apply grows_refl; reflexivity].
  apply become_grows in H. eapply grows_trans; [|exact H]. apply grows_refl; reflexivity.
Qed.
Lemma set_committed_same : forall i n n', set_committed i n = Some n' -> n_disk n' = n_disk n /\ n_q n' = n_q n /\ n_log n' = n_log n.
Proof. intros i n n' H. unfold set_committed in H. destruct (BallotBox.set_last_committed_index _ _) as [[[b ?] ?]|]; inversion H; subst; auto. Qed.
Lemma commit_to_same : forall f l q n n' o, commit_to f l q n = (n', o) -> n_disk n' = n_disk n /\ n_q n' = n_q n /\ n_log n' = n_log n.
Proof. intros f l q n n' o H. unfold commit_to in H. destruct (BallotBox.commit_at _ _ _ _) as [[b ?] [i|]]; inversion H; subst; auto. Qed.
Lemma follow_grows : forall prev es n, grows n (follow_append prev es n).
Proof.
  intros prev es n. unfold follow_append. destruct (skip_same _ _ _) as [i rest]. destruct rest as [|e r]; [apply grows_refl; auto|].
  destruct (i <=? zlen (n_log n)); (split; [reflexivity|]); cbn [n_q n_log set_log]; eexists; (split; [reflexivity|]).
  - cbn [fin dstep]. apply (fin_map_app (e :: r)).
  - apply (fin_map_app (e :: r)).
Qed.

Definition is_disk (e : nev) : bool := match e with NDisk => true | _ => false end.
Definition is_crash (e : nev) : bool := match e with NCrash | NCrashElect => true | _ => false end.

Ltac gr := apply grows_refl; reflexivity.
Lemma nstep_grows : forall conf cv n e n' o, nstep conf cv n e = Some (n', o) -> is_disk e = false -> is_crash e = false -> grows n n'.
Proof.
  intros conf cv n e n' o H Hd Hc. destruct e; cbn [nstep is_disk is_crash] in *; try discriminate.
  - destruct (is_lead _); inversion H; subst; [gr|]. unfold elect_self_1. destruct (memb _ _); [|gr].
    split; [reflexivity|]. cbn. eexists. split; [reflexivity|]. reflexivity.
  - unfold elect_self_2 in H. destruct (n_win n) as [t|]; try discriminate. destruct (n_wlast n) as [lid|]; try discriminate.
    cbn [n_term set_win] in H. destruct (n_term n =? t); [|inversion H; subst; gr]. destruct r.
    + destruct now; [|inversion H; subst; gr]. destruct (grant_self _ _ _) as [[n1 o1]|] eqn:E; inversion H; subst.
      apply grant_self_grows in E. eapply grows_trans; [|exact E]. gr.
    + inversion H; subst; gr.
    + inversion H; subst; gr.
  - unfold grant_self_timer in H. destruct (n_gself n) as [v|]; try discriminate. cbn [n_ver set_gself] in H.
    destruct (n_ver n =? v); [|inversion H; subst; gr]. destruct again; [inversion H; subst; gr|].
    apply grant_self_grows in H. eapply grows_trans; [|exact H]. gr.
  - inversion H. unfold vote_req_1 in *. destruct (t <? n_term n); inversion H1; subst; [gr|].
    split; [reflexivity|]. cbn. eexists; split; reflexivity.
  - unfold vote_req_2 in H. destruct (find_vw _ _) as [w|]; try discriminate. destruct (vw_seen w) as [sn|]; try discriminate.
    set (n0 := set_vw (drop_vw k (n_vw n)) n) in *. assert (G0 : grows n n0) by gr. clearbody n0.
    match type of H with Some (?a, _) = _ => set (n1 := a) in * end.
    assert (G1 : grows n n1).
    { subst n1. destruct (negb _); auto. destruct lease; auto.
      set (n2 := if n_term n0 <? vw_term w then step_down (vw_term w) r1 n0 else n0).
      assert (G2 : grows n n2). { subst n2. destruct (_ <? _); auto. eapply grows_trans; [exact G0|apply step_down_grows]. }
      clearbody n2. destruct (id_geb (vw_last w) sn && opeer_eqb (n_voted n2) None); [|exact G2].
      assert (G3 : grows n (step_down (vw_term w) r1 n2)) by (eapply grows_trans; [exact G2|apply step_down_grows]).
      generalize dependent (step_down (vw_term w) r1 n2). intros n3 G3. destruct r2; (eapply grows_trans; [exact G3|gr]). }
    clearbody n1. injection H as <- _. exact G1.
  - unfold vote_resp in H. destruct (negb _); [inversion H; subst; gr|]. destruct (n_st n); try (inversion H; subst; gr).
    destruct (negb _); [inversion H; subst; gr|]. destruct (n_term n <? rt); [inversion H; subst; apply step_down_grows|].
    destruct g; [|inversion H; subst; gr]. destruct (granted _); [|inversion H; subst; gr].
    apply become_grows in H. eapply grows_trans; [|exact H]. gr.
  - destruct (_ <=? _); inversion H; subst; [apply step_down_grows|gr].
  - unfold append_req in H. destruct (t <? n_term n); [inversion H; subst; gr|].
    pose proof (check_grows t from r n) as G1. remember (check_step_down t from r n) as n1. clear Heqn1.
    destruct (negb _); [inversion H; subst; eapply grows_trans; [exact G1|apply step_down_grows]|].
    destruct (negb _); [inversion H; subst; auto|]. destruct es as [|e es].
    + destruct (set_committed _ _) eqn:E; inversion H; subst. apply set_committed_same in E. destruct E as [E1 [E2 E3]].
      eapply grows_trans; [exact G1|apply grows_refl; auto].
    + inversion H; subst. eapply grows_trans; [exact G1|]. eapply grows_trans; [apply (follow_grows prev (e :: es))|].
      split; [reflexivity|]. cbn. eexists; split; reflexivity.
  - unfold propose in H. destruct (n_st n); try (inversion H; subst; gr).
    destruct (lead_append _ _ _) eqn:E; inversion H; subst. eapply lead_append_grows; eauto.
  - inversion H; subst. unfold transfer. destruct (n_st n); gr.
  - inversion H; subst. unfold transfer_timeout. destruct (n_st n); gr.
  - inversion H; subst. unfold send_open. destruct (is_lead _); gr.
  - inversion H; subst. unfold send_fill. destruct (_ && _); gr.
  - inversion H; subst. gr.
  - unfold send_go in H. destruct (find_sw _ _) as [w|]; try discriminate. destruct (sw_head w) as [[[? ?] ?]|]; inversion H; subst; gr.
  - inversion H; subst. unfold resp_open. destruct (_ && _); gr.
  - unfold resp_go in H. destruct (find_rw _ _); inversion H. apply commit_to_same in H1. cbn in H1. apply grows_refl; tauto.
  - unfold apply_one in H. destruct (_ <? _); [|inversion H; subst; gr]. destruct (znth _ _); inversion H; subst. gr.
Qed.

Lemma disk_grows : forall n n' o, disk_step n = Some (n', o) ->
  exists d q, n_q n = d :: q /\ n_q n' = q /\ n_disk n' = dstep (n_disk n) d /\ n_log n' = n_log n.
Proof.
  intros n n' o H. unfold disk_step in H. destruct (n_q n) as [|d q]; try discriminate. exists d, q. split; auto.
  destruct d; cbn [n_disk set_disk n_term n_win n_vw] in H.
  - inversion H; subst. auto.
  - inversion H; subst. auto.
  - destruct (term =? n_term n); [|inversion H; subst; auto]. destruct (set_committed _ _) eqn:E; inversion H; subst.
    apply set_committed_same in E. cbn in E. tauto.
  - inversion H. apply commit_to_same in H1. cbn in H1. cbn [dstep]. tauto.
  - inversion H; subst. destruct (n_win n); [destruct (_ =? _)|]; auto.
  - inversion H; subst. auto.
Qed.

Lemma crash_log : forall n, n_log (crash n) = n_disk (crash n) /\ n_q (crash n) = [].
Proof. intros n. unfold crash. destruct (_ <? _); split; reflexivity. Qed.

Lemma nstep_fin : forall conf cv n e n' o, fin (n_disk n) (n_q n) = n_log n -> nstep conf cv n e = Some (n', o) -> fin (n_disk n') (n_q n') = n_log n'.
Proof.
  intros conf cv n e n' o F H. destruct (is_disk e) eqn:Hd.
  { destruct e; try discriminate. cbn [nstep] in H. destruct (disk_grows _ _ _ H) as [d [q [H1 [H2 [H3 H4]]]]].
    rewrite H1 in F. cbn [fin] in F. rewrite H2, H3, H4. exact F. }
  destruct (is_crash e) eqn:Hc.
  { assert (K : n' = crash n).
    { destruct e; try discriminate; cbn [nstep] in H; [inversion H; auto|]. unfold crash_in_elect_self in H.
      destruct (n_win n); try discriminate. destruct (n_wlast n); try discriminate. destruct (_ =? _); inversion H; auto. }
    subst n'. destruct (crash_log n) as [K1 K2]. rewrite K2, K1. reflexivity. }
  destruct (nstep_grows _ _ _ _ _ _ H Hd Hc) as [G1 [x [G2 G3]]]. rewrite G1, G2, fin_app, F. exact G3.
Qed.

(** * Pre-votes are steps of the node or nothing *)
Lemma said_app : forall a b, said (a ++ b) = said a ++ said b.
Proof. intros. unfold said. apply flat_map_app. Qed.
Lemma said_nodes : forall o, said (nodes_outs o) = o.
Proof. induction o; cbn; auto. f_equal. exact IHo. Qed.

Section P.
Variable conf : list peer.
Variable cv : Z.

Definition one (p : peer) (s s' : pnode) (o : list pout) : Prop :=
  (p_node s' = p_node s /\ said o = []) \/
  exists e', from_others p e' /\ nstep conf cv (p_node s) e' = Some (p_node s', said o).
Lemma nrun1_one : forall e s s' o, nrun1 conf cv e s = Some (s', o) ->
  exists n os, s' = with_node n s /\ o = nodes_outs os /\ nstep conf cv (p_node s) e = Some (n, os).
Proof. intros e s s' o H. unfold nrun1 in H. destruct (nstep _ _ _ _) as [[n os]|]; inversion H; eauto. Qed.

Lemma pre_elect_one : forall p s s' o, pre_elect conf cv s = Some (s', o) -> one p s s' o.
Proof.
  intros p s s' o H. unfold pre_elect in H. destruct (nrun1 _ _ _ _) as [[s1 o1]|] eqn:E; inversion H; subst.
  apply nrun1_one in E. destruct E as [n [os [-> [-> E]]]]. right. exists NElect1. split; [exact I|]. cbn [said flat_map]. cbn.
  rewrite said_nodes. exact E.
Qed.
Lemma one_pre : forall p s s0 s' o, p_node s0 = p_node s -> one p s0 s' o -> one p s s' o.
Proof. intros p s s0 s' o E [[H1 H2]|[e [H1 H2]]]; rewrite E in *; [left|right]; eauto. Qed.
Lemma grant_self_one : forall p now s s' o, pre_grant_self conf cv now s = Some (s', o) -> one p s s' o.
Proof.
  intros p now s s' o H. unfold pre_grant_self in H. destruct now; [|inversion H; left; auto].
  destruct (granted _); [|inversion H; left; auto]. apply (pre_elect_one p) in H. eapply one_pre; [|exact H]. reflexivity.
Qed.
Lemma after_p_node : forall e reset s s', p_node (after_node e reset s s') = p_node s'.
Proof. intros e reset s s'. unfold after_node. destruct e; try reflexivity; destruct (reset || _); reflexivity. Qed.
Lemma pre_vote_1_node : forall i t s, p_node (pre_vote_1 conf i t s) = p_node s.
Proof. intros. unfold pre_vote_1. destruct i; auto. destruct (memb _ _); auto. Qed.
Lemma pstep_one : forall p os s e s' o, env_ok p os e -> pstep conf cv s e = Some (s', o) -> one p s s' o.
Proof.
  intros p os s e s' o He H. destruct e; cbn [pstep env_ok] in *.
  - destruct (nrun1 _ _ _ _) as [[s1 o1]|] eqn:E; [|discriminate]. apply nrun1_one in E. destruct E as [n [os1 [-> [-> E]]]].
    right. exists e. split; auto. injection H as <- <-. rewrite said_nodes, after_p_node. exact E.
  - inversion H. unfold pre_req_1 in *. destruct (_ <? _); inversion H1; left; auto.
  - unfold pre_req_2 in H. destruct (find_pw _ _) as [w|]; try discriminate. destruct (pw_seen w); inversion H; left; auto.
  - unfold election_timeout in H. destruct (n_st _); try (inversion H; left; auto; fail).
    destruct (_ && _); [inversion H; left; auto|]. destruct (nrun1 _ _ _ _) as [[s1 o1]|] eqn:E; inversion H; subst.
    apply nrun1_one in E. destruct E as [n [os1 [-> [-> E]]]]. right. eexists. split; [|rewrite said_nodes, pre_vote_1_node; exact E]. exact I.
  - unfold vote_timeout in H. destruct (n_st _); try (inversion H; left; auto; fail).
    destruct (nrun1 _ _ _ _) as [[s1 o1]|] eqn:E; inversion H; subst.
    apply nrun1_one in E. destruct E as [n [os1 [-> [-> E]]]]. right. eexists. split; [|rewrite said_nodes, pre_vote_1_node; exact E]. exact I.
  - unfold pre_vote_2 in H. destruct (find_ow _ _) as [w|]; try discriminate. destruct (ow_seen w); try discriminate.
    cbn [p_node] in H. destruct (_ =? _); [|inversion H; left; auto].
    destruct (pre_grant_self _ _ _ _) as [[s1 o1]|] eqn:E; inversion H; subst. apply (grant_self_one p) in E.
    apply one_pre with (s := s) in E; [|reflexivity]. exact E.
  - unfold pre_resp in H. destruct (negb _); [inversion H; left; auto|]. destruct (n_st _); try (inversion H; left; auto; fail).
    destruct (negb _); [inversion H; left; auto|]. destruct (_ <? _).
    { destruct (nrun1 _ _ _ _) as [[s1 o1]|] eqn:E; inversion H; subst. apply nrun1_one in E. destruct E as [n [os1 [-> [-> E]]]].
      right. eexists. split; [|rewrite said_nodes; exact E]. exact I. }
    destruct (_ && _); [inversion H; left; auto|]. destruct (_ && _); [inversion H; left; auto|].
    destruct (granted _); [|inversion H; left; auto]. apply (pre_elect_one p) in H. eapply one_pre; [|exact H]. reflexivity.
  - unfold pre_timer in H. destruct (p_timer s); try discriminate. destruct (_ =? _); [|inversion H; left; auto].
    apply (grant_self_one p) in H. eapply one_pre; [|exact H]. reflexivity.
Qed.

Lemma plife_life : forall p s h os, plife conf cv p s h os -> life conf cv p (p_node s) (said os).
Proof.
  intros p s h os H. induction H; [apply life_start|].
  destruct (pstep_one _ _ _ _ _ _ H0 H1) as [[E1 E2]|[e' [E1 E2]]]; rewrite said_app.
  - rewrite E2, app_nil_r, E1. exact IHplife.
  - eapply life_step; eauto.
Qed.
Lemma life_fin : forall p n os, life conf cv p n os -> fin (n_disk n) (n_q n) = n_log n.
Proof. intros p n os H. induction H; [reflexivity|]. eapply nstep_fin; eauto. Qed.

(** * What a waiting closure will read *)
Definition waits (n : node) (a : nat) (sn : option logid) (L : list lent) : Prop :=
  match sn with
  | Some d => d = last_id L
  | None => (0 < a <= length (n_q n))%nat /\ fin (n_disk n) (firstn a (n_q n)) = L
  end.
Lemma waits_new : forall n, fin (n_disk n) (n_q n) = n_log n -> waits n (length (n_q n)) (first_seen n) (n_log n).
Proof.
  intros n F. unfold waits, first_seen. destruct (n_q n) eqn:E; cbn in *; [congruence|]. split; [lia|]. rewrite firstn_all. exact F.
Qed.
Lemma waits_grow : forall n n' a sn L, grows n n' -> waits n a sn L -> waits n' a sn L.
Proof.
  intros n n' a [d|] L [G1 [x [G2 _]]] H; cbn in *; auto. destruct H as [H1 H2]. rewrite G1, G2, app_length, firstn_app.
  replace (a - length (n_q n))%nat with O by lia. cbn. rewrite app_nil_r. split; auto; lia.
Qed.
Lemma waits_disk : forall n n' o a sn L, disk_step n = Some (n', o) -> waits n a sn L ->
  waits n' (fst (tick_seen (n_disk n') a sn)) (snd (tick_seen (n_disk n') a sn)) L.
Proof.
  intros n n' o a [d|] L H W; cbn in *; [destruct a as [|[|]]; exact W|].
  destruct (disk_grows _ _ _ H) as [d [q [H1 [H2 [H3 H4]]]]]. destruct W as [W1 W2]. rewrite H1 in W1, W2. cbn in W1.
  destruct a as [|[|a]]; [lia| |]; cbn [firstn fin] in W2; cbn.
  - rewrite H3. congruence.
  - rewrite H2, H3. split; [lia|]. exact W2.
Qed.

(** The request arrived in state [s1] of the history. *)
Definition arrived (h : list (pnode * pev)) (cand : peer) (t : Z) (last : logid) (L : list lent) : Prop :=
  exists h1 s1 h2, h = h1 ++ (s1, PReq1 cand t last) :: h2 /\ n_term (p_node s1) <= t /\ n_log (p_node s1) = L.
Lemma arrived_more : forall h x c t l L, arrived h c t l L -> arrived (h ++ [x]) c t l L.
Proof. intros h x c t l L [h1 [s1 [h2 [-> H]]]]. exists h1, s1, (h2 ++ [x]). rewrite <- app_assoc. auto. Qed.

Definition rq_ok (h : list (pnode * pev)) (s : pnode) : Prop :=
  forall w, In w (p_rq s) -> exists L, arrived h (pw_cand w) (pw_t w) (pw_last w) L /\ waits (p_node s) (pw_ahead w) (pw_seen w) L.

Lemma rq_ok_grow : forall h s s' x, rq_ok h s -> p_rq s' = p_rq s -> grows (p_node s) (p_node s') -> rq_ok (h ++ [x]) s'.
Proof.
  intros h s s' x H E G w Hw. rewrite E in Hw. destruct (H w Hw) as [L [H1 H2]]. exists L. split; [apply arrived_more; auto|eapply waits_grow; eauto].
Qed.
Lemma rq_ok_none : forall h s, p_rq s = [] -> rq_ok h s.
Proof. intros h s E w Hw. rewrite E in Hw. destruct Hw. Qed.
Lemma grows_same : forall n, grows n n.
Proof. intros. apply grows_refl; auto. Qed.

Lemma pre_elect_rq : forall s s' o, pre_elect conf cv s = Some (s', o) -> p_rq s' = p_rq s /\ grows (p_node s) (p_node s').
Proof.
  intros s s' o H. unfold pre_elect in H. destruct (nrun1 _ _ _ _) as [[s1 o1]|] eqn:E; inversion H; subst.
  apply nrun1_one in E. destruct E as [n [os [-> [-> E]]]]. split; [reflexivity|]. eapply nstep_grows in E; auto.
Qed.
Lemma grant_self_rq : forall now s s' o, pre_grant_self conf cv now s = Some (s', o) -> p_rq s' = p_rq s /\ grows (p_node s) (p_node s').
Proof.
  intros now s s' o H. unfold pre_grant_self in H. destruct now; [|inversion H; split; [reflexivity|apply grows_same]].
  destruct (granted _); [|inversion H; split; [reflexivity|apply grows_same]]. apply pre_elect_rq in H. exact H.
Qed.
Lemma pre_vote_1_rq : forall i t s, p_rq (pre_vote_1 conf i t s) = p_rq s.
Proof. intros. unfold pre_vote_1. destruct i; auto. destruct (memb _ _); auto. Qed.

Lemma step_rq : forall p os h s e s' o, fin (n_disk (p_node s)) (n_q (p_node s)) = n_log (p_node s) ->
  env_ok p os e -> rq_ok h s -> pstep conf cv s e = Some (s', o) -> rq_ok (h ++ [(s, e)]) s'.
Proof.
  intros p os h s e s' o F He R H. destruct e; cbn [pstep] in *.
  - destruct (nrun1 _ _ _ _) as [[s1 o1]|] eqn:E; [|discriminate]. apply nrun1_one in E. destruct E as [n [os1 [-> [-> E]]]].
    injection H as <- <-. destruct (is_crash e) eqn:Hc; [apply rq_ok_none; destruct e; try discriminate; reflexivity|].
    destruct (is_disk e) eqn:Hd.
    + destruct e; try discriminate. cbn [nstep] in E. intros w Hw.
      set (s1 := if reset || negb (n_term (p_node (with_node n s)) =? n_term (p_node s)) then pv_reset (with_node n s) else with_node n s) in *.
      assert (E1 : p_node s1 = n /\ p_rq s1 = p_rq s) by (subst s1; destruct (_ || _); auto). destruct E1 as [E1 E2].
      change (In w (map (tick_pw (n_disk (p_node s1))) (p_rq s1))) in Hw. change (p_node (after_node NDisk reset s (with_node n s))) with (p_node s1).
      rewrite E1, E2 in *. clearbody s1. apply in_map_iff in Hw. destruct Hw as [w0 [<- Hw]]. destruct (R w0 Hw) as [L [A W]].
      pose proof (waits_disk _ _ _ _ _ _ E W) as W'. unfold tick_pw. destruct (tick_seen _ _ _) as [a sn]. exists L. split; [apply arrived_more; exact A|exact W'].
    + eapply rq_ok_grow; [exact R| |rewrite after_p_node; eapply nstep_grows; eauto].
      unfold after_node. destruct e; try discriminate; try (destruct (_ || _)); reflexivity.
  - inversion H. unfold pre_req_1 in *. destruct (_ <? _) eqn:Ht; inversion H1; subst; [eapply rq_ok_grow; eauto; apply grows_same|].
    intros w [<-|Hw]; cbn [pw_cand pw_t pw_last pw_ahead pw_seen p_node].
    + exists (n_log (p_node s)). split; [|apply waits_new; auto]. exists h, s, []. split; [reflexivity|]. split; [lia|reflexivity].
    + destruct (R w Hw) as [L [A W]]. exists L. split; [apply arrived_more; auto|auto].
  - unfold pre_req_2 in H. destruct (find_pw _ _) as [w0|]; try discriminate. destruct (pw_seen w0); inversion H; subst. intros w Hw.
    cbn in Hw. apply filter_In in Hw. destruct Hw as [Hw _]. destruct (R w Hw) as [L [A W]]. exists L. split; [apply arrived_more; auto|auto].
  - unfold election_timeout in H. destruct (n_st _); try (inversion H; subst; eapply rq_ok_grow; eauto; apply grows_same).
    destruct (_ && _); [inversion H; subst; eapply rq_ok_grow; eauto; apply grows_same|]. destruct (nrun1 _ _ _ _) as [[s1 o1]|] eqn:E; inversion H; subst.
    apply nrun1_one in E. destruct E as [n [os1 [-> [-> E]]]]. eapply rq_ok_grow; [exact R|rewrite pre_vote_1_rq; reflexivity|rewrite pre_vote_1_node; eapply nstep_grows; eauto].
  - unfold vote_timeout in H. destruct (n_st _); try (inversion H; subst; eapply rq_ok_grow; eauto; apply grows_same).
    destruct (nrun1 _ _ _ _) as [[s1 o1]|] eqn:E; inversion H; subst.
    apply nrun1_one in E. destruct E as [n [os1 [-> [-> E]]]]. eapply rq_ok_grow; [exact R|rewrite pre_vote_1_rq; reflexivity|rewrite pre_vote_1_node; eapply nstep_grows; eauto].
  - unfold pre_vote_2 in H. destruct (find_ow _ _) as [w|]; try discriminate. destruct (ow_seen w); try discriminate.
    cbn [p_node] in H. destruct (_ =? _); [|inversion H; subst; eapply rq_ok_grow; eauto; apply grows_same].
    destruct (pre_grant_self _ _ _ _) as [[s1 o1]|] eqn:E; inversion H; subst. apply grant_self_rq in E. destruct E as [E1 E2].
    eapply rq_ok_grow; [exact R|exact E1|exact E2].
  - unfold pre_resp in H. destruct (negb _); [inversion H; subst; eapply rq_ok_grow; eauto; apply grows_same|].
    destruct (n_st _); try (inversion H; subst; eapply rq_ok_grow; eauto; apply grows_same).
    destruct (negb _); [inversion H; subst; eapply rq_ok_grow; eauto; apply grows_same|]. destruct (_ <? _).
    { destruct (nrun1 _ _ _ _) as [[s1 o1]|] eqn:E; inversion H; subst. apply nrun1_one in E. destruct E as [n [os1 [-> [-> E]]]].
      eapply rq_ok_grow; [exact R|reflexivity|cbn; eapply nstep_grows; eauto]. }
    destruct (_ && _); [inversion H; subst; eapply rq_ok_grow; eauto; apply grows_same|].
    destruct (_ && _); [inversion H; subst; eapply rq_ok_grow; eauto; apply grows_same|].
    destruct (granted _); [|inversion H; subst; eapply rq_ok_grow; eauto; apply grows_same]. apply pre_elect_rq in H. destruct H as [E1 E2].
    eapply rq_ok_grow; [exact R|exact E1|exact E2].
  - unfold pre_timer in H. destruct (p_timer s); try discriminate. destruct (_ =? _); [|inversion H; subst; eapply rq_ok_grow; eauto; apply grows_same].
    apply grant_self_rq in H. destruct H as [E1 E2]. eapply rq_ok_grow; [exact R|exact E1|exact E2].
Qed.

Lemma find_pw_In : forall k l w, find_pw k l = Some w -> In w l.
Proof. induction l; cbn; intros w H; try discriminate. destruct (_ =? _); [inversion H|]; auto. Qed.

Lemma plain_answer : forall o c t g l rt, In (PAnswer c t g l rt) (nodes_outs o) -> False.
Proof. intros o c t g l rt H. unfold nodes_outs in H. apply in_map_iff in H. destruct H as [x [H _]]. discriminate. Qed.
Lemma pre_elect_out : forall s s' o, pre_elect conf cv s = Some (s', o) -> exists os, o = PElect (pv_ver s) (n_term (p_node s)) :: nodes_outs os.
Proof.
  intros s s' o H. unfold pre_elect in H. destruct (nrun1 _ _ _ _) as [[s1 o1]|] eqn:E; inversion H; subst.
  apply nrun1_one in E. destruct E as [n [os [_ [-> E]]]]. eauto.
Qed.
Lemma grant_self_out : forall now s s' o, pre_grant_self conf cv now s = Some (s', o) ->
  o = [] \/ exists os, o = PElect (pv_ver s) (n_term (p_node s)) :: nodes_outs os.
Proof.
  intros now s s' o H. unfold pre_grant_self in H. destruct now; [|inversion H; auto].
  destruct (granted _); [|inversion H; auto]. right. apply pre_elect_out in H. exact H.
Qed.

(** Where a granted answer comes from. *)
Lemma step_answer : forall s e s' o c t l rt, pstep conf cv s e = Some (s', o) -> In (PAnswer c t true l rt) o ->
  exists k w sn, e = PReq2 k false /\ In w (p_rq s) /\ pw_cand w = c /\ pw_t w = t /\ pw_seen w = Some sn /\
    id_geb (pw_last w) sn = true /\ l = false /\ rt = n_term (p_node s).
Proof.
  intros s e s' o c t l rt H Hin. destruct e; cbn [pstep] in *.
  - destruct (nrun1 _ _ _ _) as [[s1 o1]|] eqn:E; [|discriminate]. apply nrun1_one in E. destruct E as [n [os1 [-> [-> E]]]].
    injection H as _ <-. apply plain_answer in Hin. tauto.
  - inversion H. unfold pre_req_1 in *. destruct (_ <? _) eqn:Ht; inversion H1; subst; [destruct Hin as [Hin|[]]; discriminate|destruct Hin].
  - unfold pre_req_2 in H. destruct (find_pw _ _) as [w0|] eqn:Ew; try discriminate. destruct (pw_seen w0) as [sn|] eqn:Es; inversion H; subst.
    destruct Hin as [Hin|[]]. inversion Hin as [[K1 K2 K3 K4 K5]]. apply andb_true_iff in K3. destruct K3 as [K6 K7]. apply negb_true_iff in K7. subst lease.
    exists k, w0, sn. rewrite K6. cbn. repeat split; auto. eapply find_pw_In; eauto.
  - unfold election_timeout in H. destruct (n_st _); try (inversion H; subst; destruct Hin; fail).
    destruct (_ && _); [inversion H; subst; destruct Hin|]. destruct (nrun1 _ _ _ _) as [[s1 o1]|] eqn:E; inversion H; subst.
    apply nrun1_one in E. destruct E as [n [os1 [-> [-> E]]]]. apply plain_answer in Hin. tauto.
  - unfold vote_timeout in H. destruct (n_st _); try (inversion H; subst; destruct Hin; fail).
    destruct (nrun1 _ _ _ _) as [[s1 o1]|] eqn:E; inversion H; subst.
    apply nrun1_one in E. destruct E as [n [os1 [-> [-> E]]]]. apply plain_answer in Hin. tauto.
  - unfold pre_vote_2 in H. destruct (find_ow _ _) as [w|]; try discriminate. destruct (ow_seen w); try discriminate.
    cbn [p_node] in H. destruct (_ =? _); [|inversion H; subst; destruct Hin].
    destruct (pre_grant_self _ _ _ _) as [[s1 o1]|] eqn:E; inversion H; subst. apply grant_self_out in E.
    destruct Hin as [Hin|Hin]; [discriminate|]. destruct E as [->|[os ->]]; [destruct Hin|].
    destruct Hin as [Hin|Hin]; [discriminate|]. apply plain_answer in Hin. tauto.
  - unfold pre_resp in H. destruct (negb _); [inversion H; subst; destruct Hin|].
    destruct (n_st _); try (inversion H; subst; destruct Hin; fail).
    destruct (negb _); [inversion H; subst; destruct Hin|]. destruct (_ <? _).
    { destruct (nrun1 _ _ _ _) as [[s1 o1]|] eqn:E; inversion H; subst. apply nrun1_one in E. destruct E as [n [os1 [-> [-> E]]]].
      apply plain_answer in Hin. tauto. }
    destruct (_ && _); [inversion H; subst; destruct Hin|]. destruct (_ && _); [inversion H; subst; destruct Hin|].
    destruct (granted _); [|inversion H; subst; destruct Hin]. apply pre_elect_out in H. destruct H as [os ->].
    destruct Hin as [Hin|Hin]; [discriminate|]. apply plain_answer in Hin. tauto.
  - unfold pre_timer in H. destruct (p_timer s); try discriminate. destruct (_ =? _); [|inversion H; subst; destruct Hin].
    apply grant_self_out in H. destruct H as [->|[os ->]]; [destruct Hin|].
    destruct Hin as [Hin|Hin]; [discriminate|]. apply plain_answer in Hin. tauto.
Qed.

Lemma plife_rq : forall p s h os, plife conf cv p s h os -> rq_ok h s.
Proof.
  intros p s h os H. induction H; [apply rq_ok_none; reflexivity|]. eapply step_rq; eauto. eapply life_fin. eapply plife_life; eauto.
Qed.

Lemma grant_reason : forall p s h os c t l rt, plife conf cv p s h os -> In (PAnswer c t true l rt) os ->
  exists h1 s1 last h2 s2 k h3, h = h1 ++ (s1, PReq1 c t last) :: h2 ++ (s2, PReq2 k false) :: h3 /\
    n_term (p_node s1) <= t /\ id_geb last (last_id (n_log (p_node s1))) = true /\ rt = n_term (p_node s2).
Proof.
  intros p s h os c t l rt H. induction H; intros Hin; [destruct Hin|]. apply in_app_or in Hin. destruct Hin as [Hin|Hin].
  - destruct (IHplife Hin) as [h1 [s1 [la [h2 [s2 [k [h3 [-> K]]]]]]]]. exists h1, s1, la, h2, s2, k, (h3 ++ [(s, e)]).
    split; [|exact K]. rewrite <- app_assoc. cbn. rewrite <- app_assoc. reflexivity.
  - destruct (step_answer _ _ _ _ _ _ _ _ H1 Hin) as [k [w [sn [-> [Hw [<- [<- [Es [Hg [-> ->]]]]]]]]]].
    destruct (plife_rq _ _ _ _ H w Hw) as [L [[h1 [s1 [h2 [-> [A1 A2]]]]] W]]. rewrite Es in W. cbn in W. subst sn L.
    exists h1, s1, (pw_last w), h2, s, k, []. split; [rewrite <- app_assoc; reflexivity|]. auto.
Qed.
End P.
