(** C40: pre-vote requests are harmless and granted only for a reason.
    C41: an election that comes out of a pre-vote round was agreed to by a majority. *)
From Verif Require Import Base LogEntry Ballot Node NodeVoteSpec NodeVoteProofs QuorumSpec PreVote PreVoteSpec PreVoteProofs PreVoteProofs2.

(** C40.  Both halves of handling a pre-vote request, in any state: the node (role, term, vote,
    leader, persisted metadata, log, disk queue, commit state: all of [p_node]) and its own
    pre-vote round are as before, and at most one answer is sent. *)
Theorem prevote_request_harmless : forall conf cv s e s' o,
  (exists c t l, e = PReq1 c t l) \/ (exists k lease, e = PReq2 k lease) ->
  pstep conf cv s e = Some (s', o) ->
  p_node s' = p_node s /\
  (pv_ver s', pv_ballot s', pv_trig s', pv_dis s', pv_res s', p_timer s', p_own s') =
  (pv_ver s, pv_ballot s, pv_trig s, pv_dis s, pv_res s, p_timer s, p_own s) /\
  (o = [] \/ exists c t g l rt, o = [PAnswer c t g l rt]).
Proof.
  intros conf cv s e s' o [[c [t [l ->]]]|[k [lease ->]]]; cbn [pstep]; intros H.
  - injection H as H. unfold pre_req_1 in H. destruct (_ <? _); inversion H; subst; repeat split; eauto 10.
  - unfold pre_req_2 in H. destruct (find_pw _ _) as [w|]; try discriminate. destruct (pw_seen w); try discriminate.
    injection H as <- <-. repeat split; eauto 10.
Qed.

(** C40.  Everything a node with pre-votes does outside that protocol is what some node without
    it does: C15 carries over to nodes with pre-vote, and the clusters of C16 to C19 are made of
    the same node steps. *)
Theorem prevote_conservative : forall conf cv p s h os,
  plife conf cv p s h os -> life conf cv p (p_node s) (said os).
Proof. exact plife_life. Qed.

(** C40.  A pre-vote is granted only if the request arrived with a term not below the term of
    this node and a last log id at least as high as this node's at that moment, and no lease
    held it back when it was answered. *)
Theorem prevote_grant_reason : forall conf cv p s h os c t l rt,
  plife conf cv p s h os -> In (PAnswer c t true l rt) os ->
  exists h1 s1 last h2 s2 k h3, h = h1 ++ (s1, PReq1 c t last) :: h2 ++ (s2, PReq2 k false) :: h3 /\
    n_term (p_node s1) <= t /\ id_geb last (last_id (n_log (p_node s1))) = true /\ rt = n_term (p_node s2).
Proof. exact grant_reason. Qed.

(** C41. *)
Theorem prevote_majority : forall conf cv p s h os ver t, NoDup conf ->
  plife conf cv p s h os -> In (PElect ver t) os -> elected_ok conf h os p ver t.
Proof. intros conf cv p s h os ver t ND H. apply (plife_ctx conf cv p s h os ND H). Qed.

(** C41.  The pre-vote protocol raises the node's term in two ways only: by such an election,
    by one, or because an answer carries that higher term. *)
Theorem prevote_raises_term : forall conf cv s e s' o,
  (forall e' r, e <> PN e' r) -> pstep conf cv s e = Some (s', o) ->
  n_term (p_node s') = n_term (p_node s) \/
  (n_term (p_node s') = n_term (p_node s) + 1 /\ exists ver, In (PElect ver (n_term (p_node s))) o) \/
  (exists f t v a ll r, e = PResp f t v a ll r /\ n_term (p_node s') = pa_term a /\ n_term (p_node s) < pa_term a).
Proof.
  assert (EL : forall conf cv s s' o, pre_elect conf cv s = Some (s', o) ->
    n_term (p_node s') = n_term (p_node s) \/
    (n_term (p_node s') = n_term (p_node s) + 1 /\ exists ver, In (PElect ver (n_term (p_node s))) o)).
  { intros conf cv s s' o H. unfold pre_elect, nrun1 in H. cbn [nstep p_node pv_reset] in H.
    destruct (is_lead _); injection H as <- <-; cbn [p_node with_node]; [left; reflexivity|].
    unfold elect_self_1. destruct (memb _ _); [right|left; reflexivity].
    split; [reflexivity|]. eexists. left. reflexivity. }
  assert (GS : forall conf cv now s s' o, pre_grant_self conf cv now s = Some (s', o) ->
    n_term (p_node s') = n_term (p_node s) \/
    (n_term (p_node s') = n_term (p_node s) + 1 /\ exists ver, In (PElect ver (n_term (p_node s))) o)).
  { intros conf cv now s s' o H. unfold pre_grant_self in H. destruct now; [|injection H as <- <-; left; reflexivity].
    destruct (granted _); [apply EL in H; exact H|injection H as <- <-; left; reflexivity]. }
  intros conf cv s e s' o He H. destruct e; [exfalso; eapply He; reflexivity|..].
  - left. f_equal. eapply prevote_request_harmless; [|exact H]. eauto.
  - left. f_equal. eapply prevote_request_harmless; [|exact H]. eauto.
  - left. cbn [pstep] in H. unfold election_timeout, nrun1 in H. destruct (n_st _); try (injection H as <- <-; reflexivity).
    destruct (_ && _); [injection H as <- <-; reflexivity|]. cbn [nstep] in H. rewrite Z.leb_refl in H. injection H as <- <-.
    rewrite pre_vote_1_node. cbn [p_node with_node]. apply step_down_same_term.
  - left. cbn [pstep] in H. unfold vote_timeout, nrun1 in H. destruct (n_st _); try (injection H as <- <-; reflexivity).
    cbn [nstep] in H. rewrite Z.leb_refl in H. injection H as <- <-.
    rewrite pre_vote_1_node. cbn [p_node with_node]. apply step_down_same_term.
  - cbn [pstep] in H. unfold pre_vote_2 in H. destruct (find_ow _ _) as [w|]; try discriminate. destruct (ow_seen w); try discriminate.
    cbn [p_node] in H. destruct (_ =? _); [|injection H as <- <-; left; reflexivity].
    destruct (pre_grant_self _ _ _ _) as [[s2 o2]|] eqn:E; [|discriminate]. injection H as <- <-. apply GS in E. cbn [p_node pv_init] in E.
    destruct E as [E|[E [ver K]]]; [left; exact E|right; left]. split; [exact E|]. exists ver. right. exact K.
  - cbn [pstep] in H. unfold pre_resp in H. destruct (negb (ver =? _)); [injection H as <- <-; left; reflexivity|].
    destruct (n_st _); try (injection H as <- <-; left; reflexivity). destruct (negb (term =? _)); [injection H as <- <-; left; reflexivity|].
    destruct (Z.ltb_spec (n_term (p_node s)) (pa_term a)) as [Hl|Hl].
    { unfold nrun1 in H. cbn [nstep] in H. destruct (_ <=? _); [|injection H as <- <-; left; reflexivity].
      injection H as <- <-. right. right. exists from, term, ver, a, ll, r. split; [reflexivity|]. split; [|exact Hl].
      cbn [p_node pv_reset with_node]. unfold step_down. destruct (n_st (p_node s));
        cbn; (destruct (Z.ltb_spec (n_term (p_node s)) (pa_term a)); [destruct r; reflexivity|lia]). }
    destruct (_ && _); [injection H as <- <-; left; reflexivity|]. destruct (_ && _); [injection H as <- <-; left; reflexivity|].
    destruct (granted _); [|injection H as <- <-; left; reflexivity]. apply EL in H. destruct H as [H|H]; auto.
  - cbn [pstep] in H. unfold pre_timer in H. destruct (p_timer s); try discriminate. destruct (_ =? _); [|injection H as <- <-; left; reflexivity].
    apply GS in H. destruct H as [H|H]; auto.
Qed.

(** * A concrete run *)
Fixpoint prun (conf : list peer) (cv : Z) (s : pnode) (es : list pev) : option (pnode * list (pnode * pev) * list pout) :=
  match es with
  | [] => Some (s, [], [])
  | e :: es' => match pstep conf cv s e with
                | Some (s1, o) => match prun conf cv s1 es' with
                                  | Some (s2, h, os) => Some (s2, (s, e) :: h, o ++ os)
                                  | None => None
                                  end
                | None => None
                end
  end.
Lemma prun_plife : forall conf cv p es s0 h0 os0 s h os, plife conf cv p s0 h0 os0 ->
  prun conf cv s0 es = Some (s, h, os) ->
  (forall e, In e es -> env_ok p (os0 ++ os) e /\ match e with PResp _ t v _ _ _ => exists tr l, In (PReqs v t tr l) os0 | _ => True end) ->
  plife conf cv p s (h0 ++ h) (os0 ++ os).
Proof.
  intros conf cv p es. induction es as [|e es IH]; intros s0 h0 os0 s h os L H K; cbn [prun] in H.
  - injection H as <- <- <-. rewrite !app_nil_r. exact L.
  - destruct (pstep conf cv s0 e) as [[s1 o]|] eqn:E; [|discriminate]. destruct (prun conf cv s1 es) as [[[s2 h2] os2]|] eqn:E2; [|discriminate].
    injection H as <- <- <-.
    assert (L1 : plife conf cv p s1 (h0 ++ [(s0, e)]) (os0 ++ o)).
    { eapply plife_step; [exact L| |exact E]. destruct (K e (or_introl eq_refl)) as [K1 K2]. destruct e; try exact I; [exact K1|exact K2]. }
    specialize (IH _ _ _ _ _ _ L1 E2). rewrite <- !app_assoc in IH. apply IH. intros e' He. destruct (K e' (or_intror He)) as [K1 K2].
    split; [exact K1|]. destruct e'; auto. destruct K2 as [tr [l K2]]. exists tr, l. apply in_or_app. auto.
Qed.

(** Node 1 of three grants a pre-vote to node 2, then times out itself, asks, hears yes from
    node 3 and no from node 2, and stands in term 2. *)
Definition ex_part1 : list pev := [PReq1 2 2 (mkId 0 0); PReq2 0 false; PTimeout false true false; POwn2 1 true].
Definition ex_part2 : list pev := [PResp 2 1 1 (mkPA 1 false false false) None SOk; PResp 3 1 1 (mkPA 1 true false false) None SOk].
Example ex_prevote : exists s h os, plife [1;2;3] 7 1 s h os /\
  os = [PAnswer 2 2 true false 1; PReqs 1 1 false (mkId 0 0); PElect 1 1] /\
  n_term (p_node s) = 2 /\ n_st (p_node s) = Candidate.
Proof.
  destruct (prun [1;2;3] 7 (pinit 1) ex_part1) as [[[s1 h1] o1]|] eqn:E1; [|vm_compute in E1; discriminate].
  assert (L1 : plife [1;2;3] 7 1 s1 h1 o1).
  { change h1 with ([] ++ h1). change o1 with ([] ++ o1). eapply prun_plife; [apply plife_start|exact E1|].
    intros e He. cbn in He. repeat (destruct He as [<-|He]; [split; exact I|]). destruct He. }
  vm_compute in E1. injection E1 as <- <- <-.
  match type of L1 with plife _ _ _ ?s ?h ?o => set (s1 := s) in *; set (h1 := h) in *; set (o1 := o) in * end.
  destruct (prun [1;2;3] 7 s1 ex_part2) as [[[s2 h2] o2]|] eqn:E2; [|vm_compute in E2; discriminate].
  exists s2, (h1 ++ h2), (o1 ++ o2). split.
  { eapply prun_plife; [exact L1|exact E2|]. intros e He. cbn in He.
    repeat (destruct He as [<-|He]; [split; [exists false, (mkId 0 0); apply in_or_app; left|exists false, (mkId 0 0)]; right; left; reflexivity|]). destruct He. }
  vm_compute in E2. injection E2 as <- <- <-. repeat split; reflexivity.
Qed.

Print Assumptions prevote_request_harmless.
Print Assumptions prevote_conservative.
Print Assumptions prevote_grant_reason.
Print Assumptions prevote_majority.
Print Assumptions prevote_raises_term.
