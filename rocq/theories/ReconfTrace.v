(** Commit indexes come from reported commits. *)
From Verif Require Import Base BaseLemmas LogEntry Ballot QuorumSpec BallotProofs BallotBoxProofs Node LogPrefix Reconf ReconfStatic ReconfInv ReconfGhost ReconfNode ReconfVote ReconfLead ReconfStage ReconfWin ReconfFollow ReconfSpec.
From Verif Require BallotBox BallotBoxSpec ConfCtx ConfCtxProofs.

Section Trace.
Variable conf0 : list peer.
Variable boot : peer -> bool.
Variable dec : Z -> option jconf.
Notation Inv := (Inv conf0 boot dec).
Notation NI := (NI conf0 boot dec).

Definition covered (tr : list (peer * rout)) (k : Z) : Prop :=
  exists q t es, In (q, ROCommit t es) tr /\ k <= zlen es.
Record Cov (c : rcluster) : Prop := mkCov {
  c_lc : forall p, lc (rnodes c p) <= 0 \/ covered (rtrace c) (lc (rnodes c p));
  c_net : forall L t prev pt es k, In (RApp L t prev pt es k) (rnet c) -> k <= 0 \/ covered (rtrace c) k;
  c_app : forall p i e, In (p, ROApply i e) (rtrace c) -> covered (rtrace c) i }.

Lemma covered_mono : forall tr tr' k k', (forall x, In x tr -> In x tr') -> k' <= k -> covered tr k -> covered tr' k'.
Proof. intros tr tr' k k' H L (q & t & es & A & B). exists q, t, es. split; auto. lia. Qed.

(** what a step may do to the commit index and send *)
Definition okstep (c : rcluster) (p : peer) (n' : rnode) (o : list rout) : Prop :=
  (lc n' <= lc (rnodes c p) \/ (exists t es, In (ROCommit t es) o /\ lc n' <= zlen es) \/
     exists L t prev pt es k, In (RApp L t prev pt es k) (rnet c) /\ lc n' <= k) /\
  (forall L t prev pt es k, In (ROSend (RApp L t prev pt es k)) o -> k <= lc (rnodes c p)) /\
  (forall i e, In (ROApply i e) o -> 1 <= i <= lc (rnodes c p)).

Lemma sends_in : forall o m, In m (sends o) -> In (ROSend m) o.
Proof.
  intros o m H. unfold sends in H. apply in_flat_map in H. destruct H as (x & A & B).
  destruct x; cbn in B; try contradiction. destruct B as [->|[]]; auto.
Qed.
Lemma cov_step : forall c p n' o, Cov c -> okstep c p n' o -> Cov (nxt c p n' o).
Proof.
  intros c p n' o C (H1 & H2 & H3). destruct C. unfold nxt.
  assert (MM : forall k k', k' <= k -> covered (rtrace c) k -> covered (map (pair p) o ++ rtrace c) k').
  { intros k k' L. apply covered_mono; auto. intros x Hx. apply in_or_app; auto. }
  constructor; cbn [rnodes rnet rtrace].
  - intros q. unfold upd. destruct (Z.eqb_spec q p) as [->|]; [|destruct (c_lc0 q); eauto].
    + destruct H1 as [L|[(t & es & A & B)|(L & t & prev & pt & es & k & A & B)]].
      * destruct (c_lc0 p); [left; lia|right; eapply MM; eauto].
      * right. exists p, t, es. split; auto. apply in_or_app. left. apply in_map; auto.
      * destruct (c_net0 _ _ _ _ _ _ A); [left; lia|right; eapply MM; eauto].
    + right. eapply MM; [|eauto]. lia.
  - intros L t prev pt es k Hm. apply in_app_or in Hm. destruct Hm as [Hm|Hm].
    + apply sends_in in Hm. apply H2 in Hm. destruct (c_lc0 p); [left; lia|right; eapply MM; eauto].
    + destruct (c_net0 _ _ _ _ _ _ Hm); [left; auto|right; eapply MM; [|eauto]; lia].
  - intros q i e Hx. apply in_app_or in Hx. destruct Hx as [Hx|Hx].
    + apply in_map_iff in Hx. destruct Hx as (y & Y & Hy). injection Y as _ ->. apply H3 in Hy.
      destruct (c_lc0 p); [lia|eapply MM; [|eauto]; lia].
    + eapply MM; [|eapply c_app0; eauto]. lia.
Qed.
Lemma ok_none : forall c p n', lc n' <= lc (rnodes c p) -> okstep c p n' [].
Proof. intros c p n' H. split; auto. split; intros; contradiction. Qed.
Lemma step_down_lc : forall t n, lc (step_down t n) = lc n.
Proof. intros. unfold step_down, lc. cbn [r_box]. destruct (r_st n); reflexivity. Qed.
Lemma lead_append_lc : forall v n n', lead_append conf0 boot dec v n = Some n' -> lc n' = lc n.
Proof. intros v n n' H. destruct (lead_append_form _ _ _ _ _ _ H) as [_ ->]. reflexivity. Qed.
Lemma apply_conf_lc : forall cc v n n', apply_conf conf0 boot dec cc v n = Some n' -> lc n' = lc n.
Proof.
  intros cc v n n' H. unfold apply_conf in H. destruct (holds dec v cc); [|discriminate H].
  destruct (lead_append conf0 boot dec v n) as [n1|] eqn:LA; [|discriminate H]. injection H as <-.
  apply lead_append_lc in LA. exact LA.
Qed.
Lemma next_stage_lc : forall v n n' o, next_stage conf0 boot dec v n = Some (n', o) ->
  lc n' = lc n /\ forall x, In x o -> exists t new es, x = ROChanged t new es.
Proof.
  intros v n n' o H. unfold next_stage in H. destruct (r_stage n) as [|new old|new|new].
  - discriminate H.
  - destruct (1 <? _).
    + destruct (apply_conf conf0 boot dec (new, Some old) v (set_stage (SJoint new) n)) as [n2|] eqn:A; [|discriminate H].
      cbn [option_map] in H. injection H as <- <-. apply apply_conf_lc in A. split; [exact A|intros x []].
    + destruct (apply_conf conf0 boot dec (new, None) v (set_stage (SStable new) n)) as [n2|] eqn:A; [|discriminate H].
      cbn [option_map] in H. injection H as <- <-. apply apply_conf_lc in A. split; [exact A|intros x []].
  - destruct (apply_conf conf0 boot dec (new, None) v (set_stage (SStable new) n)) as [n2|] eqn:A; [|discriminate H].
    cbn [option_map] in H. injection H as <- <-. apply apply_conf_lc in A. split; [exact A|intros x []].
  - destruct (memb _ _) in H; injection H as <- <-; (split; [|intros x [<-|[]]; eauto]).
    + reflexivity.
    + rewrite step_down_lc. reflexivity.
Qed.
Lemma ok_changed : forall c p n' o, lc n' <= lc (rnodes c p) -> (forall x, In x o -> exists t new es, x = ROChanged t new es) -> okstep c p n' o.
Proof.
  intros c p n' o H O. split; auto. split; intros.
  - destruct (O _ H0) as (? & ? & ? & X). discriminate X.
  - destruct (O _ H0) as (? & ? & ? & X). discriminate X.
Qed.
Lemma commit_to_ok : forall c p G n1 first last a n' o, NI G p n1 -> r_st n1 = RLead -> lc n1 = lc (rnodes c p) ->
  commit_to first last a n1 = (n', o) -> okstep c p n' o.
Proof.
  intros c p G n1 first last a n' o N RL E H. unfold commit_to in H.
  destruct (BallotBox.commit_at (r_box n1) first last a) as [[b r] oc] eqn:EB.
  assert (B0 : Inv0 (r_box n1)) by apply N.
  destruct (commit_at_cases _ _ _ _ _ _ _ B0 EB) as [(-> & -> & _)|(P0 & PL & _ & q & cc & EL & CC)].
  { injection H as <- <-. apply ok_none. rewrite <- E. reflexivity. }
  destruct (i_lead _ _ _ _ _ _ N RL) as (l0 & D1 & D2 & D3 & D4 & _).
  destruct (commit_loop_spec _ _ _ _ _ _ _ _ _ P0 EL) as (Q1 & Q2 & Q3 & Q4).
  unfold BallotBoxSpec.next_index in PL.
  destruct CC as [(-> & -> & ->)|(Nc & -> & ->)]; injection H as <- <-.
  - apply ok_none. rewrite <- E. reflexivity.
  - split; [right; left|].
    + exists (r_term n1), (firstn (Z.to_nat cc) (r_log n1)). split; [left; reflexivity|].
      destruct Q3 as [Q3|(Q3 & _)]; [congruence|].
      rewrite zlen_firstn_le by lia. unfold lc. cbn [set_box r_box BallotBox.lc]. lia.
    + split; intros; destruct H as [X|[]]; discriminate X.
Qed.
Lemma set_committed_lc : forall i n n', set_committed i n = Some n' -> lc n' = lc n \/ lc n' = i.
Proof.
  intros i n n' H. unfold set_committed, BallotBox.set_last_committed_index in H. unfold lc.
  destruct (negb (BallotBox.pend (r_box n) =? 0) || _).
  - destruct (_ <? _); inversion H; auto.
  - destruct (i <? _); [inversion H; auto|]. destruct (_ <? i); inversion H; auto.
Qed.
Lemma check_step_down_lc : forall t from n, r_term n <= t -> lc (check_step_down t from n) = lc n.
Proof. intros t from n H. destruct (check_step_down_term t from n H) as (_ & _ & _ & _ & X & _). exact X. Qed.
Lemma ok_append : forall c p from t prev pt es commit n' o,
  In (RApp from t prev pt es commit) (rnet c) ->
  append_req from t prev pt es commit (rnodes c p) = Some (n', o) -> okstep c p n' o.
Proof.
  intros c p from t prev pt es commit n' o M H. unfold append_req in H. set (n := rnodes c p) in *.
  destruct (Z.ltb_spec t (r_term n)) as [LT|GE].
  { injection H as <- <-. apply ok_none. fold n. lia. }
  pose proof (check_step_down_lc t from n GE) as C1.
  set (n1 := check_step_down t from n) in *. clearbody n1.
  destruct (negb (opeer_eqb (Some from) (r_leader n1))).
  { injection H as <- <-. apply ok_none. rewrite step_down_lc. fold n. lia. }
  destruct (negb (term_at (r_log n1) prev =? pt)).
  { injection H as <- <-. apply ok_none. fold n. lia. }
  destruct es as [|e0 es0].
  - destruct (set_committed (Z.min commit prev) n1) as [n2|] eqn:SC; [|discriminate H]. injection H as <- <-.
    split; [|split; intros; contradiction]. destruct (set_committed_lc _ _ _ SC) as [X|X]; [left; fold n; lia|].
    right; right. exists from, t, prev, pt, [], commit. split; auto. lia.
  - set (n2 := follow_append prev (e0 :: es0) n1) in *.
    assert (C2 : lc n2 = lc n). { rewrite <- C1. unfold n2, follow_append. destruct (skip_same _ _ _). reflexivity. }
    clearbody n2.
    destruct (set_committed _ n2) as [n3|] eqn:SC; [|discriminate H]. injection H as <- <-.
    split; [|split; intros; destruct H as [X|[]]; discriminate X].
    destruct (set_committed_lc _ _ _ SC) as [X|X]; [left; fold n; lia|].
    right; right. exists from, t, prev, pt, (e0 :: es0), commit. split; auto. lia.
Qed.
Lemma become_lc : forall v n n' o, become_leader conf0 boot dec v n = Some (n', o) -> lc n' = lc n /\ o = [ROElected (r_term n) (r_log n)].
Proof. intros v n n' o H. destruct (become_form _ _ _ _ _ _ _ H) as (_ & _ & -> & ->). split; reflexivity. Qed.

Lemma ok_rstep : forall c p e n' o G, Inv G c -> deliverable c p e = true ->
  rstep conf0 boot dec (rnodes c p) e = Some (n', o) -> okstep c p n' o.
Proof.
  intros c p e n' o G I DL ST. set (n := rnodes c p) in *.
  assert (N : NI G p n) by apply I.
  assert (MSG : forall from m, received p e = Some (from, m) -> In m (rnet c)).
  { intros from m R. unfold deliverable in DL. rewrite R in DL. apply andb_prop in DL. destruct DL as [_ DL].
    destruct (in_dec rmsg_dec m (rnet c)); [auto|discriminate DL]. }
  assert (Q0 : okstep c p n []) by (apply ok_none; fold n; lia).
  assert (VOTE : forall from t v, got_vote conf0 boot dec from t v n = Some (n', o) -> okstep c p n' o).
  { intros from t v H. unfold got_vote in H. destruct (r_st n); try (injection H as <- <-; auto; fail).
    destruct (t =? r_term n); [|injection H as <- <-; auto].
    destruct (granted _).
    - apply become_lc in H. destruct H as [A ->]. split; [left; rewrite A; change (lc n <= lc n); lia|].
      split; intros; destruct H as [X|[]]; discriminate X.
    - injection H as <- <-. apply ok_none. change (lc n <= lc n). lia. }
  destruct e; cbn [rstep received] in *.
  - unfold elect in ST. 
    assert (EL : (n', o) = (n, []) \/ (lc n' = lc n /\ exists m, o = [ROSend m] /\ match m with RVoteReq _ _ _ => True | _ => False end)).
    { destruct (r_st n); [discriminate ST| |]; (destruct (contains _ _) in ST; [right|left]; injection ST as <- <-; auto;
        split; [reflexivity|eexists; split; [reflexivity|exact Logic.I]]). }
    destruct EL as [X|(X & m & -> & Y)]; [injection X as -> ->; auto|]. split; [left; fold n; lia|].
    split; intros; destruct H as [Z0|[]]; [injection Z0 as ->; contradiction|discriminate Z0].
  - injection ST as ST. unfold vote_req in ST.
    destruct (t <? r_term n); [injection ST as <- <-; auto|]. destruct lease; [injection ST as <- <-; auto|].
    set (n0 := set_log (r_log n) (zlen (r_log n)) n) in *.
    set (n1 := if r_term n0 <? t then step_down t n0 else n0) in *.
    assert (L1 : lc n1 = lc n). { unfold n1. destruct (_ <? _); [rewrite step_down_lc|]; reflexivity. }
    clearbody n1.
    set (n2 := if id_geb last (last_id (r_log n1)) && opeer_eqb (r_voted n1) None then set_voted (Some cand) (step_down t n1) else n1) in *.
    assert (L2 : lc n2 = lc n). { rewrite <- L1. unfold n2. destruct (_ && _); auto. apply (step_down_lc t n1). }
    clearbody n2. destruct (_ && _) in ST; injection ST as <- <-.
    + split; [left; fold n; lia|]. split; intros; destruct H as [X|[]]; discriminate X.
    + apply ok_none. fold n. lia.
  - eapply VOTE; eauto.
  - eapply VOTE; eauto.
  - destruct (_ <=? _) in ST; injection ST as <- <-; auto. apply ok_none. rewrite step_down_lc. fold n. lia.
  - eapply ok_append; eauto.
  - injection ST as ST. unfold ack in ST. destruct (r_st n) eqn:E; try (injection ST as <- <-; auto; fail).
    destruct (_ =? _) in ST; [|injection ST as <- <-; auto]. eapply commit_to_ok; eauto.
  - unfold disk in ST. destruct (Z.leb_spec k (zlen (r_log n))) as [LE|]; [|discriminate ST].
    set (n1 := set_log (r_log n) (Z.max (r_sync n) k) n) in *.
    assert (N1 : NI G p n1). { apply NI_sync; auto. destruct N. lia. }
    change (r_st n1) with (r_st n) in ST. destruct (r_st n) eqn:E; injection ST as ST.
    + eapply commit_to_ok; [exact N1|exact E|reflexivity|exact ST].
    + subst n' o. apply ok_none. change (lc n <= lc n). lia.
    + subst n' o. apply ok_none. change (lc n <= lc n). lia.
  - unfold propose in ST. destruct (r_st n); try (injection ST as <- <-; auto; fail).
    destruct (dec v); [injection ST as <- <-; auto|].
    destruct (lead_append conf0 boot dec v n) as [n1|] eqn:LA; [|discriminate ST]. injection ST as <- <-.
    apply ok_none. rewrite (lead_append_lc _ _ _ LA). fold n. lia.
  - injection ST as <- <-. apply ok_none. unfold request. fold n. destruct (r_st n); try lia.
    destruct (r_stage n); try lia. destruct (ConfCtx.conf_equals _ _); [lia|]. change (lc n <= lc n). lia.
  - unfold caught in ST. destruct (r_st n); try (injection ST as <- <-; auto; fail).
    destruct (r_stage n); try (injection ST as <- <-; auto; fail).
    destruct ok.
    + apply next_stage_lc in ST. destruct ST. apply ok_changed; auto. fold n. lia.
    + injection ST as <- <-. apply ok_none. change (lc n <= lc n). lia.
  - unfold conf_done in ST. destruct (_ && _) in ST; [|discriminate ST].
    set (n1 := set_done (filter (fun d => negb ((fst d =? i) && (snd d =? t))) (r_done n)) n) in *.
    assert (L1 : lc n1 = lc n) by reflexivity. clearbody n1.
    destruct (r_st n1); try (injection ST as <- <-; apply ok_none; fold n; lia).
    destruct (_ =? _) in ST; [|injection ST as <- <-; apply ok_none; fold n; lia].
    apply next_stage_lc in ST. destruct ST. apply ok_changed; auto. fold n. lia.
  - unfold send in ST. destruct (r_st n); try (injection ST as <- <-; auto; fail).
    destruct ((0 <=? prev) && (prev <=? zlen (r_log n)) && (cm <=? BallotBox.lc (r_box n))) eqn:B; [|discriminate ST].
    injection ST as <- <-. split; [left; fold n; lia|].
    split; intros; destruct H as [X|[]]; [|discriminate X]. injection X as _ _ _ _ _ <-. fold n. unfold lc. lia.
  - unfold apply_one in ST. destruct (Z.ltb_spec (r_applied n) (BallotBox.lc (r_box n))); [|injection ST as <- <-; auto].
    destruct (znth (r_log n) (r_applied n)) as [e|]; [|discriminate ST]. injection ST as <- <-.
    split; [left; change (lc n <= lc n); lia|]. split; intros; destruct H0 as [X|[]]; [discriminate X|].
    injection X as <- _. pose proof (i_app _ _ _ _ _ _ N). fold n. unfold lc in *. lia.
  - destruct (crash k a n) as [n1|] eqn:CR; [|discriminate ST]. injection ST as <- <-. unfold crash in CR.
    destruct ((_ <=? k) && _ && ((0 <=? a) && (a <=? r_applied n) && (a <=? k))) eqn:B; [|discriminate CR]. injection CR as <-. apply ok_none.
    pose proof (i_app _ _ _ _ _ _ N). fold n. change (a <= lc n). lia.
Qed.

Lemma cov_rcrun : forall es c c' G, Inv G c -> Cov c -> rcrun conf0 boot dec c es = Some c' -> Cov c'.
Proof.
  induction es as [|[p e] es IH]; intros c c' G I C H; cbn [rcrun] in H; [injection H as <-; auto|].
  destruct (rcstep conf0 boot dec c (p, e)) as [c1|] eqn:ST; [|discriminate H].
  destruct (inv_rcstep _ _ _ _ _ _ _ I ST) as [G1 I1]. eapply IH; eauto.
  unfold rcstep in ST. destruct (deliverable c p e) eqn:DL; [|discriminate ST].
  destruct (rstep conf0 boot dec (rnodes c p) e) as [[n' o]|] eqn:RS; [|discriminate ST]. injection ST as <-.
  apply (cov_step c p n' o); auto. eapply ok_rstep; eauto.
Qed.
Lemma cov_init : Cov rcinit.
Proof.
  constructor.
  - intros p. left. cbn. lia.
  - intros L t prev pt es k [].
  - intros p i e [].
Qed.

Lemma reach_inv : forall c, reachable conf0 boot dec c -> exists G, Inv G c.
Proof. intros c [es H]. eapply inv_rcrun; [apply inv_init|exact H]. Qed.
Lemma reach_cov : forall c, reachable conf0 boot dec c -> Cov c.
Proof. intros c [es H]. eapply cov_rcrun; [apply (inv_init conf0 boot dec)|apply cov_init|exact H]. Qed.
End Trace.
