(** C47-C49: leaders, commitment and application while the membership of the group changes:
    any number of nodes, any changes (one peer or many at a time, through a joint
    configuration) asked for at any time, any schedule, any loss, duplication, delay and
    reordering of messages, any crashes and restarts. *)
From Verif Require Import Base BaseLemmas LogEntry Node QuorumSpec LogPrefix Reconf ReconfStatic ReconfInv ReconfGhost ReconfNode ReconfVote ReconfFollow ReconfSpec ReconfTrace.
From Verif Require BallotBox ConfCtx.

Section Props.
Variable conf0 : list peer.
Variable boot : peer -> bool.
Variable dec : Z -> option jconf.
Notation reachable := (reachable conf0 boot dec).
Notation in_force := (in_force conf0 dec).
Notation cfg := (cfg conf0 dec).

Lemma in_force_cfg : forall l, in_force l (cfg l).
Proof.
  induction l as [|e l IH] using rev_ind.
  - right. split; [intros e []|reflexivity].
  - rewrite cfg_snoc. destruct (dec (l_val e)) as [c|] eqn:D.
    + left. exists l, e, []. sp; auto. intros x [].
    + destruct IH as [(a & x & b & A & B & C)|(A & B)].
      * left. exists a, x, (b ++ [e]). sp; auto.
        -- rewrite A at 1. rewrite <- app_assoc. reflexivity.
        -- intros y Hy. apply in_app_or in Hy. destruct Hy as [Hy|[<-|[]]]; auto.
      * right. split; auto. intros y Hy. apply in_app_or in Hy. destruct Hy as [Hy|[<-|[]]]; auto.
Qed.
Lemma in_force_unique : forall l c, in_force l c -> c = cfg l.
Proof.
  intros l c [(a & e & b & -> & B & C)|(A & ->)].
  - assert (forall b' c', plain dec b' -> last_conf dec c' b' = c').
    { induction b' as [|x b' IH]; intros c' P; cbn [last_conf]; auto.
      rewrite (P x (or_introl eq_refl)). apply IH. intros y Hy. apply P. right; auto. }
    unfold ReconfStatic.cfg. rewrite last_conf_app. cbn [last_conf]. rewrite B. symmetry. auto.
  - assert (forall b' c', plain dec b' -> last_conf dec c' b' = c').
    { induction b' as [|x b' IH]; intros c' P; cbn [last_conf]; auto.
      rewrite (P x (or_introl eq_refl)). apply IH. intros y Hy. apply P. right; auto. }
    unfold ReconfStatic.cfg. symmetry. auto.
Qed.

(** * C47 *)
(** Two leaders of the same term are the same node, whatever configurations they were elected
    under, and it was elected once. *)
Theorem reconf_one_leader_per_term : forall c p q t l l', reachable c ->
  did c p (ROElected t l) -> did c q (ROElected t l') -> p = q /\ l = l'.
Proof.
  intros c p q t l l' R H1 H2. destruct (reach_inv _ _ _ _ R) as [G I].
  apply (v_tr _ _ _ _ _ I) in H1, H2. cbn [out_ok] in *. eapply (s3 _ _ _ (v_sf _ _ _ _ _ I)); eauto.
Qed.
(** Whoever leads now was elected for its term. *)
Theorem reconf_leader_was_elected : forall c p q t l, reachable c ->
  r_st (rnodes c p) = RLead -> t = r_term (rnodes c p) -> did c q (ROElected t l) ->
  q = p /\ starts l (r_log (rnodes c p)).
Proof.
  intros c p q t l R E Ht H. destruct (reach_inv _ _ _ _ R) as [G I].
  apply (v_tr _ _ _ _ _ I) in H. cbn [out_ok] in H.
  destruct (i_lead _ _ _ _ _ _ (v_ni _ _ _ _ _ I p) E) as (l0 & D1 & D2 & _). subst t.
  destruct (s3 _ _ _ (v_sf _ _ _ _ _ I) _ _ _ _ _ H D1) as [-> ->]. split; auto.
  destruct (G_ll_el _ _ _ _ _ _ (v_sf _ _ _ _ _ I) D1) as [[b X] _]. rewrite D2. exists b. exact X.
Qed.

(** * C48 *)
(** What was reported committed begins the log of every leader of a later term. *)
Theorem reconf_committed_survive : forall c p q t es t' l, reachable c ->
  did c p (ROCommit t es) -> did c q (ROElected t' l) -> t < t' -> starts es l.
Proof.
  intros c p q t es t' l R H1 H2 L. destruct (reach_inv _ _ _ _ R) as [G I].
  apply (v_tr _ _ _ _ _ I) in H1, H2. cbn [out_ok] in *. destruct H1 as (i & -> & C).
  exact (G_complete _ _ _ _ _ _ _ _ (v_sf _ _ _ _ _ I) H2 L C).
Qed.
(** Any two reported commits agree. *)
Theorem reconf_commits_agree : forall c p q t es t' es', reachable c ->
  did c p (ROCommit t es) -> did c q (ROCommit t' es') -> starts es es' \/ starts es' es.
Proof.
  intros c p q t es t' es' R H1 H2. destruct (reach_inv _ _ _ _ R) as [G I].
  apply (v_tr _ _ _ _ _ I) in H1, H2. cbn [out_ok] in *. destruct H1 as (i & -> & C). destruct H2 as (i' & -> & C').
  exact (G_prefixes _ _ _ _ _ _ _ (v_sf _ _ _ _ _ I) C C').
Qed.
Lemma committed_stored : forall G c t i, Inv conf0 boot dec G c -> cm conf0 dec G t i ->
  exists Q, quorum (fst (cfg (PX (gll G) t i))) (snd (cfg (PX (gll G) t i))) Q /\
    forall n, In n Q -> on_disk c n (PX (gll G) t i).
Proof.
  intros G c t i I C. destruct (proj2 C) as (Q & HQ & HA). exists Q. split; auto. intros n Hn.
  destruct (i_ak _ _ _ _ _ _ (v_ni _ _ _ _ _ I n) _ _ (HA n Hn)) as [_ [X|(U & p & l & B & EL & NP)]]; auto.
  exfalso. apply NP. eapply (G_complete conf0 dec); [apply I|exact EL| |exact C]. lia.
Qed.
(** Everything reported committed is, from then on and for ever, on the disks of a quorum of
    the configuration that was in force at that entry. *)
Theorem reconf_committed_on_quorum : forall c p t es, reachable c -> did c p (ROCommit t es) ->
  exists cc Q, in_force es cc /\ quorum (fst cc) (snd cc) Q /\ forall n, In n Q -> on_disk c n es.
Proof.
  intros c p t es R H. destruct (reach_inv _ _ _ _ R) as [G I].
  apply (v_tr _ _ _ _ _ I) in H. cbn [out_ok] in H. destruct H as (i & -> & C).
  destruct (committed_stored _ _ _ _ I C) as (Q & HQ & HD).
  exists (cfg (PX (gll G) t i)), Q. sp; auto. apply in_force_cfg.
Qed.
(** A change that was reported done is in force at what was committed by then; that is on the
    disks of a majority of the new members for ever and begins every later leader's log. *)
Theorem reconf_reported_change_stays : forall c p t new es, reachable c -> did c p (ROChanged t new es) ->
  in_force es (new, None) /\
  (exists Q, majority new Q /\ forall n, In n Q -> on_disk c n es) /\
  (forall q t' l, did c q (ROElected t' l) -> t < t' -> starts es l) /\
  (forall q t' es', did c q (ROCommit t' es') -> starts es es' \/ starts es' es).
Proof.
  intros c p t new es R H. destruct (reach_inv _ _ _ _ R) as [G I].
  apply (v_tr _ _ _ _ _ I) in H. cbn [out_ok] in H. destruct H as (CF & i & -> & C). sp.
  - rewrite <- CF. apply in_force_cfg.
  - destruct (committed_stored _ _ _ _ I C) as (Q & HQ & HD). rewrite CF in HQ. exists Q. split; auto. apply HQ.
  - intros q t' l H2 L. apply (v_tr _ _ _ _ _ I) in H2. exact (G_complete _ _ _ _ _ _ _ _ (v_sf _ _ _ _ _ I) H2 L C).
  - intros q t' es' H2. apply (v_tr _ _ _ _ _ I) in H2. destruct H2 as (i' & -> & C').
    exact (G_prefixes _ _ _ _ _ _ _ (v_sf _ _ _ _ _ I) C C').
Qed.
(** Two logs that agree on the term of an entry agree up to it. *)
Theorem reconf_logs_match : forall c p q i a b, reachable c ->
  entry (r_log (rnodes c p)) i = Some a -> entry (r_log (rnodes c q)) i = Some b -> l_term a = l_term b ->
  firstn (Z.to_nat i) (r_log (rnodes c p)) = firstn (Z.to_nat i) (r_log (rnodes c q)).
Proof.
  intros c p q i a b R H1 H2 HT. destruct (reach_inv _ _ _ _ R) as [G I].
  unfold entry in *. destruct (Z.leb_spec 1 i) as [L|]; [|discriminate H1].
  assert (X : forall L e, nth_error L (Z.to_nat (i - 1)) = Some e -> term_at L i = l_term e /\ i <= zlen L).
  { intros L0 e H. assert (Hz : znth L0 (i - 1) = Some e).
    { unfold znth. destruct (Z.ltb_spec (i - 1) 0); [lia|exact H]. }
    split; [|apply znth_some_bound in Hz; lia]. apply nth_error_split in H. destruct H as (x & y & -> & Hl).
    apply term_at_mid'. unfold zlen. lia. }
  destruct (X _ _ H1) as [T1 B1]. destruct (X _ _ H2) as [T2 B2].
  destruct (wfl_match (gll G) (r_log (rnodes c p)) (r_log (rnodes c q)) i) as (x & Y1 & Y2 & Y3).
  - apply (v_ni _ _ _ _ _ I p).
  - apply (v_ni _ _ _ _ _ I q).
  - rewrite T1. pose proof (i_tm _ _ _ _ _ _ (v_ni _ _ _ _ _ I p) a) as Ta.
    assert (In a (r_log (rnodes c p))) by (eapply nth_error_In; eauto). specialize (Ta H). lia.
  - congruence.
  - rewrite (prefix_firstn_eq x _ i Y2), (prefix_firstn_eq x _ i Y3) by auto. reflexivity.
Qed.
(** Nothing is ever committed under a configuration without members, so a group that was told
    to change to one makes no progress after it. *)
Theorem reconf_commit_has_members : forall c p t es cc, reachable c -> did c p (ROCommit t es) -> in_force es cc -> fst cc <> [].
Proof.
  intros c p t es cc R H F E. destruct (reach_inv _ _ _ _ R) as [G I].
  apply (v_tr _ _ _ _ _ I) in H. cbn [out_ok] in H. destruct H as (i & -> & C). apply in_force_unique in F. subst cc.
  destruct (proj2 C) as (Q & [HQ _] & _). fold cfg in HQ. rewrite E in HQ. unfold majority, ackers_in, zlen in HQ. cbn [filter length] in HQ. lia.
Qed.

(** * C49 *)
(** State machines agree on what they are handed at every index. *)
Theorem reconf_state_machines_agree : forall c p q i e e', reachable c ->
  did c p (ROApply i e) -> did c q (ROApply i e') -> e = e'.
Proof.
  intros c p q i e e' R H1 H2. destruct (reach_inv _ _ _ _ R) as [G I].
  apply (v_tr _ _ _ _ _ I) in H1, H2. cbn [out_ok] in *.
  destruct H1 as (T0 & i0 & C & B & Z0). destruct H2 as (T1 & i1 & C' & B' & Z1).
  assert (A : forall T k x, cm conf0 dec G T k -> 1 <= i <= k -> znth (gll G T) (i - 1) = Some x -> znth (PX (gll G) T k) (i - 1) = Some x).
  { intros T k x HC HB Hx. unfold PX. rewrite znth_firstn_eq by lia. exact Hx. }
  specialize (A T0 i0 e C B Z0) as A0. specialize (A T1 i1 e' C' B' Z1) as A1.
  destruct (G_prefixes _ _ _ _ _ _ _ (v_sf _ _ _ _ _ I) C C') as [P|P].
  - pose proof (prefix_znth _ _ _ _ P A0). congruence.
  - pose proof (prefix_znth _ _ _ _ P A1). congruence.
Qed.
(** What they are handed was reported committed by a leader. *)
Theorem reconf_applied_is_committed : forall c p i e, reachable c -> did c p (ROApply i e) ->
  exists q t es, did c q (ROCommit t es) /\ entry es i = Some e.
Proof.
  intros c p i e R H. destruct (c_app _ (reach_cov _ _ _ _ R) _ _ _ H) as (q & t & es & H2 & L).
  exists q, t, es. split; auto. destruct (reach_inv _ _ _ _ R) as [G I].
  apply (v_tr _ _ _ _ _ I) in H, H2. cbn [out_ok] in *.
  destruct H as (T0 & i0 & C & B & Z0). destruct H2 as (i' & -> & C').
  assert (A0 : znth (PX (gll G) T0 i0) (i - 1) = Some e). { unfold PX. rewrite znth_firstn_eq by lia. exact Z0. }
  assert (A1 : znth (PX (gll G) t i') (i - 1) = Some e).
  { destruct (G_prefixes _ _ _ _ _ _ _ (v_sf _ _ _ _ _ I) C C') as [P|P]; [eapply prefix_znth; eauto|].
    destruct (znth_in_bound (PX (gll G) t i') (i - 1)) as [x Hx]; [lia|].
    pose proof (prefix_znth _ _ _ _ P Hx). congruence. }
  unfold entry. destruct (Z.leb_spec 1 i); [|lia]. unfold znth in A1. destruct (Z.ltb_spec (i - 1) 0); [lia|exact A1].
Qed.
(** and every later commit has it there too *)
Theorem reconf_applied_in_commits : forall c p q i e t es, reachable c -> did c p (ROApply i e) ->
  did c q (ROCommit t es) -> i <= zlen es -> entry es i = Some e.
Proof.
  intros c p q i e t es R H H2 L. destruct (reach_inv _ _ _ _ R) as [G I].
  apply (v_tr _ _ _ _ _ I) in H, H2. cbn [out_ok] in *.
  destruct H as (T0 & i0 & C & B & Z0). destruct H2 as (i' & -> & C').
  assert (A0 : znth (PX (gll G) T0 i0) (i - 1) = Some e). { unfold PX. rewrite znth_firstn_eq by lia. exact Z0. }
  assert (A1 : znth (PX (gll G) t i') (i - 1) = Some e).
  { destruct (G_prefixes _ _ _ _ _ _ _ (v_sf _ _ _ _ _ I) C C') as [P|P]; [eapply prefix_znth; eauto|].
    destruct (znth_in_bound (PX (gll G) t i') (i - 1)) as [x Hx]; [lia|].
    pose proof (prefix_znth _ _ _ _ P Hx). congruence. }
  unfold entry. destruct (Z.leb_spec 1 i); [|lia]. unfold znth in A1. destruct (Z.ltb_spec (i - 1) 0); [lia|exact A1].
Qed.
End Props.

(** * The theorems say something: a group of three adds one member, then is replaced by three
    others but for one, its leader leaves, a node crashes, and a new leader is elected. *)
Definition ex_conf : list peer := [1; 2; 3].
Definition ex_boot (p : peer) : bool := memb p ex_conf.
Definition ex_dec (v : Z) : option jconf :=
  if v =? 100 then Some ([1; 2; 3], None)
  else if v =? 101 then Some ([1; 2; 3; 4], None)
  else if v =? 102 then Some ([4; 5; 6], Some [1; 2; 3; 4])
  else if v =? 103 then Some ([4; 5; 6], None)
  else if v =? 104 then Some ([], Some [1; 2; 3]) else None.
(** leader [l] sends the entries after [prev], [f] stores and acknowledges them *)
Definition ex_log2 : list lent := map (mkL 2) [100; 7; 101; 8; 102; 103].
Definition repl (l f prev m commit : Z) : list (peer * rev_) :=
  [(l, ESend prev m commit);
   (f, EApp l 2 prev (term_at ex_log2 prev) (firstn (Z.to_nat m) (skipn (Z.to_nat prev) ex_log2)) commit);
   (l, EAck f 2 (prev + m) (prev + 1))].
Definition ex_run : list (peer * rev_) :=
  [(1, EElect); (1, EGrantSelf 100); (2, EVoteReq 1 2 (mkId 0 0) false); (1, EVoteOk 2 2 100);
   (1, EPropose 7); (1, EDisk 1 2)] ++ repl 1 2 0 2 0 ++ repl 1 3 0 2 2 ++
  [(1, EConfDone 1 2 0); (1, EApply); (1, EApply); (3, EApply);
   (1, ERequest [1; 2; 3; 4]); (1, ECaught true 101); (1, EPropose 8); (1, EDisk 3 4)] ++
  repl 1 4 0 4 2 ++ repl 1 2 2 2 2 ++ repl 1 3 2 2 4 ++
  [(1, EConfDone 3 2 0)].
Definition ex_run2 : list (peer * rev_) := ex_run ++
  [(1, ERequest [4; 5; 6]); (1, ECaught true 102); (1, EDisk 5 5)] ++
  repl 1 4 4 1 4 ++ repl 1 5 0 5 4 ++ repl 1 2 4 1 4 ++
  [(1, EConfDone 5 2 103); (1, EDisk 6 6)] ++ repl 1 4 5 1 5 ++ repl 1 5 5 1 5 ++
  [(1, EConfDone 6 2 0); (5, ECrash 6 0); (4, EElect); (4, EGrantSelf 103);
   (5, EVoteReq 4 3 (mkId 6 2) false); (4, EVoteOk 5 3 103);
   (4, EApply); (4, EApply); (4, EApply); (4, EApply); (4, EApply)].
Definition ex_state (es : list (peer * rev_)) : rcluster :=
  match rcrun ex_conf ex_boot ex_dec rcinit es with Some c => c | None => rcinit end.
Definition ex_ok (es : list (peer * rev_)) : bool :=
  match rcrun ex_conf ex_boot ex_dec rcinit es with Some _ => true | None => false end.
Lemma ex_reach : forall es, ex_ok es = true -> reachable ex_conf ex_boot ex_dec (ex_state es).
Proof.
  intros es H. exists es. unfold ex_ok, ex_state in *.
  destruct (rcrun ex_conf ex_boot ex_dec rcinit es); [reflexivity|discriminate H].
Qed.
Definition rout_eqb (a b : rout) : bool :=
  match a, b with
  | ROElected t l, ROElected t' l' => (t =? t') && if list_eq_dec Reconf.lent_dec l l' then true else false
  | ROCommit t l, ROCommit t' l' => (t =? t') && if list_eq_dec Reconf.lent_dec l l' then true else false
  | ROChanged t n l, ROChanged t' n' l' => (t =? t') && (if list_eq_dec Z.eq_dec n n' then true else false) && if list_eq_dec Reconf.lent_dec l l' then true else false
  | ROApply i e, ROApply i' e' => (i =? i') && if Reconf.lent_dec e e' then true else false
  | _, _ => false
  end.
Lemma rout_eqb_eq : forall a b, rout_eqb a b = true -> a = b.
Proof.
  intros a b H. destruct a, b; cbn [rout_eqb] in H; try discriminate H.
  - destruct (list_eq_dec _ log log0); [|rewrite andb_false_r in H; discriminate H]. rewrite andb_true_r in H. apply Z.eqb_eq in H. congruence.
  - destruct (list_eq_dec _ es es0); [|rewrite andb_false_r in H; discriminate H]. rewrite andb_true_r in H. apply Z.eqb_eq in H. congruence.
  - destruct (list_eq_dec _ es es0); [|rewrite andb_false_r in H; discriminate H]. rewrite andb_true_r in H.
    destruct (list_eq_dec Z.eq_dec new new0); [|rewrite andb_false_r in H; discriminate H]. rewrite andb_true_r in H. apply Z.eqb_eq in H. congruence.
  - destruct (Reconf.lent_dec e e0); [|rewrite andb_false_r in H; discriminate H]. rewrite andb_true_r in H. apply Z.eqb_eq in H. congruence.
Qed.
Definition did_b (c : rcluster) (p : peer) (o : rout) : bool := existsb (fun x => (fst x =? p) && rout_eqb (snd x) o) (rtrace c).
Lemma did_b_did : forall c p o, did_b c p o = true -> did c p o.
Proof.
  intros c p o H. apply existsb_exists in H. destruct H as ([q x] & A & B). cbn [fst snd] in B.
  apply andb_prop in B. destruct B as [B1 B2]. apply Z.eqb_eq in B1. apply rout_eqb_eq in B2. subst. exact A.
Qed.
Definition ex_facts (c : rcluster) : bool :=
  did_b c 1 (ROElected 2 []) &&
  did_b c 1 (ROChanged 2 [1; 2; 3; 4] (firstn 4 ex_log2)) &&
  did_b c 1 (ROCommit 2 (firstn 5 ex_log2)) &&
  did_b c 1 (ROChanged 2 [4; 5; 6] ex_log2) &&
  did_b c 4 (ROElected 3 ex_log2) &&
  did_b c 1 (ROApply 2 (mkL 2 7)) && did_b c 4 (ROApply 2 (mkL 2 7)) &&
  negb (did_b c 1 (ROElected 3 ex_log2)).
Lemma ex_holds : ex_ok ex_run2 = true /\ ex_facts (ex_state ex_run2) = true.
Proof. vm_compute. split; reflexivity. Qed.
Example reconf_example : exists c, reachable ex_conf ex_boot ex_dec c /\
  did c 1 (ROElected 2 []) /\
  did c 1 (ROChanged 2 [1; 2; 3; 4] (map (mkL 2) [100; 7; 101; 8])) /\
  did c 1 (ROCommit 2 (map (mkL 2) [100; 7; 101; 8; 102])) /\
  did c 1 (ROChanged 2 [4; 5; 6] (map (mkL 2) [100; 7; 101; 8; 102; 103])) /\
  did c 4 (ROElected 3 (map (mkL 2) [100; 7; 101; 8; 102; 103])) /\
  did c 1 (ROApply 2 (mkL 2 7)) /\ did c 4 (ROApply 2 (mkL 2 7)).
Proof.
  exists (ex_state ex_run2). destruct ex_holds as [A B]. split; [apply ex_reach; exact A|].
  clear A. revert B. generalize (ex_state ex_run2). intros c B.
  unfold ex_facts in B. rewrite !andb_true_iff in B. destruct B as (((((((B1 & B2) & B3) & B4) & B5) & B6) & B7) & _).
  sp; apply did_b_did; [exact B1|exact B2|exact B3|exact B4|exact B5|exact B6|exact B7].
Qed.
(** A leader accepts a change to no members at all; what follows can never be committed
    ([reconf_commit_has_members]). *)
Definition ex_run3 : list (peer * rev_) := firstn 13 ex_run ++ [(1, ERequest []); (1, ECaught true 104)].
Example reconf_empty_change_accepted : exists c, reachable ex_conf ex_boot ex_dec c /\
  r_st (rnodes c 1) = RLead /\ in_force ex_conf ex_dec (r_log (rnodes c 1)) ([], Some [1; 2; 3]).
Proof.
  exists (ex_state ex_run3). split; [apply ex_reach; vm_compute; reflexivity|]. split; [vm_compute; reflexivity|].
  replace ([], Some [1; 2; 3]) with (cfg ex_conf ex_dec (r_log (rnodes (ex_state ex_run3) 1))) by (vm_compute; reflexivity).
  apply in_force_cfg.
Qed.

Print Assumptions reconf_one_leader_per_term.
Print Assumptions reconf_leader_was_elected.
Print Assumptions reconf_committed_survive.
Print Assumptions reconf_commits_agree.
Print Assumptions reconf_committed_on_quorum.
Print Assumptions reconf_reported_change_stays.
Print Assumptions reconf_logs_match.
Print Assumptions reconf_commit_has_members.
Print Assumptions reconf_state_machines_agree.
Print Assumptions reconf_applied_is_committed.
Print Assumptions reconf_applied_in_commits.
Print Assumptions reconf_example.
Print Assumptions reconf_empty_change_accepted.
