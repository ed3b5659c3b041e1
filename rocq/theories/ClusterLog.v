(** Layer 2 of the cluster proof: the logs of all nodes are made of leaders' logs. *)
From Verif Require Import Base BaseLemmas LogEntry Ballot QuorumSpec Node Cluster ClusterSpec LogPrefix ClusterElect.
From Verif Require BallotBox.

Definition elections (tr : list (peer * nout)) : list (Z * peer * list lent) :=
  flat_map (fun x => match x with (p, OElected t l) => [(t, p, l)] | _ => [] end) tr.

Lemma in_elections : forall tr t p l, In (t, p, l) (elections tr) <-> In (p, OElected t l) tr.
Proof.
  intros. unfold elections. rewrite in_flat_map. split.
  - intros [[q x] [H1 H2]]. destruct x; cbn in H2; try tauto. destruct H2 as [E|[]]. inversion E; subst. auto.
  - intros H. exists (p, OElected t l). split; auto. left; reflexivity.
Qed.
Lemma elections_app : forall a b, elections (a ++ b) = elections a ++ elections b.
Proof. intros. unfold elections. apply flat_map_app. Qed.

Section Log.
Variable conf : list peer.
Variable cv : Z.
Hypothesis conf_nodup : NoDup conf.
Notation els := (list (Z * peer * list lent)).

Record B (ll : Z -> list lent) (el : els) (p : peer) (n : node) : Prop := mkB {
  b_fin : fin (n_disk n) (n_q n) = n_log n;
  b_sts : Sts (wfl ll) (n_disk n) (n_q n);
  b_lead : is_lead (n_st n) = true -> n_log n = ll (n_term n) /\ exists l, In (n_term n, p, l) el;
  b_le : forall e, In e (n_log n) -> l_term e <= n_term n;
  b_cand : n_st n = Candidate -> forall e, In e (n_log n) -> l_term e < n_term n;
  b_el : forall t l, In (t, p, l) el -> n_term n = t -> n_st n <> Candidate;
  b_sw : forall w prev pt c, In w (n_sw n) -> sw_head w = Some (prev, pt, c) ->
     slice (ll (sw_term w)) prev pt (sw_es w) /\ exists l, In (sw_term w, p, l) el }.

Record G (ll : Z -> list lent) (el : els) (nt : list msg) : Prop := mkG {
  g_terms : forall t e, In e (ll t) -> 1 <= l_term e <= t;
  g_wfl : forall t, wfl ll (ll t);
  g_el : forall t, ll t <> [] -> exists p l, In (t, p, l) el;
  g_log : forall t p l, In (t, p, l) el -> exists s, ll t = l ++ s /\ s <> [] /\
     (forall e, In e s -> l_term e = t) /\ (forall e, In e l -> l_term e < t);
  g_app : forall f t prev pt es c, In (MApp f t prev pt es c) nt ->
     slice (ll t) prev pt es /\ exists l, In (t, f, l) el }.

Definition Inv2 (ll : Z -> list lent) (c : cluster) : Prop :=
  (forall p, B ll (elections (trace c)) p (nodes c p)) /\ G ll (elections (trace c)) (net c).

(** Same log, same or lower role. *)
Definition lower (n n' : node) : Prop :=
  n_log n' = n_log n /\ n_disk n' = n_disk n /\
  (exists ops, n_q n' = n_q n ++ ops /\ forall o, In o ops -> ~ data o) /\
  (forall w, In w (n_sw n') -> In w (n_sw n)) /\
  n_term n <= n_term n' /\
  (is_lead (n_st n') = true -> is_lead (n_st n) = true /\ n_term n' = n_term n) /\
  (n_st n' = Candidate -> n_st n = Candidate /\ n_term n' = n_term n).

Lemma fin_inert : forall ops d, (forall o, In o ops -> ~ data o) -> fin d ops = d.
Proof.
  induction ops; cbn; intros d H; auto. rewrite IHops by auto.
  specialize (H a (or_introl eq_refl)). destruct a; cbn in *; tauto.
Qed.
Lemma Sts_inert : forall (P : list lent -> Prop) ops d, P d -> (forall o, In o ops -> ~ data o) -> Sts P d ops.
Proof.
  induction ops; cbn; intros d H Ho; auto. split; auto.
  assert (E : dstep d a = d) by (specialize (Ho a (or_introl eq_refl)); destruct a; cbn in *; tauto).
  rewrite E. auto.
Qed.

Lemma lower_refl : forall n, lower n n.
Proof.
  intros. unfold lower. repeat split; auto; try lia. exists []. rewrite app_nil_r. split; auto.
Qed.
Lemma lower_trans : forall a b c, lower a b -> lower b c -> lower a c.
Proof.
  unfold lower. intros a b c [a1 [a2 [[o1 [a3 a4]] [a5 [a6 [a7 a8]]]]]] [b1 [b2 [[o2 [b3 b4]] [b5 [b6 [b7 b8]]]]]].
  split; [congruence|]. split; [congruence|]. split.
  { exists (o1 ++ o2). rewrite b3, a3, <- app_assoc. split; auto. intros o Ho. apply in_app_or in Ho. destruct Ho; auto. }
  split; [auto|]. split; [lia|]. split; intros H.
  - destruct (b7 H) as [x y]. destruct (a7 x) as [z w]. split; [auto|congruence].
  - destruct (b8 H) as [x y]. destruct (a8 x) as [z w]. split; [auto|congruence].
Qed.
Lemma lower_B : forall ll el p n n', B ll el p n -> lower n n' -> B ll el p n'.
Proof.
  intros ll el p n n' [b1 b2 b3 b4 b5 b6 b7] [a1 [a2 [[ops [a3 a4]] [a5 [a6 [a7 a8]]]]]].
  constructor; rewrite ?a1, ?a2, ?a3.
  - rewrite fin_app, b1. apply fin_inert; auto.
  - apply Sts_app. split; auto. apply Sts_inert; auto. eapply Sts_fin; eauto.
  - intros H. destruct (a7 H) as [x y]. rewrite y. auto.
  - intros e He. specialize (b4 e He). lia.
  - intros H. destruct (a8 H) as [x y]. rewrite y. auto.
  - intros t l H E Hc. destruct (a8 Hc) as [x y]. eapply b6; eauto. congruence.
  - intros w prev pt c Hw Hh. eapply b7; eauto.
Qed.

Ltac lw := unfold lower; cbn; repeat (match goal with
   | |- _ /\ _ => split
   | |- exists ops, ?q = ?q ++ ops /\ _ => exists []; rewrite app_nil_r; split; [reflexivity|intros ? []]
   | |- forall w, In w _ -> In w _ => intros; auto
   | |- _ = _ => reflexivity
   | |- _ <= _ => lia
   | |- _ -> _ => intros; try discriminate; auto end).

Lemma save_lower : forall r v n, lower n (save r v n).
Proof. intros [] v n; lw. Qed.
Lemma down_lower : forall t r n, lower n (step_down t r n).
Proof.
  intros t r n. unfold step_down.
  set (n0 := match n_st n with Candidate => _ | Follower => n | _ => _ end).
  assert (H : lower n (set_st Follower (set_leader None n0)) /\ n_term n0 = n_term n).
  { subst n0. destruct (n_st n); (split; [lw|reflexivity]). }
  destruct H as [H E]. set (n1 := set_st Follower (set_leader None n0)) in *.
  destruct (Z.ltb_spec (n_term n1) t); auto.
  eapply lower_trans; [exact H|]. eapply lower_trans; [|apply save_lower].
  subst n1. cbn [n_term set_st set_leader] in *. lw.
Qed.
Lemma down_term : forall t r n, n_term (step_down t r n) = Z.max (n_term n) t.
Proof.
  intros t r n. unfold step_down. destruct (n_st n); cbn [set_st set_leader set_ctx set_box n_term];
  (destruct (Z.ltb_spec (n_term n) t); [destruct r; cbn; lia|cbn; lia]).
Qed.
Lemma down_st : forall t r n, n_st (step_down t r n) = Follower.
Proof.
  intros t r n. unfold step_down. destruct (n_st n); cbn [set_st set_leader set_ctx set_box n_term];
  (destruct (Z.ltb_spec (n_term n) t); [destruct r; reflexivity|reflexivity]).
Qed.
Lemma check_lower : forall t f r n, lower n (check_step_down t f r n).
Proof.
  intros. unfold check_step_down. set (n0 := if n_term n <? t then _ else _).
  assert (H : lower n n0).
  { subst n0. destruct (n_term n <? t); [apply down_lower|]. destruct (n_st n); try apply down_lower.
    destruct (n_leader n); [apply lower_refl|apply down_lower]. }
  destruct (n_leader n0); auto.
Qed.
Lemma check_term : forall t f r n, n_term n <= t -> n_term (check_step_down t f r n) = t /\ n_st (check_step_down t f r n) = Follower.
Proof.
  intros t f r n H. unfold check_step_down. set (n0 := if n_term n <? t then _ else _).
  assert (E : n_term n0 = t /\ n_st n0 = Follower).
  { subst n0. destruct (Z.ltb_spec (n_term n) t).
    - split; [rewrite down_term; lia|apply down_st].
    - destruct (n_st n) eqn:Es; try (split; [rewrite down_term; lia|apply down_st]).
      destruct (n_leader n); (split; [try rewrite down_term; lia|try apply down_st; auto]). }
  destruct (n_leader n0); auto.
Qed.

(** Outputs without log contents. *)
Definition plain (o : list nout) : Prop := forall x, In x o ->
  match x with OSend (MApp _ _ _ _ _ _) | OElected _ _ => False | _ => True end.
Lemma plain_nil : plain [].
Proof. intros x []. Qed.

Definition elected_of (p : peer) (o : list nout) : els := elections (map (pair p) o).
Lemma plain_elected : forall p o, plain o -> elected_of p o = [].
Proof.
  intros p o H. unfold elected_of. destruct (elections (map (pair p) o)) as [|[[t q] l] x] eqn:E; auto.
  exfalso. assert (In (t, q, l) (elections (map (pair p) o))) by (rewrite E; left; reflexivity).
  apply in_elections, in_map_iff in H0. destruct H0 as [y [Ey Hy]]. inversion Ey; subst. apply (H _ Hy).
Qed.

(** A handler run that does not make a leader nor extend a leader's log. *)
Definition quiet (ll : Z -> list lent) (el : els) (p : peer) (n : node) (r : node * list nout) : Prop :=
  B ll el p (fst r) /\
  forall x, In x (snd r) -> match x with
    | OSend (MApp f t prev pt es c) => f = p /\ slice (ll t) prev pt es /\ exists l, In (t, p, l) el
    | OElected _ _ => False
    | _ => True end.
Lemma quiet_plain : forall ll el p n n' o, B ll el p n' -> plain o -> quiet ll el p n (n', o).
Proof. intros. split; auto. intros x Hx. specialize (H0 x Hx). destruct x as [m| | |]; auto. destruct m; tauto. Qed.
Lemma quiet_lower : forall ll el p n n' o, B ll el p n -> lower n n' -> plain o -> quiet ll el p n (n', o).
Proof. intros. apply quiet_plain; auto. eapply lower_B; eauto. Qed.

(** A handler run that appends [es] to the log of the leader of term [t]. *)
Definition grows (ll : Z -> list lent) (el : els) (p : peer) (n' : node) (t : Z) (es : list lent) (o : list nout) : Prop :=
  let ll' := fun s => if s =? t then ll s ++ es else ll s in
  B ll' (elected_of p o ++ el) p n'.

Lemma lead_append_eq : forall vs n n', lead_append conf vs n = Some n' ->
  n_log n' = n_log n ++ map (mkL (n_term n)) vs /\
  n_q n' = n_q n ++ map DApp (map (mkL (n_term n)) vs) ++ [DLead (zlen (n_log n) + 1) (zlen vs)] /\
  n_disk n' = n_disk n /\ n_sw n' = n_sw n /\ n_term n' = n_term n /\ n_st n' = n_st n.
Proof.
  intros vs n n' H. unfold lead_append in H. destruct (pend_all conf (n_box n) vs); inversion H; subst. cbn. auto 10.
Qed.

Lemma fin_lead : forall d q es f k L, fin d q = L -> fin d (q ++ map DApp es ++ [DLead f k]) = L ++ es.
Proof. intros. rewrite !fin_app, H, fin_map_app. reflexivity. Qed.
Lemma Sts_lead : forall P d q es f k L, fin d q = L -> Sts P d q ->
  (forall a b, es = a ++ b -> P (L ++ a)) -> Sts P d (q ++ map DApp es ++ [DLead f k]).
Proof.
  intros. apply Sts_app. split; auto. rewrite H. apply Sts_app. split.
  - apply Sts_map_app; auto.
  - rewrite fin_map_app. cbn. specialize (H1 es [] (eq_sym (app_nil_r _))). auto.
Qed.

(** New leaders. *)
Lemma become_leader_B : forall ll el nt p n n' o,
  B ll el p n -> G ll el nt -> ll (n_term n) = [] -> 1 <= n_term n ->
  become_leader conf cv n = Some (n', o) ->
  let e := mkL (n_term n) cv in
  let ll' := fun s => if s =? n_term n then n_log n ++ [e] else ll s in
  o = [OElected (n_term n) (n_log n)] /\
  B ll' ((n_term n, p, n_log n) :: el) p n' /\ G ll' ((n_term n, p, n_log n) :: el) nt /\ llext ll ll'.
Proof.
  intros ll el nt p n n' o HB HG H0 H1 H e ll'.
  unfold become_leader in H. destruct (n_st n) eqn:Es; try discriminate.
  destruct (BallotBox.reset_pending_index (n_box n) (zlen (n_log n) + 1)); try discriminate.
  match type of H with context [lead_append conf [cv] ?x] => set (n1 := x) in * end.
  destruct (lead_append conf [cv] n1) eqn:E; inversion H; subst n0 o; clear H.
  destruct (lead_append_eq _ _ _ E) as [e1 [e2 [e3 [e4 [e5 e6]]]]]. subst n1; cbn in e1, e2, e3, e4, e5, e6.
  fold e in e1, e2.
  destruct HB as [b1 b2 b3 b4 b5 b6 b7]. destruct HG as [g1 g2 g3 g4 g5].
  assert (X : llext ll ll').
  { intros t. subst ll'. cbn. destruct (Z.eqb_spec t (n_term n)); [subst t; rewrite H0; apply prefix_nil|apply prefix_refl]. }
  assert (Et : ll' (n_term n) = n_log n ++ [e]) by (subst ll'; cbn; rewrite Z.eqb_refl; reflexivity).
  assert (WL : wfl ll' (n_log n)) by (rewrite <- b1; eapply wfl_ext; [eapply Sts_fin; eauto|auto]).
  assert (WE : wfl ll' (n_log n ++ [e])).
  { apply wfl_app with (t := n_term n); auto; [intros x [<-|[]]; reflexivity|]. rewrite Et. apply prefix_refl. }
  split; [reflexivity|]. split; [|split; [|exact X]].
  - constructor; rewrite ?e1, ?e2, ?e3, ?e4, ?e5, ?e6.
    + change (fin (n_disk n) (n_q n ++ map DApp [e] ++ [DLead (zlen (n_log n) + 1) (zlen [cv])]) = n_log n ++ [e]).
      apply fin_lead; auto.
    + change (Sts (wfl ll') (n_disk n) (n_q n ++ map DApp [e] ++ [DLead (zlen (n_log n) + 1) (zlen [cv])])).
      eapply Sts_lead; eauto; [eapply Sts_impl; [|exact b2]; intros; eapply wfl_ext; eauto|].
      intros xa xb Eab. eapply wfl_prefix; [exact WE|]. exists xb. rewrite <- app_assoc. congruence.
    + intros _. split; [congruence|]. exists (n_log n). left; reflexivity.
    + intros x Hx. apply in_app_or in Hx. destruct Hx as [Hx|[<-|[]]]; auto. cbn. lia.
    + discriminate.
    + intros; discriminate.
    + intros w prev pt c Hw Hh. destruct (b7 _ _ _ _ Hw Hh) as [x [l y]]. split; [eapply slice_ext; eauto|].
      exists l. right; auto.
  - constructor.
    + intros t x Hx. subst ll'. cbn in Hx. destruct (Z.eqb_spec t (n_term n)); auto.
      subst t. apply in_app_or in Hx. destruct Hx as [Hx|[<-|[]]]; [|cbn; lia].
      split; [|auto]. assert (Hp : wfl ll (n_log n)) by (rewrite <- b1; eapply Sts_fin; eauto).
      destruct (In_znth _ _ Hx) as [i Hi]. apply in_split in Hx. destruct Hx as [u [v Ev]].
      assert (In x (ll (l_term x))) by (eapply prefix_In; [eapply Hp; eauto|apply in_or_app; right; left; reflexivity]).
      apply g1 in H. lia.
    + intros t. destruct (Z.eqb_spec t (n_term n)); [subst t; rewrite Et; auto|].
      replace (ll' t) with (ll t); [eapply wfl_ext; eauto|]. subst ll'; cbn. destruct (Z.eqb_spec t (n_term n)); [congruence|auto].
    + intros t Ht. destruct (Z.eqb_spec t (n_term n)); [subst t; exists p, (n_log n); left; reflexivity|].
      destruct (g3 t) as [q [l Hl]]. { subst ll'; cbn in Ht. destruct (Z.eqb_spec t (n_term n)); [congruence|auto]. }
      exists q, l. right; auto.
    + intros t q l [Ein|Ein].
      * inversion Ein; subst. exists [e]. rewrite Et. split; auto. split; [discriminate|]. split; [intros x [<-|[]]; reflexivity|].
        apply b5; auto.
      * destruct (g4 _ _ _ Ein) as [s [s1 [s2 s3]]]. subst ll'; cbn. destruct (Z.eqb_spec t (n_term n)).
        { subst t. rewrite H0 in s1. destruct l, s; discriminate || congruence. }
        exists s. auto.
    + intros f t prev pt es c Hm. destruct (g5 _ _ _ _ _ _ Hm) as [x [l y]]. split; [eapply slice_ext; eauto|].
      exists l. right; auto.
Qed.

Lemma propose_B : forall ll el nt p n vs n', B ll el p n -> G ll el nt -> is_lead (n_st n) = true -> 1 <= n_term n ->
  lead_append conf vs n = Some n' ->
  let ll' := fun s => if s =? n_term n then n_log n' else ll s in
  B ll' el p n' /\ G ll' el nt /\ llext ll ll' /\ n_term n' = n_term n.
Proof.
  intros ll el nt p n vs n' HB HG Hl H1 H ll'.
  destruct (lead_append_eq _ _ _ H) as [e1 [e2 [e3 [e4 [e5 e6]]]]].
  destruct HB as [b1 b2 b3 b4 b5 b6 b7]. destruct HG as [g1 g2 g3 g4 g5].
  destruct (b3 Hl) as [E0 [l0 Hl0]]. set (es := map (mkL (n_term n)) vs) in *.
  assert (Hes : forall e, In e es -> l_term e = n_term n).
  { intros e He. apply in_map_iff in He. destruct He as [v [<- _]]. reflexivity. }
  assert (Et : ll' (n_term n) = n_log n ++ es) by (subst ll'; cbn; rewrite Z.eqb_refl; auto).
  assert (X : llext ll ll').
  { intros t. destruct (Z.eqb_spec t (n_term n)); [subst t; rewrite Et, <- E0; apply prefix_app|].
    subst ll'; cbn. destruct (Z.eqb_spec t (n_term n)); [congruence|apply prefix_refl]. }
  assert (Eo : forall t, t <> n_term n -> ll' t = ll t).
  { intros t Ht. subst ll'; cbn. destruct (Z.eqb_spec t (n_term n)); [congruence|auto]. }
  assert (WL : wfl ll' (n_log n)) by (rewrite <- b1; eapply wfl_ext; [eapply Sts_fin; eauto|auto]).
  assert (WE : wfl ll' (n_log n ++ es)).
  { apply wfl_app with (t := n_term n); auto. rewrite Et. apply prefix_refl. }
  split; [|split; [|split; [exact X|exact e5]]].
  - constructor; rewrite ?e1, ?e2, ?e3, ?e4, ?e5, ?e6.
    + apply fin_lead; auto.
    + eapply Sts_lead; eauto; [eapply Sts_impl; [|exact b2]; intros; eapply wfl_ext; eauto|].
      intros xa xb Eab. eapply wfl_prefix; [exact WE|]. exists xb. rewrite <- app_assoc. congruence.
    + intros _. split; [congruence|]. eauto.
    + intros x Hx. apply in_app_or in Hx. destruct Hx as [Hx|Hx]; auto. rewrite (Hes _ Hx). lia.
    + intros Hc. rewrite Hc in Hl. discriminate.
    + intros t l Hin Ht Hc. rewrite Hc in Hl. discriminate.
    + intros w prev pt c Hw Hh. destruct (b7 _ _ _ _ Hw Hh) as [x [l y]]. split; [eapply slice_ext; eauto|eauto].
  - constructor.
    + intros t x Hx. destruct (Z.eq_dec t (n_term n)); [subst t|rewrite Eo in Hx by auto; auto].
      rewrite Et in Hx. apply in_app_or in Hx. destruct Hx as [Hx|Hx].
      * rewrite E0 in Hx. auto.
      * rewrite (Hes _ Hx). lia.
    + intros t. destruct (Z.eq_dec t (n_term n)); [subst t; rewrite Et; auto|]. rewrite Eo by auto. eapply wfl_ext; eauto.
    + intros t Ht. destruct (Z.eq_dec t (n_term n)); [subst t; eauto|]. rewrite Eo in Ht by auto. auto.
    + intros t q l Hin. destruct (g4 _ _ _ Hin) as [s [s1 [s2 [s3 s4]]]]. destruct (Z.eq_dec t (n_term n)).
      * subst t. exists (s ++ es). rewrite Et, E0, s1, <- app_assoc. split; auto. split; [destruct s; [congruence|discriminate]|].
        split; auto. intros x Hx. apply in_app_or in Hx. destruct Hx; auto.
      * rewrite Eo by auto. exists s. auto.
    + intros f t prev pt es0 c Hm. destruct (g5 _ _ _ _ _ _ Hm) as [x [l y]]. split; [eapply slice_ext; eauto|eauto].
Qed.

Lemma elect1_B : forall ll el p n, B ll el p n -> (forall t l, In (t, p, l) el -> t <= n_mterm n) ->
  n_mterm n <= n_term n -> B ll el p (elect_self_1 conf n).
Proof.
  intros ll el p n HB H1 H2. unfold elect_self_1. destruct (memb (n_self n) conf); auto.
  destruct HB as [b1 b2 b3 b4 b5 b6 b7]. constructor; cbn.
  - rewrite fin_app, b1. reflexivity.
  - apply Sts_snoc; auto. cbn. eapply Sts_fin; eauto.
  - discriminate.
  - intros e He. specialize (b4 e He). lia.
  - intros _ e He. specialize (b4 e He). lia.
  - intros t l Hin Et. specialize (H1 _ _ Hin). lia.
  - exact b7.
Qed.

Lemma committed_lower : forall i n n', set_committed i n = Some n' -> lower n n'.
Proof.
  intros i n n' H. unfold set_committed in H.
  destruct (BallotBox.set_last_committed_index (n_box n) i) as [[[b x] y]|]; inversion H. lw.
Qed.
Lemma commit_to_lower : forall f l q n n' o, commit_to f l q n = (n', o) -> lower n n' /\ plain o.
Proof.
  intros f l q n n' o H. unfold commit_to in H.
  destruct (BallotBox.commit_at (n_box n) f l q) as [[b x] [i|]]; inversion H; subst; (split; [lw|]);
  intros z Hz; cbn in Hz; [destruct Hz as [<-|[]]; exact I|destruct Hz].
Qed.

(** The follower's side of AppendEntries. *)
Lemma append_B : forall ll el nt p n f t prev pt es c r n' o, B ll el p n -> G ll el nt ->
  In (MApp f t prev pt es c) nt -> append_req f t prev pt es c r n = Some (n', o) ->
  quiet ll el p n (n', o).
Proof.
  intros ll el nt p n f t prev pt es c r n' o HB HG Hm H. unfold append_req in H.
  destruct (Z.ltb_spec t (n_term n)).
  { inversion H; subst n' o. apply quiet_lower; [auto|apply lower_refl|apply plain_nil]. }
  pose proof (check_lower t f r n) as HL. destruct (check_term t f r n H0) as [Ht Hst].
  set (n1 := check_step_down t f r n) in *.
  destruct (negb (opeer_eqb (Some f) (n_leader n1))).
  { inversion H; subst n' o. apply quiet_lower; [auto| |apply plain_nil]. eapply lower_trans; [exact HL|apply down_lower]. }
  destruct (Z.eqb_spec (term_at (n_log n1) prev) pt) as [e0|e0]; cbn [negb] in H.
  2:{ inversion H; subst n' o. apply quiet_lower; [auto|auto|apply plain_nil]. }
  destruct es as [|e es].
  - destruct (set_committed (Z.min c prev) n1) eqn:E; inversion H; subst n' o. apply committed_lower in E.
    apply quiet_lower; [auto| |apply plain_nil]. eapply lower_trans; eauto.
  - assert (B1 : B ll el p n1) by (eapply lower_B; eauto).
    destruct HG as [g1 g2 g3 g4 g5]. destruct (g5 _ _ _ _ _ _ Hm) as [Sl [l0 El]].
    assert (W1 : wfl ll (n_log n1)) by (rewrite <- (b_fin _ _ _ _ B1); eapply Sts_fin; apply (b_sts _ _ _ _ B1)).
    assert (P1 : posl (ll t)) by (intros x Hx; destruct (g1 _ _ Hx); lia).
    assert (P2 : posl (n_log n1)).
    { intros x Hx. apply in_split in Hx. destruct Hx as [u [v Ev]].
      assert (In x (ll (l_term x))) by (eapply prefix_In; [eapply W1; eauto|apply in_or_app; right; left; reflexivity]).
      apply g1 in H1. lia. }
    destruct (follow_spec ll n1 (ll t) prev pt (e :: es) W1 (g2 t) P1 P2 Sl e0) as [ops [E1 [E2 [E3 [E4 [E5 [E6 E7]]]]]]].
    set (n2 := follow_append prev (e :: es) n1) in *.
    inversion H; subst n' o; clear H. apply quiet_plain; [|apply plain_nil].
    destruct B1 as [b1 b2 b3 b4 b5 b6 b7].
    assert (Q1 : n_q n2 = n_q n1 ++ ops) by (rewrite E1; reflexivity).
    assert (Q2 : n_disk n2 = n_disk n1) by (rewrite E1; reflexivity).
    assert (Q3 : n_term n2 = n_term n1) by (rewrite E1; reflexivity).
    assert (Q4 : n_st n2 = n_st n1) by (rewrite E1; reflexivity).
    assert (Q5 : n_sw n2 = n_sw n1) by (rewrite E1; reflexivity).
    constructor; cbn [set_log n_disk n_q n_log n_st n_term n_sw]; rewrite ?Q1, ?Q2, ?Q3, ?Q4, ?Q5; auto.
    + rewrite fin_app, fin_app, b1, E2. reflexivity.
    + apply Sts_app. split.
      * apply Sts_app. split; auto. rewrite b1. exact E3.
      * rewrite fin_app, b1, E2. cbn. rewrite <- E2. pose proof (Sts_fin _ _ _ E3). auto.
    + rewrite Hst. discriminate.
    + intros x Hx. destruct (E6 _ Hx) as [Hx'|Hx']; auto. apply g1 in Hx'. lia.
    + rewrite Hst. discriminate.
Qed.

Lemma disk_B : forall ll el p n n' o, B ll el p n -> disk_step n = Some (n', o) -> quiet ll el p n (n', o).
Proof.
  intros ll el p n n' o HB H. unfold disk_step in H. destruct (n_q n) as [|d q] eqn:Eq; try discriminate.
  set (n1 := set_disk (n_disk n) q n) in *.
  destruct HB as [b1 b2 b3 b4 b5 b6 b7]. rewrite Eq in b1, b2. cbn [fin Sts] in b1, b2. destruct b2 as [b2 b2'].
  assert (B1 : B ll el p (set_disk (dstep (n_disk n) d) q n)) by (constructor; cbn; auto).
  assert (Hn : ~ data d -> B ll el p n1).
  { intros Hd. replace n1 with (set_disk (dstep (n_disk n) d) q n); auto. subst n1. destruct d; cbn in *; tauto. }
  destruct d; cbn [dstep] in B1; try (specialize (Hn (fun x => x))).
  - inversion H; subst. apply quiet_plain; [exact B1|apply plain_nil].
  - inversion H; subst. apply quiet_plain; [exact B1|apply plain_nil].
  - destruct (term =? n_term n1).
    + destruct (set_committed commit n1) eqn:E; inversion H; subst. apply committed_lower in E.
      apply quiet_plain; [eapply lower_B; eauto|]. intros x [<-|[]]; exact I.
    + inversion H; subst. apply quiet_plain; [auto|apply plain_nil].
  - destruct (commit_to first (first + n0 - 1) (n_self n1) n1) as [n2 o2] eqn:E. inversion H; subst.
    apply commit_to_lower in E. destruct E. apply quiet_plain; auto. eapply lower_B; eauto.
  - inversion H; subst. apply quiet_plain; [|apply plain_nil]. eapply lower_B; [exact Hn|].
    destruct (n_win n); [|apply lower_refl]. destruct (term =? z); [lw|apply lower_refl].
  - inversion H; subst. apply quiet_plain; [|apply plain_nil]. eapply lower_B; [exact Hn|]. lw.
Qed.

Lemma wfl_le_last : forall ll L, (forall t e, In e (ll t) -> 1 <= l_term e <= t) -> wfl ll L ->
  forall e, In e L -> l_term e <= term_at L (zlen L).
Proof.
  intros ll L H1 H2 e He. destruct (exists_last (l := L)) as [a [x Ex]]; [destruct L; [destruct He|discriminate]|].
  subst L. replace (zlen (a ++ [x])) with (zlen a + 1) by (rewrite zlen_app; unfold zlen; cbn; lia).
  rewrite term_at_mid. assert (prefix (a ++ [x]) (ll (l_term x))) by (eapply H2 with (b := []); reflexivity).
  assert (In e (ll (l_term x))) by (eapply prefix_In; eauto). apply H1 in H0. lia.
Qed.

Lemma crash_B : forall ll el nt p n, B ll el p n -> G ll el nt -> B ll el p (crash n).
Proof.
  intros ll el nt p n [b1 b2 b3 b4 b5 b6 b7] [g1 g2 g3 g4 g5]. apply Sts_hd in b2.
  pose proof (wfl_le_last ll (n_disk n) g1 b2) as Hle.
  unfold crash. cbn [reload n_term n_log last_id li_term].
  destruct (Z.ltb_spec (n_mterm n) (term_at (n_disk n) (zlen (n_disk n)))); constructor; cbn; auto; try discriminate; try tauto;
  intros e He; specialize (Hle e He); lia.
Qed.

Lemma find_sw_In : forall k l w, find_sw k l = Some w -> In w l.
Proof. induction l; cbn; intros w H; try discriminate. destruct (sw_id a =? k); auto. inversion H; auto. Qed.
Lemma upd_sw_In : forall k f l w, In w (upd_sw k f l) -> In w l \/ exists x, find_sw k l = Some x /\ w = f x.
Proof.
  induction l; cbn; intros w H; [tauto|]. destruct (sw_id a =? k).
  - destruct H as [<-|H]; eauto.
  - destruct H as [<-|H]; auto. destruct (IHl _ H) as [?|?]; auto.
Qed.

(** Everything except becoming leader and appending to a leader's log. *)
Lemma grant_outcome : forall n n' o, grant_self conf cv n = Some (n', o) ->
  exists n1, lower n n1 /\ n_term n1 = n_term n /\ ((n' = n1 /\ o = []) \/ become_leader conf cv n1 = Some (n', o)).
Proof.
  intros n n' o H. unfold grant_self in H.
  match type of H with context [set_ctx ?a ?b ?c ?d] => set (n1 := set_ctx a b c d) in * end.
  exists n1. split; [subst n1; lw|]. split; [reflexivity|].
  destruct (granted (n_ballot n1)); auto. inversion H; auto.
Qed.

Lemma nstep_quiet : forall vt ll c p e n' o, Inv1 conf vt c -> Inv2 ll c -> send_undisturbed c p e ->
  deliverable c p e = true -> nstep conf cv (nodes c p) e = Some (n', o) ->
  quiet ll (elections (trace c)) p (nodes c p) (n', o) \/
  (exists n1 pre o1, lower (nodes c p) n1 /\ plain pre /\ become_leader conf cv n1 = Some (n', o1) /\ o = pre ++ o1) \/
  (exists vs, is_lead (n_st (nodes c p)) = true /\ lead_append conf vs (nodes c p) = Some n' /\ o = []).
Proof.
  intros vt ll c p e n' o [HA HN] [HB HG] Hs Hd H. specialize (HA p). specialize (HB p).
  pose proof (fun from m => deliver_In c p e from m Hd) as HD.
  set (el := elections (trace c)) in *. set (n := nodes c p) in *.
  assert (Hel : forall t l, In (t, p, l) el -> t <= n_mterm n).
  { intros t l Hin. apply in_elections in Hin. destruct (ne _ _ _ HN _ _ _ Hin) as [Hv _].
    destruct (a_vt _ _ _ _ _ HA _ _ Hv); auto. }
  assert (Hmt : n_mterm n <= n_term n) by (destruct (a_mt _ _ _ _ _ HA); auto).
  destruct e; cbn [nstep] in H; cbn [received] in HD.
  - left. destruct (is_lead (n_st n)); inversion H; subst.
    + apply quiet_lower; [auto|apply lower_refl|apply plain_nil].
    + apply quiet_plain; [|apply plain_nil]. apply elect1_B; auto.
  - unfold elect_self_2 in H. destruct (n_win n); try discriminate. destruct (n_wlast n); try discriminate.
    cbn [n_term set_win] in H. destruct (n_term n =? z).
    2:{ left. inversion H; subst. apply quiet_lower; [auto|lw|apply plain_nil]. }
    match type of H with context [OSend ?m :: _] => set (om := OSend m) in * end.
    destruct r.
    + destruct now.
      * match type of H with context [grant_self conf cv ?x] => destruct (grant_self conf cv x) as [[n2 o2]|] eqn:Eg end; inversion H; subst.
        destruct (grant_outcome _ _ _ Eg) as [n1 [L1 [T1 [[-> ->]|O1]]]].
        -- left. apply quiet_lower; [auto| |intros x [<-|[]]; exact I]. eapply lower_trans; [|exact L1]. lw.
        -- right; left. exists n1, [om], o2. split; [eapply lower_trans; [|exact L1]; lw|].
           split; [intros x [<-|[]]; exact I|]. auto.
      * left. inversion H; subst. apply quiet_lower; [auto|lw|intros x [<-|[]]; exact I].
    + left. inversion H; subst. apply quiet_lower; [auto|lw|intros x [<-|[]]; exact I].
    + left. inversion H; subst. apply quiet_lower; [auto|lw|intros x [<-|[]]; exact I].
  - unfold grant_self_timer in H. destruct (n_gself n); try discriminate. cbn [n_ver set_gself] in H.
    destruct (n_ver n =? z).
    2:{ left. inversion H; subst. apply quiet_lower; [auto|lw|apply plain_nil]. }
    destruct again.
    + left. inversion H; subst. apply quiet_lower; [auto|lw|apply plain_nil].
    + destruct (grant_outcome _ _ _ H) as [n1 [L1 [T1 [[-> ->]|O1]]]].
      * left. apply quiet_lower; [auto| |apply plain_nil]. eapply lower_trans; [|exact L1]. lw.
      * right; left. exists n1, [], o. split; [eapply lower_trans; [|exact L1]; lw|]. split; [apply plain_nil|]. auto.
  - left. unfold vote_req_1 in H. destruct (t <? n_term n); inversion H; subst.
    + apply quiet_lower; [auto|apply lower_refl|intros x [<-|[]]; exact I].
    + apply quiet_lower; [auto| |apply plain_nil]. unfold lower; cbn. repeat split; auto; try lia.
      exists [DVote (n_fresh n)]. split; auto. intros o [<-|[]]; cbn; tauto.
  - left. unfold vote_req_2 in H. destruct (find_vw k (n_vw n)) as [w|]; try discriminate.
    destruct (vw_seen w); try discriminate. set (n0 := set_vw (drop_vw k (n_vw n)) n) in *.
    assert (L0 : lower n n0) by lw.
    match type of H with Some (?a, _) = _ => set (n1 := a) in * end.
    assert (L1 : lower n n1).
    { subst n1. destruct (negb (vw_prev w =? n_term n0)); auto. destruct lease; auto.
      set (n2 := if n_term n0 <? vw_term w then step_down (vw_term w) r1 n0 else n0).
      assert (L2 : lower n n2) by (subst n2; destruct (n_term n0 <? vw_term w); [eapply lower_trans; [exact L0|apply down_lower]|auto]).
      destruct (_ && _); auto.
      assert (L3 : lower n (set_voted (Some (vw_cand w)) (step_down (vw_term w) r1 n2))).
      { eapply lower_trans; [exact L2|]. eapply lower_trans; [apply (down_lower (vw_term w) r1 n2)|]. lw. }
      destruct r2.
      - eapply lower_trans; [exact L3|apply save_lower].
      - eapply lower_trans; [exact L3|]. lw.
      - eapply lower_trans; [exact L3|]. lw. }
    inversion H; subst. apply quiet_lower; [auto|auto|intros x [<-|[]]; exact I].
  - unfold vote_resp in H.
    assert (QL : forall m, lower n m -> Some (m, []) = Some (n', o) -> quiet ll el p n (n', o)).
    { intros m Lm Em. inversion Em; subst. apply quiet_lower; [auto|auto|apply plain_nil]. }
    destruct (negb (ver =? n_ver n)); [left; eapply QL; [apply lower_refl|exact H]|].
    destruct (n_st n) eqn:Es; try (left; eapply QL; [apply lower_refl|exact H]).
    destruct (negb (reqterm =? n_term n)); [left; eapply QL; [apply lower_refl|exact H]|].
    destruct (n_term n <? rt); [left; eapply QL; [apply down_lower|exact H]|].
    destruct g; [|left; eapply QL; [apply lower_refl|exact H]].
    match type of H with context [set_ctx ?a ?b ?c ?d] => set (b1 := b) in *; set (n1 := set_ctx a b1 c d) in * end.
    assert (L1 : lower n n1) by (subst n1; lw).
    destruct (granted b1); [|left; eapply QL; [exact L1|exact H]].
    right; left. exists n1, [], o. split; auto. split; [apply plain_nil|]. auto.
  - left. destruct (n_term n <=? t); inversion H; subst.
    + apply quiet_lower; [auto|apply down_lower|apply plain_nil].
    + apply quiet_lower; [auto|apply lower_refl|apply plain_nil].
  - left. destruct (HD _ _ eq_refl) as [_ Hin]. eapply append_B; eauto.
  - left. apply disk_B; auto.
  - unfold propose in H. destruct (n_st n) eqn:Es; try (left; inversion H; subst; apply quiet_lower; [auto|apply lower_refl|apply plain_nil]).
    destruct (lead_append conf vs n) eqn:E; inversion H; subst. right; right. exists vs. auto.
  - left. inversion H; subst. apply quiet_lower; [auto| |apply plain_nil]. unfold transfer. destruct (n_st n) eqn:Es; try apply lower_refl.
    unfold lower; cbn. rewrite Es. repeat split; auto; try lia; try discriminate. exists []. rewrite app_nil_r. split; auto.
  - left. inversion H; subst. apply quiet_lower; [auto| |apply plain_nil]. unfold transfer_timeout. destruct (n_st n) eqn:Es; try apply lower_refl.
    unfold lower; cbn. rewrite Es. repeat split; auto; try lia; try discriminate. exists []. rewrite app_nil_r. split; auto.
  - left. inversion H; subst. apply quiet_plain; [|apply plain_nil]. unfold send_open. destruct (is_lead (n_st n)); auto.
    destruct HB as [b1 b2 b3 b4 b5 b6 b7]. constructor; cbn; auto.
    intros w prev pt c0 [<-|Hw] Hh; [discriminate|eauto].
  - left. inversion H; subst. apply quiet_plain; [|apply plain_nil]. unfold send_fill.
    destruct ((0 <=? prev) && (prev <=? zlen (n_log n))) eqn:Ep; auto.
    apply andb_true_iff in Ep. destruct Ep as [Ep1 Ep2]. apply Z.leb_le in Ep1. apply Z.leb_le in Ep2.
    cbn in Hs. fold n in Hs.
    pose proof HB as [b1 b2 b3 b4 b5 b6 b7]. constructor; cbn; auto.
    intros w prev0 pt c0 Hw Hh. apply upd_sw_In in Hw. destruct Hw as [Hw|[x [Fx Ex]]]; [eauto|].
    destruct (sw_head x) as [z|] eqn:Ehx. { subst w. eapply b7; [eapply find_sw_In; eauto|exact Hh]. }
    destruct (Hs _ Fx) as [St Sl]. destruct (b3 Sl) as [El Hl]. subst w; cbn in *. inversion Hh; subst. rewrite St. split; [|exact Hl].
    exists (firstn (Z.to_nat prev0) (n_log n)), (skipn (Z.to_nat prev0) (n_log n)). cbn. rewrite firstn_skipn, <- El.
    split; auto. split; auto. rewrite zlen_firstn. lia.
  - left. inversion H; subst. apply quiet_plain; [|apply plain_nil]. unfold send_read.
    cbn in Hs. fold n in Hs.
    pose proof HB as [b1 b2 b3 b4 b5 b6 b7]. constructor; cbn; auto.
    intros w prev0 pt c0 Hw Hh. apply upd_sw_In in Hw. destruct Hw as [Hw|[x [Fx Ex]]]; [eauto|].
    destruct (sw_head x) as [[[prev pt'] c']|] eqn:Ehx; [|subst w; congruence].
    destruct (b7 _ _ _ _ (find_sw_In _ _ _ Fx) Ehx) as [Sx Lx].
    destruct (znth (n_log n) (prev + zlen (sw_es x))) as [e|] eqn:Ez.
    2:{ subst w. rewrite Ehx in Hh. inversion Hh; subst. auto. }
    subst w; cbn in *. inversion Hh; subst. split; auto.
    destruct (Hs _ Fx) as [St Sl]. destruct (b3 Sl) as [El _]. rewrite <- St in El.
    destruct Sx as [a [b [Fa [Za Pa]]]]. rewrite <- El in Fa.
    rewrite Fa in Ez. rewrite znth_app2 in Ez by (pose proof (zlen_nonneg (sw_es x)); lia).
    replace (prev0 + zlen (sw_es x) - zlen a) with (zlen (sw_es x)) in Ez by lia.
    rewrite znth_app2 in Ez by lia. rewrite Z.sub_diag in Ez. destruct b as [|e0 b]; [discriminate|].
    rewrite znth_cons_0 in Ez. inversion Ez; subst e0.
    exists a, b. rewrite <- El. split; [rewrite Fa, <- app_assoc; reflexivity|]. split; auto. rewrite El. exact Pa.
  - left. unfold send_go in H. destruct (find_sw k (n_sw n)) as [w|] eqn:Fx; try discriminate.
    destruct (sw_head w) as [[[prev pt] c0]|] eqn:Eh; inversion H; subst.
    destruct HB as [b1 b2 b3 b4 b5 b6 b7]. destruct (b7 _ _ _ _ (find_sw_In _ _ _ Fx) Eh) as [Sx Lx].
    split; cbn [fst snd].
    + constructor; cbn; auto. intros w' prev' pt' c' Hw. apply filter_In in Hw. destruct Hw. eauto.
    + intros x [<-|[]]. rewrite (a_self _ _ _ _ _ HA). auto.
  - left. inversion H; subst. apply quiet_lower; [auto| |apply plain_nil]. unfold resp_open. destruct (_ && _); [lw|apply lower_refl].
  - left. unfold resp_go in H. destruct (find_rw k (n_rw n)) as [w|]; try discriminate.
    match type of H with Some (commit_to ?a ?b ?c ?d) = _ => destruct (commit_to a b c d) as [n2 o2] eqn:E end.
    inversion H; subst. apply commit_to_lower in E. destruct E as [L1 L2]. apply quiet_lower; auto.
  - left. unfold apply_one in H. destruct (n_applied n <? BallotBox.lc (n_box n)).
    + destruct (znth (n_log n) (n_applied n)); inversion H; subst. apply quiet_lower; [auto|lw|intros x [<-|[]]; exact I].
    + inversion H; subst. apply quiet_lower; [auto|apply lower_refl|apply plain_nil].
  - left. inversion H; subst. apply quiet_plain; [eapply crash_B; eauto|apply plain_nil].
  - left. unfold crash_in_elect_self in H. destruct (n_win n); try discriminate. destruct (n_wlast n); try discriminate.
    destruct (n_term n =? z); inversion H; subst. apply quiet_plain; [eapply crash_B; eauto|intros x [<-|[]]; exact I].
Qed.

Lemma B_other : forall ll ll' el el' p n, B ll el p n -> llext ll ll' ->
  (is_lead (n_st n) = true -> ll' (n_term n) = ll (n_term n)) ->
  (forall x, In x el -> In x el') -> (forall t l, In (t, p, l) el' -> In (t, p, l) el) ->
  B ll' el' p n.
Proof.
  intros ll ll' el el' p n [b1 b2 b3 b4 b5 b6 b7] X Hl He He'. constructor; auto.
  - eapply Sts_impl; [|exact b2]. intros; eapply wfl_ext; eauto.
  - intros H. destruct (b3 H) as [x [l y]]. split; [rewrite Hl; auto|eauto].
  - intros t l Hin. eauto.
  - intros w prev pt c Hw Hh. destruct (b7 _ _ _ _ Hw Hh) as [x [l y]]. split; [eapply slice_ext; eauto|eauto].
Qed.

Lemma inv2_step : forall vt ll c p e c', Inv1 conf vt c -> Inv2 ll c ->
  self_vote_saved c p e -> send_undisturbed c p e ->
  cstep conf cv c (p, e) = Some c' -> exists ll', llext ll ll' /\ Inv2 ll' c'.
Proof.
  intros vt ll c p e c' I1 I2 Hs1 Hs2 H.
  destruct (inv1_step conf cv conf_nodup _ _ _ _ _ I1 Hs1 H) as [vt' [_ I1']].
  unfold cstep in H. destruct (deliverable c p e) eqn:Hd; try discriminate.
  destruct (nstep conf cv (nodes c p) e) as [[n' o]|] eqn:E; try discriminate.
  inversion H; subst c'; clear H.
  pose proof (nstep_quiet _ _ _ _ _ _ _ I1 I2 Hs2 Hd E) as HQ.
  set (el := elections (trace c)) in *.
  assert (Eel : elections (map (pair p) o ++ trace c) = elected_of p o ++ el) by (unfold elected_of, el; apply elections_app).
  assert (Uel : forall t q q' l l', In (t, q, l) (elected_of p o ++ el) -> In (t, q', l') (elected_of p o ++ el) -> q = q').
  { intros t q q' l l' X Y. rewrite <- Eel in X, Y. apply in_elections in X. apply in_elections in Y.
    eapply (one_leader conf vt'); [exact I1'|exact X|exact Y]. }
  destruct I2 as [HB HG]. fold el in HB, HG. assert (HA := proj1 I1 p).
  destruct HQ as [HQ|[[n1 [pre [o1 [L1 [Pp [Eb Eo]]]]]]|[vs [Hl [Ea Eo]]]]].
  - destruct HQ as [Q1 Q2]. cbn [fst snd] in *. exists ll. split; [apply llext_refl|].
    assert (E0 : elected_of p o = []).
    { unfold elected_of. destruct (elections (map (pair p) o)) as [|[[t q] l] x] eqn:Ex; auto. exfalso.
      assert (Y : In (t, q, l) (elections (map (pair p) o))) by (rewrite Ex; left; reflexivity).
      apply in_elections, in_map_iff in Y. destruct Y as [y [Ey Hy]]. inversion Ey; subst. apply (Q2 _ Hy). }
    unfold Inv2; cbn [nodes trace net]. rewrite Eel, E0. cbn [app]. split.
    + intros q. unfold upd. destruct (Z.eqb_spec q p); [subst q; auto|apply HB].
    + destruct HG as [g1 g2 g3 g4 g5]. constructor; auto.
      intros f t prev pt es c0 Hin. apply in_app_or in Hin. destruct Hin as [Hin|Hin]; [|eauto].
      apply in_sends in Hin. apply Q2 in Hin. destruct Hin as [-> Hin]. exact Hin.
  - subst o. assert (B1 : B ll el p n1) by (eapply lower_B; eauto).
    assert (Ep : elected_of p (pre ++ o1) = elected_of p o1).
    { unfold elected_of. rewrite map_app, elections_app. rewrite (plain_elected p pre Pp : elections (map (pair p) pre) = []). reflexivity. }
    assert (Es : n_st n1 = Candidate) by (unfold become_leader in Eb; destruct (n_st n1); congruence).
    assert (H1 : 1 <= n_term n1).
    { destruct L1 as [_ [_ [_ [_ [L _]]]]]. destruct (a_mt _ _ _ _ _ HA). lia. }
    assert (H0 : ll (n_term n1) = []).
    { destruct (list_eq_dec lent_dec (ll (n_term n1)) []); auto. exfalso.
      destruct (g_el _ _ _ HG _ n) as [q [l Hl]].
      assert (Eo1 : o1 = [OElected (n_term n1) (n_log n1)]).
      { unfold become_leader in Eb. rewrite Es in Eb. destruct (BallotBox.reset_pending_index _ _); try discriminate.
        match type of Eb with context [lead_append conf [cv] ?x] => destruct (lead_append conf [cv] x) end; inversion Eb; auto. }
      assert (q = p).
      { eapply Uel; [apply in_or_app; right; exact Hl|]. apply in_or_app; left. rewrite Ep, Eo1. left; reflexivity. }
      subst q. apply (b_el _ _ _ _ B1 _ _ Hl eq_refl Es). }
    destruct (become_leader_B ll el (net c) p n1 n' o1 B1 HG H0 H1 Eb) as [Eo1 [B2 [G2 X2]]].
    set (ll' := fun s : Z => if s =? n_term n1 then n_log n1 ++ [mkL (n_term n1) cv] else ll s) in *.
    exists ll'. split; auto. unfold Inv2; cbn [nodes trace net]. rewrite Eel, Ep, Eo1. cbn [elected_of map elections flat_map app].
    assert (Ein : In (n_term n1, p, n_log n1) (elected_of p (pre ++ o1) ++ el)).
    { apply in_or_app; left. rewrite Ep, Eo1. left; reflexivity. }
    split.
    + intros q. unfold upd. destruct (Z.eqb_spec q p); [subst q; exact B2|].
      eapply B_other; [apply HB|auto| |intros x Hx; right; exact Hx|].
      * intros Hl. subst ll'; cbn. destruct (Z.eqb_spec (n_term (nodes c q)) (n_term n1)) as [Et|Et]; auto.
        exfalso. destruct (b_lead _ _ _ _ (HB q) Hl) as [_ [l Hl']]. apply n. eapply Uel; [apply in_or_app; right; rewrite Et in Hl'; exact Hl'|exact Ein].
      * intros t l [Hin|Hin]; auto. inversion Hin. congruence.
    + destruct G2 as [g1 g2 g3 g4 g5]. constructor; auto.
      intros f t prev pt es c0 Hin. apply in_app_or in Hin. destruct Hin as [Hin|Hin]; [|eauto].
      exfalso. apply in_sends in Hin. apply in_app_or in Hin. destruct Hin as [Hin|Hin]; [apply (Pp _ Hin)|].
      destruct Hin as [Hin|[]]. discriminate.
  - subst o. assert (H1 : 1 <= n_term (nodes c p)) by (destruct (a_mt _ _ _ _ _ HA); lia).
    destruct (propose_B ll el (net c) p (nodes c p) vs n' (HB p) HG Hl H1 Ea) as [B2 [G2 [X2 T2]]].
    set (ll' := fun s : Z => if s =? n_term (nodes c p) then n_log n' else ll s) in *.
    exists ll'. split; auto. unfold Inv2; cbn [nodes trace net map sends flat_map app]. fold el.
    split; auto. intros q. unfold upd. destruct (Z.eqb_spec q p); [subst q; exact B2|].
    eapply B_other; [apply HB|auto| |auto|auto].
    intros Hl2. subst ll'; cbn. destruct (Z.eqb_spec (n_term (nodes c q)) (n_term (nodes c p))) as [Et|Et]; auto.
    exfalso. destruct (b_lead _ _ _ _ (HB q) Hl2) as [_ [l Hl']]. destruct (b_lead _ _ _ _ (HB p) Hl) as [_ [l2 Hl'']].
    apply n. rewrite Et in Hl'. eapply Uel; [apply in_or_app; right; exact Hl'|apply in_or_app; right; exact Hl''].
Qed.

Lemma inv2_init : Inv2 (fun _ => []) cinit.
Proof.
  split; cbn.
  - intros p. constructor; cbn; auto; try discriminate; try tauto. split; auto. apply wfl_nil.
  - constructor; cbn; try tauto. intros; apply wfl_nil.
Qed.

Lemma inv12_exec : forall (ok : cluster -> peer -> nev -> Prop) c,
  (forall c p e, ok c p e -> self_vote_saved c p e /\ send_undisturbed c p e) ->
  execution conf cv ok c -> exists vt ll, Inv1 conf vt c /\ Inv2 ll c.
Proof.
  intros ok c Hok H. induction H.
  - exists (fun _ _ => None), (fun _ => []). split; [apply inv1_init|apply inv2_init].
  - destruct IHexecution as [vt [ll [I1 I2]]]. destruct (Hok _ _ _ H0) as [H2 H3].
    destruct (inv1_step conf cv conf_nodup _ _ _ _ _ I1 H2 H1) as [vt' [_ I1']].
    destruct (inv2_step _ _ _ _ _ _ I1 I2 H2 H3 H1) as [ll' [_ I2']]. eauto.
Qed.

Lemma logs_match : forall ll c p q i, Inv2 ll c ->
  term_at (n_log (nodes c p)) i <> 0 -> term_at (n_log (nodes c p)) i = term_at (n_log (nodes c q)) i ->
  firstn (Z.to_nat i) (n_log (nodes c p)) = firstn (Z.to_nat i) (n_log (nodes c q)).
Proof.
  intros ll c p q i [HB HG] H0 E.
  assert (W : forall p, wfl ll (n_log (nodes c p))).
  { intros x. rewrite <- (b_fin _ _ _ _ (HB x)). eapply Sts_fin. apply (b_sts _ _ _ _ (HB x)). }
  destruct (wfl_match ll _ _ i (W p) (W q) H0 E) as [x [X1 [X2 X3]]].
  rewrite !(prefix_firstn_eq x); auto.
Qed.
End Log.
