(** Proofs for C15. *)
From Verif Require Import Base BaseLemmas LogEntry Ballot Node NodeVoteSpec.
From Verif Require BallotBox.

Record V (p : peer) (gv : Z -> peer -> Prop) (n : node) : Prop := mkV {
  v_mt : 1 <= n_mterm n <= n_term n;
  v_voted : forall v, n_voted n = Some v ->
     (n_mterm n = n_term n /\ n_mvoted n = Some v) \/ (v = p /\ n_win n = Some (n_term n) /\ n_mterm n < n_term n);
  v_win : forall w, n_win n = Some w -> w <= n_term n /\ (w = n_term n -> n_voted n = Some p /\ n_mterm n < n_term n);
  v_gv : forall t v, gv t v -> t <= n_mterm n /\ (t = n_term n -> n_voted n = Some v) /\ (t = n_mterm n -> n_mvoted n = Some v);
  v_self : n_self n = p;
  v_vw : forall w, In w (n_vw n) -> vw_cand w <> p;
  v_fun : forall t c1 c2, gv t c1 -> gv t c2 -> c1 = c2 }.

Definition core (n n' : node) : Prop :=
  n_self n' = n_self n /\ n_term n' = n_term n /\ n_voted n' = n_voted n /\
  n_mterm n' = n_mterm n /\ n_mvoted n' = n_mvoted n /\ n_win n' = n_win n /\ n_vw n' = n_vw n.
Lemma core_V : forall p gv n n', V p gv n -> core n n' -> V p gv n'.
Proof.
  intros p gv n n' [a1 a2 a3 a4 a5 a6 a7] [e1 [e2 [e3 [e4 [e5 [e6 e7]]]]]].
  constructor; rewrite ?e1, ?e2, ?e3, ?e4, ?e5, ?e6, ?e7; auto.
Qed.
Lemma core_trans : forall a b c, core a b -> core b c -> core a c.
Proof. unfold core. intros. intuition congruence. Qed.
Ltac core := unfold core; cbn; repeat split; reflexivity.
Lemma lead_append_core : forall conf vs n n', lead_append conf vs n = Some n' -> core n n'.
Proof. intros conf vs n n' H. unfold lead_append in H. destruct (pend_all conf (n_box n) vs); inversion H. core. Qed.
Definition silent (o : list nout) : Prop := forall f c t v rt, ~ In (OSend (MVoteResp f c t v true rt)) o.
Lemma silent_nil : silent [].
Proof. intros f c t v rt []. Qed.
Lemma become_core : forall conf cv n n' o, become_leader conf cv n = Some (n', o) -> core n n' /\ silent o.
Proof.
  intros conf cv n n' o H. unfold become_leader in H. destruct (n_st n); try discriminate.
  destruct (BallotBox.reset_pending_index (n_box n) (zlen (n_log n) + 1)); try discriminate.
  match type of H with context [lead_append conf [cv] ?x] => destruct (lead_append conf [cv] x) eqn:E end; inversion H; subst.
  apply lead_append_core in E. split; [eapply core_trans; [|exact E]; core|intros f c t v rt [K|[]]; discriminate].
Qed.
Lemma grant_self_core : forall conf cv n n' o, grant_self conf cv n = Some (n', o) -> core n n' /\ silent o.
Proof.
  intros conf cv n n' o H. unfold grant_self in H.
  match type of H with context [granted (n_ballot ?x)] => set (n1 := x) in *; destruct (granted (n_ballot n1)) end.
  - apply become_core in H. destruct H. split; [eapply core_trans; [|exact H]; core|auto].
  - inversion H; subst. split; [core|apply silent_nil].
Qed.
Lemma committed_core : forall i n n', set_committed i n = Some n' -> core n n'.
Proof. intros i n n' H. unfold set_committed in H. destruct (BallotBox.set_last_committed_index (n_box n) i) as [[[b x] y]|]; inversion H. core. Qed.
Lemma follow_core : forall prev es n, core n (follow_append prev es n).
Proof. intros. unfold follow_append. destruct (skip_same (n_log n) (prev + 1) es) as [i rest]. destruct rest; [core|]. destruct (i <=? zlen (n_log n)); core. Qed.
Lemma commit_to_core : forall f l q n n' o, commit_to f l q n = (n', o) -> core n n' /\ silent o.
Proof.
  intros f l q n n' o H. unfold commit_to in H.
  destruct (BallotBox.commit_at (n_box n) f l q) as [[b x] [i|]]; inversion H; subst; (split; [core|]); [intros ? ? ? ? ? [K|[]]; discriminate|apply silent_nil].
Qed.

(** step_down *)
Lemma down_V : forall p gv n t r, V p gv n -> V p gv (step_down t r n) /\ n_term (step_down t r n) = Z.max (n_term n) t /\
  (n_voted n = None -> n_voted (step_down t r n) = None) /\ n_mterm n <= n_mterm (step_down t r n).
Proof.
  intros p gv n t r HV. unfold step_down.
  set (n0 := match n_st n with Candidate => _ | Follower => n | _ => _ end).
  assert (C0 : core n (set_st Follower (set_leader None n0))) by (subst n0; destruct (n_st n); core).
  pose proof (core_V _ _ _ _ HV C0) as H1. set (n1 := set_st Follower (set_leader None n0)) in *.
  destruct C0 as [e1 [e2 [e3 [e4 [e5 [e6 e7]]]]]]. clearbody n1. rewrite e2.
  destruct (Z.ltb_spec (n_term n) t).
  - assert (H2 : forall m, m = set_voted None (set_term t n1) \/ m = set_meta t None (set_voted None (set_term t n1)) -> V p gv m /\ n_term m = t /\ n_voted m = None /\ n_mterm n <= n_mterm m).
    { destruct H1 as [a1 a2 a3 a4 a5 a6 a7]. intros m [->| ->]; (split; [constructor; cbn; auto; try discriminate; try lia|cbn; repeat split; auto; lia]).
      - intros w E. destruct (a3 _ E). split; [lia|]. lia.
      - intros s v E. destruct (a4 _ _ E) as [b1 [b2 b3]]. split; auto. split; auto. lia.
      - intros w E. destruct (a3 _ E). split; [lia|]. lia.
      - intros s v E. destruct (a4 _ _ E) as [b1 [b2 b3]]. split; [lia|]. split; lia. }
    destruct r; cbn [save]; [destruct (H2 _ (or_intror eq_refl)) as [K1 [K2 [K3 K4]]]|destruct (H2 _ (or_introl eq_refl)) as [K1 [K2 [K3 K4]]]|destruct (H2 _ (or_intror eq_refl)) as [K1 [K2 [K3 K4]]]];
      (split; [exact K1|]; split; [cbn; lia|]; split; [auto|exact K4]).
  - split; auto. split; [lia|]. split; [congruence|lia].
Qed.
Lemma check_V : forall p gv n t f r, V p gv n -> V p gv (check_step_down t f r n) /\ n_mterm n <= n_mterm (check_step_down t f r n) /\ n_term n <= n_term (check_step_down t f r n).
Proof.
  intros p gv n t f r HV. unfold check_step_down. set (n0 := if n_term n <? t then step_down t r n else _).
  destruct (down_V p gv n t r HV) as [d1 [d2 [_ d3]]].
  assert (H : V p gv n0 /\ n_mterm n <= n_mterm n0 /\ n_term n <= n_term n0).
  { subst n0. destruct (n_term n <? t); [split; auto; lia|]. destruct (n_st n); try (split; auto; lia). destruct (n_leader n); split; auto; lia. }
  destruct H as [H [H' H'']]. destruct (n_leader n0); [split; auto|]. split; [eapply core_V; [exact H|core]|]. cbn; auto.
Qed.
Lemma crash_V : forall p gv n, V p gv n -> V p gv (crash n) /\ n_mterm n <= n_mterm (crash n).
Proof.
  intros p gv n [a1 a2 a3 a4 a5 a6 a7]. unfold crash. set (m := reload n).
  assert (H : V p gv m).
  { subst m. constructor; cbn; auto; try lia; try discriminate; try tauto.
    intros t v E. destruct (a4 _ _ E) as [b1 [b2 b3]]. split; auto. }
  assert (Em : n_mterm m = n_mterm n) by reflexivity.
  destruct (Z.ltb_spec (n_term m) (li_term (last_id (n_log m)))).
  - destruct H as [h1 h2 h3 h4 h5 h6 h7]. set (lt := li_term (last_id (n_log m))) in *.
    split; [|cbn [set_meta n_mterm set_voted set_term n_term]; lia].
    constructor; cbn [set_meta set_voted set_term n_self n_term n_mterm n_voted n_mvoted n_win n_vw]; auto; try discriminate; try lia.
    + intros t v E. destruct (h4 _ _ E) as [b1 _]. split; [lia|]. split; lia.
  - split; auto. lia.
Qed.

Definition calls_crash (e : nev) : bool := match e with NCrash | NCrashElect => true | _ => false end.
Definition gvs (os : list nout) (t : Z) (c : peer) : Prop := granted_to os t c.

(** One event: the invariant with the new grants added; terms. *)
Definition vres (p : peer) (gv : Z -> peer -> Prop) (n : node) (e : nev) (n' : node) (o : list nout) : Prop :=
  n_mterm n <= n_mterm n' /\ (calls_crash e = false -> n_term n <= n_term n') /\
  V p (fun t c => gv t c \/ granted_to o t c) n'.
Lemma V_silent : forall p gv n o, V p gv n -> silent o -> V p (fun t c => gv t c \/ granted_to o t c) n.
Proof.
  intros p gv n o [a1 a2 a3 a4 a5 a6 a7] H. assert (X : forall t v, gv t v \/ granted_to o t v -> gv t v) by (intros t v [K|[f [ve [rt K]]]]; [auto|exfalso; eapply H; eauto]).
  constructor; auto. intros t c1 c2 K1 K2. eauto.
Qed.
Lemma vres_core : forall p gv n e n' o, V p gv n -> core n n' -> silent o -> vres p gv n e n' o.
Proof.
  intros p gv n e n' o H C S. pose proof (core_V _ _ _ _ H C). destruct C as [_ [c2 [_ [c4 _]]]].
  split; [lia|]. split; [lia|]. apply V_silent; auto.
Qed.
Lemma vres_plain : forall p gv n e n' o, V p gv n' -> silent o -> n_mterm n <= n_mterm n' -> n_term n <= n_term n' -> vres p gv n e n' o.
Proof. intros. split; [auto|]. split; [auto|]. apply V_silent; auto. Qed.

Lemma nstep_V : forall conf cv p gv n e n' o, V p gv n -> from_others p e -> nstep conf cv n e = Some (n', o) -> vres p gv n e n' o.
Proof.
  intros conf cv p gv n e n' o HV He H. destruct e; cbn [nstep] in H.
  - destruct (is_lead (n_st n)); inversion H; subst n' o; [apply vres_core; [auto|core|apply silent_nil]|].
    unfold elect_self_1. destruct (memb (n_self n) conf); [|apply vres_core; [auto|core|apply silent_nil]].
    apply vres_plain; [|apply silent_nil|cbn; lia|cbn; lia]. destruct HV as [a1 a2 a3 a4 a5 a6 a7]. constructor; cbn; auto; try lia.
    + intros v E. right. inversion E; subst. split; auto. split; auto. lia.
    + intros w E. inversion E; subst. split; [lia|]. intros _. split; [reflexivity|lia].
    + intros t v E. destruct (a4 _ _ E) as [b1 [b2 b3]]. split; auto. split; [lia|auto].
  - unfold elect_self_2 in H. destruct (n_win n) as [z|] eqn:Ew; try discriminate. destruct (n_wlast n); try discriminate.
    assert (Hno : forall m, n_voted m = None \/ n_term n <> z -> core (set_win None None (set_voted (n_voted m) n)) m -> True) by auto.
    cbn [n_term set_win] in H.
    destruct (Z.eqb_spec (n_term n) z) as [Et|Et].
    2:{ inversion H; subst. apply vres_plain; [|apply silent_nil|cbn; lia|cbn; lia].
        destruct HV as [a1 a2 a3 a4 a5 a6 a7]. constructor; cbn; auto; try discriminate.
        intros v E. destruct (a2 _ E) as [K|[_ [K _]]]; [auto|]. congruence. }
    subst z. match type of H with context [OSend ?m :: _] => set (om := OSend m) in * end.
    assert (So : forall l, silent l -> silent (om :: l)).
    { intros l0 Hl f c t v rt [K|K]; [discriminate K|]. eapply Hl; eauto. }
    destruct HV as [a1 a2 a3 a4 a5 a6 a7]. destruct (a3 _ Ew) as [_ K3]. destruct (K3 eq_refl) as [Kv Km].
    assert (Hg : forall t c, gv t c -> t = n_term n -> False) by (intros t c E Es; destruct (a4 _ _ E); lia).
    destruct r.
    + set (m := save SOk _ _) in H.
      assert (Hm : V p gv m /\ n_mterm n <= n_mterm m /\ n_term m = n_term n).
      { subst m. cbn [save]. split; [|cbn; lia]. constructor; cbn; auto; try lia; try discriminate.
        - intros v E. left. split; auto. congruence.
        - intros t v E. destruct (a4 _ _ E) as [b1 [b2 b3]]. split; [lia|]. split; auto. intros Es. exfalso; eauto. }
      destruct Hm as [Hm [Hm2 Hm3]]. destruct now.
      * destruct (grant_self conf cv m) as [[n2 o2]|] eqn:Eg; inversion H; subst n' o. apply grant_self_core in Eg. destruct Eg as [Eg Es].
        pose proof (core_V _ _ _ _ Hm Eg). destruct Eg as [_ [g2 [_ [g4 _]]]]. apply vres_plain; [auto|auto|lia|lia].
      * inversion H; subst n' o. apply vres_plain; [eapply core_V; [exact Hm|core]|apply So, silent_nil|exact Hm2|cbn; lia].
    + inversion H; subst n' o. apply vres_plain; [|apply So, silent_nil|cbn; lia|cbn; lia]. constructor; cbn; auto; try discriminate.
      intros t v E. destruct (a4 _ _ E) as [b1 [b2 b3]]. split; auto. split; auto. intros Es. exfalso; eauto.
    + inversion H; subst n' o. apply vres_plain; [|apply So, silent_nil|cbn; lia|cbn; lia]. constructor; cbn; auto; try discriminate; try lia.
      intros t v E. destruct (a4 _ _ E) as [b1 [b2 b3]]. split; [lia|]. split; auto; intros Es; exfalso; eauto.
  - unfold grant_self_timer in H. destruct (n_gself n); try discriminate. cbn [n_ver set_gself] in H.
    destruct (n_ver n =? z); [|inversion H; subst; apply vres_core; [auto|core|apply silent_nil]].
    destruct again; [inversion H; subst; apply vres_core; [auto|core|apply silent_nil]|].
    apply grant_self_core in H. destruct H as [H S]. apply vres_core; [auto|eapply core_trans; [|exact H]; core|auto].
  - cbn in He. destruct (vote_req_1 cand t last ver n) as [a b] eqn:E. inversion H; subst a b. unfold vote_req_1 in E.
    destruct (t <? n_term n); inversion E; subst n' o.
    + apply vres_core; [auto|core|]. intros f c s v rt [K|[]]. discriminate.
    + apply vres_plain; [|apply silent_nil|cbn; lia|cbn; lia]. destruct HV as [a1 a2 a3 a4 a5 a6 a7]. constructor; cbn; auto.
      intros w [<-|Hw]; auto.
  - unfold vote_req_2 in H. destruct (find_vw k (n_vw n)) as [w|] eqn:Ef; try discriminate. destruct (vw_seen w) as [seen|]; try discriminate.
    assert (Hw : In w (n_vw n)).
    { clear - Ef. induction (n_vw n); cbn in *; try discriminate. destruct (vw_id a =? k); auto. inversion Ef; auto. }
    pose proof (v_vw _ _ _ HV _ Hw) as Hc.
    set (n0 := set_vw (drop_vw k (n_vw n)) n) in *.
    assert (H0 : V p gv n0).
    { destruct HV as [a1 a2 a3 a4 a5 a6 a7]. constructor; cbn; auto. intros x Hx. apply filter_In in Hx. apply a6. tauto. }
    match type of H with Some (?a, _) = _ => set (n1 := a) in * end.
    assert (H1 : V p gv n1 /\ n_mterm n <= n_mterm n1 /\ n_term n <= n_term n1).
    { assert (B0 : V p gv n0 /\ n_mterm n <= n_mterm n0 /\ n_term n <= n_term n0) by (split; auto; cbn; lia).
      subst n1. destruct (negb (vw_prev w =? n_term n0)); [exact B0|]. destruct lease; [exact B0|].
      set (n2 := if n_term n0 <? vw_term w then step_down (vw_term w) r1 n0 else n0).
      assert (H2 : V p gv n2 /\ n_mterm n <= n_mterm n2 /\ n_term n <= n_term n2).
      { subst n2. destruct (n_term n0 <? vw_term w); [|exact B0].
        destruct (down_V _ _ _ (vw_term w) r1 H0) as [d1 [d2 [_ d3]]]. split; auto. split; [exact d3|]. rewrite d2. cbn. lia. }
      destruct H2 as [H2 [M2 T2]].
      destruct (id_geb (vw_last w) seen && opeer_eqb (n_voted n2) None) eqn:Eg; [|auto].
      apply andb_true_iff in Eg. destruct Eg as [_ Eg].
      assert (Hv2 : n_voted n2 = None) by (destruct (n_voted n2); [discriminate|reflexivity]).
      destruct (down_V _ _ _ (vw_term w) r1 H2) as [d1 [d2 [d3 d4]]]. specialize (d3 Hv2). set (n3 := step_down (vw_term w) r1 n2) in *.
      assert (T3 : n_term n <= n_term n3) by lia.
      destruct d1 as [a1 a2 a3 a4 a5 a6 a7].
      assert (Hw3 : n_win n3 <> Some (n_term n3)) by (intros E; destruct (a3 _ E) as [_ e]; destruct (e eq_refl); congruence).
      assert (Hg3 : forall t c, gv t c -> t = n_term n3 -> False).
      { intros t c E Es. destruct (a4 _ _ E) as [_ [e _]]. specialize (e Es). congruence. }
      assert (Hwn : forall x, n_win n3 = Some x -> x <= n_term n3 /\ (x = n_term n3 -> False)).
      { intros x E. destruct (a3 _ E). split; auto. intros ->. congruence. }
      destruct r2; cbn [save]; (split; [|cbn; lia]); constructor; cbn; auto; try discriminate; try lia.
      - intros x E. destruct (Hwn _ E) as [e1 e2]. split; auto. intros ->; exfalso; auto.
      - intros t v E. destruct (a4 _ _ E) as [b1 [b2 b3]]. split; [lia|]. split; intros Es; exfalso; eauto.
      - intros x E. destruct (Hwn _ E) as [e1 e2]. split; auto. intros ->; exfalso; auto.
      - intros t v E. destruct (a4 _ _ E) as [b1 [b2 b3]]. split; auto. split; auto. intros Es; exfalso; eauto.
      - intros x E. destruct (Hwn _ E) as [e1 e2]. split; auto. intros ->; exfalso; auto.
      - intros t v E. destruct (a4 _ _ E) as [b1 [b2 b3]]. split; [lia|]. split; intros Es; exfalso; eauto. }
    destruct H1 as [H1 [M1 T1]]. inversion H; subst n' o; clear H. split; auto. split; auto.
    destruct ((vw_term w =? n_term n1) && opeer_eqb (n_voted n1) (Some (vw_cand w))) eqn:G.
    + apply andb_true_iff in G. destruct G as [G1 G2]. apply Z.eqb_eq in G1.
      assert (Hv : n_voted n1 = Some (vw_cand w)).
      { destruct (n_voted n1); cbn in G2; try discriminate. apply Z.eqb_eq in G2. congruence. }
      destruct H1 as [a1 a2 a3 a4 a5 a6 a7]. destruct (a2 _ Hv) as [[e1 e2]|[e1 _]]; [|congruence].
      assert (X : forall t v, gv t v \/ granted_to [OSend (MVoteResp (n_self n1) (vw_cand w) (vw_term w) (vw_ver w) true (n_term n1))] t v ->
                  gv t v \/ (t = n_term n1 /\ v = vw_cand w)).
      { intros t v [E|[f [ve [rt [E|[]]]]]]; [auto|]. inversion E; subst. auto. }
      constructor; auto.
      * intros t v K. apply X in K. destruct K as [K|[-> ->]]; [auto|]. split; [lia|]. split; auto.
      * intros t c1 c2 K1 K2. apply X in K1. apply X in K2. destruct K1 as [K1|[-> ->]], K2 as [K2|[K2 ->]]; auto.
        -- eauto.
        -- subst t. destruct (a4 _ _ K1) as [_ [Y _]]. specialize (Y eq_refl). congruence.
        -- destruct (a4 _ _ K2) as [_ [Y _]]. specialize (Y eq_refl). congruence.
    + apply V_silent; auto. intros f c t v rt [K|[]]. discriminate.
  - unfold vote_resp in H. destruct (negb (ver =? n_ver n)); [inversion H; subst; apply vres_core; [auto|core|apply silent_nil]|].
    destruct (n_st n); try (inversion H; subst; apply vres_core; [auto|core|apply silent_nil]).
    destruct (negb (reqterm =? n_term n)); [inversion H; subst; apply vres_core; [auto|core|apply silent_nil]|].
    destruct (n_term n <? rt).
    { inversion H; subst. destruct (down_V _ _ _ rt r HV) as [d1 [d2 [_ d3]]]. apply vres_plain; [auto|apply silent_nil|auto|lia]. }
    destruct g; [|inversion H; subst; apply vres_core; [auto|core|apply silent_nil]].
    match type of H with context [set_ctx ?a ?b ?c ?d] => set (b1 := b) in *; set (n1 := set_ctx a b1 c d) in * end.
    assert (C1 : core n n1) by core.
    destruct (granted b1); [|inversion H; subst; apply vres_core; [auto|auto|apply silent_nil]].
    apply become_core in H. destruct H. apply vres_core; [auto|eapply core_trans; eauto|auto].
  - destruct (n_term n <=? t); inversion H; subst n' o; [|apply vres_core; [auto|core|apply silent_nil]].
    destruct (down_V _ _ _ t r HV) as [d1 [d2 [_ d3]]]. apply vres_plain; [auto|apply silent_nil|auto|lia].
  - unfold append_req in H. destruct (t <? n_term n); [inversion H; subst; apply vres_core; [auto|core|apply silent_nil]|].
    destruct (check_V _ _ _ t from r HV) as [d1 [d2 d3]]. set (n1 := check_step_down t from r n) in *.
    destruct (negb (opeer_eqb (Some from) (n_leader n1))).
    { inversion H; subst. destruct (down_V _ _ _ (t + 1) r d1) as [e1 [e2 [_ e3]]]. apply vres_plain; [auto|apply silent_nil|lia|lia]. }
    destruct (negb (term_at (n_log n1) prev =? pt)); [inversion H; subst; apply vres_plain; [auto|apply silent_nil|auto|auto]|].
    assert (X : forall m, core n1 m -> vres p gv n (NAppend from t prev pt es commit r) m []).
    { intros m C. pose proof (core_V _ _ _ _ d1 C). destruct C as [_ [c2 [_ [c4 _]]]]. apply vres_plain; [auto|apply silent_nil|lia|lia]. }
    destruct es as [|e es].
    + destruct (set_committed (Z.min commit prev) n1) eqn:E; inversion H; subst. apply X. eapply committed_core; eauto.
    + inversion H; subst n' o. apply X. eapply core_trans; [apply follow_core|]. core.
  - unfold disk_step in H. destruct (n_q n) as [|d q]; try discriminate. set (n1 := set_disk (n_disk n) q n) in *.
    assert (E1 : core n n1) by core. destruct d.
    + inversion H; subst. apply vres_core; [auto|core|apply silent_nil].
    + inversion H; subst. apply vres_core; [auto|core|apply silent_nil].
    + destruct (term =? n_term n1).
      * destruct (set_committed commit n1) eqn:E; inversion H; subst. apply committed_core in E.
        apply vres_core; [auto|eapply core_trans; eauto|]. intros f c t v rt [K|[]]; discriminate.
      * inversion H; subst. apply vres_core; [auto|auto|apply silent_nil].
    + destruct (commit_to first (first + n0 - 1) (n_self n1) n1) as [n2 o2] eqn:E. inversion H; subst.
      apply commit_to_core in E. destruct E. apply vres_core; [auto|eapply core_trans; eauto|auto].
    + inversion H; subst. apply vres_core; [auto| |apply silent_nil]. eapply core_trans; [exact E1|].
      destruct (n_win n) eqn:Ew; [|core]. destruct (term =? z); [|core]. unfold core; cbn; repeat split; auto.
    + inversion H; subst. apply vres_plain; [|apply silent_nil|cbn; lia|cbn; lia]. destruct HV as [a1 a2 a3 a4 a5 a6 a7]. constructor; cbn; auto.
      intros w Hw. apply in_map_iff in Hw. destruct Hw as [x [<- Hx]]. specialize (a6 _ Hx). destruct (vw_id x =? k); auto.
  - unfold propose in H. destruct (n_st n); try (inversion H; subst; apply vres_core; [auto|core|apply silent_nil]).
    destruct (lead_append conf vs n) eqn:E; inversion H; subst. apply lead_append_core in E. apply vres_core; [auto|auto|apply silent_nil].
  - inversion H; subst. apply vres_core; [auto|unfold transfer; destruct (n_st n); core|apply silent_nil].
  - inversion H; subst. apply vres_core; [auto|unfold transfer_timeout; destruct (n_st n); core|apply silent_nil].
  - inversion H; subst. apply vres_core; [auto|unfold send_open; destruct (is_lead (n_st n)); core|apply silent_nil].
  - inversion H; subst. apply vres_core; [auto|unfold send_fill; destruct (_ && _); core|apply silent_nil].
  - inversion H; subst. apply vres_core; [auto|core|apply silent_nil].
  - unfold send_go in H. destruct (find_sw k (n_sw n)) as [w|]; try discriminate. destruct (sw_head w) as [[[prev pt] c0]|]; inversion H; subst.
    apply vres_core; [auto|core|]. intros f c t v rt [K|[]]; discriminate.
  - inversion H; subst. apply vres_core; [auto|unfold resp_open; destruct (_ && _); core|apply silent_nil].
  - unfold resp_go in H. destruct (find_rw k (n_rw n)) as [w|]; try discriminate. inversion H as [E]. apply commit_to_core in E. destruct E.
    apply vres_core; [auto|eapply core_trans; [|exact H0]; core|auto].
  - unfold apply_one in H. destruct (n_applied n <? BallotBox.lc (n_box n)).
    + destruct (znth (n_log n) (n_applied n)); inversion H; subst. apply vres_core; [auto|core|]. intros f c t v rt [K|[]]; discriminate.
    + inversion H; subst. apply vres_core; [auto|core|apply silent_nil].
  - inversion H; subst. destruct (crash_V _ _ _ HV) as [c1 c2]. split; auto. split; [discriminate|]. apply V_silent; [auto|apply silent_nil].
  - unfold crash_in_elect_self in H. destruct (n_win n); try discriminate. destruct (n_wlast n); try discriminate.
    destruct (n_term n =? z); inversion H; subst. destruct (crash_V _ _ _ HV) as [c1 c2]. split; auto. split; [discriminate|].
    apply V_silent; auto. intros f c t v rt [K|[]]; discriminate.
Qed.

Lemma granted_app : forall a b t c, granted_to (a ++ b) t c <-> granted_to a t c \/ granted_to b t c.
Proof.
  intros. unfold granted_to. split.
  - intros [f [v [r H]]]. apply in_app_or in H. destruct H; [left|right]; eauto.
  - intros [[f [v [r H]]]|[f [v [r H]]]]; exists f, v, r; apply in_or_app; auto.
Qed.
Lemma life_V : forall conf cv p n os, life conf cv p n os -> V p (granted_to os) n.
Proof.
  intros conf cv p n os H. induction H.
  - constructor; cbn; auto; try lia; try discriminate; try tauto; [intros t v [f [ve [rt []]]]|intros t c1 c2 [f [ve [rt []]]]].
  - destruct (nstep_V _ _ _ _ _ _ _ _ IHlife H0 H1) as [_ [_ [a1 a2 a3 a4 a5 a6 a7]]]. constructor; auto.
    + intros t v K. apply a4. apply granted_app; auto.
    + intros t c1 c2 K1 K2. apply (a7 t); apply granted_app; auto.
Qed.
Lemma life_one_vote : forall conf cv p n os t c1 c2, life conf cv p n os ->
  granted_to os t c1 -> granted_to os t c2 -> c1 = c2.
Proof. intros conf cv p n os t c1 c2 H. exact (v_fun _ _ _ (life_V _ _ _ _ _ H) t c1 c2). Qed.
Lemma life_term : forall conf cv p n os, life conf cv p n os ->
  n_mterm n <= n_term n /\ forall t c, granted_to os t c -> t <= n_mterm n.
Proof.
  intros conf cv p n os H. apply life_V in H. split; [apply (v_mt _ _ _ H)|]. intros t c K. apply (v_gv _ _ _ H) in K. tauto.
Qed.
Lemma life_step_term : forall conf cv p n os e n' o, life conf cv p n os -> from_others p e -> nstep conf cv n e = Some (n', o) ->
  n_mterm n <= n_mterm n' /\ (e <> NCrash -> e <> NCrashElect -> n_term n <= n_term n').
Proof.
  intros conf cv p n os e n' o H He Hs. destruct (nstep_V _ _ _ _ _ _ _ _ (life_V _ _ _ _ _ H) He Hs) as [K1 [K2 _]].
  split; auto. intros. apply K2. destruct e; auto; congruence.
Qed.
