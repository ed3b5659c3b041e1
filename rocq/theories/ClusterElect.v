(** Layer 1 of the cluster proof: votes and elections. *)
From Verif Require Import Base BaseLemmas LogEntry Ballot QuorumSpec BallotProofs Node Cluster ClusterSpec.
From Verif Require BallotBox.

Definition vtab := peer -> Z -> option peer.

Section Elect.
Variable conf : list peer.
Variable cv : Z.
Hypothesis conf_nodup : NoDup conf.

Definition grants_ok (vt : vtab) (p : peer) (t : Z) (b : ballot) : Prop :=
  exists gs, b = grant_all (ballot_init conf None) gs /\
    forall q, In q (map fst gs) -> vt q t = Some p.

Record A (vt : vtab) (nt : list msg) (p : peer) (n : node) : Prop := mkA {
  a_self : n_self n = p;
  a_mt : 1 <= n_mterm n <= n_term n;
  a_voted : forall v, n_voted n = Some v ->
     (n_mterm n = n_term n /\ n_mvoted n = Some v) \/
     (v = p /\ n_win n = Some (n_term n) /\ n_mterm n < n_term n);
  a_win : forall w, n_win n = Some w -> w <= n_term n /\
     (w = n_term n -> n_voted n = Some p /\ n_mterm n < n_term n);
  a_vt : forall t v, vt p t = Some v -> t <= n_mterm n /\
     (t = n_term n -> n_voted n = Some v) /\ (t = n_mterm n -> n_mvoted n = Some v);
  a_cand : n_st n = Candidate -> grants_ok vt p (n_term n) (n_ballot n);
  a_gself : forall v, n_gself n = Some v -> v <= n_ver n /\
     (v = n_ver n -> n_st n = Candidate -> vt p (n_term n) = Some p);
  a_vw : forall w, In w (n_vw n) -> vw_cand w <> p /\
     In (MVoteReq (vw_cand w) (vw_term w) (vw_last w) (vw_ver w)) nt }.

Record N (vt : vtab) (c : cluster) : Prop := mkNet {
  nr : forall q t l v, In (MVoteReq q t l v) (net c) ->
     v <= n_ver (nodes c q) /\ (v = n_ver (nodes c q) -> vt q t = Some q);
  ng : forall f q t v rt, In (MVoteResp f q t v true rt) (net c) -> vt f t = Some q;
  nq : forall f q t v g rt, In (MVoteResp f q t v g rt) (net c) -> exists l, In (MVoteReq q t l v) (net c);
  ne : forall p t l, In (p, OElected t l) (trace c) ->
     vt p t = Some p /\ exists Q, majority conf Q /\ forall q, In q Q -> vt q t = Some p }.

Definition Inv1 (vt : vtab) (c : cluster) : Prop := (forall p, A vt (net c) p (nodes c p)) /\ N vt c.

Definition ext (vt vt' : vtab) (p : peer) : Prop :=
  (forall q t, q <> p -> vt' q t = vt q t) /\
  (forall q t v, vt q t = Some v -> vt' q t = Some v).

Lemma ext_refl : forall vt p, ext vt vt p.
Proof. split; auto. Qed.

Lemma grants_mono : forall vt vt' p q t b, ext vt vt' q -> grants_ok vt p t b -> grants_ok vt' p t b.
Proof. intros vt vt' p q t b [_ E] [gs [-> H]]. exists gs. split; auto. Qed.

(** What one handler run must establish: the new node is fine, and what it says is fine. *)
Definition out_ok (vt : vtab) (nt : list msg) (p : peer) (n' : node) (o : nout) : Prop :=
  match o with
  | OSend (MVoteReq q t l v) => q = p /\ v <= n_ver n' /\ (v = n_ver n' -> vt p t = Some p)
  | OSend (MVoteResp f q t v g rt) =>
      f = p /\ (g = true -> vt p t = Some q) /\ exists l, In (MVoteReq q t l v) nt
  | OElected t l => vt p t = Some p /\ exists Q, majority conf Q /\ forall q, In q Q -> vt q t = Some p
  | _ => True
  end.

Definition good (vt : vtab) (nt : list msg) (p : peer) (n : node) (r : node * list nout) : Prop :=
  n_ver n <= n_ver (fst r) /\
  exists vt', ext vt vt' p /\ A vt' nt p (fst r) /\ Forall (out_ok vt' nt p (fst r)) (snd r).

Lemma good_same : forall vt nt p n n' o,
  n_ver n <= n_ver n' -> A vt nt p n' -> Forall (out_ok vt nt p n') o -> good vt nt p n (n', o).
Proof. intros. split; auto. exists vt. split; [apply ext_refl|auto]. Qed.

Ltac sab := match goal with
  | |- A _ _ _ _ => constructor; cbn; auto
  end.

(** step_down *)
Lemma save_A : forall vt nt p n r v,
  A vt nt p n ->
  n_win n <> Some (n_term n) ->
  (forall t w, vt p t = Some w -> t = n_term n -> v = Some w) ->
  (r = SOk \/ (forall w, n_voted n = Some w -> v = Some w)) ->
  (forall w, n_voted n = Some w -> v = Some w) ->
  A vt nt p (save r v n).
Proof.
  intros vt nt p n r v [a1 a2 a3 a4 a5 a6 a7 a8] Hw Hv _ Hv2.
  destruct r; cbn [save]; [|constructor; auto|];
  (constructor; cbn;
   [ exact a1 | lia
   | intros w E; left; split; auto
   | intros w E; destruct (a4 _ E) as [b1 b2]; split; auto; intros ->; congruence
   | intros t w E; destruct (a5 _ _ E) as [b1 [b2 b3]]; split; [lia|]; split; auto;
     intros Et; eapply Hv; eauto
   | exact a6 | exact a7 | exact a8 ]).
Qed.

Lemma down_A : forall vt nt p n t r, A vt nt p n ->
  A vt nt p (step_down t r n) /\ n_ver n <= n_ver (step_down t r n) /\
  n_term (step_down t r n) = Z.max (n_term n) t /\
  n_st (step_down t r n) = Follower /\
  (n_term n < t -> n_voted (step_down t r n) = None) /\
  (t <= n_term n -> n_voted (step_down t r n) = n_voted n /\ n_mterm (step_down t r n) = n_mterm n /\ n_mvoted (step_down t r n) = n_mvoted n).
Proof.
  intros vt nt p n t r HA.
  set (n0 := match n_st n with
             | Candidate => set_ctx (n_ver n + 1) (n_ballot n) (mkId 0 0) n
             | Follower => n
             | _ => set_box (fst (BallotBox.clear_pending_tasks (n_box n))) n end).
  assert (H0 : A vt nt p (set_st Follower (set_leader None n0)) /\ n_ver n <= n_ver n0 /\ n_term n0 = n_term n
     /\ n_voted n0 = n_voted n /\ n_mterm n0 = n_mterm n /\ n_mvoted n0 = n_mvoted n).
  { destruct HA as [a1 a2 a3 a4 a5 a6 a7 a8]. subst n0.
    destruct (n_st n); cbn; (split; [|repeat split; lia]); constructor; cbn; auto; try discriminate;
      try (intros v E; destruct (a7 _ E); split; [lia|intros; discriminate]). }
  destruct H0 as [HB [Hv [Ht [Hvo [Hm Hmv]]]]].
  unfold step_down. fold n0. set (n1 := set_st Follower (set_leader None n0)) in *.
  assert (E1 : n_term n1 = n_term n) by (subst n1; cbn; auto).
  rewrite E1. destruct (Z.ltb_spec (n_term n) t).
  - set (n2 := set_voted None (set_term t n1)).
    assert (HC : A vt nt p n2).
    { destruct HB as [a1 a2 a3 a4 a5 a6 a7 a8]. constructor; subst n2; cbn in *; auto.
      - lia.
      - discriminate.
      - intros w E. destruct (a4 _ E). split; [lia|]. intros ->; lia.
      - intros t0 v E. destruct (a5 _ _ E) as [b1 [b2 b3]]. split; auto. split; auto. intros ->; lia.
      - discriminate.
      - intros v E. destruct (a7 _ E). split; auto. intros; discriminate. }
    assert (HD : A vt nt p (save r None n2)).
    { apply save_A; auto.
      - subst n2; cbn. intros E. destruct HB as [_ _ _ a4 _ _ _ _]. destruct (a4 _ E). lia.
      - intros t0 w E Et. destruct HB as [_ a2 _ _ a5 _ _ _]. destruct (a5 _ _ E). subst n2; cbn in *. lia. }
    split; auto. split; [destruct r; cbn; auto|]. split; [destruct r; cbn; lia|].
    split; [destruct r; reflexivity|]. split; [destruct r; reflexivity|]. lia.
  - split; auto. subst n1; cbn. repeat split; auto; try lia.
Qed.

Lemma check_down_A : forall vt nt p n t f r, A vt nt p n ->
  A vt nt p (check_step_down t f r n) /\ n_ver n <= n_ver (check_step_down t f r n).
Proof.
  intros vt nt p n t f r HA. unfold check_step_down.
  set (n0 := if n_term n <? t then step_down t r n else _).
  assert (H : A vt nt p n0 /\ n_ver n <= n_ver n0).
  { destruct (down_A vt nt p n t r HA) as [d1 [d2 _]].
    subst n0. destruct (n_term n <? t); auto. destruct (n_st n); auto. destruct (n_leader n); auto. split; [auto|lia]. }
  destruct H as [[a1 a2 a3 a4 a5 a6 a7 a8] Hv]. destruct (n_leader n0).
  - split; auto. constructor; auto.
  - split; auto. constructor; auto.
Qed.

(** Changes that A does not see. *)
Definition same_core (n n' : node) : Prop :=
  n_self n' = n_self n /\ n_st n' = n_st n /\ n_term n' = n_term n /\ n_voted n' = n_voted n /\
  n_mterm n' = n_mterm n /\ n_mvoted n' = n_mvoted n /\ n_ver n' = n_ver n /\ n_ballot n' = n_ballot n /\
  n_win n' = n_win n /\ n_vw n' = n_vw n /\ n_gself n' = n_gself n.
Lemma core_A : forall vt nt p n n', A vt nt p n -> same_core n n' -> A vt nt p n'.
Proof.
  intros vt nt p n n' [a1 a2 a3 a4 a5 a6 a7 a8] [e1 [e2 [e3 [e4 [e5 [e6 [e7 [e8 [e9 [e10 e11]]]]]]]]]].
  constructor; rewrite ?e1, ?e2, ?e3, ?e4, ?e5, ?e6, ?e7, ?e8, ?e9, ?e10, ?e11; auto.
Qed.
Ltac core := unfold same_core; cbn; repeat split; reflexivity.

Lemma lead_append_core : forall vs n n', lead_append conf vs n = Some n' -> same_core n n'.
Proof.
  intros vs n n' H. unfold lead_append in H. destruct (pend_all conf (n_box n) vs); inversion H. core.
Qed.

Lemma become_leader_ok : forall vt nt p n n' o,
  A vt nt p n -> become_leader conf cv n = Some (n', o) -> granted (n_ballot n) = true ->
  (n_st n = Candidate -> vt p (n_term n) = Some p) ->
  A vt nt p n' /\ n_ver n <= n_ver n' /\ Forall (out_ok vt nt p n') o.
Proof.
  intros vt nt p n n' o HA H G Hself. unfold become_leader in H.
  destruct (n_st n) eqn:Es; try discriminate.
  destruct (BallotBox.reset_pending_index (n_box n) (zlen (n_log n) + 1)); try discriminate.
  match type of H with context [lead_append conf [cv] ?x] => set (n1 := x) in * end.
  destruct (lead_append conf [cv] n1) eqn:E; inversion H; subst; clear H.
  apply lead_append_core in E.
  assert (E7 : n_ver n' = n_ver n + 1) by (destruct E as [_ [_ [_ [_ [_ [_ [e _]]]]]]]; rewrite e; reflexivity).
  split; [|split].
  - eapply core_A; [|exact E]. destruct HA as [a1 a2 a3 a4 a5 a6 a7 a8]. subst n1.
    constructor; cbn; auto; try discriminate.
    intros v Ev. destruct (a7 _ Ev). split; [lia|]. intros; discriminate.
  - lia.
  - constructor; [|constructor]. cbn. destruct HA as [a1 a2 a3 a4 a5 a6 a7 a8].
    destruct (a6 Es) as [gs [Eg Hg]]. rewrite Eg in G.
    apply granted_iff_quorum in G; [|split; auto; exact I].
    split; [auto|]. exists (map fst gs). split; [exact (proj1 G)|exact Hg].
Qed.

Lemma grant_more : forall vt p q t b, grants_ok vt p t b -> vt q t = Some p -> grants_ok vt p t (grant1 b q).
Proof.
  intros vt p q t b [gs [-> H]] E. exists (gs ++ [(q, no_hint)]). split.
  - unfold grant_all, grant1. rewrite fold_left_app. reflexivity.
  - intros x Hx. rewrite map_app in Hx. apply in_app_or in Hx. destruct Hx as [Hx|[<-|[]]]; auto.
Qed.

Lemma grant_self_ok : forall vt nt p n n' o,
  A vt nt p n -> (n_st n = Candidate -> vt p (n_term n) = Some p) ->
  grant_self conf cv n = Some (n', o) ->
  A vt nt p n' /\ n_ver n <= n_ver n' /\ Forall (out_ok vt nt p n') o.
Proof.
  intros vt nt p n n' o HA Hs H. unfold grant_self in H.
  match type of H with context [set_ctx ?a ?b ?c ?d] => set (n1 := set_ctx a b c d) in * end.
  assert (H1 : A vt nt p n1).
  { destruct HA as [a1 a2 a3 a4 a5 a6 a7 a8]. subst n1. constructor; cbn; auto.
    intros Ec. rewrite a1. apply grant_more; auto. }
  destruct (granted (n_ballot n1)) eqn:G.
  - eapply become_leader_ok in H; eauto.
  - inversion H; subst n' o. split; auto. split; [subst n1; cbn; lia|constructor].
Qed.

Definition upd_vt (vt : vtab) (p : peer) (t : Z) (v : peer) : vtab :=
  fun q s => if (q =? p) && (s =? t) then Some v else vt q s.
Lemma upd_ext : forall vt p t v, (forall w, vt p t = Some w -> w = v) -> ext vt (upd_vt vt p t v) p.
Proof.
  intros vt p t v H. split; intros q s; unfold upd_vt.
  - intros Hq. destruct (Z.eqb_spec q p); [congruence|reflexivity].
  - intros w E. destruct (Z.eqb_spec q p), (Z.eqb_spec s t); cbn; auto. subst. f_equal. symmetry; auto.
Qed.
Lemma upd_at : forall vt p t v, upd_vt vt p t v p t = Some v.
Proof. intros. unfold upd_vt. rewrite !Z.eqb_refl. reflexivity. Qed.
Lemma upd_inv : forall vt p t v s w, upd_vt vt p t v p s = Some w -> (s = t /\ w = v) \/ vt p s = Some w.
Proof.
  intros vt p t v s w. unfold upd_vt. rewrite Z.eqb_refl. cbn. destruct (Z.eqb_spec s t); auto.
  intros E; inversion E. auto.
Qed.

(** Record the vote of [p] in its current term for [v]. *)
Lemma vote_A : forall vt nt p n v, A vt nt p n ->
  n_voted n = Some v -> n_mterm n = n_term n -> n_mvoted n = Some v ->
  ext vt (upd_vt vt p (n_term n) v) p /\ A (upd_vt vt p (n_term n) v) nt p n.
Proof.
  intros vt nt p n v HA H1 H2 H3.
  assert (E : ext vt (upd_vt vt p (n_term n) v) p).
  { apply upd_ext. intros w Hw. destruct HA as [_ _ _ _ a5 _ _ _]. destruct (a5 _ _ Hw) as [_ [b _]].
    specialize (b eq_refl). congruence. }
  split; auto. destruct HA as [a1 a2 a3 a4 a5 a6 a7 a8]. constructor; auto.
  - intros t w Hw. apply upd_inv in Hw. destruct Hw as [[-> ->]|Hw]; auto. split; [lia|auto].
  - intros Hc. eapply grants_mono; eauto.
  - intros w Hw. destruct (a7 _ Hw) as [b1 b2]. split; auto. intros. apply (proj2 E). auto.
Qed.

Lemma elect1_A : forall vt nt p n, A vt nt p n ->
  A vt nt p (elect_self_1 conf n) /\ n_ver n <= n_ver (elect_self_1 conf n).
Proof.
  intros vt nt p n HA. unfold elect_self_1. destruct (memb (n_self n) conf); [|split; [auto|lia]].
  split; [|cbn; lia]. destruct HA as [a1 a2 a3 a4 a5 a6 a7 a8]. constructor; cbn.
  - exact a1.
  - lia.
  - intros v E. inversion E. right. rewrite a1. repeat split; auto; lia.
  - intros w E. inversion E. split; [lia|]. intros _. rewrite a1. split; auto. lia.
  - intros t v E. destruct (a5 _ _ E) as [b1 [b2 b3]]. split; auto. split; auto. intros ->; lia.
  - intros _. exists []. split; [reflexivity|]. intros q [].
  - intros v E. destruct (a7 _ E) as [b1 b2]. split; [lia|]. intros ->; lia.
  - exact a8.
Qed.

Lemma elect2_ok : forall vt nt p n now n' o, A vt nt p n ->
  elect_self_2 conf cv SOk now n = Some (n', o) -> good vt nt p n (n', o).
Proof.
  intros vt nt p n now n' o HA H. unfold elect_self_2 in H.
  destruct (n_win n) as [t|] eqn:Ew; try discriminate.
  destruct (n_wlast n) as [lid|] eqn:El; try discriminate.
  assert (HB : A vt nt p n) by exact HA. destruct HB as [a1 a2 a3 a4 a5 a6 a7 a8].
  destruct (a4 _ Ew) as [b1 b2].
  cbn [n_term set_win] in H. destruct (Z.eqb_spec (n_term n) t).
  - subst t. destruct (b2 eq_refl) as [c1 c2].
    match type of H with context [save SOk ?v ?x] => set (n1 := save SOk v x) in * end.
    assert (H1 : A vt nt p n1).
    { subst n1. constructor; cbn; auto; try lia; try discriminate.
      - intros v E. left. split; auto. congruence.
      - intros t v E. destruct (a5 _ _ E) as [d1 [d2 d3]]. split; [lia|]. split; auto.
        intros ->. lia. }
    destruct (vote_A vt nt p n1 p H1) as [X1 X2]; try (subst n1; cbn; auto; congruence).
    set (vt' := upd_vt vt p (n_term n1) p) in *.
    assert (Hvt : vt' p (n_term n1) = Some p) by apply upd_at.
    assert (Eo : out_ok vt' nt p n1 (OSend (MVoteReq p (n_term n) lid (n_ver n)))).
    { cbn. split; auto. split; [subst n1; cbn; lia|]. intros _. exact Hvt. }
    cbn in Eo. destruct Eo as [_ [_ Eo]].
    destruct now.
    + destruct (grant_self conf cv n1) as [[n2 o2]|] eqn:G; inversion H; subst n' o; clear H.
      eapply grant_self_ok in G; eauto. destruct G as [G1 [G2 G3]].
      split; [subst n1; cbn in *; lia|]. exists vt'. split; auto. split; auto.
      constructor; [|exact G3]. cbn. rewrite a1. split; [reflexivity|]. split; [subst n1; cbn in *; lia|]. intros _. exact Hvt.
    + inversion H; subst n' o; clear H. split; [subst n1; cbn; lia|]. exists vt'. split; auto. split.
      * destruct X2 as [x1 x2 x3 x4 x5 x6 x7 x8]. constructor; auto.
        cbn. intros v E. inversion E. split; [lia|]. intros. exact Hvt.
      * constructor; [|constructor]. cbn. rewrite a1. split; [reflexivity|]. split; [lia|]. intros _. exact Hvt.
  - inversion H; subst n' o; clear H. apply good_same; [cbn; lia| |constructor].
    constructor; cbn; auto; try discriminate.
    intros v E. destruct (a3 _ E) as [d|[d1 [d2 d3]]]; auto. congruence.
Qed.

Lemma gself_ok : forall vt nt p n again n' o, A vt nt p n ->
  grant_self_timer conf cv again n = Some (n', o) -> good vt nt p n (n', o).
Proof.
  intros vt nt p n again n' o HA H. unfold grant_self_timer in H.
  destruct (n_gself n) as [v|] eqn:Ev; try discriminate.
  assert (H1 : A vt nt p (set_gself None n)).
  { destruct HA as [a1 a2 a3 a4 a5 a6 a7 a8]. constructor; cbn; auto. discriminate. }
  destruct HA as [a1 a2 a3 a4 a5 a6 a7 a8]. destruct (a7 _ Ev) as [b1 b2].
  cbn [n_ver set_gself] in H. destruct (Z.eqb_spec (n_ver n) v).
  - subst v. destruct again.
    + inversion H; subst. apply good_same; [cbn; lia| |constructor].
      constructor; cbn; auto. intros v E; inversion E; subst. auto.
    + eapply grant_self_ok in H; eauto. destruct H as [G1 [G2 G3]]. apply good_same; auto.
  - inversion H; subst. apply good_same; [cbn; lia|auto|constructor].
Qed.

Lemma vote1_ok : forall vt nt p n cand t l v n' o, A vt nt p n ->
  In (MVoteReq cand t l v) nt -> cand <> p ->
  vote_req_1 cand t l v n = (n', o) -> good vt nt p n (n', o).
Proof.
  intros vt nt p n cand t l v n' o HA Hin Hc H. unfold vote_req_1 in H.
  destruct (t <? n_term n); inversion H; subst; clear H.
  - apply good_same; [lia|auto|]. constructor; [|constructor]. cbn. destruct HA as [a1 _ _ _ _ _ _ _].
    split; auto. split; [discriminate|]. exists l. auto.
  - apply good_same; [cbn; lia| |constructor].
    destruct HA as [a1 a2 a3 a4 a5 a6 a7 a8]. constructor; cbn; auto.
    intros w [<-|Hw]; cbn; auto.
Qed.

Lemma find_vw_In : forall k l w, find_vw k l = Some w -> In w l.
Proof.
  induction l; cbn; intros w H; try discriminate. destruct (vw_id a =? k); auto. inversion H; auto.
Qed.

Lemma vw_A : forall vt nt p n l, A vt nt p n -> (forall w, In w l -> In w (n_vw n)) -> A vt nt p (set_vw l n).
Proof.
  intros vt nt p n l [a1 a2 a3 a4 a5 a6 a7 a8] H. constructor; cbn; auto.
Qed.

Lemma vote2_ok : forall vt nt p n k lease r1 r2 n' o, A vt nt p n ->
  vote_req_2 k lease r1 r2 n = Some (n', o) -> good vt nt p n (n', o).
Proof.
  intros vt nt p n k lease r1 r2 n' o HA H. unfold vote_req_2 in H.
  destruct (find_vw k (n_vw n)) as [w|] eqn:Ef; try discriminate.
  destruct (vw_seen w) as [seen|]; try discriminate.
  apply find_vw_In in Ef. destruct (a_vw _ _ _ _ HA w Ef) as [Hc Hin].
  set (n0 := set_vw (drop_vw k (n_vw n)) n) in *.
  assert (H0 : A vt nt p n0).
  { apply vw_A; auto. unfold drop_vw. intros x Hx. apply filter_In in Hx. tauto. }
  match type of H with Some (?a, _) = _ => set (n1 := a) in * end.
  assert (H1 : A vt nt p n1 /\ n_ver n <= n_ver n1).
  { subst n1. destruct (negb (vw_prev w =? n_term n0)); [split; auto; cbn; lia|].
    destruct lease; [split; auto; cbn; lia|].
    set (n2 := if n_term n0 <? vw_term w then step_down (vw_term w) r1 n0 else n0).
    assert (H2 : A vt nt p n2 /\ n_ver n <= n_ver n2).
    { subst n2. destruct (n_term n0 <? vw_term w).
      - destruct (down_A _ _ _ _ (vw_term w) r1 H0) as [d1 [d2 _]]. split; auto. 
      - split; auto. cbn; lia. }
    destruct H2 as [H2 V2].
    destruct (id_geb (vw_last w) seen && opeer_eqb (n_voted n2) None) eqn:Eg; [|auto].
    apply andb_true_iff in Eg. destruct Eg as [_ Eg].
    assert (Hv2 : n_voted n2 = None) by (destruct (n_voted n2); [discriminate|reflexivity]).
    destruct (down_A _ _ _ _ (vw_term w) r1 H2) as [d1 [d2 [d3 [d4 [d5 d6]]]]].
    set (n3 := step_down (vw_term w) r1 n2) in *.
    assert (Hv3 : n_voted n3 = None).
    { destruct (Z_lt_le_dec (n_term n2) (vw_term w)); auto. destruct (d6 l) as [e _]. congruence. }
    assert (Hw3 : n_win n3 <> Some (n_term n3)).
    { intros E. destruct (a_win _ _ _ _ d1 _ E) as [_ e]. destruct (e eq_refl). congruence. }
    assert (Hvt3 : forall t x, vt p t = Some x -> t = n_term n3 -> False).
    { intros t x E Et. destruct (a_vt _ _ _ _ d1 _ _ E) as [_ [e _]]. specialize (e Et). congruence. }
    (* save, then set voted *)
    assert (HS : forall r, A vt nt p (save r (Some (vw_cand w)) n3)).
    { intros r. apply save_A; auto.
      - intros t x E Et. exfalso; eauto.
      - right. rewrite Hv3. discriminate.
      - rewrite Hv3; discriminate. }
    assert (HN : forall m, A vt nt p m -> n_voted m = None -> A vt nt p (set_voted None m)).
    { intros m [m1 m2 m3 m4 m5 m6 m7 m8] Em. constructor; cbn; rewrite <- ?Em; auto. }
    assert (Hver : forall r x, n_ver (save r x n3) = n_ver n3) by (intros [] ?; reflexivity).
    destruct r2; cbn [save].
    - split; [|cbn; lia]. specialize (HS SOk). cbn [save] in HS. destruct HS as [s1 s2 s3 s4 s5 s6 s7 s8].
      constructor; cbn in *; auto; try discriminate;
        try (intros x E; destruct (s4 _ E) as [e1 e2]; split; [exact e1|intros Ex; destruct (e2 Ex); congruence]);
        try (intros t v E; destruct (s5 _ _ E) as [e1 [e2 e3]]; split; [exact e1|split; [intros Et; exfalso; eauto|exact e3]]).
    - split; [|cbn; lia]. 
      destruct d1 as [s1 s2 s3 s4 s5 s6 s7 s8]. constructor; cbn in *; auto; try discriminate;
        try (intros x E; destruct (s4 _ E) as [e1 e2]; split; [exact e1|intros Ex; destruct (e2 Ex); congruence]);
        try (intros t v E; destruct (s5 _ _ E) as [e1 [e2 e3]]; split; [exact e1|split; [intros Et; exfalso; eauto|exact e3]]).
    - split; [|cbn; lia].
      specialize (HS SFailNew). cbn [save] in HS. destruct HS as [s1 s2 s3 s4 s5 s6 s7 s8].
      constructor; cbn in *; auto; try discriminate;
        try (intros x E; destruct (s4 _ E) as [e1 e2]; split; [exact e1|intros Ex; destruct (e2 Ex); congruence]);
        try (intros t v E; destruct (s5 _ _ E) as [e1 [e2 e3]]; split; [exact e1|split; [intros Et; exfalso; eauto|exact e3]]). }
  destruct H1 as [H1 V1]. inversion H; subst n' o; clear H.
  destruct ((vw_term w =? n_term n1) && opeer_eqb (n_voted n1) (Some (vw_cand w))) eqn:G.
  - apply andb_true_iff in G. destruct G as [G1 G2]. apply Z.eqb_eq in G1.
    assert (Hv : n_voted n1 = Some (vw_cand w)).
    { destruct (n_voted n1); cbn in G2; try discriminate. apply Z.eqb_eq in G2. congruence. }
    destruct (a_voted _ _ _ _ H1 _ Hv) as [[e1 e2]|[e1 _]]; [|congruence].
    destruct (vote_A _ _ _ _ _ H1 Hv e1 e2) as [X1 X2].
    split; auto. exists (upd_vt vt p (n_term n1) (vw_cand w)). split; auto. split; auto.
    constructor; [|constructor]. cbn. split; [exact (a_self _ _ _ _ H1)|]. split; [|eauto].
    intros _. rewrite G1. apply upd_at.
  - apply good_same; auto. constructor; [|constructor]. cbn. split; [exact (a_self _ _ _ _ H1)|].
    split; [discriminate|eauto].
Qed.

Lemma resp_ok : forall vt nt p n f rt0 ver g rt ll r n' o, A vt nt p n ->
  (g = true -> vt f rt0 = Some p) -> (ver = n_ver n -> vt p rt0 = Some p) ->
  vote_resp conf cv f rt0 ver g rt ll r n = Some (n', o) -> good vt nt p n (n', o).
Proof.
  intros vt nt p n f rt0 ver g rt ll r n' o HA Hg Hs H. unfold vote_resp in H.
  destruct (Z.eqb_spec ver (n_ver n)); cbn [negb] in H;
    [|inversion H; subst; apply good_same; [lia|auto|constructor]].
  destruct (n_st n) eqn:Es; try (inversion H; subst; apply good_same; [lia|auto|constructor]).
  destruct (Z.eqb_spec rt0 (n_term n)); cbn [negb] in H;
    [|inversion H; subst; apply good_same; [lia|auto|constructor]].
  subst rt0. destruct (n_term n <? rt).
  { inversion H; subst. destruct (down_A _ _ _ _ rt r HA) as [d1 [d2 _]]. apply good_same; auto. }
  destruct g; [|inversion H; subst; apply good_same; [lia|auto|constructor]].
  match type of H with context [set_ctx ?a ?b ?c ?d] => set (b1 := b) in *; set (n1 := set_ctx a b1 c d) in * end.
  assert (H1 : A vt nt p n1).
  { destruct HA as [a1 a2 a3 a4 a5 a6 a7 a8]. subst n1. constructor; cbn; auto.
    intros _. subst b1. destruct ll; [rewrite a1; apply grant_more; auto|]; apply grant_more; auto. }
  destruct (granted b1) eqn:G.
  - eapply become_leader_ok in H; eauto. destruct H as [G1 [G2 G3]]. apply good_same; auto.
  - inversion H; subst. apply good_same; [cbn; lia|auto|constructor].
Qed.

Lemma committed_core : forall i n n', set_committed i n = Some n' -> same_core n n'.
Proof.
  intros i n n' H. unfold set_committed in H.
  destruct (BallotBox.set_last_committed_index (n_box n) i) as [[[b x] y]|]; inversion H. core.
Qed.
Lemma follow_core : forall prev es n, same_core n (follow_append prev es n).
Proof.
  intros. unfold follow_append. destruct (skip_same (n_log n) (prev + 1) es) as [i rest].
  destruct rest; [core|]. destruct (i <=? zlen (n_log n)); core.
Qed.
Lemma core_trans : forall a b c, same_core a b -> same_core b c -> same_core a c.
Proof. unfold same_core. intros. intuition congruence. Qed.
Lemma core_ver : forall a b, same_core a b -> n_ver b = n_ver a.
Proof. unfold same_core. tauto. Qed.
Lemma core_good : forall vt nt p n n' o, A vt nt p n -> same_core n n' -> Forall (out_ok vt nt p n') o ->
  good vt nt p n (n', o).
Proof.
  intros. apply good_same; auto; [rewrite (core_ver _ _ H0); lia|]. eapply core_A; eauto.
Qed.

Lemma append_ok : forall vt nt p n f t prev pt es c r n' o, A vt nt p n ->
  append_req f t prev pt es c r n = Some (n', o) -> good vt nt p n (n', o).
Proof.
  intros vt nt p n f t prev pt es c r n' o HA H. unfold append_req in H.
  destruct (t <? n_term n); [inversion H; subst; apply good_same; [lia|auto|constructor]|].
  destruct (check_down_A _ _ _ _ t f r HA) as [d1 d2].
  set (n1 := check_step_down t f r n) in *.
  destruct (negb (opeer_eqb (Some f) (n_leader n1))).
  { inversion H; subst. destruct (down_A _ _ _ _ (t + 1) r d1) as [e1 [e2 _]].
    apply good_same; [lia|auto|constructor]. }
  destruct (negb (term_at (n_log n1) prev =? pt)); [inversion H; subst; apply good_same; [lia|auto|constructor]|].
  destruct es as [|e es].
  - destruct (set_committed (Z.min c prev) n1) eqn:E; inversion H; subst.
    apply committed_core in E. apply good_same; [rewrite (core_ver _ _ E); lia| |constructor].
    eapply core_A; eauto.
  - inversion H; subst n' o; clear H.
    assert (E : same_core n1 (set_log (n_log (follow_append prev (e :: es) n1))
        (n_q (follow_append prev (e :: es) n1) ++
         [DFollow (n_term (follow_append prev (e :: es) n1)) (prev + zlen (e :: es)) (Z.min c (prev + zlen (e :: es)))])
        (follow_append prev (e :: es) n1))).
    { eapply core_trans; [apply follow_core|]. core. }
    apply good_same; [rewrite (core_ver _ _ E); lia| |constructor]. eapply core_A; eauto.
Qed.

Lemma commit_to_core : forall f l q n n' o, commit_to f l q n = (n', o) ->
  same_core n n' /\ forall vt nt p, Forall (out_ok vt nt p n') o.
Proof.
  intros f l q n n' o H. unfold commit_to in H.
  destruct (BallotBox.commit_at (n_box n) f l q) as [[b x] [i|]]; inversion H; subst; split; try core; intros; repeat constructor.
Qed.

Lemma disk_ok : forall vt nt p n n' o, A vt nt p n -> disk_step n = Some (n', o) -> good vt nt p n (n', o).
Proof.
  intros vt nt p n n' o HA H. unfold disk_step in H. destruct (n_q n) as [|d q]; try discriminate.
  set (n1 := set_disk (n_disk n) q n) in *.
  assert (E1 : same_core n n1) by core.
  destruct d.
  - inversion H; subst. apply core_good; [auto|core|constructor].
  - inversion H; subst. apply core_good; [auto|core|constructor].
  - destruct (term =? n_term n1).
    + destruct (set_committed commit n1) eqn:E; inversion H; subst. apply committed_core in E.
      apply core_good; [auto|eapply core_trans; eauto|repeat constructor].
    + inversion H; subst. apply core_good; auto.
  - destruct (commit_to first (first + n0 - 1) (n_self n1) n1) as [n2 o2] eqn:E. inversion H; subst.
    apply commit_to_core in E. destruct E as [E E']. apply core_good; [auto|eapply core_trans; eauto|auto].
  - inversion H; subst. apply core_good; [auto| |constructor]. eapply core_trans; [exact E1|].
    destruct (n_win n) eqn:Ew; [|core]. destruct (term =? z); [|core].
    unfold same_core; cbn; repeat split; auto.
  - inversion H; subst. assert (HB : A vt nt p n1) by (eapply core_A; eauto).
    apply good_same; [cbn; lia| |constructor].
    destruct HB as [a1 a2 a3 a4 a5 a6 a7 a8]. constructor; cbn; auto.
    intros w Hw. apply in_map_iff in Hw. destruct Hw as [x [<- Hx]]. specialize (a8 _ Hx).
    destruct (vw_id x =? k); auto.
Qed.

Lemma crash_A : forall vt nt p n, A vt nt p n -> A vt nt p (crash n) /\ n_ver n + 1 = n_ver (crash n).
Proof.
  intros vt nt p n [a1 a2 a3 a4 a5 a6 a7 a8]. unfold crash.
  set (m := reload n).
  assert (H : A vt nt p m).
  { subst m. constructor; cbn; auto; try lia; try discriminate; try tauto.
    intros t v E. destruct (a5 _ _ E) as [b1 [b2 b3]]. split; auto. }
  destruct (Z.ltb_spec (n_term m) (li_term (last_id (n_log m)))).
  - split; [|reflexivity]. destruct H as [h1 h2 h3 h4 h5 h6 h7 h8].
    set (lt := li_term (last_id (n_log m))) in *.
    constructor; cbn [set_meta set_voted set_term n_self n_term n_mterm n_voted n_mvoted n_win n_st n_gself n_vw n_ver n_ballot]; auto; try discriminate; try lia.
    + intros t v E. destruct (h5 _ _ E) as [b1 _]. split; [lia|]. split; intros ->; lia.
  - split; auto.
Qed.

Lemma crashE_ok : forall vt nt p n n' o, A vt nt p n -> crash_in_elect_self n = Some (n', o) -> good vt nt p n (n', o).
Proof.
  intros vt nt p n n' o HA H. unfold crash_in_elect_self in H.
  destruct (n_win n); try discriminate. destruct (n_wlast n); try discriminate.
  destruct (n_term n =? z); inversion H; subst.
  destruct (crash_A _ _ _ _ HA) as [c1 c2]. apply good_same; auto; [lia|].
  constructor; [|constructor]. cbn [out_ok]. split; [exact (a_self _ _ _ _ HA)|]. split; [lia|]. intros; lia.
Qed.

Lemma lents_eqb_eq : forall a b, lents_eqb a b = true -> a = b.
Proof.
  induction a; destruct b; cbn; intros H; try discriminate; auto.
  apply andb_true_iff in H. destruct H as [H1 H2]. unfold lent_eqb in H1. apply andb_true_iff in H1.
  destruct H1 as [e1 e2]. apply Z.eqb_eq in e1. apply Z.eqb_eq in e2. destruct a, l; cbn in *; subst.
  f_equal. auto.
Qed.
Lemma msg_eqb_eq : forall a b, msg_eqb a b = true -> a = b.
Proof.
  intros a b H. destruct a, b; cbn in H; try discriminate;
  repeat match goal with H : _ && _ = true |- _ => apply andb_true_iff in H; destruct H end;
  repeat match goal with H : (_ =? _) = true |- _ => apply Z.eqb_eq in H; subst end.
  - unfold id_eqb' in *.
    repeat match goal with H : _ && _ = true |- _ => apply andb_true_iff in H; destruct H end.
    repeat match goal with H : (_ =? _) = true |- _ => apply Z.eqb_eq in H end.
    destruct last, last0; cbn in *; subst; reflexivity.
  - apply Bool.eqb_prop in H2 || apply Bool.eqb_prop in H1 || apply Bool.eqb_prop in H0. subst; reflexivity.
  - match goal with H : lents_eqb _ _ = true |- _ => apply lents_eqb_eq in H end. subst; reflexivity.
  - reflexivity.
Qed.
Lemma deliver_In : forall c p e from m, deliverable c p e = true -> received p e = Some (from, m) ->
  from <> p /\ In m (net c).
Proof.
  intros c p e from m H E. unfold deliverable in H. rewrite E in H. apply andb_true_iff in H. destruct H as [H1 H2].
  split. { destruct (Z.eqb_spec from p); [discriminate|auto]. }
  apply existsb_exists in H2. destruct H2 as [x [Hx He]]. apply msg_eqb_eq in He. subst; auto.
Qed.

Lemma nstep_good : forall vt c p e n' o, Inv1 vt c -> self_vote_saved c p e ->
  deliverable c p e = true -> nstep conf cv (nodes c p) e = Some (n', o) ->
  good vt (net c) p (nodes c p) (n', o).
Proof.
  intros vt c p e n' o [HA HN] Hs Hd H. specialize (HA p).
  pose proof (fun from m => deliver_In c p e from m Hd) as HD.
  destruct e; cbn [nstep] in H; cbn [received] in HD.
  - destruct (is_lead (n_st (nodes c p))); inversion H; subst.
    + apply good_same; [lia|auto|constructor].
    + destruct (elect1_A _ _ _ _ HA). apply good_same; auto.
  - cbn in Hs. subst r. eapply elect2_ok; eauto.
  - eapply gself_ok; eauto.
  - destruct (HD _ _ eq_refl). eapply vote1_ok; eauto. congruence.
  - eapply vote2_ok; eauto.
  - destruct (HD _ _ eq_refl) as [_ Hin]. eapply resp_ok; [exact HA| | |exact H].
    + intros ->. eapply ng; eauto.
    + intros Ev. destruct (nq _ _ HN _ _ _ _ _ _ Hin) as [l Hl]. destruct (nr _ _ HN _ _ _ _ Hl); auto.
  - destruct (n_term (nodes c p) <=? t); inversion H; subst.
    + destruct (down_A _ _ _ _ t r HA) as [d1 [d2 _]]. apply good_same; auto.
    + apply good_same; [lia|auto|constructor].
  - eapply append_ok; eauto.
  - eapply disk_ok; eauto.
  - unfold propose in H. destruct (n_st (nodes c p)) eqn:Es; try (inversion H; subst; apply good_same; [lia|auto|constructor]).
    destruct (lead_append conf vs (nodes c p)) eqn:E; inversion H; subst. apply core_good; auto.
    eapply lead_append_core; eauto.
  - inversion H; subst. unfold transfer. destruct (n_st (nodes c p)) eqn:Es; try (apply good_same; [lia|auto|constructor]).
    apply good_same; [cbn; lia| |constructor]. destruct HA as [a1 a2 a3 a4 a5 a6 a7 a8].
    constructor; cbn; auto; try discriminate. intros v E. destruct (a7 _ E). split; auto. discriminate.
  - inversion H; subst. unfold transfer_timeout. destruct (n_st (nodes c p)) eqn:Es; try (apply good_same; [lia|auto|constructor]).
    apply good_same; [cbn; lia| |constructor]. destruct HA as [a1 a2 a3 a4 a5 a6 a7 a8].
    constructor; cbn; auto; try discriminate. intros v E. destruct (a7 _ E). split; auto. discriminate.
  - inversion H; subst. apply core_good; auto. unfold send_open. destruct (is_lead (n_st (nodes c p))); core.
  - inversion H; subst. apply core_good; auto. unfold send_fill. destruct (_ && _); core.
  - inversion H; subst. apply core_good; auto. core.
  - unfold send_go in H. destruct (find_sw k (n_sw (nodes c p))); try discriminate.
    destruct (sw_head s) as [[[x y] z]|]; inversion H; subst. apply core_good; [auto|core|repeat constructor].
  - inversion H; subst. apply core_good; auto. unfold resp_open. destruct (_ && _); core.
  - unfold resp_go in H. destruct (find_rw k (n_rw (nodes c p))); try discriminate.
    assert (H1 : commit_to first (rw_upto r) (rw_peer r) (set_rw (drop_rw k (n_rw (nodes c p))) (nodes c p)) = (n', o)) by congruence.
    destruct (commit_to_core _ _ _ _ _ _ H1) as [E1 E2]. apply core_good; [auto| |apply E2].
    eapply core_trans; [|exact E1]. core.
  - unfold apply_one in H. destruct (n_applied (nodes c p) <? BallotBox.lc (n_box (nodes c p))).
    + destruct (znth (n_log (nodes c p)) (n_applied (nodes c p))); inversion H; subst.
      apply core_good; [auto|core|repeat constructor].
    + inversion H; subst. apply good_same; [lia|auto|constructor].
  - inversion H; subst. destruct (crash_A _ _ _ _ HA). apply good_same; auto. lia.
  - eapply crashE_ok; eauto.
Qed.

Lemma A_other : forall vt vt' p nt nt' q n, A vt nt q n -> ext vt vt' p -> q <> p ->
  (forall m, In m nt -> In m nt') -> A vt' nt' q n.
Proof.
  intros vt vt' p nt nt' q n [a1 a2 a3 a4 a5 a6 a7 a8] [E1 E2] Hq Hm. constructor; auto.
  - intros t v E. rewrite E1 in E by auto. auto.
  - intros Hc. eapply grants_mono; [split; eauto|auto].
  - intros v E. destruct (a7 _ E). split; auto.
  - intros w Hw. destruct (a8 _ Hw). auto.
Qed.
Lemma A_net : forall vt p nt nt' n, A vt nt p n -> (forall m, In m nt -> In m nt') -> A vt nt' p n.
Proof.
  intros vt p nt nt' n [a1 a2 a3 a4 a5 a6 a7 a8] Hm. constructor; auto.
  intros w Hw. destruct (a8 _ Hw). auto.
Qed.

Lemma in_sends : forall m o, In m (sends o) -> In (OSend m) o.
Proof.
  intros m o H. unfold sends in H. apply in_flat_map in H. destruct H as [x [Hx Hm]].
  destruct x; cbn in Hm; try tauto. destruct Hm as [->|[]]. auto.
Qed.

Lemma inv1_step : forall vt c p e c', Inv1 vt c -> self_vote_saved c p e ->
  cstep conf cv c (p, e) = Some c' ->
  exists vt', ext vt vt' p /\ Inv1 vt' c'.
Proof.
  intros vt c p e c' HI Hs H. unfold cstep in H.
  destruct (deliverable c p e) eqn:Hd; try discriminate.
  destruct (nstep conf cv (nodes c p) e) as [[n' o]|] eqn:E; try discriminate.
  inversion H; subst c'; clear H.
  pose proof (nstep_good _ _ _ _ _ _ HI Hs Hd E) as [Hv [vt' [X1 [X2 X3]]]]. cbn [fst snd] in *.
  destruct HI as [HA HN]. rewrite Forall_forall in X3.
  exists vt'. split; auto. split; cbn [nodes net trace].
  - intros q. unfold upd. destruct (Z.eqb_spec q p).
    + subst q. eapply A_net; eauto. intros m Hm. apply in_or_app; auto.
    + eapply A_other; eauto. intros m Hm. apply in_or_app; auto.
  - destruct HN as [h1 h2 h3 h4]. constructor; cbn [nodes net trace].
    + intros q t l v Hin. apply in_app_or in Hin. destruct Hin as [Hin|Hin].
      * apply in_sends in Hin. apply X3 in Hin. cbn in Hin. destruct Hin as [-> Hin].
        unfold upd. rewrite Z.eqb_refl. exact Hin.
      * destruct (h1 _ _ _ _ Hin) as [b1 b2]. unfold upd. destruct (Z.eqb_spec q p).
        -- subst q. split; [lia|]. intros Ev. apply (proj2 X1). apply b2. lia.
        -- split; auto. intros. apply (proj2 X1). auto.
    + intros f q t v rt Hin. apply in_app_or in Hin. destruct Hin as [Hin|Hin].
      * apply in_sends in Hin. apply X3 in Hin. cbn in Hin. destruct Hin as [-> [Hin _]]. auto.
      * apply (proj2 X1). eauto.
    + intros f q t v g rt Hin. apply in_app_or in Hin. destruct Hin as [Hin|Hin].
      * apply in_sends in Hin. apply X3 in Hin. cbn in Hin. destruct Hin as [_ [_ [l Hl]]]. exists l. apply in_or_app; auto.
      * destruct (h3 _ _ _ _ _ _ Hin) as [l Hl]. exists l. apply in_or_app; auto.
    + intros q t l Hin. apply in_app_or in Hin. destruct Hin as [Hin|Hin].
      * apply in_map_iff in Hin. destruct Hin as [x [Ex Hx]]. inversion Ex; subst. apply X3 in Hx. exact Hx.
      * destruct (h4 _ _ _ Hin) as [Q0 [Q [Q1 Q2]]]. split; [apply (proj2 X1); auto|]. exists Q. split; auto. intros. apply (proj2 X1). auto.
Qed.

Lemma inv1_init : Inv1 (fun _ _ => None) cinit.
Proof.
  split.
  - intros p. constructor; cbn; auto; try discriminate; try lia; tauto.
  - constructor; cbn; tauto.
Qed.

Lemma inv1_exec : forall (ok : cluster -> peer -> nev -> Prop) c, (forall c p e, ok c p e -> self_vote_saved c p e) ->
  execution conf cv ok c -> exists vt, Inv1 vt c.
Proof.
  intros ok c Hok H. induction H.
  - exists (fun _ _ => None). apply inv1_init.
  - destruct IHexecution as [vt HI]. eapply inv1_step in H1; eauto. destruct H1 as [vt' [_ H']]. eauto.
Qed.

Lemma one_leader : forall vt c p q t l l', Inv1 vt c ->
  In (p, OElected t l) (trace c) -> In (q, OElected t l') (trace c) -> p = q.
Proof.
  intros vt c p q t l l' [_ HN] H1 H2. destruct HN as [_ _ _ h4].
  destruct (h4 _ _ _ H1) as [_ [Q [A1 A2]]]. destruct (h4 _ _ _ H2) as [_ [Q' [B1 B2]]].
  destruct (majorities_meet_same conf Q Q' A1 B1) as [x [_ [X1 X2]]].
  specialize (A2 _ X1). specialize (B2 _ X2). congruence.
Qed.
End Elect.
