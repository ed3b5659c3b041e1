(** Layer 3 of the cluster proof, vocabulary: what each node has acknowledged and voted for,
    as history variables, and the invariants that tie them to the nodes. *)
From Verif Require Import Base BaseLemmas LogEntry Ballot QuorumSpec BallotProofs Node Cluster ClusterSpec
  LogPrefix ClusterElect ClusterLog.
From Verif Require BallotBox.

Notation els := (list (Z * peer * list lent)).

(** History: leaders' logs by term, elections (newest first), acknowledgements (node, term,
    index), what a node is known to hold, and the persisted term of each node. *)
Record gh := mkGh { gll : Z -> list lent; gel : els; gak : peer -> Z -> Z -> Prop;
                    ghd : peer -> Z -> Z -> Prop; gmt : peer -> Z }.

Definition PX (g : gh) (t j : Z) : list lent := firstn (Z.to_nat j) (gll g t).
Definition own (g : gh) (t j : Z) : Prop := 1 <= j <= zlen (gll g t) /\ term_at (gll g t) j = t.
Definition elected (g : gh) (t : Z) : Prop := exists q l, In (t, q, l) (gel g).
Definition lacks (el : els) (g : gh) (t j : Z) : Prop :=
  exists t' q l, In (t', q, l) el /\ t < t' /\ ~ prefix (PX g t j) l.
Definition HoldAll (g : gh) (p : peer) (cl : list lent) : Prop :=
  wfl (gll g) cl /\ forall j, 1 <= j <= zlen cl -> ghd g p (term_at cl j) j.
Definition Ev (g : gh) (n : peer) (t' : Z) (cand : peer) : Prop :=
  t' <= gmt g n /\
  (elected g t' \/
   exists vl cl, wfl (gll g) vl /\ HoldAll g cand cl /\ id_geb (last_id cl) (last_id vl) = true /\
     forall t j, t < t' -> gak g n t j -> prefix (PX g t j) vl \/ lacks (gel g) g t j).
Definition wfg (g : gh) : Prop :=
  (forall n t j, ghd g n t j -> own g t j) /\ (forall n t j, gak g n t j -> ghd g n t j).

Record Ext (g g' : gh) : Prop := mkExt {
  x_ll : llext (gll g) (gll g');
  x_el : forall x, In x (gel g) -> In x (gel g');
  x_ak : forall n t j, gak g n t j -> gak g' n t j;
  x_hd : forall n t j, ghd g n t j -> ghd g' n t j;
  x_mt : forall n, gmt g n <= gmt g' n;
  x_new : forall n t j, gak g' n t j -> gak g n t j \/ gmt g n <= t }.

Lemma PX_ext : forall g g' t j, llext (gll g) (gll g') -> j <= zlen (gll g t) -> PX g' t j = PX g t j.
Proof.
  intros g g' t j X H. unfold PX. destruct (X t) as [y ->]. rewrite firstn_app.
  replace (Z.to_nat j - length (gll g t))%nat with 0%nat by (unfold zlen in H; lia).
  cbn. rewrite app_nil_r. reflexivity.
Qed.
Lemma own_ext : forall g g' t j, llext (gll g) (gll g') -> own g t j -> own g' t j.
Proof.
  intros g g' t j X [H1 H2]. pose proof (prefix_len _ _ (X t)). split; [lia|].
  rewrite <- H2 at 2. symmetry. apply term_at_prefix; auto. 
Qed.
Lemma own_PX : forall g g' t j, llext (gll g) (gll g') -> own g t j -> PX g' t j = PX g t j.
Proof. intros g g' t j X [H1 _]. apply PX_ext; auto; lia. Qed.
Lemma own_back : forall g g' t j, llext (gll g) (gll g') -> own g' t j -> j <= zlen (gll g t) -> own g t j.
Proof.
  intros g g' t j X [H1 H2] H. split; [lia|]. rewrite <- H2 at 2. apply term_at_prefix; auto; lia.
Qed.
Lemma elected_ext : forall g g' t, (forall x, In x (gel g) -> In x (gel g')) -> elected g t -> elected g' t.
Proof. intros g g' t X [q [l H]]. exists q, l. auto. Qed.
Lemma lacks_ext : forall el el' g g' t j, llext (gll g) (gll g') -> own g t j ->
  (forall x, In x el -> In x el') -> lacks el g t j -> lacks el' g' t j.
Proof.
  intros el el' g g' t j X H E [t' [q [l [H1 [H2 H3]]]]]. exists t', q, l. rewrite (own_PX g g') by auto. auto.
Qed.
Lemma HoldAll_ext : forall g g' p cl, Ext g g' -> HoldAll g p cl -> HoldAll g' p cl.
Proof. intros g g' p cl X [H1 H2]. split; [eapply wfl_ext; [exact H1|apply X]|]. intros. apply X. auto. Qed.
Lemma Ev_ext : forall g g' n t c, wfg g -> Ext g g' -> Ev g n t c -> Ev g' n t c.
Proof.
  intros g g' n t c [W1 W2] X [H1 H2]. split; [pose proof (x_mt _ _ X n); lia|].
  destruct H2 as [H2|[vl [cl [E1 [E2 [E3 E4]]]]]].
  - left. eapply elected_ext; [apply X|auto].
  - right. exists vl, cl. split; [eapply wfl_ext; [exact E1|apply X]|]. split; [eapply HoldAll_ext; eauto|].
    split; auto. intros s j Hs Ha. destruct (x_new _ _ X _ _ _ Ha) as [Ha'|Ha']; [|lia].
    assert (Ho : own g s j) by eauto. rewrite (own_PX g g') by (auto; apply X).
    destruct (E4 _ _ Hs Ha'); auto. right. eapply lacks_ext; [apply X|auto|apply X|auto].
Qed.
Lemma own_wfl : forall g L j, wfl (gll g) L -> 1 <= j <= zlen L ->
  own g (term_at L j) j /\ PX g (term_at L j) j = firstn (Z.to_nat j) L.
Proof.
  intros g L j H Hj. destruct (term_at_in L j Hj) as [a [e [b [E1 [E2 E3]]]]].
  pose proof (H _ _ _ E1) as Hp. rewrite E3 in Hp.
  assert (Hl : zlen (a ++ [e]) = j) by (rewrite zlen_app; unfold zlen in *; cbn; lia).
  split.
  - split; [pose proof (prefix_len _ _ Hp); lia|].
    rewrite <- (term_at_prefix _ _ j Hp) by lia. rewrite <- E3. apply term_at_mid'. lia.
  - unfold PX. rewrite (prefix_firstn_eq _ _ j Hp) by lia. symmetry. apply prefix_firstn_eq; auto.
    exists b. rewrite E1, <- app_assoc. reflexivity.
Qed.

(** Queue items and what they promise about the logs that follow them. *)
Fixpoint QF (R : dop -> list lent -> list dop -> Prop) (d : list lent) (q : list dop) : Prop :=
  match q with [] => True | o :: q' => R o (dstep d o) q' /\ QF R (dstep d o) q' end.
Lemma QF_app : forall (R R' : dop -> list lent -> list dop -> Prop) q d q2,
  QF R d q ->
  (forall o d' q', In o q -> fin d' q' = fin d q -> R o d' q' -> R' o d' (q' ++ q2)) ->
  QF R' (fin d q) q2 -> QF R' d (q ++ q2).
Proof.
  intros R R'. induction q; intros d q2 H1 H2 H3; cbn in *; auto. destruct H1 as [H1 H1']. split.
  - apply H2; auto.
  - apply IHq; auto.
Qed.
Lemma QF_impl : forall (R R' : dop -> list lent -> list dop -> Prop) q d,
  QF R d q -> (forall o d' q', In o q -> R o d' q' -> R' o d' q') -> QF R' d q.
Proof. intros R R'. induction q; intros d H1 H2; cbn in *; auto. destruct H1. split; auto. Qed.
Lemma QF_In : forall R q d o, QF R d q -> In o q -> exists d' q', R o d' q'.
Proof.
  intros R. induction q; intros d o H Hin; cbn in *; [tauto|]. destruct H. destruct Hin as [->|Hin]; eauto.
Qed.
Lemma Sts_prefix_more : forall P d q es x, ~ data x -> Sts (prefix P) d q -> Sts (prefix P) d (q ++ map DApp es ++ [x]).
Proof.
  intros P d q es x Hx H. pose proof (Sts_fin _ _ _ H). apply Sts_app. split; auto. apply Sts_app. split.
  - apply Sts_map_app. intros. apply prefix_app_r; auto.
  - rewrite fin_map_app. apply Sts_inert; [apply prefix_app_r; auto|]. intros o [<-|[]]; auto.
Qed.

Definition votes (q : list dop) : Prop := forall o, In o q -> exists k, o = DVote k.
Lemma votes_inert : forall q, votes q -> forall o, In o q -> ~ data o.
Proof. intros q H o Ho. destruct (H _ Ho) as [k ->]. cbn; tauto. Qed.
Lemma votes_fin : forall q d, votes q -> fin d q = d.
Proof. intros. apply fin_inert. apply votes_inert; auto. Qed.

Section Ghost.
Variable conf : list peer.
Hypothesis conf_nodup : NoDup conf.

Definition cm (g : gh) (t j : Z) : Prop :=
  own g t j /\ exists Q, majority conf Q /\ forall n, In n Q -> gak g n t j.
Definition cinfo (g : gh) (c t : Z) : Prop :=
  c <= 0 \/ exists t0 i0, cm g t0 i0 /\ c <= i0 /\ t0 <= t.
Fixpoint LE (g : gh) (el : els) : Prop :=
  match el with
  | [] => True
  | (t', p, l) :: rest =>
      LE g rest /\ exists Q, majority conf Q /\ forall n, In n Q -> t' <= gmt g n /\
        forall t j, t < t' -> gak g n t j -> prefix (PX g t j) l \/ lacks rest g t j
  end.

Lemma cm_ext : forall g g' t j, Ext g g' -> cm g t j -> cm g' t j.
Proof.
  intros g g' t j X [H1 [Q [H2 H3]]]. split; [eapply own_ext; [apply X|auto]|]. exists Q. split; auto.
  intros. apply X. auto.
Qed.
Lemma cinfo_ext : forall g g' c t, Ext g g' -> cinfo g c t -> cinfo g' c t.
Proof.
  intros g g' c t X [H|[t0 [i0 [H1 H2]]]]; [left; auto|right]. exists t0, i0. split; auto. eapply cm_ext; eauto.
Qed.
Lemma cinfo_le : forall g c c' t t', cinfo g c t -> c' <= c -> t <= t' -> cinfo g c' t'.
Proof.
  intros g c c' t t' [H|[t0 [i0 [H1 [H2 H3]]]]] Hc Ht; [left; lia|right]. exists t0, i0. split; auto. lia.
Qed.
Lemma LE_ext : forall g g' el, wfg g -> Ext g g' -> LE g el -> LE g' el.
Proof.
  intros g g' el W X. induction el as [|[[t' p] l] rest IH]; cbn; auto.
  intros [H1 [Q [H2 H3]]]. split; auto. exists Q. split; auto. intros n Hn. destruct (H3 n Hn) as [H4 H5].
  split; [pose proof (x_mt _ _ X n); lia|]. intros t j Ht Ha.
  destruct (x_new _ _ X _ _ _ Ha) as [Ha'|Ha']; [|lia].
  assert (Ho : own g t j) by (apply (proj1 W n); apply (proj2 W); auto). rewrite (own_PX g g') by (auto; apply X).
  destruct (H5 _ _ Ht Ha') as [K|K]; [left; exact K|]. right. eapply lacks_ext; [apply X|exact Ho| |exact K]; auto.
Qed.

(** Leader completeness: every later leader started with every committed prefix. *)
Lemma complete : forall g el t j, LE g el -> cm g t j ->
  forall t' p l, In (t', p, l) el -> t < t' -> prefix (PX g t j) l.
Proof.
  intros g el t j. induction el as [|[[t0 p0] l0] rest IH]; cbn [LE]; intros H HC t' p l Hin Ht; [destruct Hin|].
  destruct H as [H1 [Q [H2 H3]]]. destruct Hin as [E|Hin]; [|eauto].
  inversion E; subst. destruct HC as [HO [Q' [Q1 Q2]]].
  destruct (majorities_meet_same conf Q Q' H2 Q1) as [n [_ [N1 N2]]].
  destruct (H3 _ N1) as [_ H4]. destruct (H4 t j Ht (Q2 _ N2)) as [|[t1 [q [l1 [E1 [E2 E3]]]]]]; auto.
  exfalso. apply E3. eapply IH; eauto. split; eauto.
Qed.

(** ** Node invariants *)
Definition RQ (g : gh) (T : Z) (ld : bool) (o : dop) (d : list lent) (q : list dop) : Prop :=
  match o with
  | DFollow t u c => t <= T /\ (t = T -> 0 <= u <= zlen (gll g t) /\ c <= u /\ cinfo g c t /\
                        Sts (prefix (PX g t u)) d q)
  | DLead f k => ld = true -> f + k - 1 <= zlen (gll g T) /\ Sts (prefix (PX g T (f + k - 1))) d q
  | DElect t => t <= T
  | _ => True
  end.
Definition D1 (g : gh) (p : peer) (T : Z) (ld : bool) (d : list lent) (q : list dop) : Prop :=
  (forall t j, ghd g p t j -> Sts (prefix (PX g t j)) d q \/ lacks (gel g) g t j) /\ QF (RQ g T ld) d q.

Definition wok (win : option Z) (wlast : option logid) (T : Z) (q : list dop) (L : list lent) : Prop :=
  (win = Some T /\ wlast = None /\
     exists q1 q2, q = q1 ++ DElect T :: q2 /\ votes q2 /\ ~ In (DElect T) q1) \/
  (win = Some T /\ wlast = Some (last_id L) /\ votes q) \/
  (win <> Some T /\ votes q).
Definition D2 (g : gh) (st : nstate) (win : option Z) (wlast : option logid) (T : Z) (q : list dop) (L : list lent) : Prop :=
  st = Candidate \/ win = Some T -> elected g T \/ wok win wlast T q L.

Definition D3 (g : gh) (p : peer) (mv : option peer) (mt : Z) (st : nstate) (b : ballot) (T : Z) : Prop :=
  (forall v, mv = Some v -> Ev g p mt v) /\
  (st = Candidate -> exists acks, ballot_ok conf None acks b /\ forall q, In q acks -> Ev g q T p).

Definition lcok (g : gh) (T : Z) (L : list lent) (lc : Z) : Prop :=
  lc <= 0 \/ exists t0 i0, cm g t0 i0 /\ lc <= i0 /\ t0 <= T /\ prefix (PX g t0 lc) L.
Definition D4 (g : gh) (p : peer) (st : nstate) (T : Z) (L : list lent) (bx : BallotBox.box) : Prop :=
  lcok g T L (BallotBox.lc bx) /\
  (is_lead st = false -> BallotBox.pend bx = 0 /\ BallotBox.bq bx = []) /\
  (is_lead st = true -> exists l, In (T, p, l) (gel g) /\ zlen l < BallotBox.pend bx /\
     BallotBox.pend bx + zlen (BallotBox.bq bx) = zlen L + 1 /\
     forall k b, znth (BallotBox.bq bx) k = Some b ->
       exists acks, ballot_ok conf None acks b /\ forall q, In q acks -> gak g q T (BallotBox.pend bx + k)).

Definition D5 (g : gh) (nt : list msg) (vw : list vwin) (sw : list swin) (rw : list rwin) : Prop :=
  (forall w, In w vw -> vw_prev w <= vw_term w) /\
  (forall w prev pt c, In w sw -> sw_head w = Some (prev, pt, c) -> cinfo g c (sw_term w)) /\
  (forall w, In w rw -> In (MAppOk (rw_peer w) (rw_term w) (rw_upto w)) nt).

Definition D (g : gh) (nt : list msg) (p : peer) (n : node) : Prop :=
  D1 g p (n_term n) (is_lead (n_st n)) (n_disk n) (n_q n) /\
  D2 g (n_st n) (n_win n) (n_wlast n) (n_term n) (n_q n) (n_log n) /\
  D3 g p (n_mvoted n) (n_mterm n) (n_st n) (n_ballot n) (n_term n) /\
  D4 g p (n_st n) (n_term n) (n_log n) (n_box n) /\
  D5 g nt (n_vw n) (n_sw n) (n_rw n).

(** ** Messages and outputs *)
Definition reqok (g : gh) (cand : peer) (t : Z) (lid : logid) : Prop :=
  elected g t \/ exists cl, HoldAll g cand cl /\ lid = last_id cl.
Definition ackok (g : gh) (f : peer) (t u : Z) : Prop :=
  u <= zlen (gll g t) /\ forall j, j <= u -> own g t j -> gak g f t j.
Definition applied_ok (g : gh) (i : Z) (e : lent) : Prop :=
  exists t0 i0, cm g t0 i0 /\ i <= i0 /\ znth (gll g t0) (i - 1) = Some e.
Definition mok (g : gh) (m : msg) : Prop :=
  match m with
  | MVoteReq c t lid v => reqok g c t lid
  | MVoteResp f c t v gr rt => gr = true -> Ev g f t c
  | MApp f t prev pt es c => cinfo g c t
  | MAppOk f t u => ackok g f t u
  end.
Definition ook (g : gh) (o : nout) : Prop :=
  match o with
  | OSend m => mok g m
  | OElected _ _ => False
  | OCommit t es => exists i, cm g t i /\ es = PX g t i
  | OApply i e => applied_ok g i e
  end.

Lemma reqok_ext : forall g g' c t l, Ext g g' -> reqok g c t l -> reqok g' c t l.
Proof.
  intros g g' c t l X [H|[cl [H1 H2]]]; [left; eapply elected_ext; [apply X|auto]|right].
  exists cl. split; auto. eapply HoldAll_ext; eauto.
Qed.
Lemma ackok_ext : forall g g' f t u, Ext g g' -> ackok g f t u -> ackok g' f t u.
Proof.
  intros g g' f t u X [H1 H2]. split; [pose proof (prefix_len _ _ (x_ll _ _ X t)); lia|].
  intros j Hj Ho. apply X. apply H2; auto. eapply own_back; [apply X|exact Ho|lia].
Qed.
Lemma applied_ext : forall g g' i e, Ext g g' -> applied_ok g i e -> applied_ok g' i e.
Proof.
  intros g g' i e X [t0 [i0 [H1 [H2 H3]]]]. exists t0, i0. split; [eapply cm_ext; eauto|]. split; auto.
  eapply prefix_znth; [apply X|auto].
Qed.
Lemma ook_ext : forall g g' o, wfg g -> Ext g g' -> ook g o -> ook g' o.
Proof.
  intros g g' o W X. destruct o as [m| | |]; cbn; auto; [| |apply applied_ext; auto].
  2:{ intros [i [H1 H2]]. exists i. split; [eapply cm_ext; eauto|]. rewrite (own_PX g g'); [auto|apply X|apply H1]. }
  destruct m; cbn.
  - apply reqok_ext; auto.
  - intros H E. eapply Ev_ext; eauto.
  - apply cinfo_ext; auto.
  - apply ackok_ext; auto.
Qed.

Lemma RQ_ext : forall g g' T ld o d q, Ext g g' -> RQ g T ld o d q -> RQ g' T ld o d q.
Proof.
  intros g g' T ld o d q X. destruct o; cbn; auto.
  - intros [H1 H2]. split; auto. intros E. destruct (H2 E) as [H3 [H4 [H5 H6]]].
    pose proof (prefix_len _ _ (x_ll _ _ X term)). split; [lia|]. split; auto. split; [eapply cinfo_ext; eauto|].
    rewrite (PX_ext g g') by (try apply X; lia). auto.
  - intros H E. destruct (H E) as [H1 H2]. pose proof (prefix_len _ _ (x_ll _ _ X T)). split; [lia|].
    rewrite (PX_ext g g') by (try apply X; lia). auto.
Qed.

Lemma D_ext' : forall g g' nt nt' p n, wfg g -> Ext g g' ->
  (forall t j, ghd g' p t j -> ghd g p t j \/ (own g t j /\ Sts (prefix (PX g t j)) (n_disk n) (n_q n))) ->
  (forall m, In m nt -> In m nt') -> D g nt p n -> D g' nt' p n.
Proof.
  intros g g' nt nt' p n W X Hh Hm [[a1 a2] [b [[c1 c2] [[d1 [d2 d3]] [e1 [e2 e3]]]]]].
  split; [|split; [|split; [|split]]].
  - split.
    + intros t j H. apply Hh in H. destruct H as [H|[Ho H]]; [|left; rewrite (own_PX g g') by (auto; apply X); auto].
      assert (Ho : own g t j) by (apply (proj1 W p); auto).
      rewrite (own_PX g g') by (auto; apply X). destruct (a1 _ _ H); auto. right. eapply lacks_ext; [apply X|auto|apply X|auto].
    + eapply QF_impl; [exact a2|]. intros. eapply RQ_ext; eauto.
  - intros H. destruct (b H); auto. left. eapply elected_ext; [apply X|auto].
  - split.
    + intros v E. eapply Ev_ext; eauto.
    + intros E. destruct (c2 E) as [acks [k1 k2]]. exists acks. split; auto. intros q Hq. eapply Ev_ext; eauto.
  - split; [|split; auto].
    + destruct d1 as [d1|[t0 [i0 [k1 [k2 [k3 k4]]]]]]; [left; auto|right]. exists t0, i0. split; [eapply cm_ext; eauto|].
      split; auto. split; auto. destruct k1 as [[k1 _] _]. rewrite (PX_ext g g') by (try apply X; lia). auto.
    + intros E. destruct (d3 E) as [l [k1 [k2 [k3 k4]]]]. exists l. split; [apply X; auto|]. split; auto. split; auto.
      intros k bb Hk. destruct (k4 _ _ Hk) as [acks [m1 m2]]. exists acks. split; auto. intros. apply X. auto.
  - split; auto. split; auto. intros. eapply cinfo_ext; eauto.
Qed.

Lemma D_ext : forall g g' nt nt' p n, wfg g -> Ext g g' -> (forall t j, ghd g' p t j -> ghd g p t j) ->
  (forall m, In m nt -> In m nt') -> D g nt p n -> D g' nt' p n.
Proof. intros g g' nt nt' p n W X Hh Hm HD. eapply D_ext'; eauto. Qed.

(** ** Frames *)
Lemma D1_lower : forall g p T T' ld ld' d q, D1 g p T ld d q -> T <= T' ->
  (ld' = true -> ld = true /\ T' = T) -> D1 g p T' ld' d q.
Proof.
  intros g p T T' ld ld' d q [H1 H2] HT Hl. split; auto. eapply QF_impl; [exact H2|].
  intros o d' q' _. destruct o; cbn; auto.
  - intros [K1 K2]. split; [lia|]. intros ->. apply K2. lia.
  - intros K E. destruct (Hl E) as [-> ->]. auto.
  - lia.
Qed.
Lemma D1_inert : forall g p T ld d q o, D1 g p T ld d q ->
  (exists k, o = DVote k) \/ (exists t, o = DElect t /\ t <= T) -> D1 g p T ld d (q ++ [o]).
Proof.
  intros g p T ld d q o [H1 H2] Ho.
  assert (Hd : ~ data o) by (destruct Ho as [[k ->]|[t [-> _]]]; cbn; tauto).
  assert (HS : forall P d' q', Sts P d' q' -> Sts P d' (q' ++ [o])).
  { intros P d' q' K. apply Sts_snoc; auto. destruct o; cbn in *; try tauto; eapply Sts_fin; eauto. }
  split.
  - intros t j H. destruct (H1 _ _ H); auto.
  - eapply QF_app; [exact H2| |].
    + intros x d' q' _ _. destruct x; cbn; auto.
      * intros [K1 K2]. split; auto. intros E. destruct (K2 E) as [K3 [K4 [K5 K6]]]. auto 10.
      * intros K E. destruct (K E). auto.
    + cbn. split; auto. destruct Ho as [[k ->]|[t [-> Ht]]]; cbn; auto.
Qed.
Lemma D1_pop : forall g p T ld d o q, D1 g p T ld d (o :: q) -> D1 g p T ld (dstep d o) q.
Proof.
  intros g p T ld d o q [H1 H2]. cbn in H2. destruct H2. split; auto.
  intros t j H3. destruct (H1 _ _ H3) as [K|K]; auto. cbn in K. destruct K. auto.
Qed.
Lemma D1_lead : forall g p T d q L es f k, D1 g p T true d q -> fin d q = L -> gll g T = L ++ es ->
  f + k - 1 = zlen (L ++ es) -> D1 g p T true d (q ++ map DApp es ++ [DLead f k]).
Proof.
  intros g p T d q L es f k [H1 H2] HL HT Hf.
  assert (HS : forall P d' q', Sts (prefix P) d' q' -> Sts (prefix P) d' (q' ++ map DApp es ++ [DLead f k])).
  { intros. apply Sts_prefix_more; auto. }
  split.
  - intros t j H. destruct (H1 _ _ H); auto.
  - eapply QF_app; [exact H2| |].
    + intros x d' q' _ _. destruct x; cbn; auto.
      * intros [K1 K2]. split; auto. intros E. destruct (K2 E) as [K3 [K4 [K5 K6]]]. auto 10.
      * intros K E. destruct (K E). auto.
    + rewrite HL. clear - HT Hf.
      assert (QF (RQ g T true) L (map DApp es)).
      { clear Hf HT. revert L. induction es; cbn; auto. }
      eapply QF_app; [exact H| |].
      * intros o d' q' Ho _ _. apply in_map_iff in Ho. destruct Ho as [e [<- _]]. exact I.
      * rewrite fin_map_app. cbn. split; auto. intros _. rewrite HT. split; [lia|]. split; auto.
        unfold PX. rewrite HT. rewrite (prefix_firstn_eq (L ++ es)); [apply prefix_refl|apply prefix_refl|lia].
Qed.
Lemma QF_data : forall g T ld ops d, (forall o, In o ops -> data o) -> QF (RQ g T ld) d ops.
Proof.
  induction ops; cbn; intros d H; auto. split; auto. specialize (H a (or_introl eq_refl)). destruct a; cbn in *; tauto.
Qed.
Lemma D1_follow : forall g p T d q L ops L' u c,
  D1 g p T false d q -> fin d q = L -> fin L ops = L' -> (forall o, In o ops -> data o) ->
  (forall P, prefix P L -> prefix P (gll g T) -> Sts (prefix P) L ops) ->
  (forall t j, ghd g p t j -> prefix (PX g t j) L -> prefix (PX g t j) (gll g T) \/ lacks (gel g) g t j) ->
  0 <= u <= zlen (gll g T) -> c <= u -> cinfo g c T -> prefix (PX g T u) L' ->
  D1 g p T false d ((q ++ ops) ++ [DFollow T u c]).
Proof.
  intros g p T d q L ops L' u c [H1 H2] HL HL' Hd HP Hh Hu Hc Hci Hpx.
  assert (HS : forall P d' q', Sts (prefix P) d' q' -> fin d' q' = L -> prefix P (gll g T) ->
     Sts (prefix P) d' ((q' ++ ops) ++ [DFollow T u c])).
  { intros P d' q' K F G. assert (Sts (prefix P) d' (q' ++ ops)).
    { apply Sts_app. split; auto. rewrite F. apply HP; auto. rewrite <- F. eapply Sts_fin; eauto. }
    apply Sts_snoc; auto. cbn. eapply Sts_fin; eauto. }
  rewrite <- app_assoc. split.
  - intros t j H. destruct (H1 _ _ H) as [K|K]; auto.
    assert (prefix (PX g t j) L) by (rewrite <- HL; eapply Sts_fin; eauto).
    destruct (Hh _ _ H H0); auto. left. rewrite app_assoc. apply HS; auto.
  - eapply QF_app; [exact H2| |].
    + intros x d' q' _ F. rewrite HL in F. rewrite app_assoc. destruct x; cbn; auto.
      * intros [K1 K2]. split; auto. intros ->. destruct (K2 eq_refl) as [K3 [K4 [K5 K6]]].
        split; auto. split; auto. split; auto. apply HS; auto. apply prefix_firstn.
      * intros K E. discriminate.
    + rewrite HL. eapply QF_app; [apply (QF_data g T false ops); auto| |].
      * intros o d' q' Ho _ _. specialize (Hd _ Ho). destruct o; cbn in *; tauto.
      * rewrite HL'. cbn. split; auto. split; [lia|]. auto.
Qed.
Lemma D4_lower : forall g p st st' T T' L bx, D4 g p st T L bx -> T <= T' ->
  (is_lead st' = true -> is_lead st = true /\ T' = T) -> (is_lead st' = false -> is_lead st = false) -> D4 g p st' T' L bx.
Proof.
  intros g p st st' T T' L bx [H1 [H2 H3]] HT Hl Hl'. split; [|split].
  - destruct H1 as [H1|[t0 [i0 [K1 [K2 [K3 K4]]]]]]; [left; auto|right]. exists t0, i0. split; auto. split; auto. split; [lia|auto].
  - auto.
  - intros E. destruct (Hl E) as [E1 ->]. auto.
Qed.
Lemma lcok_mono : forall g T T' L L' lc, lcok g T L lc -> T <= T' -> (forall P, prefix P L -> prefix P L') -> lcok g T' L' lc.
Proof.
  intros g T T' L L' lc [H|[t0 [i0 [K1 [K2 [K3 K4]]]]]] HT HL; [left; auto|right].
  exists t0, i0. split; auto. split; auto. split; [lia|auto].
Qed.

(** step_down *)
Lemma down_D : forall g nt p n t r, (forall w, n_win n = Some w -> w <= n_term n) -> D g nt p n -> D g nt p (step_down t r n).
Proof.
  intros g nt p n t r Hw [d1 [d2 [d3 [d4 d5]]]]. unfold step_down.
  set (n0 := match n_st n with Candidate => _ | Follower => n | _ => _ end).
  assert (H : D g nt p (set_st Follower (set_leader None n0)) /\ n_term n0 = n_term n /\ n_win n0 = n_win n).
  { assert (X1 : D1 g p (n_term n) false (n_disk n) (n_q n)) by (eapply D1_lower; [exact d1|lia|discriminate]).
    assert (X2 : D2 g Follower (n_win n) (n_wlast n) (n_term n) (n_q n) (n_log n)).
    { intros [E|E]; [discriminate|]. apply d2; auto. }
    assert (X3 : D3 g p (n_mvoted n) (n_mterm n) Follower (n_ballot n) (n_term n)).
    { destruct d3 as [k1 k2]. split; auto. discriminate. }
    subst n0. destruct (n_st n) eqn:Es; (split; [|split; reflexivity]);
      (split; [exact X1|]; split; [exact X2|]; split; [exact X3|]; split; [|exact d5]); cbn.
    - destruct d4 as [k1 [k2 k3]]. split; [exact k1|]. split; [auto|discriminate].
    - destruct d4 as [k1 [k2 k3]]. split; [exact k1|]. split; [auto|discriminate].
    - eapply D4_lower; [exact d4|lia|discriminate|auto].
    - exact d4. }
  clear d1 d2 d3 d4 d5. destruct H as [H [E1 E2]]. set (n1 := set_st Follower (set_leader None n0)) in *.
  destruct (Z.ltb_spec (n_term n1) t); auto.
  assert (ET : n_term n1 = n_term n) by (subst n1; cbn; auto).
  assert (EW : n_win n1 = n_win n) by (subst n1; cbn; auto).
  assert (ES : n_st n1 = Follower) by reflexivity.
  destruct H as [d1 [d2 [d3 [d4 d5]]]].
  assert (X : D g nt p (set_voted None (set_term t n1))).
  { split; [|split; [|split; [|split]]]; cbn [n_term n_st n_disk n_q n_win n_wlast n_log n_mvoted n_mterm n_ballot n_box n_vw n_sw n_rw set_voted set_term].
    - rewrite ES in *. eapply D1_lower; [exact d1|lia|discriminate].
    - rewrite EW. intros [E|E]; [congruence|]. specialize (Hw _ E). lia.
    - destruct d3 as [k1 k2]. split; auto. rewrite ES. discriminate.
    - rewrite ES in *. eapply D4_lower; [exact d4|lia|discriminate|auto].
    - exact d5. }
  destruct r; cbn [save]; auto; clear d1 d2 d3 d4 d5; destruct X as [d1 [d2 [d3 [d4 d5]]]];
    (split; [exact d1|]; split; [exact d2|]; split; [|split; [exact d4|exact d5]]);
    (split; [intros v E; cbn in E; discriminate E|intros E; cbn in E; discriminate E]).
Qed.
End Ghost.
