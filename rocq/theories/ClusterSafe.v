(** Layer 3 of the cluster proof: every handler keeps the history invariants. *)
From Verif Require Import Base BaseLemmas LogEntry Ballot QuorumSpec BallotProofs Node Cluster ClusterSpec
  LogPrefix ClusterElect ClusterLog ClusterGhost.
From Verif Require BallotBox BallotBoxProofs.

Definition bump (g : gh) (p : peer) (mt : Z) (na nh : Z -> Z -> Prop) : gh :=
  mkGh (gll g) (gel g) (fun q t j => gak g q t j \/ (q = p /\ na t j)) (fun q t j => ghd g q t j \/ (q = p /\ nh t j))
       (fun q => if q =? p then mt else gmt g q).
Definition none2 (t j : Z) : Prop := False.

Lemma bump_ext : forall g p mt (na nh : Z -> Z -> Prop), gmt g p <= mt -> (forall t j, na t j -> gmt g p <= t) -> Ext g (bump g p mt na nh).
Proof.
  intros g p mt na nh H1 H2. constructor; cbn.
  - apply llext_refl.
  - auto.
  - auto.
  - auto.
  - intros q. destruct (Z.eqb_spec q p); [subst q; auto|lia].
  - intros q t j [H|[-> H]]; auto. right. eauto.
Qed.
Lemma bump_wfg : forall g p mt (na nh : Z -> Z -> Prop), wfg g -> (forall t j, na t j -> nh t j) ->
  (forall t j, nh t j -> own g t j) -> wfg (bump g p mt na nh).
Proof.
  intros g p mt na nh [W1 W2] H1 H2. split; cbn.
  - intros q t j [H|[-> H]]; [exact (W1 _ _ _ H)|exact (H2 _ _ H)].
  - intros q t j [H|[-> H]]; auto.
Qed.

Section Safe.
Variable conf : list peer.
Variable cv : Z.
Hypothesis conf_nodup : NoDup conf.

Notation D := (D conf). Notation D1 := (D1 conf). Notation D3 := (D3 conf). Notation D4 := (D4 conf).
Notation D5 := (D5 conf). Notation cm := (cm conf). Notation cinfo := (cinfo conf). Notation lcok := (lcok conf).
Notation ook := (ook conf). Notation mok := (mok conf). Notation LE := (LE conf).

Record Ctx (vt : vtab) (g : gh) (nt : list msg) (p : peer) (n : node) : Prop := mkCtx {
  c_w : wfg g; c_D : D g nt p n; c_A : A conf vt nt p n; c_B : B (gll g) (gel g) p n;
  c_G : G (gll g) (gel g) nt; c_LE : LE g (gel g); c_mt : gmt g p = n_mterm n;
  c_net : forall m, In m nt -> mok g m }.

(** What a handler run leaves: the history has grown, and either the node is fine, or it is
    about to take office, or it appends to its own log. *)
Definition fine (g1 : gh) (nt : list msg) (p : peer) (n n' : node) (o : list nout) : Prop :=
  (D g1 nt p n' /\ Forall (ook g1) o) \/
  (exists n1 pre o1, D g1 nt p n1 /\ lower n n1 /\ become_leader conf cv n1 = Some (n', o1) /\
     granted (n_ballot n1) = true /\ n_win n1 <> Some (n_term n1) /\ Forall (ook g1) pre /\ plain pre /\ o = pre ++ o1) \/
  (exists vs, D g1 nt p n /\ is_lead (n_st n) = true /\ lead_append conf vs n = Some n' /\ o = []).
Definition res3 (g : gh) (nt : list msg) (p : peer) (n n' : node) (o : list nout) : Prop :=
  exists g1, gll g1 = gll g /\ gel g1 = gel g /\ Ext g g1 /\ wfg g1 /\
    (forall q t j, q <> p -> ghd g1 q t j -> ghd g q t j) /\
    (forall q, gmt g1 q = if q =? p then n_mterm n' else gmt g q) /\ fine g1 nt p n n' o.

Lemma bump_D : forall g nt p n mt (na nh : Z -> Z -> Prop), wfg g -> D g nt p n -> gmt g p <= mt ->
  (forall t j, na t j -> gmt g p <= t) ->
  (forall t j, nh t j -> own g t j /\ Sts (prefix (PX g t j)) (n_disk n) (n_q n)) ->
  D (bump g p mt na nh) nt p n.
Proof.
  intros g nt p n mt na nh W HD H1 H2 H3. apply (D_ext' conf g _ nt nt); [exact W|apply bump_ext; auto| |auto|exact HD].
  cbn. intros t j [H|[_ H]]; auto.
Qed.
Lemma bump_net : forall g nt p mt (na nh : Z -> Z -> Prop), wfg g -> (forall m, In m nt -> mok g m) -> gmt g p <= mt ->
  (forall t j, na t j -> gmt g p <= t) -> forall m, In m nt -> mok (bump g p mt na nh) m.
Proof.
  intros g nt p mt na nh W H H1 H2 m Hm. apply (ook_ext conf g _ (OSend m)); [auto|apply bump_ext; auto|]. apply H; auto.
Qed.

Lemma res_bump : forall g nt p n n' o (na nh : Z -> Z -> Prop), wfg g -> gmt g p <= n_mterm n' ->
  (forall t j, na t j -> gmt g p <= t) -> (forall t j, na t j -> nh t j) -> (forall t j, nh t j -> own g t j) ->
  fine (bump g p (n_mterm n') na nh) nt p n n' o -> res3 g nt p n n' o.
Proof.
  intros g nt p n n' o na nh W H1 H2 H3 H4 H. exists (bump g p (n_mterm n') na nh).
  split; [reflexivity|]. split; [reflexivity|]. split; [apply bump_ext; auto|]. split; [apply bump_wfg; auto|].
  split; [|split; [|exact H]]; cbn; [|auto]. intros q t j Hq [K|[K _]]; [auto|congruence].
Qed.

(** Handlers that add no acknowledgement. *)
Lemma res_plain : forall vt g nt p n n' o, Ctx vt g nt p n -> n_mterm n <= n_mterm n' ->
  (forall g1, g1 = bump g p (n_mterm n') none2 none2 -> Ext g g1 -> wfg g1 -> D g1 nt p n -> (forall m, In m nt -> mok g1 m) ->
     n_mterm n' = gmt g1 p -> fine g1 nt p n n' o) -> res3 g nt p n n' o.
Proof.
  intros vt g nt p n n' o HC Hm H. pose proof (c_w _ _ _ _ _ HC) as W. pose proof (c_mt _ _ _ _ _ HC) as E.
  apply (res_bump g nt p n n' o none2 none2); auto; try (intros ? ? []); try lia.
  apply H; auto.
  - apply bump_ext; [lia|intros ? ? []].
  - apply bump_wfg; auto; intros ? ? [].
  - apply bump_D; auto; try (intros ? ? []); [apply (c_D _ _ _ _ _ HC)|lia].
  - apply bump_net; auto; try (intros ? ? []); [apply (c_net _ _ _ _ _ HC)|lia].
  - cbn. rewrite Z.eqb_refl. reflexivity.
Qed.

Lemma fine_D : forall g nt p n n' o, D g nt p n' -> Forall (ook g) o -> fine g nt p n n' o.
Proof. intros. left. auto. Qed.

(** mterm never decreases *)
Lemma down_mterm : forall t r n, n_mterm n <= n_term n -> n_mterm n <= n_mterm (step_down t r n).
Proof.
  intros t r n H. unfold step_down. destruct (n_st n); cbn [set_st set_leader set_ctx set_box n_term];
  (destruct (Z.ltb_spec (n_term n) t); [destruct r; cbn; lia|cbn; lia]).
Qed.
Lemma down_mt_le : forall t r n, n_mterm n <= n_term n -> n_mterm (step_down t r n) <= n_term (step_down t r n).
Proof.
  intros t r n H. unfold step_down. destruct (n_st n); cbn [set_st set_leader set_ctx set_box n_term];
  (destruct (Z.ltb_spec (n_term n) t); [destruct r; cbn; lia|cbn; lia]).
Qed.
Lemma check_mterm : forall t f r n, n_mterm n <= n_term n -> n_mterm n <= n_mterm (check_step_down t f r n).
Proof.
  intros t f r n H. unfold check_step_down. set (n0 := if n_term n <? t then _ else _).
  assert (n_mterm n <= n_mterm n0).
  { subst n0. pose proof (down_mterm t r n H). destruct (n_term n <? t); auto. destruct (n_st n); auto. destruct (n_leader n); auto; lia. }
  destruct (n_leader n0); auto.
Qed.
Lemma down_win : forall t r n, n_win (step_down t r n) = n_win n.
Proof.
  intros t r n. unfold step_down. destruct (n_st n); cbn [set_st set_leader set_ctx set_box n_term];
  (destruct (Z.ltb_spec (n_term n) t); [destruct r; reflexivity|reflexivity]).
Qed.
Lemma check_D : forall g nt p n t f r, (forall w, n_win n = Some w -> w <= n_term n) -> D g nt p n -> D g nt p (check_step_down t f r n).
Proof.
  intros g nt p n t f r Hw HD. unfold check_step_down. set (n0 := if n_term n <? t then _ else _).
  assert (H : D g nt p n0).
  { subst n0. pose proof (down_D conf g nt p n t r Hw HD). destruct (n_term n <? t); auto. destruct (n_st n); auto. destruct (n_leader n); auto. }
  destruct (n_leader n0); auto.
Qed.
Lemma check_win : forall t f r n, n_win (check_step_down t f r n) = n_win n.
Proof.
  intros t f r n. unfold check_step_down. set (n0 := if n_term n <? t then _ else _).
  assert (n_win n0 = n_win n).
  { subst n0. destruct (n_term n <? t); [apply down_win|]. destruct (n_st n); try apply down_win. destruct (n_leader n); [auto|apply down_win]. }
  destruct (n_leader n0); auto.
Qed.

(** ** Facts about owned indexes *)
Lemma own_in : forall g t j L, own g t j -> prefix (PX g t j) L ->
  j <= zlen L /\ term_at L j = t /\ exists e, In e L /\ l_term e = t.
Proof.
  intros g t j L [H1 H2] Hp. assert (Hl : zlen (PX g t j) = j) by (unfold PX; rewrite zlen_firstn; lia).
  pose proof (prefix_len _ _ Hp). split; [lia|].
  assert (E : term_at L j = t).
  { rewrite <- (term_at_prefix _ _ j Hp) by lia.
    rewrite (term_at_prefix (PX g t j) (gll g t) j); [exact H2|apply prefix_firstn|lia]. }
  split; auto. destruct (term_at_in L j) as [a [e [b [E1 [E2 E3]]]]]; [lia|]. exists e. split; [|congruence].
  rewrite E1. apply in_or_app. right; left; reflexivity.
Qed.
Lemma own_lead : forall g nt t q l j, G (gll g) (gel g) nt -> In (t, q, l) (gel g) -> zlen l < j <= zlen (gll g t) -> own g t j.
Proof.
  intros g nt t q l j HG Hin Hj. destruct (g_log _ _ _ HG _ _ _ Hin) as [s [E [_ [Hs _]]]]. pose proof (zlen_nonneg l).
  split; [lia|]. destruct (term_at_in (gll g t) j) as [a [e [b [E1 [E2 E3]]]]]; [lia|]. rewrite <- E3. apply Hs.
  assert (Hz : znth (gll g t) (j - 1) = Some e).
  { rewrite E1. rewrite znth_app2 by lia. rewrite E2, Z.sub_diag. apply znth_cons_0. }
  rewrite E in Hz. rewrite znth_app2 in Hz by lia. eapply znth_In; eauto.
Qed.
Lemma committed_in : forall g nt t0 i0 t q l c, G (gll g) (gel g) nt -> LE g (gel g) -> cm g t0 i0 -> In (t, q, l) (gel g) -> t0 <= t ->
  c <= i0 -> prefix (PX g t0 c) (gll g t).
Proof.
  intros g nt t0 i0 t q l c HG HL HC Hin Ht Hc. destruct (Z.eq_dec t0 t) as [->|Hne]; [apply prefix_firstn|].
  eapply prefix_trans; [apply (prefix_firstn_le _ _ (Z.to_nat i0)); lia|].
  eapply prefix_trans; [eapply complete; eauto; lia|].
  destruct (g_log _ _ _ HG _ _ _ Hin) as [s [E _]]. rewrite E. apply prefix_app.
Qed.
Lemma lcok_new : forall g nt c u t L, G (gll g) (gel g) nt -> LE g (gel g) -> cinfo g c t -> c <= u -> u <= zlen (gll g t) ->
  prefix (PX g t u) L -> lcok g t L c.
Proof.
  intros g nt c u t L HG HL [Hc|[t0 [i0 [H1 [H2 H3]]]]] Hu Hul Hp; [left; auto|].
  destruct (Z_le_gt_dec c 0); [left; auto|]. right. exists t0, i0. split; auto. split; auto. split; auto.
  destruct (g_el _ _ _ HG t) as [q [l Hin]]. { intros E. rewrite E, zlen_nil in Hul. lia. }
  pose proof (committed_in _ _ _ _ _ _ _ _ HG HL H1 Hin H3 H2) as K.
  eapply prefix_trans; [|exact Hp]. eapply prefix_comparable; [exact K|apply prefix_firstn|].
  unfold PX. rewrite !zlen_firstn. lia.
Qed.
Lemma set_committed_D : forall g nt p n c n', D g nt p n -> lcok g (n_term n) (n_log n) c -> set_committed c n = Some n' -> D g nt p n'.
Proof.
  intros g nt p n c n' HD HL H. unfold set_committed, BallotBox.set_last_committed_index in H.
  destruct (negb (BallotBox.pend (n_box n) =? 0) || negb (match BallotBox.bq (n_box n) with [] => true | _ :: _ => false end)) eqn:E.
  { destruct (c <? BallotBox.pend (n_box n)); inversion H; subst n'. exact HD. }
  apply orb_false_iff in E. destruct E as [E1 E2]. apply negb_false_iff, Z.eqb_eq in E1.
  destruct (c <? BallotBox.lc (n_box n)); [inversion H; subst n'; exact HD|].
  destruct (BallotBox.lc (n_box n) <? c); [|inversion H; subst n'; exact HD].
  inversion H; subst n'. destruct HD as [d1 [d2 [d3 [[k1 [k2 k3]] d5]]]].
  split; [exact d1|]. split; [exact d2|]. split; [exact d3|]. split; [|exact d5]. split; [exact HL|]. split; [exact k2|exact k3].
Qed.

(** ** commit_at *)
Lemma commit_D : forall g nt p n f l q n' o, G (gll g) (gel g) nt -> D g nt p n ->
  (is_lead (n_st n) = true -> n_log n = gll g (n_term n) /\
     forall j, own g (n_term n) j -> j <= l -> gak g q (n_term n) j) ->
  commit_to f l q n = (n', o) -> D g nt p n' /\ Forall (ook g) o.
Proof.
  intros g nt p n f l q n' o HG HD Hl H. unfold commit_to in H. pose proof HD as [d1 [d2 [d3 [[k1 [k2 k3]] d5]]]].
  destruct (BallotBox.commit_at (n_box n) f l q) as [[b r] oi] eqn:E. unfold BallotBox.commit_at in E.
  assert (Same : b = n_box n -> oi = None -> D g nt p n' /\ Forall (ook g) o).
  { intros -> ->. inversion H; subst n' o. split; [exact HD|constructor]. }
  destruct (Z.eqb_spec (BallotBox.pend (n_box n)) 0) as [E0|E0]; [inversion E; subst; apply Same; auto|].
  destruct (is_lead (n_st n)) eqn:Es; [|destruct (k2 eq_refl); congruence].
  destruct (Z.ltb_spec l (BallotBox.pend (n_box n))); [inversion E; subst; apply Same; auto|].
  destruct (Z.leb_spec (BallotBox.pend (n_box n) + zlen (BallotBox.bq (n_box n))) l); [inversion E; subst; apply Same; auto|].
  clear Same. destruct (Hl eq_refl) as [HL Hak]. destruct (k3 eq_refl) as [l0 [m1 [m2 [m3 m4]]]].
  set (bx := n_box n) in *. pose proof (zlen_nonneg l0) as Hl0.
  destruct (BallotBox.commit_loop (BallotBox.bq bx) (BallotBox.pend bx) (Z.max (BallotBox.pend bx) f) l q no_hint 0) as [qq c] eqn:El.
  apply BallotBoxProofs.commit_loop_spec in El; [|lia]. destruct El as [L1 [L2 [L3 L4]]].
  assert (Q : forall k b', znth qq k = Some b' -> exists acks, ballot_ok conf None acks b' /\ forall x, In x acks -> gak g x (n_term n) (BallotBox.pend bx + k)).
  { intros k b' Hk. pose proof (znth_some_bound _ _ _ Hk) as Hb. destruct (znth_in_bound (BallotBox.bq bx) k) as [b0 Hb0]; [lia|].
    destruct (m4 _ _ Hb0) as [acks [A1 A2]]. destruct (L2 _ _ Hb0) as [b'' [B1 B2]]. rewrite Hk in B1. inversion B1; subst b''.
    destruct B2 as [[B2 [[h B3] _]]|[_ ->]]; [|eauto]. exists (q :: acks). split.
    - subst b'. apply grant_ok; auto. split; [exact conf_nodup|exact I].
    - intros x [<-|Hx]; auto. apply Hak; [|lia]. eapply own_lead; [exact HG|exact m1|]. rewrite <- HL. lia. }
  destruct (Z.eqb_spec c 0) as [Ec|Ec]; inversion E; subst b r oi; clear E; inversion H; subst n' o; clear H.
  - split; [|constructor]. split; [exact (proj1 HD)|]. split; [exact d2|]. split; [exact d3|]. split; [|exact d5].
    split; [exact k1|]. split; [cbn; rewrite Es; discriminate|]. intros _. exists l0. cbn. split; auto. split; auto. split; [lia|]. exact Q.
  - destruct L3 as [->|[C1 [C2 [b' [C3 C4]]]]]; [congruence|].
    destruct (Q _ _ C3) as [acks [A1 A2]]. replace (BallotBox.pend bx + (c - BallotBox.pend bx)) with c in A2 by lia.
    apply (ballot_ok_granted _ _ _ _ A1) in C4. destruct C4 as [C4 _].
    assert (CM : cm g (n_term n) c).
    { split; [eapply own_lead; [exact HG|exact m1|rewrite <- HL; lia]|]. exists acks. auto. }
    split; [|constructor; [exists c; split; [exact CM|unfold PX; rewrite HL; reflexivity]|constructor]].
    split; [exact (proj1 HD)|]. split; [exact d2|]. split; [exact d3|]. split; [|exact d5].
    split; [|split; [cbn; rewrite Es; discriminate|]].
    + right. exists (n_term n), c. cbn. split; auto. split; [lia|]. split; [lia|]. rewrite HL. apply prefix_firstn.
    + intros _. exists l0. cbn. split; auto. split; [lia|]. split; [rewrite zlen_skipn; lia|].
      intros k b0 Hk. pose proof (znth_some_bound _ _ _ Hk). rewrite znth_skipn in Hk by lia. destruct (Q _ _ Hk) as [ak [X1 X2]]. exists ak. split; auto.
      intros x Hx. specialize (X2 x Hx). replace (c + 1 + k) with (BallotBox.pend bx + (k + Z.of_nat (Z.to_nat (c - BallotBox.pend bx + 1)))) by lia. exact X2.
Qed.

(** ** Elections *)
Lemma votes_snoc : forall q k, votes q -> votes (q ++ [DVote k]).
Proof. intros q k H o Ho. apply in_app_or in Ho. destruct Ho as [Ho|[<-|[]]]; eauto. Qed.
Lemma D2_snoc_vote : forall g st win wl T q L k, D2 g st win wl T q L -> D2 g st win wl T (q ++ [DVote k]) L.
Proof.
  intros g st win wl T q L k H E. destruct (H E) as [K|[[a [b [q1 [q2 [e [v ni]]]]]]|[[a [b v]]|[a v]]]]; [left; exact K| | | ]; right.
  - left. split; [exact a|]. split; [exact b|]. exists q1, (q2 ++ [DVote k]). subst q. rewrite <- app_assoc. split; [reflexivity|].
    split; [apply votes_snoc; exact v|exact ni].
  - right; left. split; [exact a|]. split; [exact b|]. apply votes_snoc; auto.
  - right; right. split; [exact a|]. apply votes_snoc; auto.
Qed.
Lemma D2_pop : forall g st win wl T o q L, D2 g st win wl T (o :: q) L -> o <> DElect T -> D2 g st win wl T q L.
Proof.
  intros g st win wl T o q L H No E. destruct (H E) as [K|[[a [b [q1 [q2 [e [v ni]]]]]]|[[a [b v]]|[a v]]]]; [left; exact K| | | ]; right.
  - left. split; [exact a|]. split; [exact b|]. destruct q1 as [|x q1]; cbn in e; inversion e; subst; [congruence|]. exists q1, q2.
    split; [reflexivity|]. split; [exact v|]. intros Hn. apply ni. right. exact Hn.
  - right; left. split; [exact a|]. split; [exact b|]. intros x Hx. apply v. right; exact Hx.
  - right; right. split; [exact a|]. intros x Hx. apply v. right; exact Hx.
Qed.
Lemma elect1_D : forall g nt p n, D g nt p n -> is_lead (n_st n) = false -> D g nt p (elect_self_1 conf n).
Proof.
  intros g nt p n HD Hs. unfold elect_self_1. destruct (memb (n_self n) conf); auto.
  destruct HD as [d1 [d2 [d3 [d4 d5]]]]. split; [|split; [|split; [|split; [|exact d5]]]]; cbn.
  - apply D1_inert; [eapply D1_lower; [exact d1|lia|discriminate]|]. right. eexists; split; [reflexivity|lia].
  - intros _. right. left. split; auto; split; auto. exists (n_q n), []. split; auto. split; [intros o []|].
    intros Hin. destruct d1 as [_ d1]. destruct (QF_In _ _ _ _ d1 Hin) as [d' [q' K]]. cbn in K. lia.
  - destruct d3 as [k1 k2]. split; auto. intros _. exists []. split; [apply ballot_ok_init|intros q []].
  - eapply D4_lower; [exact d4|lia|discriminate|auto].
Qed.

Lemma lower_same : forall n n', n_log n' = n_log n -> n_disk n' = n_disk n -> n_q n' = n_q n ->
  n_sw n' = n_sw n -> n_term n' = n_term n -> n_st n' = n_st n -> lower n n'.
Proof.
  intros n n' e1 e2 e3 e4 e5 e6. unfold lower. rewrite e1, e2, e3, e4, e5, e6.
  split; auto. split; auto. split; [exists []; rewrite app_nil_r; split; [auto|intros ? []]|]. split; auto. split; [lia|]. auto.
Qed.
Lemma add_vote : forall g nt p n q, D g nt p n -> (n_st n = Candidate -> Ev g q (n_term n) p) ->
  D g nt p (set_ctx (n_ver n) (grant1 (n_ballot n) q) (n_vlast n) n).
Proof.
  intros g nt p n q [d1 [d2 [[k1 k2] [d4 d5]]]] He. split; [exact d1|]. split; [exact d2|]. split; [|split; [exact d4|exact d5]].
  split; [exact k1|]. intros E. destruct (k2 E) as [acks [A1 A2]]. exists (q :: acks). split.
  - apply grant_ok; auto. split; [exact conf_nodup|exact I].
  - intros x [<-|Hx]; auto.
Qed.
Lemma self_ev : forall vt g nt p n, A conf vt nt p n -> D g nt p n -> vt p (n_term n) = Some p ->
  Ev g p (n_term n) p /\ n_win n <> Some (n_term n).
Proof.
  intros vt g nt p n HA HD Hv. destruct (a_vt _ _ _ _ _ HA _ _ Hv) as [H1 [_ H2]]. destruct (a_mt _ _ _ _ _ HA) as [H3 H4].
  assert (E : n_mterm n = n_term n) by lia. split.
  - destruct HD as [_ [_ [[k1 _] _]]]. rewrite <- E. apply k1. apply H2. lia.
  - intros Ew. destruct (a_win _ _ _ _ _ HA _ Ew) as [_ K]. specialize (K eq_refl). lia.
Qed.
Lemma become_mterm : forall n n' o, become_leader conf cv n = Some (n', o) -> n_mterm n' = n_mterm n.
Proof.
  intros n n' o H. unfold become_leader in H. destruct (n_st n); try discriminate.
  destruct (BallotBox.reset_pending_index (n_box n) (zlen (n_log n) + 1)); try discriminate.
  match type of H with context [lead_append conf [cv] ?x] => set (n1 := x) in *; destruct (lead_append conf [cv] n1) eqn:E end; inversion H; subst n0.
  unfold lead_append in E. destruct (pend_all conf (n_box n1) [cv]); inversion E. reflexivity.
Qed.
Lemma lead_append_mterm : forall vs n n', lead_append conf vs n = Some n' -> n_mterm n' = n_mterm n.
Proof. intros vs n n' E. unfold lead_append in E. destruct (pend_all conf (n_box n) vs); inversion E. reflexivity. Qed.

(** grant_self after the vote for oneself is on record *)
Lemma grant_D : forall g nt p n n' o, D g nt p n -> n_self n = p -> (n_st n = Candidate -> Ev g p (n_term n) p) ->
  n_win n <> Some (n_term n) -> grant_self conf cv n = Some (n', o) ->
  n_mterm n' = n_mterm n /\
  ((D g nt p n' /\ o = []) \/
   (exists n1, D g nt p n1 /\ lower n n1 /\ become_leader conf cv n1 = Some (n', o) /\ granted (n_ballot n1) = true /\ n_win n1 <> Some (n_term n1))).
Proof.
  intros g nt p n n' o HD Hs He Hw H. unfold grant_self in H. pose proof (add_vote g nt p n p HD He) as HD1. rewrite Hs in H.
  set (n1 := set_ctx (n_ver n) (grant1 (n_ballot n) p) (n_vlast n) n) in *.
  destruct (granted (n_ballot n1)) eqn:Eg.
  - split; [apply become_mterm in H; rewrite H; reflexivity|]. right. exists n1. split; auto. split; [apply lower_same; reflexivity|]. auto.
  - inversion H; subst n' o. split; [reflexivity|]. left. auto.
Qed.

Lemma ack_held : forall g nt p n t j, wfg g -> D g nt p n -> fin (n_disk n) (n_q n) = n_log n -> gak g p t j ->
  prefix (PX g t j) (n_log n) \/ lacks (gel g) g t j.
Proof.
  intros g nt p n t j W [[d1 _] _] Hf H. destruct (d1 _ _ (proj2 W _ _ _ H)) as [K|K]; auto. left. rewrite <- Hf. eapply Sts_fin; eauto.
Qed.
Lemma id_geb_refl : forall i, id_geb i i = true.
Proof. intros [a b]. unfold id_geb, id_ltb. cbn. rewrite !Z.ltb_irrefl, Z.eqb_refl. reflexivity. Qed.

Definition holds_log (n : node) (t j : Z) : Prop := votes (n_q n) /\ 1 <= j <= zlen (n_log n) /\ t = term_at (n_log n) j.
Lemma holds_sts : forall g p n t j, B (gll g) (gel g) p n -> holds_log n t j ->
  own g t j /\ Sts (prefix (PX g t j)) (n_disk n) (n_q n).
Proof.
  intros g p n t j HB [Hv [Hj ->]]. pose proof (b_fin _ _ _ _ HB) as Hf.
  assert (W : wfl (gll g) (n_log n)) by (rewrite <- Hf; eapply Sts_fin; apply (b_sts _ _ _ _ HB)).
  destruct (own_wfl g (n_log n) j W Hj) as [O E]. split; auto. apply Sts_inert; [|apply votes_inert; auto].
  rewrite E. rewrite votes_fin in Hf by auto. rewrite Hf. apply prefix_firstn.
Qed.

Lemma elect2_res : forall vt g nt p n now n' o, Ctx vt g nt p n -> elect_self_2 conf cv SOk now n = Some (n', o) -> res3 g nt p n n' o.
Proof.
  intros vt g nt p n now n' o HC H. unfold elect_self_2 in H.
  destruct (n_win n) as [w|] eqn:Ew; try discriminate. destruct (n_wlast n) as [lid|] eqn:El; try discriminate.
  cbn [n_term set_win] in H. pose proof HC as [W HD HA HB HG HL Hmt Hnet]. destruct (a_mt _ _ _ _ _ HA) as [M1 M2].
  destruct (Z.eqb_spec (n_term n) w) as [E|E].
  2:{ inversion H; subst n' o. eapply res_plain; [exact HC|cbn; lia|]. intros g1 _ _ _ [d1 [d2 [d3 [d4 d5]]]] _ _.
      apply fine_D; [|constructor]. split; [exact d1|]. split; [|split; [exact d3|split; [exact d4|exact d5]]].
      cbn. intros [K|K]; [|discriminate]. destruct (d2 (or_introl K)) as [K2|K2]; [left; exact K2|]. rewrite Ew in K2.
      destruct K2 as [[a _]|[[a _]|[a v]]]; [congruence|congruence|]. right; right; right. split; [discriminate|exact v]. }
  subst w. set (T := n_term n) in *.
  assert (K2 : elected g T \/ (lid = last_id (n_log n) /\ votes (n_q n))).
  { destruct HD as [_ [d2 _]]. destruct (d2 (or_intror Ew)) as [K|K]; auto. right. rewrite Ew, El in K.
    destruct K as [[_ [a _]]|[[_ [a v]]|[a _]]]; [discriminate| |fold T in a; congruence]. inversion a. auto. }
  set (g1 := bump g p T none2 (holds_log n)).
  assert (Nh : forall t j, holds_log n t j -> own g t j /\ Sts (prefix (PX g t j)) (n_disk n) (n_q n)) by (intros; eapply holds_sts; eauto).
  assert (W1 : wfg g1) by (apply bump_wfg; auto; [intros ? ? []|intros t j K; apply Nh in K; tauto]).
  assert (D1' : D g1 nt p n) by (apply bump_D; auto; [rewrite Hmt; fold T in M2; lia|intros ? ? []]).
  assert (X1 : Ext g g1) by (apply bump_ext; [rewrite Hmt; fold T in M2; lia|intros ? ? []]).
  assert (Fin := b_fin _ _ _ _ HB).
  assert (WL : wfl (gll g) (n_log n)) by (rewrite <- Fin; eapply Sts_fin; apply (b_sts _ _ _ _ HB)).
  assert (Ho : reqok g1 p T lid).
  { destruct K2 as [K2|[K2 V2]]; [left; exact K2|right]. exists (n_log n). split; auto. split; [exact WL|]. intros j Hj. right. cbn. split; auto. split; auto. }
  assert (He : Ev g1 p T p).
  { split; [cbn; rewrite Z.eqb_refl; lia|]. destruct K2 as [K2|[K2 V2]]; [left; exact K2|right].
    exists (n_log n), (n_log n). split; [exact WL|]. split; [split; [exact WL|]; intros j Hj; right; cbn; split; auto; split; auto|].
    split; [apply id_geb_refl|]. intros t j Ht Ha. eapply ack_held; eauto. }
  set (n0 := save SOk (Some (n_self n)) (set_ctx (n_ver n) (n_ballot n) lid (set_win None None n))).
  assert (D0 : D g1 nt p n0).
  { destruct D1' as [d1 [d2 [d3 [d4 d5]]]]. split; [exact d1|]. split; [|split; [|split; [exact d4|exact d5]]]; cbn.
    - intros [K|K]; [|discriminate]. destruct K2 as [K2|[K2 V2]]; [left; exact K2|]. right; right; right. split; [discriminate|exact V2].
    - destruct d3 as [k1 k2]. split; [|exact k2]. intros v Ev. inversion Ev; subst v. rewrite (a_self _ _ _ _ _ HA). exact He. }
  assert (Hn : n_mterm n' = T /\ fine g1 nt p n n' o).
  { destruct now.
    - change (set_ctx (n_ver (set_win None None n)) (n_ballot (set_win None None n)) lid (set_win None None n)) with (set_ctx (n_ver n) (n_ballot n) lid (set_win None None n)) in H.
      match type of H with context [grant_self conf cv ?x] => change x with n0 in H; destruct (grant_self conf cv n0) as [[n2 o2]|] eqn:Eg end; inversion H; subst n' o.
      destruct (grant_D g1 nt p n0 n2 o2 D0 (a_self _ _ _ _ _ HA) (fun _ => He)) as [Em Hg]; [cbn; discriminate|exact Eg|].
      split; [rewrite Em; reflexivity|]. destruct Hg as [[Hg ->]|[n1 [G1 [G2 [G3 [G4 G5]]]]]].
      + apply fine_D; auto. constructor; [|constructor]. cbn. rewrite (a_self _ _ _ _ _ HA). exact Ho.
      + right; left. exists n1, [OSend (MVoteReq (n_self n) T lid (n_ver n))], o2. split; auto. split; [eapply lower_trans; [|exact G2]; apply lower_same; reflexivity|].
        split; auto. split; auto. split; auto. split; [constructor; [|constructor]; cbn; rewrite (a_self _ _ _ _ _ HA); exact Ho|].
        split; [intros x [<-|[]]; exact I|]. reflexivity.
    - inversion H; subst n' o. split; [reflexivity|]. apply fine_D; [exact D0|]. constructor; [|constructor]. cbn. rewrite (a_self _ _ _ _ _ HA). exact Ho. }
  destruct Hn as [Hn1 Hn2]. apply (res_bump g nt p n n' o none2 (holds_log n)); auto.
  - rewrite Hn1, Hmt. fold T in M2. lia.
  - intros ? ? [].
  - intros ? ? [].
  - intros t j K. apply Nh in K. tauto.
  - rewrite Hn1. exact Hn2.
Qed.

Lemma gself_res : forall vt g nt p n again n' o, Ctx vt g nt p n -> grant_self_timer conf cv again n = Some (n', o) -> res3 g nt p n n' o.
Proof.
  intros vt g nt p n again n' o HC H. unfold grant_self_timer in H. destruct (n_gself n) as [v|] eqn:Eg; try discriminate.
  pose proof HC as [W HD HA HB HG HL Hmt Hnet]. cbn [n_ver set_gself] in H.
  destruct (Z.eqb_spec (n_ver n) v) as [E|E].
  2:{ inversion H; subst n' o. eapply res_plain; [exact HC|cbn; lia|]. intros g1 _ _ _ D1' _ _. apply fine_D; [exact D1'|constructor]. }
  destruct again.
  { inversion H; subst n' o. eapply res_plain; [exact HC|cbn; lia|]. intros g1 _ _ _ D1' _ _. apply fine_D; [exact D1'|constructor]. }
  set (n0 := set_gself None n) in *.
  assert (Em : n_mterm n' = n_mterm n).
  { unfold grant_self in H. destruct (granted _); [apply become_mterm in H; rewrite H; reflexivity|inversion H; reflexivity]. }
  eapply res_plain; [exact HC|lia|]. intros g1 _ _ W1 D1' _ _.
  destruct (n_st n) eqn:Es.
  3:{ destruct (a_gself _ _ _ _ _ HA _ Eg) as [_ Hv]. specialize (Hv (eq_sym E) Es).
      destruct (self_ev _ _ _ _ _ HA D1' Hv) as [He Hw].
      destruct (grant_D g1 nt p n0 n' o D1' (a_self _ _ _ _ _ HA) (fun _ => He) Hw H) as [_ [[Hg ->]|[n1 [G1 [G2 [G3 [G4 G5]]]]]]].
      - apply fine_D; [auto|constructor].
      - right; left. exists n1, [], o. split; auto. split; [eapply lower_trans; [|exact G2]; apply lower_same; reflexivity|].
        split; auto. split; auto. split; auto. split; [constructor|]. split; [apply plain_nil|reflexivity]. }
  all: unfold grant_self in H; cbn [n_self n_ballot n_ver n_vlast n0 set_gself] in H; unfold become_leader in H; cbn [n_st set_ctx set_gself n0] in H; rewrite ?Es in H;
    destruct (granted _); [discriminate|]; inversion H; subst n' o; apply fine_D; [|constructor].
  all: change (D g1 nt p (set_ctx (n_ver n) (grant1 (n_ballot n) (n_self n)) (n_vlast n) n)); apply add_vote; auto; intros Ec; congruence.
Qed.

Lemma find_vw_In : forall k l w, find_vw k l = Some w -> In w l.
Proof. induction l; cbn; intros w H; try discriminate. destruct (vw_id a =? k); auto. inversion H; auto. Qed.
Lemma find_rw_In : forall k l w, find_rw k l = Some w -> In w l.
Proof. induction l; cbn; intros w H; try discriminate. destruct (rw_id a =? k); auto. inversion H; auto. Qed.

(** ** Votes for others *)
Lemma vreq1_res : forall vt g nt p n c t l v n' o, Ctx vt g nt p n -> vote_req_1 c t l v n = (n', o) -> res3 g nt p n n' o.
Proof.
  intros vt g nt p n c t l v n' o HC H. unfold vote_req_1 in H. destruct (Z.ltb_spec t (n_term n)); inversion H; subst n' o;
    (eapply res_plain; [exact HC|cbn; lia|]); intros g1 _ _ _ D1' _ _.
  - apply fine_D; auto. constructor; [|constructor]. cbn. discriminate.
  - apply fine_D; [|constructor]. destruct D1' as [d1 [d2 [d3 [d4 [e1 [e2 e3]]]]]].
    split; [|split; [|split; [exact d3|split; [exact d4|]]]]; cbn.
    + apply D1_inert; [exact d1|left; eauto].
    + apply D2_snoc_vote; auto.
    + split; [|split; [exact e2|exact e3]]. intros w [<-|Hw]; cbn; [lia|auto].
Qed.

Lemma set_vote_D : forall g nt p n cand, D g nt p n -> Ev g p (n_term n) cand ->
  forall v, D g nt p (set_voted v (set_meta (n_term n) (Some cand) n)).
Proof.
  intros g nt p n cand [d1 [d2 [[k1 k2] [d4 d5]]]] He v. split; [exact d1|]. split; [exact d2|]. split; [|split; [exact d4|exact d5]].
  split; [|exact k2]. cbn. intros x Hx. inversion Hx; subst x. exact He.
Qed.
Lemma down_log : forall t r n, n_log (step_down t r n) = n_log n /\ n_disk (step_down t r n) = n_disk n /\ n_q (step_down t r n) = n_q n.
Proof.
  intros t r n. unfold step_down. destruct (n_st n); cbn [set_st set_leader set_ctx set_box n_term];
  (destruct (Z.ltb_spec (n_term n) t); [destruct r; repeat split; reflexivity|repeat split; reflexivity]).
Qed.

Lemma vreq2_res : forall vt vt' g nt p n k lease r1 r2 n' o, Ctx vt g nt p n -> A conf vt' nt p n' ->
  (forall w, find_vw k (n_vw n) = Some w -> vw_seen w = Some (last_id (n_log n))) ->
  vote_req_2 k lease r1 r2 n = Some (n', o) -> res3 g nt p n n' o.
Proof.
  intros vt vt' g nt p n k lease r1 r2 n' o HC HA' Hu H. pose proof HC as [W HD HA HB HG HL Hmt Hnet].
  unfold vote_req_2 in H. destruct (find_vw k (n_vw n)) as [w|] eqn:Ef; try discriminate.
  rewrite (Hu w eq_refl) in H. clear Hu. pose proof (find_vw_In _ _ _ Ef) as Hw.
  destruct (a_vw _ _ _ _ _ HA _ Hw) as [Wc Wn]. destruct (a_mt _ _ _ _ _ HA) as [M1 M2].
  set (n0 := set_vw (drop_vw k (n_vw n)) n) in *.
  match type of H with Some (?a, [OSend (MVoteResp _ _ _ _ ?b _)]) = _ => set (n1 := a) in *; set (gr := b) in * end.
  inversion H; subst n' o. clear H.
  assert (Hall : n_mterm n <= n_mterm n1 /\ forall g1, Ext g g1 -> wfg g1 -> D g1 nt p n -> (forall m, In m nt -> mok g1 m) ->
     n_mterm n1 = gmt g1 p -> D g1 nt p n1).
  { assert (Z0 : forall g1, D g1 nt p n -> D g1 nt p n0).
    { intros g1 [d1 [d2 [d3 [d4 [e1 [e2 e3]]]]]]. split; [exact d1|]. split; [exact d2|]. split; [exact d3|]. split; [exact d4|].
      split; [|split; [exact e2|exact e3]]. cbn. intros x Hx. apply filter_In in Hx. apply e1. tauto. }
    subst n1. destruct (Z.eqb_spec (vw_prev w) (n_term n0)) as [Ep|Ep]; cbn [negb].
    2:{ split; [cbn; lia|]. auto. }
    destruct lease; [split; [cbn; lia|]; auto|].
    assert (Hpt : n_term n <= vw_term w). { destruct HD as [_ [_ [_ [_ [e1 _]]]]]. specialize (e1 _ Hw). cbn in Ep. lia. }
    set (n2 := if n_term n0 <? vw_term w then step_down (vw_term w) r1 n0 else n0).
    assert (Hwin : forall x, n_win n0 = Some x -> x <= n_term n0) by (intros x Hx; apply (a_win _ _ _ _ _ HA _ Hx)).
    assert (H2 : n_mterm n <= n_mterm n2 <= n_term n2 /\ n_term n2 = vw_term w /\ n_log n2 = n_log n /\ n_disk n2 = n_disk n /\ n_q n2 = n_q n /\
              n_win n2 = n_win n /\ (forall g1, D g1 nt p n -> D g1 nt p n2)).
    { subst n2. destruct (Z.ltb_spec (n_term n0) (vw_term w)).
      - split; [split; [exact (down_mterm (vw_term w) r1 n0 M2)|exact (down_mt_le (vw_term w) r1 n0 M2)]|]. split; [rewrite down_term; cbn in *; lia|].
        destruct (down_log (vw_term w) r1 n0) as [q1 [q2 q3]]. split; [exact q1|]. split; [exact q2|]. split; [exact q3|].
        split; [exact (down_win (vw_term w) r1 n0)|]. intros. apply down_D; auto.
      - split; [cbn; lia|]. split; [cbn in *; lia|]. split; [reflexivity|]. split; [reflexivity|]. split; [reflexivity|]. split; [reflexivity|]. auto. }
    destruct H2 as [[H2a H2b] [H2c [H2d [H2e [H2f [H2g H2h]]]]]].
    destruct (id_geb (vw_last w) (last_id (n_log n)) && opeer_eqb (n_voted n2) None) eqn:Eg; [|auto].
    apply andb_true_iff in Eg. destruct Eg as [Eg _].
    set (n3 := step_down (vw_term w) r1 n2).
    assert (H3a : n_mterm n2 <= n_mterm n3 <= n_term n3) by (split; [apply down_mterm; auto|apply down_mt_le; auto]).
    assert (H3c : n_term n3 = vw_term w) by (subst n3; rewrite down_term; lia).
    destruct (down_log (vw_term w) r1 n2) as [q1 [q2 q3]]. fold n3 in q1, q2, q3.
    assert (H3h : forall g1, D g1 nt p n -> D g1 nt p n3).
    { intros g1 K. apply down_D; auto. intros x Hx. rewrite H2g in Hx. apply (a_win _ _ _ _ _ HA) in Hx. lia. }
    assert (Hev : forall g1, Ext g g1 -> wfg g1 -> D g1 nt p n -> (forall m, In m nt -> mok g1 m) -> n_term n3 = gmt g1 p -> Ev g1 p (n_term n3) (vw_cand w)).
    { intros g1 X1 W1 K Hm E. split; [lia|]. specialize (Hm _ Wn). cbn in Hm. rewrite H3c. destruct Hm as [Hm|[cl [C1 C2]]]; [left; exact Hm|right].
      exists (n_log n), cl. split.
      - eapply wfl_ext; [|apply X1]. rewrite <- (b_fin _ _ _ _ HB). eapply Sts_fin; apply (b_sts _ _ _ _ HB).
      - split; [exact C1|]. split; [rewrite <- C2; exact Eg|]. intros t j _ Ha. eapply ack_held; [exact W1|exact K|apply (b_fin _ _ _ _ HB)|exact Ha]. }
    destruct r2; cbn [save].
    - split; [cbn; lia|]. intros g1 X1 W1 K Hm E. apply (set_vote_D g1 nt p n3 (vw_cand w) (H3h g1 K)). apply Hev; auto.
    - split; [cbn; lia|]. intros g1 X1 W1 K Hm E. apply (H3h g1 K).
    - split; [cbn; lia|]. intros g1 X1 W1 K Hm E. apply (set_vote_D g1 nt p n3 (vw_cand w) (H3h g1 K)). apply Hev; auto. }
  destruct Hall as [Hm Hall]. eapply res_plain; [exact HC|exact Hm|]. intros g1 _ X1 W1 D1' N1 E1. specialize (Hall g1 X1 W1 D1' N1 E1).
  apply fine_D; auto. constructor; [|constructor]. cbn. intros Eg. subst gr. apply andb_true_iff in Eg. destruct Eg as [Eg1 Eg2].
  apply Z.eqb_eq in Eg1. destruct (n_voted n1) as [v|] eqn:Ev; cbn in Eg2; try discriminate. apply Z.eqb_eq in Eg2. subst v.
  rewrite (a_self _ _ _ _ _ HA').
  destruct (a_voted _ _ _ _ _ HA' _ Ev) as [[V1 V2]|[V1 _]]; [|congruence].
  rewrite Eg1, <- V1. destruct Hall as [_ [_ [[k1 _] _]]]. apply k1. exact V2.
Qed.

Lemma vresp_res : forall vt g nt p n from rt0 v gr rt ll r n' o, Ctx vt g nt p n ->
  In (MVoteResp from p rt0 v gr rt) nt -> (v = n_ver n -> vt p rt0 = Some p) ->
  vote_resp conf cv from rt0 v gr rt ll r n = Some (n', o) -> res3 g nt p n n' o.
Proof.
  intros vt g nt p n from rt0 v gr rt ll r n' o HC Hin Hv H. pose proof HC as [W HD HA HB HG HL Hmt Hnet].
  destruct (a_mt _ _ _ _ _ HA) as [M1 M2]. unfold vote_resp in H.
  assert (Same : Some (n, []) = Some (n', o) -> res3 g nt p n n' o).
  { intros E. inversion E; subst n' o. eapply res_plain; [exact HC|lia|]. intros g1 _ _ _ D1' _ _. apply fine_D; [exact D1'|constructor]. }
  destruct (Z.eqb_spec v (n_ver n)) as [Ever|]; cbn [negb] in H; [|auto].
  destruct (n_st n) eqn:Es; auto. destruct (Z.eqb_spec rt0 (n_term n)) as [Et|]; cbn [negb] in H; [|auto].
  destruct (n_term n <? rt).
  { inversion H; subst n' o. eapply res_plain; [exact HC|apply down_mterm; auto|]. intros g1 _ _ _ D1' _ _. apply fine_D; [|constructor].
    apply down_D; auto. intros x Hx. apply (a_win _ _ _ _ _ HA _ Hx). }
  destruct gr; auto. clear Same. subst rt0. specialize (Hv Ever).
  set (b2 := if ll then _ else _) in *.
  set (n1 := set_ctx (n_ver n) b2 (n_vlast n) n) in *.
  assert (Em : n_mterm n' = n_mterm n).
  { destruct (granted b2); [apply become_mterm in H; rewrite H; reflexivity|inversion H; reflexivity]. }
  eapply res_plain; [exact HC|lia|]. intros g1 _ _ W1 D1' N1 _.
  destruct (self_ev _ _ _ _ _ HA D1' Hv) as [He Hw]. pose proof (N1 _ Hin eq_refl) as Hf. 
  assert (D1n : D g1 nt p n1).
  { pose proof (add_vote g1 nt p n from D1' (fun _ => Hf)) as K1. subst n1 b2. destruct ll; auto.
    pose proof (add_vote g1 nt p _ p K1 (fun _ => He)) as K2. rewrite (a_self _ _ _ _ _ HA). exact K2. }
  destruct (granted b2) eqn:Eg.
  - right; left. exists n1, [], o. split; auto. split; [apply lower_same; reflexivity|]. split; auto. split; auto. split; auto.
    split; [constructor|]. split; [apply plain_nil|reflexivity].
  - inversion H; subst n' o. apply fine_D; [exact D1n|constructor].
Qed.

Lemma down_res : forall vt g nt p n t r, Ctx vt g nt p n -> res3 g nt p n (step_down t r n) [].
Proof.
  intros vt g nt p n t r HC. pose proof HC as [W HD HA HB HG HL Hmt Hnet]. destruct (a_mt _ _ _ _ _ HA) as [M1 M2].
  eapply res_plain; [exact HC|apply down_mterm; auto|]. intros g1 _ _ _ D1' _ _. apply fine_D; [|constructor].
  apply down_D; auto. intros x Hx. apply (a_win _ _ _ _ _ HA _ Hx).
Qed.
Lemma same_res : forall vt g nt p n, Ctx vt g nt p n -> res3 g nt p n n [].
Proof.
  intros vt g nt p n HC. eapply res_plain; [exact HC|lia|]. intros g1 _ _ _ D1' _ _. apply fine_D; [exact D1'|constructor].
Qed.

(** ** AppendEntries on the follower *)
Lemma append_D : forall g nt p n f t prev pt es c, wfg g -> G (gll g) (gel g) nt -> LE g (gel g) -> B (gll g) (gel g) p n ->
  D g nt p n -> n_st n = Follower -> n_term n = t -> In (MApp f t prev pt es c) nt -> cinfo g c t ->
  term_at (n_log n) prev = pt -> es <> [] ->
  let n2 := follow_append prev es n in
  D g nt p (set_log (n_log n2) (n_q n2 ++ [DFollow (n_term n2) (prev + zlen es) (Z.min c (prev + zlen es))]) n2).
Proof.
  intros g nt p n f t prev pt es c W HG HL HB HD Hst Ht Hm Hci Hpt Hes n2.
  destruct (g_app _ _ _ HG _ _ _ _ _ _ Hm) as [Sl [l0 El]].
  assert (W1 : wfl (gll g) (n_log n)) by (rewrite <- (b_fin _ _ _ _ HB); eapply Sts_fin; apply (b_sts _ _ _ _ HB)).
  assert (P1 : posl (gll g t)) by (intros x Hx; destruct (g_terms _ _ _ HG _ _ Hx); lia).
  assert (P2 : posl (n_log n)).
  { intros x Hx. apply in_split in Hx. destruct Hx as [u [v Euv]].
    assert (In x (gll g (l_term x))) by (eapply prefix_In; [eapply W1; eauto|apply in_or_app; right; left; reflexivity]).
    apply (g_terms _ _ _ HG) in H. lia. }
  destruct (follow_spec (gll g) n (gll g t) prev pt es W1 (g_wfl _ _ _ HG t) P1 P2 Sl Hpt) as [ops [E1 [E2 [E3 [E4 [E5 [E6 E7]]]]]]].
  fold n2 in E1, E2, E5, E6. 
  assert (Q1 : n_q n2 = n_q n ++ ops) by (rewrite E1; reflexivity).
  assert (Q2 : n_disk n2 = n_disk n) by (rewrite E1; reflexivity).
  assert (Q3 : n_term n2 = n_term n) by (rewrite E1; reflexivity).
  assert (Q4 : n_st n2 = n_st n) by (rewrite E1; reflexivity).
  assert (Q5 : n_win n2 = n_win n /\ n_wlast n2 = n_wlast n /\ n_mvoted n2 = n_mvoted n /\ n_mterm n2 = n_mterm n /\ n_ballot n2 = n_ballot n /\ n_box n2 = n_box n /\
          n_vw n2 = n_vw n /\ n_sw n2 = n_sw n /\ n_rw n2 = n_rw n) by (rewrite E1; repeat split; reflexivity).
  destruct Q5 as [R1 [R2 [R3 [R4 [R5 [R6 [R7 [R8 R9]]]]]]]].
  destruct HD as [d1 [d2 [d3 [d4 d5]]]].
  assert (Hu : 0 <= prev + zlen es <= zlen (gll g t)).
  { destruct Sl as [a [b [Ea [Za _]]]]. rewrite Ea, !zlen_app. pose proof (zlen_nonneg a). pose proof (zlen_nonneg b). pose proof (zlen_nonneg es). lia. }
  unfold ClusterGhost.D. cbn [set_log n_disk n_q n_log n_st n_term n_sw n_win n_wlast n_mvoted n_mterm n_ballot n_box n_vw n_rw].
  rewrite Q1, Q2, Q3, Q4, R1, R2, R3, R4, R5, R6, R7, R8, R9. rewrite Hst, Ht in *.
  split; [|split; [|split; [|split; [|exact d5]]]].
  - eapply D1_follow with (L := n_log n) (L' := n_log n2).
    + exact d1.
    + apply (b_fin _ _ _ _ HB).
    + exact E2.
    + exact E7.
    + exact E4.
    + intros s j Hs Hp. pose proof (proj1 W _ _ _ Hs) as Ho. destruct (Z_lt_le_dec t s).
      { exfalso. destruct (own_in _ _ _ _ Ho Hp) as [_ [_ [e [X1 X2]]]]. apply (b_le _ _ _ _ HB) in X1. lia. }
      destruct (prefix_dec (PX g s j) (gll g t)) as [K|K]; [left; exact K|right].
      destruct (Z.eq_dec s t) as [->|Hne]; [exfalso; apply K; apply prefix_firstn|].
      exists t, f, l0. split; auto. split; [lia|]. intros K'. apply K. eapply prefix_trans; [exact K'|].
      destruct (g_log _ _ _ HG _ _ _ El) as [x [Ex _]]. rewrite Ex. apply prefix_app.
    + exact Hu.
    + lia.
    + eapply cinfo_le; [exact Hci|lia|lia].
    + exact E5.
  - intros _. left. exists f, l0. exact El.
  - destruct d3 as [k1 k2]. split; [exact k1|discriminate].
  - destruct d4 as [k1 [k2 k3]]. split; [|split; [exact k2|discriminate]].
    destruct k1 as [k1|[t0 [i0 [K1 [K2 [K3 K4]]]]]]; [left; exact k1|right]. exists t0, i0. split; auto. split; auto. split; auto.
    assert (K5 : prefix (PX g t0 (BallotBox.lc (n_box n))) (gll g t)) by (eapply committed_in; eauto).
    rewrite <- E2. apply (Sts_fin _ _ _ (E4 _ K4 K5)).
Qed.

Lemma append_res : forall vt g nt p n f t prev pt es c r n' o, Ctx vt g nt p n -> In (MApp f t prev pt es c) nt ->
  append_req f t prev pt es c r n = Some (n', o) -> res3 g nt p n n' o.
Proof.
  intros vt g nt p n f t prev pt es c r n' o HC Hin H. pose proof HC as [W HD HA HB HG HL Hmt Hnet].
  destruct (a_mt _ _ _ _ _ HA) as [M1 M2]. unfold append_req in H.
  destruct (Z.ltb_spec t (n_term n)); [inversion H; subst n' o; eapply same_res; eauto|].
  pose proof (check_lower t f r n) as HLo. destruct (check_term t f r n H0) as [Ht Hst].
  assert (B1 : B (gll g) (gel g) p (check_step_down t f r n)) by (eapply lower_B; eauto).
  assert (Hw : forall x, n_win n = Some x -> x <= n_term n) by (intros x Hx; apply (a_win _ _ _ _ _ HA _ Hx)).
  assert (Hw1 : forall x, n_win (check_step_down t f r n) = Some x -> x <= n_term (check_step_down t f r n)).
  { intros x Hx. rewrite check_win in Hx. apply Hw in Hx. lia. }
  pose proof (check_mterm t f r n M2) as Hcm.
  assert (HDD : forall g1, D g1 nt p n -> D g1 nt p (check_step_down t f r n)) by (intros; apply check_D; auto).
  destruct (check_down_A conf vt nt p n t f r HA) as [HA1 _]. destruct (a_mt _ _ _ _ _ HA1) as [M3 M4].
  set (n1 := check_step_down t f r n) in *.
  destruct (negb (opeer_eqb (Some f) (n_leader n1))).
  { inversion H; subst n' o. eapply res_plain; [exact HC|pose proof (down_mterm (t + 1) r n1 M4); lia|]. intros g1 _ _ _ D1' _ _. apply fine_D; [|constructor].
    apply down_D; auto. }
  destruct (Z.eqb_spec (term_at (n_log n1) prev) pt) as [e0|e0]; cbn [negb] in H.
  2:{ inversion H; subst n' o. eapply res_plain; [exact HC|lia|]. intros g1 _ _ _ D1' _ _. apply fine_D; [auto|constructor]. }
  destruct es as [|e es].
  - destruct (set_committed (Z.min c prev) n1) as [n2|] eqn:E; inversion H; subst n' o.
    assert (Em : n_mterm n2 = n_mterm n1).
    { unfold set_committed in E. destruct (BallotBox.set_last_committed_index (n_box n1) (Z.min c prev)) as [[[? ?] ?]|]; inversion E; reflexivity. }
    eapply res_plain; [exact HC|lia|]. intros g1 Eg X1 W1 D1' N1 _. apply fine_D; [|constructor].
    eapply set_committed_D; [apply HDD; exact D1'| |exact E].
    assert (HG1 : G (gll g1) (gel g1) nt) by (subst g1; exact HG).
    assert (HL1 : LE g1 (gel g1)) by (eapply LE_ext; [exact W|exact X1|subst g1; exact HL]).
    destruct (g_app _ _ _ HG1 _ _ _ _ _ _ Hin) as [Sl _].
    rewrite Ht. apply (lcok_new g1 nt (Z.min c prev) prev t); auto.
    + eapply cinfo_le; [apply (N1 _ Hin)|lia|lia].
    + lia.
    + destruct Sl as [a [b [Ea [Za _]]]]. rewrite Ea, zlen_app. pose proof (zlen_nonneg ([] ++ b)). lia.
    + assert (Wl : wfl (gll g1) (n_log n1)) by (subst g1; rewrite <- (b_fin _ _ _ _ B1); eapply Sts_fin; apply (b_sts _ _ _ _ B1)).
      assert (P1 : posl (gll g1 t)) by (intros x Hx; destruct (g_terms _ _ _ HG1 _ _ Hx); lia).
      assert (P2 : posl (n_log n1)).
      { intros x Hx. apply in_split in Hx. destruct Hx as [u [v Euv]].
        assert (In x (gll g1 (l_term x))) by (eapply prefix_In; [eapply Wl; eauto|apply in_or_app; right; left; reflexivity]).
        apply (g_terms _ _ _ HG1) in H1. lia. }
      destruct (follow_spec (gll g1) n1 (gll g1 t) prev pt [] Wl (g_wfl _ _ _ HG1 t) P1 P2 Sl e0) as [ops [E1 [E2 [E3 [E4 [E5 _]]]]]].
      cbn in E5. rewrite zlen_nil in E5. replace (prev + 0) with prev in E5 by lia. exact E5.
  - inversion H; subst n' o; clear H.
    assert (Em : n_mterm (follow_append prev (e :: es) n1) = n_mterm n1).
    { unfold follow_append. destruct (skip_same (n_log n1) (prev + 1) (e :: es)) as [i [|x y]]; [reflexivity|]. destruct (i <=? zlen (n_log n1)); reflexivity. }
    eapply res_plain; [exact HC|cbn [set_log n_mterm]; lia|]. intros g1 Eg X1 W1 D1' N1 _. apply fine_D; [|constructor].
    eapply append_D; [exact W1|subst g1; exact HG|eapply LE_ext; [exact W|exact X1|subst g1; exact HL]|subst g1; exact B1|apply HDD; exact D1'|
      exact Hst|exact Ht|exact Hin|apply (N1 _ Hin)|exact e0|discriminate].
Qed.

(** ** The disk thread *)
Lemma pop_D : forall g nt p n d q, D g nt p n -> n_q n = d :: q -> d <> DElect (n_term n) ->
  D g nt p (set_disk (dstep (n_disk n) d) q n).
Proof.
  intros g nt p n d q [d1 [d2 [d3 [d4 d5]]]] Eq Hd. rewrite Eq in *. split; [|split; [|split; [exact d3|split; [exact d4|exact d5]]]]; cbn.
  - apply D1_pop; auto.
  - eapply D2_pop; eauto.
Qed.
Lemma PX_le : forall g t j u, j <= u -> prefix (PX g t j) (PX g t u).
Proof. intros. apply prefix_firstn_le. lia. Qed.

(** Storing entries up to [u] of the log of the leader of the current term. *)
Definition stored (g : gh) (T u : Z) (ok : Prop) (t j : Z) : Prop := ok /\ t = T /\ own g T j /\ j <= u.
Lemma stored_bump : forall vt g nt p n u (ok : Prop), Ctx vt g nt p n -> (ok -> Sts (prefix (PX g (n_term n) u)) (n_disk n) (n_q n)) ->
  let na := stored g (n_term n) u ok in let g1 := bump g p (n_mterm n) na na in
  Ext g g1 /\ wfg g1 /\ D g1 nt p n /\ (forall m, In m nt -> mok g1 m) /\
  forall n' o, n_mterm n' = n_mterm n -> fine g1 nt p n n' o -> res3 g nt p n n' o.
Proof.
  intros vt g nt p n u ok HC HS na g1. pose proof HC as [W HD HA HB HG HL Hmt Hnet]. destruct (a_mt _ _ _ _ _ HA) as [M1 M2].
  assert (N1 : forall t j, na t j -> gmt g p <= t) by (intros t j [_ [-> _]]; lia).
  assert (N2 : forall t j, na t j -> own g t j) by (intros t j [_ [-> [K _]]]; exact K).
  assert (X1 : Ext g g1) by (apply bump_ext; [lia|exact N1]).
  split; auto. split; [apply bump_wfg; auto|]. split.
  { apply bump_D; [exact W|exact HD|lia|exact N1|]. intros t j [Hok [-> [K1 K2]]]. split; auto.
    eapply Sts_impl; [|apply HS; exact Hok]. intros L. apply prefix_trans. apply PX_le; auto. }
  split; [apply bump_net; [exact W|exact Hnet|lia|exact N1]|].
  intros n' o Em Hf. apply (res_bump g nt p n n' o na na); auto; [lia|]. rewrite Em. exact Hf.
Qed.

Lemma disk_res : forall vt g nt p n n' o, Ctx vt g nt p n -> disk_step n = Some (n', o) -> res3 g nt p n n' o.
Proof.
  intros vt g nt p n n' o HC H. pose proof HC as [W HD HA HB HG HL Hmt Hnet].
  unfold disk_step in H. destruct (n_q n) as [|d q] eqn:Eq; try discriminate.
  set (n1 := set_disk (n_disk n) q n) in *.
  assert (Pop : forall g1, D g1 nt p n -> ~ data d -> d <> DElect (n_term n) -> D g1 nt p n1).
  { intros g1 K Hd Hne. pose proof (pop_D g1 nt p n d q K Eq Hne) as K'. replace (dstep (n_disk n) d) with (n_disk n) in K'; [exact K'|].
    destruct d; cbn in *; tauto. }
  pose proof (b_fin _ _ _ _ HB) as Fin. rewrite Eq in Fin. cbn [fin] in Fin.
  pose proof HD as [[_ QFn] _]. rewrite Eq in QFn. cbn [QF] in QFn. destruct QFn as [Hrq _].
  destruct d as [e|k|t u c|f k|t|k].
  - inversion H; subst n' o. eapply res_plain; [exact HC|cbn; lia|]. intros g1 _ _ _ D1' _ _. apply fine_D; [|constructor].
    apply (pop_D g1 nt p n (DApp e) q D1' Eq). discriminate.
  - inversion H; subst n' o. eapply res_plain; [exact HC|cbn; lia|]. intros g1 _ _ _ D1' _ _. apply fine_D; [|constructor].
    apply (pop_D g1 nt p n (DTrunc k) q D1' Eq). discriminate.
  - cbn [n1 set_disk n_term] in H. destruct (Z.eqb_spec t (n_term n)) as [Et|Et].
    2:{ inversion H; subst n' o. eapply res_plain; [exact HC|cbn; lia|]. intros g1 _ _ _ D1' _ _. apply fine_D; [|constructor].
        apply Pop; [exact D1'|cbn; tauto|discriminate]. }
    cbn [dstep RQ] in Hrq. destruct Hrq as [_ Hrq]. destruct (Hrq Et) as [R1 [R2 [R3 R4]]]. subst t.
    destruct (set_committed c n1) as [n2|] eqn:Ec; inversion H; subst n' o; clear H.
    destruct (stored_bump vt g nt p n u True HC) as [X1 [W1 [D1' [_ Hres]]]].
    { intros _. rewrite Eq. split; [eapply Sts_hd; exact R4|exact R4]. }
    set (g1 := bump g p (n_mterm n) (stored g (n_term n) u True) (stored g (n_term n) u True)) in *.
    assert (Em : n_mterm n2 = n_mterm n).
    { unfold set_committed in Ec. destruct (BallotBox.set_last_committed_index (n_box n1) c) as [[[? ?] ?]|]; inversion Ec; reflexivity. }
    assert (Esf : n_self n2 = p).
    { unfold set_committed in Ec. destruct (BallotBox.set_last_committed_index (n_box n1) c) as [[[? ?] ?]|]; inversion Ec. apply (a_self _ _ _ _ _ HA). }
    apply Hres; auto. apply fine_D.
    + eapply set_committed_D; [apply Pop; [exact D1'|cbn; tauto|discriminate]| |exact Ec].
      apply (lcok_new g1 nt c u (n_term n)); auto.
      * eapply LE_ext; [exact W|exact X1|exact HL].
      * eapply cinfo_ext; eauto.
      * apply R1.
      * change (prefix (PX g (n_term n) u) (n_log n)). rewrite <- Fin. eapply Sts_fin; exact R4.
    + constructor; [|constructor]. cbn. rewrite Esf. split; [apply R1|]. intros j Hj Ho. right. split; auto. split; auto.
  - cbn [dstep RQ] in Hrq. destruct (commit_to f (f + k - 1) (n_self n1) n1) as [n2 o2] eqn:Ec. inversion H; subst n2 o2; clear H.
    destruct (stored_bump vt g nt p n (f + k - 1) (is_lead (n_st n) = true) HC) as [X1 [W1 [D1' [_ Hres]]]].
    { intros Hl. destruct (Hrq Hl) as [_ R2]. rewrite Eq. split; [eapply Sts_hd; exact R2|exact R2]. }
    set (g1 := bump g p (n_mterm n) _ _) in *.
    assert (Em : n_mterm n' = n_mterm n).
    { unfold commit_to in Ec. destruct (BallotBox.commit_at (n_box n1) f (f + k - 1) (n_self n1)) as [[? ?] [?|]]; inversion Ec; reflexivity. }
    apply Hres; auto.
    destruct (commit_D g1 nt p n1 f (f + k - 1) (n_self n1) n' o HG) as [K1 K2]; [apply Pop; [exact D1'|cbn; tauto|discriminate]| |exact Ec|apply fine_D; auto].
    intros Hl. change (is_lead (n_st n) = true) in Hl. split; [apply (b_lead _ _ _ _ HB); exact Hl|].
    intros j Ho Hj. right. split; [apply (a_self _ _ _ _ _ HA)|]. split; auto.
  - inversion H; subst n' o; clear H.
    match goal with |- res3 _ _ _ _ ?x _ => set (m := x) end.
    assert (Em : n_mterm m = n_mterm n) by (subst m; destruct (n_win n) as [w|]; [destruct (t =? w)|]; reflexivity).
    eapply res_plain; [exact HC|lia|]. intros g1 Eg _ _ D1' _ _. apply fine_D; [|constructor].
    assert (K : D2 g1 (n_st m) (n_win m) (n_wlast m) (n_term m) (n_q m) (n_log m)).
    { destruct D1' as [_ [d2 _]]. rewrite Eq in d2.
      assert (Es : n_st m = n_st n /\ n_win m = n_win n /\ n_term m = n_term n /\ n_q m = q /\ n_log m = n_log n).
      { subst m n1. cbn [n_win set_disk]. destruct (n_win n) as [w|] eqn:Ew; [destruct (t =? w)|]; cbn; rewrite ?Ew; auto. }
      assert (EW : n_wlast m = match n_win n with Some t' => if t =? t' then Some (last_id (n_disk n)) else n_wlast n | None => n_wlast n end).
      { subst m n1. cbn [n_win set_disk]. destruct (n_win n) as [w|] eqn:Ew; [destruct (t =? w)|]; reflexivity. }
      destruct Es as [s1 [s2 [s3 [s4 s5]]]]. rewrite s1, s2, s3, s4, s5, EW. clear s1 s2 s3 s4 s5 EW Em Eg Pop. clear m. clear n1. intros E. destruct (d2 E) as [Y|Y]; [left; exact Y|right].
      destruct Y as [[a [b [q1 [q2 [e [v ni]]]]]]|[[a [b v]]|[a v]]].
      - destruct q1 as [|x q1]; cbn in e; inversion e.
        + subst t q. right; left. split; [exact a|]. split; [|exact v].
          rewrite a, Z.eqb_refl. rewrite <- Fin. cbn [dstep]. rewrite votes_fin by auto. reflexivity.
        + subst x q. left. split; [exact a|]. assert (t <> n_term n) by (intros ->; apply ni; left; reflexivity).
          split; [|exists q1, q2; split; [reflexivity|split; [exact v|intros Hn; apply ni; right; exact Hn]]].
          rewrite a. destruct (Z.eqb_spec t (n_term n)); [congruence|exact b].
      - exfalso. destruct (v (DElect t)) as [z Ez]; [left; reflexivity|discriminate].
      - exfalso. destruct (v (DElect t)) as [z Ez]; [left; reflexivity|discriminate]. }
    destruct D1' as [d1 [_ [d3 [d4 d5]]]]. rewrite Eq in d1. apply D1_pop in d1. cbn [dstep] in d1.
    assert (Es : n_st m = n_st n /\ n_term m = n_term n /\ n_q m = q /\ n_log m = n_log n /\ n_disk m = n_disk n /\ n_mvoted m = n_mvoted n /\ n_ballot m = n_ballot n /\ n_box m = n_box n /\ n_vw m = n_vw n /\ n_sw m = n_sw n /\ n_rw m = n_rw n).
    { subst m n1. cbn [n_win set_disk]. destruct (n_win n) as [w|] eqn:Ew; [destruct (t =? w)|]; cbn; repeat split. }
    destruct Es as [s1 [s2 [s3 [s4 [s5 [s6 [s7 [s8 [s9 [s10 s11]]]]]]]]]]. 
    split; [rewrite s1, s2, s3, s5; exact d1|]. split; [exact K|]. rewrite s1, s2, s4, s6, s7, s8, s9, s10, s11, Em. split; [exact d3|]. split; [exact d4|exact d5].
  - inversion H; subst n' o; clear H. eapply res_plain; [exact HC|cbn; lia|]. intros g1 _ _ _ D1' _ _. apply fine_D; [|constructor].
    assert (K : D g1 nt p n1) by (apply Pop; [exact D1'|cbn; tauto|discriminate]).
    destruct K as [d1 [d2 [d3 [d4 [e1 [e2 e3]]]]]]. split; [exact d1|]. split; [exact d2|]. split; [exact d3|]. split; [exact d4|].
    split; [|split; [exact e2|exact e3]]. cbn. intros w Hw. apply in_map_iff in Hw. destruct Hw as [x [Ex Hx]]. specialize (e1 _ Hx).
    destruct (vw_id x =? k); subst w; cbn; auto.
Qed.

(** ** Replicators, the state machine, crashes *)
Lemma sw_res : forall vt g nt p n sw fr, Ctx vt g nt p n ->
  (forall g1, D g1 nt p n -> forall w prev pt c, In w sw -> sw_head w = Some (prev, pt, c) -> cinfo g1 c (sw_term w)) ->
  res3 g nt p n (set_fresh fr (set_sw sw n)) [].
Proof.
  intros vt g nt p n sw fr HC Hs. eapply res_plain; [exact HC|cbn; lia|]. intros g1 _ _ _ D1' _ _. apply fine_D; [|constructor].
  specialize (Hs g1 D1'). destruct D1' as [d1 [d2 [d3 [d4 [e1 [e2 e3]]]]]]. split; [exact d1|]. split; [exact d2|]. split; [exact d3|]. split; [exact d4|].
  split; [exact e1|]. split; [exact Hs|exact e3].
Qed.
Lemma lcok_cinfo : forall g T L lc, lcok g T L lc -> cinfo g lc T.
Proof. intros g T L lc [H|[t0 [i0 [H1 [H2 [H3 _]]]]]]; [left; auto|right]. exists t0, i0. auto. Qed.

Lemma apply_ok3 : forall g T L lc a e, lcok g T L lc -> a < lc -> znth L a = Some e -> applied_ok conf g (a + 1) e.
Proof.
  intros g T L lc a e [H|[t0 [i0 [H1 [H2 [H3 H4]]]]]] Ha Hz; pose proof (znth_some_bound _ _ _ Hz); [lia|].
  exists t0, i0. split; auto. split; [lia|]. destruct H1 as [[H1 _] _].
  replace (a + 1 - 1) with a by lia.
  destruct (znth_in_bound (PX g t0 lc) a) as [x Hx]. { unfold PX. rewrite zlen_firstn. lia. }
  pose proof (prefix_znth _ _ _ _ H4 Hx) as K. rewrite Hz in K. inversion K; subst x.
  eapply prefix_znth; [apply prefix_firstn|exact Hx].
Qed.

Lemma crash_D : forall g nt p n, D g nt p n -> D g nt p (crash n).
Proof.
  intros g nt p n [[d1 _] [_ [[k1 _] _]]].
  assert (K : D g nt p (reload n)).
  { split; [|split; [|split; [|split]]]; cbn.
    - split; [|exact I]. intros t j H. destruct (d1 _ _ H) as [K|K]; auto. left. split; [eapply Sts_hd; exact K|exact I].
    - intros [E|E]; discriminate.
    - split; [exact k1|discriminate].
    - split; [left; cbn; lia|]. split; [auto|discriminate].
    - split; [|split]; cbn; tauto. }
  unfold crash. destruct (n_term (reload n) <? li_term (last_id (n_log (reload n)))); auto.
  destruct K as [c1 [c2 [c3 [c4 c5]]]]. split; [|split; [|split; [|split]]]; cbn.
  - destruct c1 as [c1 _]. split; [exact c1|exact I].
  - intros [E|E]; discriminate.
  - split; [discriminate|discriminate].
  - split; [left; cbn; lia|]. split; [auto|discriminate].
  - exact c5.
Qed.
Lemma crash_mterm : forall n, n_mterm n <= n_mterm (crash n).
Proof.
  intros n. unfold crash. destruct (Z.ltb_spec (n_term (reload n)) (li_term (last_id (n_log (reload n))))); cbn in *; lia.
Qed.

Lemma crashE_res : forall vt g nt p n n' o, Ctx vt g nt p n -> crash_in_elect_self n = Some (n', o) -> res3 g nt p n n' o.
Proof.
  intros vt g nt p n n' o HC H. unfold crash_in_elect_self in H.
  destruct (n_win n) as [w|] eqn:Ew; try discriminate. destruct (n_wlast n) as [lid|] eqn:El; try discriminate.
  pose proof HC as [W HD HA HB HG HL Hmt Hnet].
  destruct (Z.eqb_spec (n_term n) w) as [E|E]; try discriminate. subst w. inversion H; subst n' o. clear H. set (T := n_term n) in *.
  assert (K2 : elected g T \/ (lid = last_id (n_log n) /\ votes (n_q n))).
  { destruct HD as [_ [d2 _]]. destruct (d2 (or_intror Ew)) as [K|K]; auto. right. rewrite Ew, El in K.
    destruct K as [[_ [a _]]|[[_ [a v]]|[a _]]]; [discriminate| |fold T in a; congruence]. inversion a. auto. }
  assert (Nh : forall t j, holds_log n t j -> own g t j /\ Sts (prefix (PX g t j)) (n_disk n) (n_q n)) by (intros; eapply holds_sts; eauto).
  pose proof (crash_mterm n) as Hm.
  apply (res_bump g nt p n (crash n) _ none2 (holds_log n)); [auto|lia|intros ? ? []|intros ? ? []|intros t j K; apply Nh in K; tauto|].
  apply fine_D; [apply crash_D; apply bump_D; auto; [lia|intros ? ? []]|]. constructor; [|constructor]. cbn. rewrite (a_self _ _ _ _ _ HA).
  destruct K2 as [K2|[K2 V2]]; [left; exact K2|right]. exists (n_log n). split; auto. split.
  - rewrite <- (b_fin _ _ _ _ HB). eapply Sts_fin; apply (b_sts _ _ _ _ HB).
  - intros j Hj. right. split; auto. split; auto.
Qed.

(** ** Any handler *)
Lemma nstep3 : forall vt vt' g c p e n' o, (forall q, gmt g q = n_mterm (nodes c q)) ->
  Inv1 conf vt c -> Ctx vt g (net c) p (nodes c p) -> A conf vt' (net c) p n' ->
  self_vote_saved c p e -> send_undisturbed c p e -> vote_undisturbed c p e -> ack_undisturbed c p e ->
  deliverable c p e = true -> nstep conf cv (nodes c p) e = Some (n', o) ->
  res3 g (net c) p (nodes c p) n' o.
Proof.
  intros vt vt' g c p e n' o _ I1 HC HA' S1 S2 S3 S4 Hd H.
  pose proof (fun from m => deliver_In c p e from m Hd) as HDl.
  pose proof HC as [W HD HA HB HG HL Hmt Hnet].
  set (n := nodes c p) in *. set (nt := net c) in *.
  destruct e; cbn [nstep] in H; cbn [received] in HDl.
  - destruct (is_lead (n_st n)) eqn:Es; inversion H; subst n' o; [eapply same_res; eauto|].
    eapply res_plain; [exact HC|unfold elect_self_1; destruct (memb (n_self n) conf); cbn; lia|].
    intros g1 _ _ _ D1' _ _. apply fine_D; [|constructor]. apply elect1_D; auto.
  - cbn in S1. subst r. eapply elect2_res; eauto.
  - eapply gself_res; eauto.
  - destruct (vote_req_1 cand t last ver n) as [a b] eqn:E. inversion H; subst a b. eapply vreq1_res; eauto.
  - eapply vreq2_res; eauto.
  - destruct (HDl _ _ eq_refl) as [_ Hin]. eapply vresp_res; [exact HC|exact Hin| |exact H].
    intros Ev. destruct I1 as [_ HN]. destruct (nq _ _ _ HN _ _ _ _ _ _ Hin) as [l Hl].
    destruct (nr _ _ _ HN _ _ _ _ Hl) as [_ K]. apply K. exact Ev.
  - destruct (n_term n <=? t); inversion H; subst n' o; [eapply down_res; eauto|eapply same_res; eauto].
  - destruct (HDl _ _ eq_refl) as [_ Hin]. eapply append_res; eauto.
  - eapply disk_res; eauto.
  - unfold propose in H. destruct (n_st n) eqn:Es; try (inversion H; subst n' o; eapply same_res; eauto).
    destruct (lead_append conf vs n) as [n2|] eqn:E; inversion H; subst n2 o. eapply res_plain; [exact HC|rewrite (lead_append_mterm _ _ _ E); lia|].
    intros g1 _ _ _ D1' _ _. right; right. exists vs. rewrite Es. auto.
  - inversion H; subst n' o. eapply res_plain; [exact HC|unfold transfer; destruct (n_st n); cbn; lia|]. intros g1 _ _ _ D1' _ _. apply fine_D; [|constructor].
    unfold transfer. destruct (n_st n) eqn:Es; auto. destruct D1' as [d1 [d2 [d3 [d4 d5]]]]. rewrite Es in *.
    split; [exact d1|]. split; [|split; [|split; [|exact d5]]]; cbn.
    + intros [K|K]; [discriminate|apply d2; auto].
    + destruct d3 as [k1 k2]. split; [exact k1|discriminate].
    + destruct d4 as [k1 [k2 k3]]. split; [exact k1|]. split; [exact k2|exact k3].
  - inversion H; subst n' o. eapply res_plain; [exact HC|unfold transfer_timeout; destruct (n_st n); cbn; lia|]. intros g1 _ _ _ D1' _ _. apply fine_D; [|constructor].
    unfold transfer_timeout. destruct (n_st n) eqn:Es; auto. destruct D1' as [d1 [d2 [d3 [d4 d5]]]]. rewrite Es in *.
    split; [exact d1|]. split; [|split; [|split; [|exact d5]]]; cbn.
    + intros [K|K]; [discriminate|apply d2; auto].
    + destruct d3 as [k1 k2]. split; [exact k1|discriminate].
    + destruct d4 as [k1 [k2 k3]]. split; [exact k1|]. split; [exact k2|exact k3].
  - inversion H; subst n' o. unfold send_open. destruct (is_lead (n_st n)); [|eapply same_res; eauto].
    eapply sw_res; [exact HC|]. intros g1 [_ [_ [_ [_ [_ [e2 _]]]]]] w prev pt c0 [<-|Hw]; cbn; [discriminate|eauto].
  - inversion H; subst n' o. unfold send_fill. destruct ((0 <=? prev) && (prev <=? zlen (n_log n))); [|eapply same_res; eauto].
    eapply (sw_res vt g nt p n _ (n_fresh n)); [exact HC|]. intros g1 [_ [_ [_ [[k1 _] [_ [e2 _]]]]]] w prev0 pt c0 Hw Hh.
    apply upd_sw_In in Hw. destruct Hw as [Hw|[x [Fx Ex]]]; [eauto|]. destruct (sw_head x) as [z|] eqn:Ehx.
    { subst w. eapply e2; [eapply find_sw_In; eauto|exact Hh]. }
    destruct (S2 _ Fx) as [St Sl]. subst w. cbn in *. inversion Hh; subst. rewrite St. eapply lcok_cinfo; eauto.
  - inversion H; subst n' o. unfold send_read. eapply (sw_res vt g nt p n _ (n_fresh n)); [exact HC|]. intros g1 [_ [_ [_ [_ [_ [e2 _]]]]]] w prev0 pt c0 Hw Hh.
    apply upd_sw_In in Hw. destruct Hw as [Hw|[x [Fx Ex]]]; [eauto|]. destruct (sw_head x) as [[[pv pt'] c']|] eqn:Ehx.
    2:{ subst w. eapply e2; [eapply find_sw_In; eauto|exact Hh]. }
    destruct (znth (n_log n) (pv + zlen (sw_es x))); subst w; cbn [sw_term sw_head] in *; (eapply e2; [eapply find_sw_In; exact Fx|first [exact Hh|rewrite Ehx; exact Hh]]).
  - unfold send_go in H. destruct (find_sw k (n_sw n)) as [w|] eqn:Fx; try discriminate.
    destruct (sw_head w) as [[[prev pt] c0]|] eqn:Eh; inversion H; subst n' o.
    eapply res_plain; [exact HC|cbn; lia|]. intros g1 _ _ _ D1' _ _. destruct D1' as [d1 [d2 [d3 [d4 [e1 [e2 e3]]]]]]. apply fine_D.
    + split; [exact d1|]. split; [exact d2|]. split; [exact d3|]. split; [exact d4|]. split; [exact e1|]. split; [|exact e3].
      cbn. intros x prev0 pt0 c1 Hx. apply filter_In in Hx. destruct Hx as [Hx _]. eauto.
    + constructor; [|constructor]. cbn. eapply e2; [eapply find_sw_In; eauto|exact Eh].
  - destruct (HDl _ _ eq_refl) as [_ Hin]. inversion H; subst n' o. unfold resp_open. destruct (is_lead (n_st n) && (t =? n_term n)); [|eapply same_res; eauto].
    eapply res_plain; [exact HC|cbn; lia|]. intros g1 _ _ _ D1' _ _. destruct D1' as [d1 [d2 [d3 [d4 [e1 [e2 e3]]]]]]. apply fine_D; [|constructor].
    split; [exact d1|]. split; [exact d2|]. split; [exact d3|]. split; [exact d4|]. split; [exact e1|]. split; [exact e2|].
    cbn. intros w [<-|Hw]; cbn; auto.
  - unfold resp_go in H. destruct (find_rw k (n_rw n)) as [w|] eqn:Fx; try discriminate. inversion H as [H']. clear H.
    set (n0 := set_rw (drop_rw k (n_rw n)) n) in *. destruct (S4 _ Fx) as [St Sl]. pose proof (find_rw_In _ _ _ Fx) as Hw.
    assert (Em : n_mterm n' = n_mterm n).
    { unfold commit_to in H'. destruct (BallotBox.commit_at (n_box n0) first (rw_upto w) (rw_peer w)) as [[? ?] [?|]]; inversion H'; reflexivity. }
    eapply res_plain; [exact HC|lia|]. intros g1 Eg _ _ D1' N1 _.
    assert (D0 : D g1 nt p n0).
    { destruct D1' as [d1 [d2 [d3 [d4 [e1 [e2 e3]]]]]].
      split; [exact d1|]. split; [exact d2|]. split; [exact d3|]. split; [exact d4|]. split; [exact e1|]. split; [exact e2|].
      cbn. intros x Hx. apply filter_In in Hx. apply e3. tauto. }
    destruct (commit_D g1 nt p n0 first (rw_upto w) (rw_peer w) n' o) as [K1 K2]; [subst g1; exact HG|exact D0| |exact H'|apply fine_D; auto].
    intros Hl. split; [subst g1; apply (b_lead _ _ _ _ HB); exact Hl|]. intros j Ho Hj.
    assert (Hin : In (MAppOk (rw_peer w) (rw_term w) (rw_upto w)) nt) by (destruct D1' as [_ [_ [_ [_ [_ [_ e3]]]]]]; auto).
    destruct (N1 _ Hin) as [_ K]. change (n_term n0) with (n_term n) in *. assert (St' : n_term n = rw_term w) by (rewrite St; reflexivity). rewrite St' in Ho |- *. apply K; auto.
  - unfold apply_one in H. destruct (Z.ltb_spec (n_applied n) (BallotBox.lc (n_box n))); [|inversion H; subst n' o; eapply same_res; eauto].
    destruct (znth (n_log n) (n_applied n)) as [e|] eqn:Ez; inversion H; subst n' o.
    eapply res_plain; [exact HC|cbn; lia|]. intros g1 _ _ _ D1' _ _. apply fine_D; [exact D1'|]. constructor; [|constructor]. cbn.
    destruct D1' as [_ [_ [_ [[k1 _] _]]]]. eapply apply_ok3; eauto.
  - inversion H; subst n' o. eapply res_plain; [exact HC|apply crash_mterm|]. intros g1 _ _ _ D1' _ _. apply fine_D; [|constructor]. apply crash_D; auto.
  - eapply crashE_res; eauto.
Qed.
End Safe.
