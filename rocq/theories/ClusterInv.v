(** Layer 3 of the cluster proof, whole executions: the history invariants hold in every
    reachable cluster, and what follows from them. *)
From Verif Require Import Base BaseLemmas LogEntry Ballot QuorumSpec BallotProofs Node Cluster ClusterSpec
  LogPrefix ClusterElect ClusterLog ClusterGhost ClusterSafe.
From Verif Require BallotBox.

Section Inv.
Variable conf : list peer.
Variable cv : Z.
Hypothesis conf_nodup : NoDup conf.

Notation D := (D conf). Notation D1 := (D1 conf). Notation D3 := (D3 conf). Notation D4 := (D4 conf).
Notation cm := (cm conf). Notation lcok := (lcok conf).
Notation ook := (ook conf). Notation mok := (mok conf). Notation LE := (LE conf).

Definition tok (g : gh) (o : nout) : Prop := match o with OElected _ _ => True | _ => ook g o end.
Record Inv3 (g : gh) (c : cluster) : Prop := mkI3 {
  i_D : forall p, D g (net c) p (nodes c p);
  i_net : forall m, In m (net c) -> mok g m;
  i_tr : forall p o, In (p, o) (trace c) -> tok g o;
  i_el : gel g = elections (trace c);
  i_mt : forall q, gmt g q = n_mterm (nodes c q);
  i_w : wfg g;
  i_le : LE g (gel g) }.

(** ** Taking office *)
Lemma last_split : forall (L : list lent), 1 <= zlen L -> exists a e, L = a ++ [e] /\ term_at L (zlen L) = l_term e.
Proof.
  intros L H. destruct (exists_last (l := L)) as [a [x ->]]; [intros ->; unfold zlen in H; cbn in H; lia|].
  exists a, x. split; auto. replace (zlen (a ++ [x])) with (zlen a + 1) by (rewrite zlen_app; unfold zlen; cbn; lia). apply term_at_mid.
Qed.
Lemma wfl_whole : forall ll L, wfl ll L -> 1 <= zlen L -> prefix L (ll (term_at L (zlen L))).
Proof.
  intros ll L H1 H2. destruct (last_split L H2) as [a [e [E T]]]. rewrite T. rewrite E at 1. eapply H1 with (b := []). rewrite E. reflexivity.
Qed.

Lemma voter_LE : forall g nt p n1 v, wfg g -> G (gll g) (gel g) nt -> D g nt p n1 -> B (gll g) (gel g) p n1 ->
  ~ elected g (n_term n1) -> Ev g v (n_term n1) p ->
  n_term n1 <= gmt g v /\ forall t j, t < n_term n1 -> gak g v t j -> prefix (PX g t j) (n_log n1) \/ lacks (gel g) g t j.
Proof.
  intros g nt p n1 v W HG HD HB Hne [Hm [He|[vl [cl [E1 [[E2 E2'] [E3 E4]]]]]]]; [tauto|]. split; auto. intros t j Ht Ha.
  destruct (E4 _ _ Ht Ha) as [HP|HP]; auto.
  assert (Ho : own g t j) by (apply (proj1 W v); apply (proj2 W); auto).
  destruct (own_in _ _ _ _ Ho HP) as [V1 [V2 [ev [V3 V4]]]]. assert (J : 1 <= j) by (destruct Ho; lia).
  pose proof (wfl_le_last _ _ (g_terms _ _ _ HG) E1 _ V3) as V5. rewrite V4 in V5.
  assert (T1 : 1 <= t). { destruct Ho as [H1 H2]. destruct (term_at_in _ _ H1) as [a [e [b [Q1 [_ Q3]]]]].
    assert (In e (gll g t)) by (rewrite Q1; apply in_or_app; right; left; reflexivity). apply (g_terms _ _ _ HG) in H. lia. }
  unfold id_geb, id_ltb, last_id in E3. cbn [li_term li_index] in E3.
  set (Tv := term_at vl (zlen vl)) in *. set (Tc := term_at cl (zlen cl)) in *.
  assert (Hcl : 1 <= zlen cl).
  { destruct (Z_le_gt_dec 1 (zlen cl)); auto. exfalso. assert (zlen cl = 0) by (pose proof (zlen_nonneg cl); lia).
    assert (Tc = 0) by (subst Tc; rewrite H; reflexivity). destruct (Z.eqb_spec Tc Tv); [lia|]. destruct (Z.ltb_spec Tc Tv); [discriminate|lia]. }
  pose proof (wfl_whole _ _ E2 Hcl) as PC. fold Tc in PC.
  assert (HPc : prefix (PX g t j) cl \/ lacks (gel g) g t j).
  { destruct (Z.eqb_spec Tc Tv) as [Et|Et].
    - left. destruct (Z.ltb_spec (zlen cl) (zlen vl)); [discriminate|].
      assert (PV : prefix vl (gll g Tv)) by (apply wfl_whole; auto; lia). rewrite <- Et in PV.
      eapply prefix_trans; [exact HP|]. eapply prefix_comparable; [exact PV|exact PC|lia].
    - destruct (Z.ltb_spec Tc Tv); [discriminate|].
      destruct (g_el _ _ _ HG Tc) as [q' [l' Hin]]. { intros E. pose proof (prefix_len _ _ PC). rewrite E, zlen_nil in H0. lia. }
      destruct (prefix_dec (PX g t j) l') as [Hl|Hl].
      + left. destruct (g_log _ _ _ HG _ _ _ Hin) as [s [L1 [_ [_ L4]]]].
        eapply prefix_trans; [exact Hl|]. apply prefix_comparable with (c := gll g Tc); [rewrite L1; apply prefix_app|exact PC|].
        destruct (Z_le_gt_dec (zlen l') (zlen cl)); auto. exfalso.
        assert (prefix cl l') by (apply prefix_comparable with (c := gll g Tc); [exact PC|rewrite L1; apply prefix_app|lia]).
        destruct (last_split cl Hcl) as [a [e [Q1 Q2]]]. assert (In e l') by (eapply prefix_In; [exact H0|rewrite Q1; apply in_or_app; right; left; reflexivity]).
        apply L4 in H1. unfold Tc in H1. lia.
      + right. exists Tc, q', l'. split; auto. split; auto. lia. }
  destruct HPc as [HPc|HPc]; auto.
  destruct (own_in _ _ _ _ Ho HPc) as [C1 [C2 _]]. specialize (E2' j (conj J C1)). rewrite C2 in E2'.
  destruct HD as [[a1 _] _]. destruct (a1 _ _ E2') as [K|K]; auto. left. rewrite <- (b_fin _ _ _ _ HB). exact (Sts_fin _ _ _ K).
Qed.

Lemma pend_all_eq : forall vs b b', pend_all conf b vs = Some b' ->
  BallotBox.lc b' = BallotBox.lc b /\ BallotBox.pend b' = BallotBox.pend b /\
  BallotBox.bq b' = BallotBox.bq b ++ map (fun _ => ballot_init conf None) vs.
Proof.
  induction vs; intros b b' H; cbn [pend_all] in H.
  - inversion H; subst. rewrite app_nil_r. auto.
  - unfold BallotBox.append_pending_task in H. destruct (0 <? BallotBox.pend b); try discriminate.
    apply IHvs in H. cbn in H. destruct H as [e1 [e2 e3]]. rewrite e1, e2, e3, <- app_assoc. auto.
Qed.

Lemma D_grow : forall g p T L d q bx vs bx' l,
  fin d q = L -> gll g T = L ++ map (mkL T) vs -> In (T, p, l) (gel g) ->
  D1 g p T true d q -> lcok g T L (BallotBox.lc bx) -> zlen l < BallotBox.pend bx ->
  BallotBox.pend bx + zlen (BallotBox.bq bx) = zlen L + 1 ->
  (forall k b, znth (BallotBox.bq bx) k = Some b ->
     exists acks, ballot_ok conf None acks b /\ forall q, In q acks -> gak g q T (BallotBox.pend bx + k)) ->
  pend_all conf bx vs = Some bx' -> forall st, is_lead st = true ->
  D1 g p T true d (q ++ map DApp (map (mkL T) vs) ++ [DLead (zlen L + 1) (zlen vs)]) /\
  D4 g p st T (L ++ map (mkL T) vs) bx'.
Proof.
  intros g p T L d q bx vs bx' l HL HT Hin H1 Hlc Hp Hz Hb Hpa st Hst.
  destruct (pend_all_eq _ _ _ Hpa) as [e1 [e2 e3]].
  assert (Zm : zlen (map (mkL T) vs) = zlen vs) by (unfold zlen; rewrite map_length; auto).
  split.
  - apply D1_lead with (L := L); auto. rewrite zlen_app, Zm. lia.
  - split; [|split].
    + rewrite e1. eapply lcok_mono; [exact Hlc|lia|]. intros. apply prefix_app_r; auto.
    + congruence.
    + intros _. exists l. rewrite e2, e3. split; auto. split; auto. split.
      * rewrite !zlen_app, Zm. unfold zlen in *. rewrite map_length. lia.
      * intros k b Hk. destruct (Z_lt_le_dec k (zlen (BallotBox.bq bx))) as [C|C].
        -- apply Hb. destruct (Z_lt_le_dec k 0); [unfold znth in Hk; destruct (Z.ltb_spec k 0); [discriminate|lia]|].
           rewrite znth_app1 in Hk by lia. exact Hk.
        -- rewrite znth_app2 in Hk by lia. apply znth_In in Hk. apply in_map_iff in Hk. destruct Hk as [v [<- _]].
           exists []. split; [apply ballot_ok_init|intros ? []].
Qed.

Lemma votes_D1 : forall g p T ld ld' d q, votes q -> D1 g p T ld d q -> D1 g p T ld' d q.
Proof.
  intros g p T ld ld' d q V [H1 H2]. split; auto. eapply QF_impl; [exact H2|]. intros o d' q' Ho _.
  destruct (V _ Ho) as [k ->]. exact I.
Qed.

Lemma Ext_trans : forall a b c, Ext a b -> Ext b c -> Ext a c.
Proof.
  intros a b c [a1 a2 a3 a4 a5 a6] [b1 b2 b3 b4 b5 b6]. constructor; auto.
  - intros t. eapply prefix_trans; eauto.
  - intros n. specialize (a5 n). specialize (b5 n). lia.
  - intros n t j H. destruct (b6 _ _ _ H) as [K|K]; [apply a6; auto|]. right. specialize (a5 n). lia.
Qed.
Lemma wfg_ext : forall g g', wfg g -> llext (gll g) (gll g') -> (forall n t j, ghd g' n t j -> ghd g n t j) ->
  (forall n t j, gak g' n t j -> gak g n t j) -> (forall n t j, ghd g n t j -> ghd g' n t j) -> wfg g'.
Proof. intros g g' [W1 W2] X H1 H2 H3. split; intros n t j H; [eapply own_ext; eauto|]. auto. Qed.
Lemma tok_ext : forall g g' o, wfg g -> Ext g g' -> tok g o -> tok g' o.
Proof. intros g g' o W X. pose proof (ook_ext conf g g' o W X). destruct o; cbn in *; auto. Qed.

Lemma elections_nil : forall p o, Forall (fun x => match x with OElected _ _ => False | _ => True end) o -> elections (map (pair p) o) = [].
Proof. intros p o H. induction H as [|x o H H' IH]; auto. cbn. destruct x; try destruct H; exact IH. Qed.

Lemma inv3_step : forall vt ll g c p e c', Inv1 conf vt c -> Inv2 ll c -> Inv3 g c -> gll g = ll ->
  self_vote_saved c p e -> send_undisturbed c p e -> vote_undisturbed c p e -> ack_undisturbed c p e ->
  cstep conf cv c (p, e) = Some c' ->
  exists vt' g', Inv1 conf vt' c' /\ Inv2 (gll g') c' /\ Inv3 g' c'.
Proof.
  intros vt ll g c p e c' I1 I2 I3 Ell S1 S2 S3 S4 H. subst ll.
  destruct (inv1_step conf cv conf_nodup _ _ _ _ _ I1 S1 H) as [vt' [_ I1']].
  destruct (inv2_step conf cv conf_nodup _ _ _ _ _ _ I1 I2 S1 S2 H) as [ll' [X2 I2']].
  unfold cstep in H. destruct (deliverable c p e) eqn:Hd; try discriminate.
  destruct (nstep conf cv (nodes c p) e) as [[n' o]|] eqn:E; try discriminate.
  pose proof (nstep_good conf cv conf_nodup _ _ _ _ _ _ I1 S1 Hd E) as [_ [vt1 [_ [HA' _]]]]. cbn [fst] in HA'.
  destruct I3 as [HD Hn Htr Hel Hmt HW HLE]. destruct I2 as [HB HG]. rewrite <- Hel in HB, HG.
  assert (HC : Ctx conf vt g (net c) p (nodes c p)) by (constructor; auto; apply I1).
  destruct (nstep3 conf cv conf_nodup vt vt1 g c p e n' o Hmt I1 HC HA' S1 S2 S3 S4 Hd E) as [g1 [L1 [L2 [X1 [W1 [Hh [Hm1 HF]]]]]]].
  assert (Hc' : c' = mkCl (upd (nodes c) p n') (sends o ++ net c) (map (pair p) o ++ trace c)) by congruence. clear H.
  assert (Eel : elections (trace c') = elections (map (pair p) o) ++ gel g) by (subst c'; cbn [trace]; rewrite elections_app, Hel; reflexivity).
  set (g2 := mkGh ll' (elections (trace c')) (gak g1) (ghd g1) (gmt g1)).
  assert (X12 : Ext g1 g2).
  { constructor; cbn; auto; try lia; [rewrite L1; exact X2|]. intros x Hx. rewrite Eel. apply in_or_app; right. rewrite <- L2. exact Hx. }
  assert (W2 : wfg g2) by (apply (wfg_ext g1); cbn; auto; rewrite L1; exact X2).
  assert (XX : Ext g g2) by (eapply Ext_trans; eauto).
  assert (Nin : forall m, In m (net c) -> In m (net c')) by (intros m Hm; subst c'; cbn; apply in_or_app; auto).
  assert (B1' : B ll' (elections (trace c')) p n').
  { destruct I2' as [K _]. specialize (K p). subst c'. cbn [nodes] in K. unfold upd in K. rewrite Z.eqb_refl in K. exact K. }
  assert (HLE1 : LE g1 (gel g1)) by (rewrite L2; apply (LE_ext conf g); auto).
  assert (HB1 : B (gll g1) (gel g1) p (nodes c p)) by (rewrite L1, L2; apply HB).
  assert (HG1 : G (gll g1) (gel g1) (net c)) by (rewrite L1, L2; apply HG).
  assert (Main : D g2 (net c') p n' /\ Forall (tok g2) o /\ LE g2 (gel g2)).
  { destruct HF as [[F1 F2]|[[n1 [pre [o1 [F1 [F2 [F3 [F4 [F5 [F6 [F7 F8]]]]]]]]]]|[vs [F1 [F2 [F3 F4]]]]]].
    - split; [apply (D_ext conf g1 g2 (net c)); auto|]. split.
      + eapply Forall_impl; [|exact F2]. intros x Hx. apply (tok_ext g1); auto. destruct x; auto. exact I.
      + cbn [gel g2]. rewrite Eel, elections_nil; [cbn [app]; rewrite <- L2; apply (LE_ext conf g1); auto|].
        eapply Forall_impl; [|exact F2]. intros x Hx. destruct x; auto.
    - assert (Es : n_st n1 = Candidate) by (unfold become_leader in F3; destruct (n_st n1); congruence).
      assert (B1 : B (gll g1) (gel g1) p n1) by (eapply lower_B; eauto).
      set (T := n_term n1) in *. subst o.
      pose proof F3 as F3'. unfold become_leader in F3. rewrite Es in F3.
      destruct (BallotBox.reset_pending_index (n_box n1) (zlen (n_log n1) + 1)) as [bx|] eqn:Er; try discriminate.
      match type of F3 with context [lead_append conf [cv] ?x] => set (n2 := x) in * end.
      destruct (lead_append conf [cv] n2) as [n3|] eqn:Ea; inversion F3; subst n3 o1. clear F3.
      assert (Ee : elections (map (pair p) (pre ++ [OElected (n_term n1) (n_log n1)])) = [(T, p, n_log n1)]).
      { rewrite map_app, elections_app. rewrite (plain_elected p pre F7 : elections (map (pair p) pre) = []). reflexivity. }
      rewrite Ee in Eel. cbn [app] in Eel.
      assert (Hne : ~ elected g1 T).
      { intros [q [l Hin]]. assert (q = p).
        { apply (one_leader conf vt' c' q p T l (n_log n1) I1'); apply in_elections; rewrite Eel; [right; rewrite <- L2; exact Hin|left; reflexivity]. }
        subst q. exact (b_el _ _ _ _ B1 _ _ Hin eq_refl Es). }
      assert (Vq : votes (n_q n1)).
      { destruct F1 as [_ [d2 _]]. destruct (d2 (or_introl Es)) as [K|K]; [contradiction|].
        destruct K as [[K _]|[[K _]|[_ K]]]; [contradiction|contradiction|auto]. }
      assert (D2' : D g2 (net c') p n1) by (apply (D_ext conf g1 g2 (net c)); auto).
      destruct D2' as [d1 [_ [d3 [d4 d5]]]].
      unfold lead_append in Ea. destruct (pend_all conf (n_box n2) [cv]) as [bx'|] eqn:Ep; try discriminate. inversion Ea; subst n'. clear Ea.
      unfold BallotBox.reset_pending_index in Er.
      destruct (BallotBox.bq (n_box n1)) eqn:Q1; try discriminate. destruct (BallotBox.cq_q (BallotBox.cq (n_box n1))) eqn:Q2; try discriminate.
      destruct ((BallotBox.pend (n_box n1) =? 0) && (BallotBox.lc (n_box n1) <? zlen (n_log n1) + 1)); inversion Er; subst bx; clear Er.
      destruct (b_lead _ _ _ _ B1' eq_refl) as [HT _]. cbn in HT. fold T in HT.
      assert (Hin : In (T, p, n_log n1) (gel g2)) by (cbn; rewrite Eel; left; reflexivity).
      destruct (D_grow g2 p T (n_log n1) (n_disk n1) (n_q n1) (n_box n2) [cv] bx' (n_log n1)) with (st := Leader) as [R1 R4].
      + apply (b_fin _ _ _ _ B1).
      + symmetry; exact HT.
      + exact Hin.
      + eapply votes_D1; [exact Vq|exact d1].
      + cbn. destruct d4 as [K _]. exact K.
      + cbn. lia.
      + cbn. rewrite zlen_nil. lia.
      + cbn. intros k b Hk. unfold znth in Hk. destruct (k <? 0); [discriminate|]. destruct (Z.to_nat k); discriminate.
      + exact Ep.
      + reflexivity.
      + split; [|split].
        * split; [exact R1|]. split; [intros _; left; exists p, (n_log n1); exact Hin|]. split; [|split; [exact R4|exact d5]].
          destruct d3 as [k1 _]. split; [exact k1|]. cbn. discriminate.
        * apply Forall_app. split; [|constructor; [exact I|constructor]]. eapply Forall_impl; [|exact F6]. intros x Hx.
          apply (tok_ext g1); auto. destruct x; auto. exact I.
        * cbn [gel g2]. rewrite Eel. cbn [ClusterGhost.LE]. split; [rewrite <- L2; apply (LE_ext conf g1); auto|].
          destruct F1 as [k1 [k2 [[k3 K3] [k4 k5]]]]. destruct (K3 Es) as [acks [A1 A2]].
          exists acks. split; [apply (ballot_ok_granted _ _ _ _ A1) in F4; apply F4|]. intros v Hv.
          destruct (voter_LE g1 (net c) p n1 v W1 HG1 (conj k1 (conj k2 (conj (conj k3 K3) (conj k4 k5)))) B1 Hne (A2 v Hv)) as [V1 V2].
          split; [exact V1|]. intros t j Ht Ha.
          assert (Ho : own g1 t j) by (apply (proj1 W1 v); apply (proj2 W1); exact Ha).
          rewrite (own_PX g1 g2) by (auto; apply X12). destruct (V2 t j Ht Ha) as [K|K]; [left; exact K|]. right.
          rewrite <- L2. eapply lacks_ext; [apply X12|exact Ho| |exact K]. auto.
    - subst o. cbn [map elections flat_map app] in Eel.
      assert (D2' : D g2 (net c') p (nodes c p)) by (apply (D_ext conf g1 g2 (net c)); auto).
      destruct D2' as [d1 [_ [d3 [d4 d5]]]]. unfold lead_append in F3.
      destruct (pend_all conf (n_box (nodes c p)) vs) as [bx'|] eqn:Ep; inversion F3; subst n'. clear F3.
      assert (F2' : is_lead (n_st (nodes c p)) = true) by exact F2.
      rewrite F2 in d1. destruct d4 as [k1 [_ k3]]. destruct (k3 F2) as [l [m1 [m2 [m3 m4]]]].
      destruct (b_lead _ _ _ _ B1' F2) as [HT _]. cbn in HT.
      destruct (D_grow g2 p (n_term (nodes c p)) (n_log (nodes c p)) (n_disk (nodes c p)) (n_q (nodes c p)) (n_box (nodes c p)) vs bx' l) with (st := n_st (nodes c p)) as [R1 R4]; auto.
      + apply (b_fin _ _ _ _ HB1).
      + split; [|split; [constructor|cbn [gel g2]; rewrite Eel, <- L2; apply (LE_ext conf g1); auto]].
        split; [cbn; rewrite F2'; exact R1|]. split; [intros _; left; exists p, l; exact m1|]. split; [|split; [exact R4|exact d5]].
        destruct d3 as [k4 _]. split; [exact k4|]. cbn. intros Es. rewrite Es in F2'. discriminate. }
  destruct Main as [M1 [M2 M3]]. exists vt', g2. split; [exact I1'|]. split; [exact I2'|]. constructor.
  - intros q. subst c'. cbn [nodes]. unfold upd. destruct (Z.eqb_spec q p); [subst q; exact M1|].
    apply (D_ext conf g g2 (net c)); [auto|auto| |auto|auto]. intros t j K. apply (Hh q t j); auto.
  - intros m Hm. subst c'. cbn [net] in Hm. apply in_app_or in Hm. destruct Hm as [Hm|Hm].
    + apply in_sends in Hm. rewrite Forall_forall in M2. apply M2 in Hm. exact Hm.
    + apply (ook_ext conf g g2 (OSend m)); auto. apply Hn; auto.
  - intros q x Hx. subst c'. cbn [trace] in Hx. apply in_app_or in Hx. destruct Hx as [Hx|Hx].
    + apply in_map_iff in Hx. destruct Hx as [y [Ey Hy]]. inversion Ey; subst. rewrite Forall_forall in M2. auto.
    + apply (tok_ext g); eauto.
  - reflexivity.
  - intros q. cbn [gmt g2]. rewrite Hm1. subst c'. cbn [nodes]. unfold upd. destruct (Z.eqb_spec q p); auto.
  - exact W2.
  - exact M3.
Qed.

Definition g0 : gh := mkGh (fun _ => []) [] (fun _ _ _ => False) (fun _ _ _ => False) (fun _ => 1).
Lemma inv3_init : Inv3 g0 cinit.
Proof.
  constructor; cbn; try tauto.
  - intros p. split; [split; cbn; auto; tauto|]. split; [intros [K|K]; cbn in K; discriminate|]. split; [split; cbn; discriminate|].
    split; [|split; [intros w []|split; [intros w ? ? ? []|intros w []]]]. split; [left; cbn; lia|]. split; [auto|cbn; discriminate].
  - split; cbn; tauto.
Qed.

Lemma inv123_exec : forall c, execution conf cv calm c -> exists vt g, Inv1 conf vt c /\ Inv2 (gll g) c /\ Inv3 g c.
Proof.
  intros c H. induction H.
  - exists (fun _ _ => None), g0. split; [apply inv1_init|]. split; [apply inv2_init|apply inv3_init].
  - destruct IHexecution as [vt [g [I1 [I2 I3]]]]. destruct H0 as [S1 [S2 [S3 S4]]].
    eapply inv3_step; eauto.
Qed.

(** ** What follows *)
Lemma commit_survives : forall vt g c p q t es t' l, Inv1 conf vt c -> Inv2 (gll g) c -> Inv3 g c ->
  In (p, OCommit t es) (trace c) -> In (q, OElected t' l) (trace c) -> t < t' -> prefix es l.
Proof.
  intros vt g c p q t es t' l I1 I2 I3 H1 H2 Ht. apply (i_tr _ _ I3) in H1. cbn in H1. destruct H1 as [i [H1 ->]].
  eapply complete; [apply (i_le _ _ I3)|exact H1| |exact Ht]. rewrite (i_el _ _ I3). apply in_elections. eauto.
Qed.

Lemma commits_agree : forall g c t0 i0 t1 i1 i e0 e1, Inv2 (gll g) c -> Inv3 g c ->
  cm g t0 i0 -> cm g t1 i1 -> i <= i0 -> i <= i1 -> znth (gll g t0) (i - 1) = Some e0 -> znth (gll g t1) (i - 1) = Some e1 -> e0 = e1.
Proof.
  intros g c t0 i0 t1 i1 i e0 e1 [_ HG] I3. rewrite <- (i_el _ _ I3) in HG.
  assert (X : forall t0 i0 t1 i1 e0 e1, cm g t0 i0 -> cm g t1 i1 -> i <= i0 -> i <= i1 -> t0 <= t1 ->
    znth (gll g t0) (i - 1) = Some e0 -> znth (gll g t1) (i - 1) = Some e1 -> e0 = e1).
  { clear t0 i0 t1 i1 e0 e1. intros t0 i0 t1 i1 e0 e1 C0 C1 Hi0 Hi1 Ht Z0 Z1. destruct (Z.eq_dec t0 t1) as [->|Hne]; [congruence|].
    pose proof C1 as [[O1 O2] _].
    destruct (g_el _ _ _ HG t1) as [q [l Hin]]. { intros En. rewrite En, zlen_nil in O1. lia. }
    pose proof (committed_in conf g (net c) t0 i0 t1 q l i HG (i_le _ _ I3) C0 Hin Ht Hi0) as K.
    pose proof (znth_some_bound _ _ _ Z0) as Bd.
    assert (Y : znth (PX g t0 i) (i - 1) = Some e0).
    { assert (Lp : zlen (PX g t0 i) = i) by (unfold PX; rewrite zlen_firstn; lia).
      destruct (znth_in_bound (PX g t0 i) (i - 1)) as [x Ex]; [lia|].
      pose proof (prefix_znth _ (gll g t0) _ _ (prefix_firstn _ _) Ex) as Ey. congruence. }
    pose proof (prefix_znth _ _ _ _ K Y). congruence. }
  intros H1 H2 H3 H4 H5 H6. destruct (Z_le_gt_dec t0 t1); [eauto|]. symmetry. eapply X; [exact H2|exact H1| | | | |]; eauto; lia.
Qed.

Lemma commit_in_leader : forall g c p q t es, Inv2 (gll g) c -> Inv3 g c ->
  In (p, OCommit t es) (trace c) -> is_lead (n_st (nodes c q)) = true -> t <= n_term (nodes c q) ->
  prefix es (n_log (nodes c q)).
Proof.
  intros g c p q t es [HB HG] I3 H1 Hl Ht. rewrite <- (i_el _ _ I3) in HB, HG. apply (i_tr _ _ I3) in H1. cbn in H1. destruct H1 as [i [H1 ->]].
  destruct (b_lead _ _ _ _ (HB q) Hl) as [E [l Hin]]. rewrite E.
  eapply committed_in; [exact HG|apply (i_le _ _ I3)|exact H1|exact Hin|exact Ht|lia].
Qed.

Lemma apply_in_commit : forall g c p q i e t es, Inv2 (gll g) c -> Inv3 g c ->
  In (p, OApply i e) (trace c) -> In (q, OCommit t es) (trace c) -> i <= zlen es -> znth es (i - 1) = Some e.
Proof.
  intros g c p q i e t es I2 I3 H1 H2 Hi. apply (i_tr _ _ I3) in H1. apply (i_tr _ _ I3) in H2. cbn in H1, H2.
  destruct H1 as [t0 [i0 [C0 [Hi0 Z0]]]]. destruct H2 as [i1 [C1 ->]].
  pose proof C1 as [[O1 _] _]. unfold PX in Hi. rewrite zlen_firstn in Hi.
  pose proof (znth_some_bound _ _ _ Z0) as Bd.
  destruct (znth_in_bound (PX g t i1) (i - 1)) as [x Ex]; [unfold PX; rewrite zlen_firstn; lia|].
  pose proof (prefix_znth _ (gll g t) _ _ (prefix_firstn _ _) Ex) as Ey.
  rewrite Ex. f_equal. symmetry. exact (commits_agree g c t0 i0 t i1 i e x I2 I3 C0 C1 Hi0 ltac:(lia) Z0 Ey).
Qed.

Lemma applied_agree : forall g c p q i e e', Inv2 (gll g) c -> Inv3 g c ->
  In (p, OApply i e) (trace c) -> In (q, OApply i e') (trace c) -> e = e'.
Proof.
  intros g c p q i e e' I2 I3 H1 H2. apply (i_tr _ _ I3) in H1. apply (i_tr _ _ I3) in H2. cbn in H1, H2.
  destruct H1 as [t0 [i0 [C0 [Hi0 Z0]]]]. destruct H2 as [t1 [i1 [C1 [Hi1 Z1]]]].
  exact (commits_agree g c t0 i0 t1 i1 i e e' I2 I3 C0 C1 Hi0 Hi1 Z0 Z1).
Qed.
End Inv.
