(** Leaders keep the invariant: appending, counting acknowledgements, membership changes. *)
From Verif Require Import Base BaseLemmas LogEntry Ballot QuorumSpec BallotProofs BallotBoxProofs Node LogPrefix Reconf ReconfStatic ReconfInv ReconfGhost ReconfNode ReconfVote.
From Verif Require BallotBox BallotBoxSpec ConfCtx ConfCtxProofs.

Section Lead.
Variable conf0 : list peer.
Variable boot : peer -> bool.
Variable dec : Z -> option jconf.
Notation cfg := (cfg conf0 dec).
Notation SF := (SF conf0 dec).
Notation cm := (cm conf0 dec).
Notation NI := (NI conf0 boot dec).
Notation Inv := (Inv conf0 boot dec).
Notation lastat := (lastat dec).

(** acknowledgements *)
Definition addak (G : gh) (p : peer) (t k : Z) : gh :=
  mkG (gll G) (gel G) (fun n T i => gak G n T i \/ (n = p /\ T = t /\ own (gll G) t i /\ i <= k)) (gcl G) (gvt G).
Lemma addak_gext : forall G p t k, gext p G (addak G p t k).
Proof.
  intros. constructor; cbn [addak gll gel gak gvt gcl]; auto.
  - intros t'; apply prefix_refl.
  - intros n T i [|(-> & _)] N; [auto|congruence].
Qed.
Lemma addak_SF : forall G p t k, SF G -> (forall t' c, gvt G p t' c -> t' <= t) -> SF (addak G p t k).
Proof.
  intros G p t k S V. apply (SF_votes_acks conf0 dec); auto.
  - intros n T i [|(-> & -> & O & _)]; auto.
  - apply S.
Qed.
(** NI under a pure growth of acknowledgements of the node itself *)
Lemma addak_NI : forall G p n t k, SF G -> NI G p n -> t = r_term n ->
  (forall i, own (gll G) t i -> i <= k -> prefix (PX (gll G) t i) (firstn (Z.to_nat (r_sync n)) (r_log n))) ->
  NI (addak G p t k) p n.
Proof.
  intros G p n t k S H Ht A.
  assert (E : gext p G (addak G p t k)) by apply addak_gext.
  destruct H. constructor; auto.
  - cbn [addak gak gll gel]. intros T i [Ha|(_ & -> & O & B)]; [apply i_ak; auto|]. split; [lia|]. left. auto.
  - destruct i_lc as [B D]. split; auto. destruct D as [D|(T0 & i0 & C & L & P)]; auto. right.
    exists T0, i0. sp; auto. eapply cm_ext; eauto.
  - intros X. destruct (i_lead X) as (l0 & B1 & B2 & B3 & B4 & B5 & B6 & B7). exists l0. sp; auto.
    + intros k0 x Hx. destruct (B5 k0 x Hx) as (acks & D1 & D2). exists acks. split; auto.
      intros a Ha. left. apply D2; auto.
    + destruct B6 as [|C]; auto. right. eapply cm_ext; eauto.
Qed.

Lemma inv_lc_pos : forall b : BallotBox.box, Inv0 b -> 0 <= BallotBox.lc b.
Proof. intros b H. apply H. Qed.

(** BallotBox::commit_at on a leader *)
Lemma commit_to_NI : forall G p n first last a n' o, SF G -> NI G p n -> r_st n = RLead ->
  (forall j, own (gll G) (r_term n) j -> j <= last -> gak G a (r_term n) j) ->
  commit_to first last a n = (n', o) ->
  NI G p n' /\ r_term n' = r_term n /\ sends o = [] /\ forall x, In x o -> out_ok conf0 dec G (p, x).
Proof.
  intros G p n first last a n' o S N RL A H. unfold commit_to in H.
  destruct (BallotBox.commit_at (r_box n) first last a) as [[b r] oc] eqn:EB.
  assert (B0 : Inv0 (r_box n)) by apply N.
  assert (B1 : Inv0 b).
  { refine (inv0_step _ (BallotBox.ECommit first last a) _ _ B0 _). cbn [BallotBox.step]. rewrite EB. reflexivity. }
  assert (NS : forall b', NI G p (set_box b' n) -> NI G p (set_box b' n)) by auto.
  destruct (commit_at_cases _ _ _ _ _ _ _ B0 EB) as [(-> & -> & _)|(P0 & PL & _ & q & cc & EL & CC)].
  { inversion H; subst n' o. split; [|split; [reflexivity|split; [reflexivity|intros x []]]].
    destruct n; exact N. }
  pose proof N as N'. destruct N'. destruct (i_lead RL) as (l0 & D1 & D2 & D3 & D4 & D5 & D6 & D7).
  destruct (commit_loop_spec _ _ _ _ _ _ _ _ _ P0 EL) as (Q1 & Q2 & Q3 & Q4).
  unfold BallotBoxSpec.next_index in PL.
  set (t := r_term n) in *. set (pd := BallotBox.pend (r_box n)) in *.
  assert (BAL : forall k x, znth q k = Some x ->
     exists acks, ballot_ok (fst (cfg (PX (gll G) t (pd + k)))) (snd (cfg (PX (gll G) t (pd + k)))) acks x /\
                  forall a0, In a0 acks -> gak G a0 t (pd + k)).
  { intros k x Hx. pose proof (znth_some_bound _ _ _ Hx) as Bk.
    destruct (znth_in_bound (BallotBox.bq (r_box n)) k) as [y Hy]. { lia. }
    destruct (Q2 k y Hy) as (x' & Hx' & C). rewrite Hx in Hx'. inversion Hx'; subst x'. clear Hx'.
    destruct (D5 k y Hy) as (acks & OK & AK).
    destruct C as [(R & (h & ->) & _)|(_ & ->)].
    - exists (a :: acks). split.
      + apply grant_ok; auto. rewrite <- surjective_pairing. eapply (cfg_wf conf0 dec (gll G)).
        * apply S.
        * eapply wfl_prefix; [apply (G_ll_wfl conf0 dec _ t S)|apply PX_prefix].
      + intros a0 [<-|Ha]; [|apply AK; auto]. apply A; [|lia].
        eapply (G_el_own conf0 dec); eauto. rewrite <- D2. fold pd in D4. lia.
    - exists acks. split; auto. }
  destruct CC as [(-> & -> & ->)|(Nc & -> & ->)].
  - inversion H; subst n' o. split; [|split; [reflexivity|split; [reflexivity|intros x []]]].
    constructor; cbn [set_box r_self r_st r_term r_voted r_leader r_log r_sync r_box r_applied r_ballot r_stage r_done]; auto;
      try (intros X; congruence).
    intros _. exists l0. cbn [BallotBox.pend BallotBox.bq]. rewrite Q1. sp; auto.
  - assert (CB : pd <= cc < pd + zlen (BallotBox.bq (r_box n))).
    { destruct Q3 as [Q3|(Q3 & _)]; [congruence|]. lia. }
    destruct Q3 as [Q3|(_ & Q3 & bb & Hb & GR)]; [congruence|].
    destruct (BAL _ _ Hb) as (acks & OK & AK). replace (pd + (cc - pd)) with cc in * by lia.
    fold pd in D4.
    assert (CM : cm G t cc).
    { split.
      - eapply (G_el_own conf0 dec); eauto. rewrite <- D2. lia.
      - exists acks. split; auto. apply (proj1 (ballot_ok_granted _ _ _ _ OK)). auto. }
    inversion H; subst n' o. split; [|split; [reflexivity|split; [reflexivity|]]].
    2:{ intros x [<-|[]]. cbn [out_ok]. exists cc. split; auto. rewrite D2. reflexivity. }
    assert (LCC : lc n < cc). { destruct B0 as (_ & [X|X] & _); unfold lc; fold pd in X; lia. }
    constructor; cbn [set_box r_self r_st r_term r_voted r_leader r_log r_sync r_box r_applied r_ballot r_stage r_done]; auto;
      try (intros X; congruence).
    + unfold lc. cbn [r_box BallotBox.lc set_box]. split; [lia|]. right. exists t, cc. sp; auto; [unfold t; lia|].
      rewrite D2. apply prefix_refl.
    + unfold lc in *. cbn [r_box BallotBox.lc set_box]. lia.
    + intros _. exists l0. cbn [BallotBox.pend BallotBox.bq]. sp; auto.
      * lia.
      * rewrite skipn_len_pend; try lia.
      * intros k x Hx. cbn [set_box r_box r_term BallotBox.pend BallotBox.bq] in *.
        pose proof (znth_some_bound _ _ _ Hx) as Bk.
        rewrite <- (Z.add_simpl_l (cc + 1) k) in Hx.
        rewrite znth_skipn_pend in Hx by lia. destruct (BAL _ _ Hx) as (acks' & OK' & AK').
        replace (pd + (cc + 1 + k - pd)) with (cc + 1 + k) in * by lia. exists acks'. split; auto.
      * cbn [set_box]. unfold stage_ok, idle, lc in *. cbn [set_box r_stage r_done r_log r_term r_box BallotBox.lc].
        destruct (r_stage n).
        -- destruct D7 as (X1 & X2 & j & X3 & X4). sp; auto. exists j. split; auto. lia.
        -- destruct D7 as (X1 & X2 & X3 & X4 & X5 & j & X6 & X7). sp; auto. exists j. split; auto. lia.
        -- exact D7.
        -- exact D7.
Qed.

Lemma inv_ack : forall c p G from t upto first n' o, Inv G c -> In (RAck from t upto) (rnet c) ->
  ack from t upto first (rnodes c p) = (n', o) -> Inv G (nxt c p n' o).
Proof.
  intros c p G from t upto first n' o I M H. unfold ack in H. set (n := rnodes c p) in *.
  assert (N : NI G p n) by apply I.
  destruct (r_st n) eqn:E; try (inversion H; subst n' o; apply inv_quiet; auto; fold n; lia).
  destruct (Z.eqb_spec t (r_term n)) as [->|]; [|inversion H; subst n' o; apply inv_quiet; auto; fold n; lia].
  destruct (v_net _ _ _ _ _ I _ M) as [[_ MA] _].
  destruct (commit_to_NI G p n first upto from n' o (v_sf _ _ _ _ _ I) N E MA H) as (X1 & X2 & X3 & X4).
  apply inv_same; auto.
  - fold n. lia.
  - rewrite X3. intros m [].
Qed.
Lemma inv_disk : forall c p G first k n' o, Inv G c ->
  disk first k (rnodes c p) = Some (n', o) -> exists G', Inv G' (nxt c p n' o).
Proof.
  intros c p G first k n' o I H. unfold disk in H. set (n := rnodes c p) in *.
  assert (N : NI G p n) by apply I.
  destruct (Z.leb_spec k (zlen (r_log n))) as [LE|]; [|discriminate H].
  set (n1 := set_log (r_log n) (Z.max (r_sync n) k) n) in *.
  assert (N1 : NI G p n1). { apply NI_sync; auto. destruct N. lia. }
  change (r_st n1) with (r_st n) in H.
  destruct (r_st n) eqn:E; try (inversion H; subst n' o; exists G; apply inv_quiet; auto; fold n; cbn [n1 set_log r_term]; lia).
  set (t := r_term n).
  assert (S : SF G) by apply I.
  assert (S' : SF (addak G p t k)). { apply addak_SF; auto. apply N. }
  assert (N2 : NI (addak G p t k) p n1).
  { apply addak_NI; auto. intros i O B. destruct (i_lead _ _ _ _ _ _ N E) as (l0 & _ & D2 & _).
    cbn [n1 set_log r_log r_sync]. rewrite D2. fold t. apply prefix_firstn2. lia. }
  injection H as H. destruct (commit_to_NI _ p n1 first k (r_self n) n' o S' N2) as (X1 & X2 & X3 & X4); auto.
  { cbn [n1 set_log r_term]. intros j O B. right. rewrite (i_self _ _ _ _ _ _ N). auto. }
  exists (addak G p t k). apply inv_step with (G := G); auto.
  - apply addak_gext.
  - intros q u _. reflexivity.
  - fold n. rewrite X2. cbn [n1 set_log r_term]. lia.
  - rewrite X3. intros m [].
Qed.

(** appending to the leader's log *)
Lemma zlen_snoc : forall A (L : list A) e, zlen (L ++ [e]) = zlen L + 1.
Proof. intros. unfold zlen. rewrite app_length. cbn [length]. lia. Qed.
Lemma lastat_snoc : forall L e c, dec (l_val e) = Some c -> lastat (L ++ [e]) (zlen L + 1).
Proof.
  intros L e c D. pose proof (zlen_nonneg L). unfold ReconfInv.lastat. rewrite zlen_app, zlen_cons, zlen_nil. sp; try lia.
  rewrite confat_snoc, D. discriminate.
Qed.
Lemma lastat_app : forall L e j, lastat L j -> dec (l_val e) = None -> lastat (L ++ [e]) j.
Proof.
  intros L e j (A & B & C) D. unfold ReconfInv.lastat. rewrite zlen_app, zlen_cons, zlen_nil. sp; try lia.
  - rewrite (confat_prefix dec L) by (try apply prefix_app; lia). auto.
  - intros k Hk. destruct (Z.eq_dec k (zlen L + 1)) as [->|].
    + rewrite confat_snoc. auto.
    + rewrite (confat_prefix dec L) by (try apply prefix_app; lia). apply C. lia.
Qed.
Lemma stage_lastat : forall n l0, stage_ok conf0 dec n l0 -> exists j, lastat (r_log n) j /\ zlen l0 < j.
Proof.
  intros n l0 H. unfold stage_ok in H. destruct (r_stage n).
  - destruct H as (_ & _ & j & A & B). exists j. split; auto. lia.
  - destruct H as (_ & _ & _ & _ & _ & j & A & B). exists j. split; auto. lia.
  - destruct H as (_ & j & A & B & _). exists j. auto.
  - destruct H as (_ & j & A & B & _). exists j. auto.
Qed.
Lemma lead_append_form : forall v n n', lead_append conf0 boot dec v n = Some n' ->
  let l := r_log n ++ [mkL (r_term n) v] in
  0 < BallotBox.pend (r_box n) /\
  n' = mkR (r_self n) (r_st n) (r_term n) (r_voted n) (r_leader n) l (r_sync n)
        (BallotBox.mkBox (BallotBox.lc (r_box n)) (BallotBox.pend (r_box n))
           (BallotBox.bq (r_box n) ++ [ballot_init (fst (conf_of conf0 boot dec (r_self n) l)) (snd (conf_of conf0 boot dec (r_self n) l))])
           (BallotBox.mkCQ (BallotBox.cq_first (BallotBox.cq (r_box n))) (BallotBox.cq_q (BallotBox.cq (r_box n)) ++ [None])))
        (r_applied n) (r_ballot n) (r_stage n) (r_done n).
Proof.
  intros v n n' H l. unfold lead_append in H. fold l in H. unfold BallotBox.append_pending_task in H.
  destruct (Z.ltb_spec 0 (BallotBox.pend (r_box n))); [|discriminate H]. split; auto. inversion H. reflexivity.
Qed.
Lemma inv0_append : forall b c o, Inv0 b -> 0 < BallotBox.pend b ->
  Inv0 (BallotBox.mkBox (BallotBox.lc b) (BallotBox.pend b) (BallotBox.bq b ++ [ballot_init c o])
         (BallotBox.mkCQ (BallotBox.cq_first (BallotBox.cq b)) (BallotBox.cq_q (BallotBox.cq b) ++ [None]))).
Proof.
  intros b c o H P. refine (inv0_step b (BallotBox.EAppend c o None) _ [] H _).
  cbn [BallotBox.step]. unfold BallotBox.append_pending_task. destruct (Z.ltb_spec 0 (BallotBox.pend b)); [reflexivity|lia].
Qed.

Lemma NI_append : forall G p n v n' l0 st dn, SF G -> NI G p n -> r_st n = RLead -> In (r_term n, p, l0) (gel G) ->
  lead_append conf0 boot dec v (set_stage st n) = Some n' ->
  (forall c, dec v = Some c -> wf_jconf c /\ overlapping (cfg (r_log n)) c /\
     exists j, zlen l0 < j <= lc n /\ lastat (r_log n) j) ->
  (forall d, In d dn -> snd d <= r_term n) ->
  stage_ok conf0 dec (set_done dn n') l0 ->
  let G' := mkG (setll (gll G) (r_term n) (gll G (r_term n) ++ [mkL (r_term n) v])) (gel G) (gak G) (gcl G) (gvt G) in
  SF G' /\ gext p G G' /\ NI G' p (set_done dn n') /\ r_term n' = r_term n.
Proof.
  intros G p n v n' l0 st dn S N RL EL H HC HD ST G'.
  pose proof N as N'. destruct N'. destruct (i_lead RL) as (l1 & D1 & D2 & D3 & D4 & D5 & D6 & D7).
  destruct (s3 _ _ _ S _ _ _ _ _ EL D1) as [_ <-].
  destruct (stage_lastat _ _ D7) as (j0 & J1 & J2).
  destruct (SF_append conf0 dec G (r_term n) p l0 (mkL (r_term n) v) S EL eq_refl) as [S' E].
  { cbn [l_val]. rewrite <- D2. intros c Hc. destruct (HC c Hc) as (X1 & X2 & j & X3 & X4). sp; auto.
    exists j, (lc n). sp; auto; try lia. destruct D6; [lia|auto]. }
  fold G' in S', E. split; auto. split; auto.
  destruct (lead_append_form _ _ _ H) as [P0 FN].
  cbn [set_stage r_self r_st r_term r_voted r_leader r_log r_sync r_box r_applied r_ballot r_stage r_done] in P0, FN.
  set (t := r_term n) in *. set (e := mkL t v) in *. set (L := r_log n) in *.
  assert (CF : conf_of conf0 boot dec (r_self n) (L ++ [e]) = cfg (L ++ [e])).
  { eapply conf_of_cfg. rewrite (confat_prefix dec L (L ++ [e]) j0 (prefix_app _ _)); [apply J1|]. destruct J1. lia. }
  assert (LL : gll G' t = L ++ [e]) by (cbn [G' gll]; rewrite setll_same, <- D2; reflexivity).
  assert (PE : forall i, i <= zlen L -> PX (gll G') t i = PX (gll G) t i).
  { intros i B. apply PX_ext; [apply E|]. rewrite <- D2. exact B. }
  split; [|subst n'; reflexivity].
  assert (SO : stage_ok conf0 dec (set_done dn n') l0) by exact ST.
  subst n'. constructor; cbn [set_done r_self r_st r_term r_voted r_leader r_log r_sync r_box r_applied r_ballot r_stage r_done]; auto;
    try (intros X; congruence).
  - apply wfl_app with (t := t).
    + eapply wfl_ext; [eauto|apply E].
    + intros x [<-|[]]. reflexivity.
    + rewrite LL. apply prefix_refl.
  - intros x Hx. apply in_app_or in Hx. destruct Hx as [Hx|[<-|[]]]; auto. cbn [e l_term]. lia.
  - rewrite zlen_snoc. lia.
  - intros T i Ha. cbn [G' gak] in Ha. destruct (i_ak T i Ha) as [X D]. split; auto.
    pose proof (own_bound _ _ _ (s9 _ _ _ S _ _ _ Ha)) as OB.
    rewrite (PX_ext (gll G) (gll G')) by (try apply E; auto).
    destruct D as [D|D]; [left|right].
    + rewrite <- (firstn_prefix_eq L (L ++ [e])) by (try apply prefix_app; lia). exact D.
    + eapply lacks_ext; [apply E|apply E|exact OB|exact D].
  - apply inv0_append; auto.
  - unfold lc in *. cbn [set_done r_box BallotBox.lc]. destruct i_lc as [B D]. rewrite zlen_snoc. split; [lia|].
    destruct D as [D|(T0 & i0 & C & X & P)]; auto. right. exists T0, i0. sp; auto. { eapply cm_ext; eauto. }
    rewrite (cm_PX _ _ _ _ _ _ _ E C). rewrite <- (firstn_prefix_eq L (L ++ [e])) by (try apply prefix_app; lia). exact P.
  - intros _. exists l0. cbn [BallotBox.pend BallotBox.bq].
    sp; auto.
    + rewrite !zlen_snoc. lia.
    + intros k x Hx. cbn [set_done r_box r_term BallotBox.pend BallotBox.bq] in *.
      pose proof (znth_some_bound _ _ _ Hx) as Bk. rewrite zlen_snoc in Bk.
      destruct (Z.eq_dec k (zlen (BallotBox.bq (r_box n)))) as [->|Nk].
      * rewrite znth_app2 in Hx by lia. rewrite Z.sub_diag, znth_cons_0 in Hx. inversion Hx; subst x.
        exists []. split; [|intros a []]. fold t L e. rewrite CF. unfold PX. rewrite LL.
        rewrite firstn_zall by (rewrite zlen_snoc; lia). apply ballot_ok_init.
      * rewrite znth_app1 in Hx by lia. destruct (D5 k x Hx) as (acks & Y1 & Y2).
        exists acks. fold t in Y1. rewrite PE by lia. split; auto.
    + destruct D6 as [|C]; auto. right. eapply cm_ext; eauto.
Qed.

(** the events that append *)
Lemma inv_append : forall c p G n' dn v l0 st, Inv G c -> r_st (rnodes c p) = RLead ->
  In (r_term (rnodes c p), p, l0) (gel G) ->
  lead_append conf0 boot dec v (set_stage st (rnodes c p)) = Some n' ->
  (forall c0, dec v = Some c0 -> wf_jconf c0 /\ overlapping (cfg (r_log (rnodes c p))) c0 /\
     exists j, zlen l0 < j <= lc (rnodes c p) /\ lastat (r_log (rnodes c p)) j) ->
  (forall d, In d dn -> snd d <= r_term (rnodes c p)) ->
  stage_ok conf0 dec (set_done dn n') l0 ->
  exists G', Inv G' (nxt c p (set_done dn n') []).
Proof.
  intros c p G n' dn v l0 st I RL EL H HC HD ST.
  destruct (NI_append G p _ v n' l0 st dn (v_sf _ _ _ _ _ I) (v_ni _ _ _ _ _ I p) RL EL H HC HD ST) as (S' & E & N' & T').
  eexists. apply inv_step with (G := G); [exact I|exact E| |exact S'|exact N'| | | |].
  - intros q u _. reflexivity.
  - cbn [set_done r_term]. lia.
  - intros m [].
  - intros t q Hv. auto.
  - intros x [].
Qed.
Lemma set_done_same : forall n, set_done (r_done n) n = n.
Proof. destruct n; reflexivity. Qed.
Lemma set_stage_same : forall n, set_stage (r_stage n) n = n.
Proof. destruct n; reflexivity. Qed.

Lemma inv_propose : forall c p G v n' o, Inv G c -> propose conf0 boot dec v (rnodes c p) = Some (n', o) ->
  exists G', Inv G' (nxt c p n' o).
Proof.
  intros c p G v n' o I H. unfold propose in H. set (n := rnodes c p) in *.
  assert (N : NI G p n) by apply I.
  assert (Q : Inv G (nxt c p n [])). { apply inv_quiet; auto. fold n. lia. }
  destruct (r_st n) eqn:E; try (inversion H; subst n' o; eauto; fail).
  destruct (dec v) eqn:D; [inversion H; subst n' o; eauto|].
  destruct (lead_append conf0 boot dec v n) as [n1|] eqn:LA; [|discriminate H]. inversion H; subst n' o. clear H.
  destruct (i_lead _ _ _ _ _ _ N E) as (l0 & D1 & D2 & D3 & D4 & D5 & D6 & D7).
  rewrite <- (set_done_same n1).
  eapply inv_append with (v := v) (l0 := l0) (st := r_stage n); eauto; fold n.
  - intros c0 X. congruence.
  - destruct (lead_append_form _ _ _ LA) as [_ ->]. cbn [r_done]. apply N.
  - rewrite set_done_same. destruct (lead_append_form _ _ _ LA) as [_ ->].
    assert (CF : cfg (r_log n ++ [mkL (r_term n) v]) = cfg (r_log n)) by (rewrite cfg_snoc; cbn [l_val]; rewrite D; reflexivity).
    unfold stage_ok, idle, lc in *. cbn [r_stage r_done r_log r_term r_box BallotBox.lc]. rewrite CF.
    destruct (r_stage n).
    + destruct D7 as (X1 & X2 & j & X3 & X4). sp; auto. exists j. split; auto. apply lastat_app; auto.
    + destruct D7 as (X1 & X2 & X3 & X4 & X5 & j & X6 & X7). sp; auto. exists j. split; auto. apply lastat_app; auto.
    + destruct D7 as (X1 & j & X2 & X3 & X4). split; auto. exists j. sp; auto. apply lastat_app; auto.
    + destruct D7 as (X1 & j & X2 & X3 & X4). split; auto. exists j. sp; auto. apply lastat_app; auto.
Qed.
End Lead.
