(** Followers, sending, applying, and the whole step. *)
From Verif Require Import Base BaseLemmas LogEntry Ballot QuorumSpec BallotProofs BallotBoxProofs Node LogPrefix Reconf ReconfStatic ReconfInv ReconfGhost ReconfNode ReconfVote ReconfLead ReconfStage ReconfWin.
From Verif Require BallotBox BallotBoxSpec ConfCtx ConfCtxProofs.

Section Follow.
Variable conf0 : list peer.
Variable boot : peer -> bool.
Variable dec : Z -> option jconf.
Notation cfg := (cfg conf0 dec).
Notation SF := (SF conf0 dec).
Notation cm := (cm conf0 dec).
Notation NI := (NI conf0 boot dec).
Notation Inv := (Inv conf0 boot dec).
Notation lastat := (lastat dec).

Lemma slice_at : forall ll L F prev pt es, wfl ll L -> wfl ll F -> posl F -> slice F prev pt es -> term_at L prev = pt ->
  exists a b, F = a ++ es ++ b /\ zlen a = prev /\ prefix a L.
Proof.
  intros ll L F prev pt es HL HF HpF [a [b [EF [Za Ept]]]] Hm. exists a, b. sp; auto.
  destruct (Z.eq_dec pt 0) as [E0|E0].
  - assert (prev = 0).
    { destruct (Z_le_gt_dec 1 prev).
      - exfalso. destruct (term_at_in F prev) as [x [e [y [X1 [X2 X3]]]]].
        { subst F. rewrite zlen_app. pose proof (zlen_nonneg (es ++ b)). lia. }
        assert (1 <= l_term e) by (apply HpF; rewrite X1; apply in_or_app; right; left; reflexivity).
        lia.
      - pose proof (zlen_nonneg a). lia. }
    rewrite H in Za. apply zlen_0_nil in Za. subst a. apply prefix_nil.
  - destruct (wfl_match ll L F prev) as [x [X1 [X2 X3]]]; auto; try congruence.
    replace a with x; auto. eapply prefix_eq; [exact X3|subst F; apply prefix_app|lia].
Qed.

Lemma follow_log : forall ll n F prev pt es, wfl ll (r_log n) -> wfl ll F -> posl F ->
  slice F prev pt es -> term_at (r_log n) prev = pt ->
  exists L' k, follow_append prev es n = set_log L' k n /\
    (k = zlen L' \/ L' = r_log n /\ k = Z.max (r_sync n) (prev + zlen es)) /\ wfl ll L' /\
    prefix (firstn (Z.to_nat (prev + zlen es)) F) L' /\
    (forall P, prefix P (r_log n) -> prefix P F -> prefix P L') /\
    (forall e, In e L' -> In e (r_log n) \/ In e F).
Proof.
  intros ll n F prev pt es HL HF HpF SL Hm.
  destruct (slice_at _ _ _ _ _ _ HL HF HpF SL Hm) as (a & b & EF & Za & Ha).
  assert (Hfi : firstn (Z.to_nat (prev + zlen es)) F = a ++ es).
  { apply prefix_firstn_eq; [subst F; exists b; rewrite <- app_assoc; reflexivity|rewrite zlen_app; lia]. }
  rewrite Hfi. unfold follow_append. set (L := r_log n) in *.
  destruct (skip_same L (prev + 1) es) as [j rest] eqn:E.
  destruct (skip_same_spec ll L F es a b (prev + 1) j rest) as [same [S1 [S2 [S3 S4]]]]; auto; [lia|].
  assert (Pas : prefix (a ++ es) F) by (subst F; exists b; rewrite <- app_assoc; reflexivity).
  destruct rest as [|e r].
  - exists L, (Z.max (r_sync n) (prev + zlen es)). rewrite app_nil_r in S1. subst same. sp; auto.
  - destruct S4 as [S4|[e' [r' [S4 S5]]]]; [discriminate S4|]. injection S4 as <- <-.
    assert (ZS : zlen (a ++ same) = j - 1) by (rewrite zlen_app; lia).
    rewrite (prefix_firstn_eq (a ++ same) L) by (auto; lia).
    assert (EE : (a ++ same) ++ e :: r = a ++ es) by (rewrite S1, <- app_assoc; reflexivity).
    exists (a ++ es), (zlen (a ++ es)). rewrite EE. sp; auto.
    + eapply wfl_prefix; eauto.
    + apply prefix_refl.
    + intros P P1 P2. destruct (Z_le_gt_dec (zlen P) (zlen (a ++ es))) as [LE|GT].
      { eapply prefix_comparable; eauto. }
      exfalso. apply S5. transitivity (term_at F j).
      * rewrite <- (term_at_prefix P L), <- (term_at_prefix P F); auto.
        -- rewrite <- EE, zlen_app, zlen_cons in GT. pose proof (zlen_nonneg r). pose proof (zlen_nonneg (a ++ same)). lia.
        -- rewrite <- EE, zlen_app, zlen_cons in GT. pose proof (zlen_nonneg r). pose proof (zlen_nonneg (a ++ same)). lia.
      * rewrite EF, app_assoc, <- EE, <- app_assoc. cbn [app]. apply term_at_mid'. lia.
    + intros x Hx. right. eapply prefix_In; eauto.
Qed.

Lemma NI_commit : forall G p n commit upto n', SF G -> NI G p n -> r_st n <> RLead ->
  prefix (firstn (Z.to_nat upto) (gll G (r_term n))) (r_log n) -> 0 <= upto <= zlen (gll G (r_term n)) ->
  (exists q l, In (r_term n, q, l) (gel G)) ->
  (commit <= 0 \/ exists T0 i0, cm G T0 i0 /\ T0 <= r_term n /\ commit <= i0) ->
  set_committed (Z.min commit upto) n = Some n' -> NI G p n' /\ r_term n' = r_term n /\ r_self n' = r_self n.
Proof.
  intros G p n commit upto n' S N NL PF BU (q & l & HL) HC H. unfold set_committed in H.
  destruct (BallotBox.set_last_committed_index (r_box n) (Z.min commit upto)) as [[[b r] x]|] eqn:EB; [|discriminate H].
  injection H as <-. split; [|split; reflexivity].
  destruct (i_foll _ _ _ _ _ _ N NL) as [P0 S0].
  assert (B0 : Inv0 (r_box n)) by apply N.
  assert (B1 : Inv0 b).
  { eapply (inv0_step _ (BallotBox.ESetCommitted (Z.min commit upto))); [exact B0|]. cbn [BallotBox.step]. rewrite EB. reflexivity. }
  assert (CB : b = r_box n \/ (lc n < Z.min commit upto /\ BallotBox.lc b = Z.min commit upto /\ BallotBox.pend b = 0)).
  { unfold BallotBox.set_last_committed_index in EB. unfold lc.
    destruct (negb (BallotBox.pend (r_box n) =? 0) || _).
    - destruct (_ <? _); inversion EB; auto.
    - destruct (Z.ltb_spec (Z.min commit upto) (BallotBox.lc (r_box n))); [inversion EB; auto|].
      destruct (Z.ltb_spec (BallotBox.lc (r_box n)) (Z.min commit upto)); inversion EB; auto. }
  destruct CB as [->|(C1 & C2 & C3)].
  { destruct n; exact N. }
  destruct N. set (K := Z.min commit upto) in *.
  assert (0 <= lc n) by (unfold lc; apply B0).
  constructor; cbn [set_box r_self r_st r_term r_voted r_leader r_log r_sync r_box r_applied r_ballot r_stage r_done]; auto;
    try (intros X; congruence).
  - unfold lc. cbn [set_box r_box]. rewrite C2.
    pose proof (prefix_len _ _ PF) as PL. rewrite zlen_firstn_le in PL by lia. split; [lia|]. right.
    destruct HC as [HC|(T0 & i0 & HC1 & HC2 & HC3)]; [lia|]. exists T0, i0. sp; auto.
    rewrite <- (firstn_prefix_eq _ _ K PF) by (rewrite zlen_firstn_le; lia).
    rewrite firstn_firstn. replace (Nat.min (Z.to_nat K) (Z.to_nat upto)) with (Z.to_nat K) by lia.
    pose proof (G_cm_ll _ _ _ _ _ _ _ _ S HC1 HC2 HL) as PP.
    eapply prefix_comparable; [apply prefix_firstn|exact PP|].
    destruct HC1 as [[O _] _]. rewrite (PX_len (gll G)) by lia. rewrite zlen_firstn_le by lia. lia.
  - unfold lc in *. cbn [set_box r_box]. rewrite C2. lia.
Qed.

Lemma NI_follow : forall G p n L' q l, SF G -> NI G p n -> r_st n = RFoll -> In (r_term n, q, l) (gel G) ->
  wfl (gll G) L' ->
  (forall P, prefix P (r_log n) -> prefix P (gll G (r_term n)) -> prefix P L') ->
  (forall e, In e L' -> In e (r_log n) \/ In e (gll G (r_term n))) ->
  NI G p (set_log L' (zlen L') n).
Proof.
  intros G p n L' q l S N E HL W PP IN. set (t := r_term n) in *.
  pose proof (zlen_nonneg L') as ZL. pose proof (G_ll_el _ _ _ _ _ _ S HL) as [LP _].
  destruct N. constructor; cbn [set_log r_self r_st r_term r_voted r_leader r_log r_sync r_box r_applied r_ballot r_stage r_done]; auto;
    try (intros X; congruence).
  - intros e He. destruct (IN e He) as [A|A]; [auto|]. split; [eapply (G_ll_pos conf0 dec); eauto|eapply (G_ll_tm conf0 dec); eauto].
  - lia.
  - intros T i Ha. destruct (i_ak T i Ha) as [B D]. split; auto. rewrite firstn_zall by lia.
    destruct D as [D|D]; auto.
    destruct (prefix_dec (PX (gll G) T i) (gll G t)) as [Y|NY].
    + left. apply PP; auto. eapply prefix_trans; [exact D|apply prefix_firstn].
    + right. exists t, q, l. fold t. sp; auto; try lia.
      * destruct (Z.eq_dec T t) as [->|]; [exfalso; apply NY; apply PX_prefix|fold t in B; lia].
      * intros X. apply NY. eapply prefix_trans; eauto.
  - unfold lc in *. cbn [set_log r_box]. destruct i_lc as [B D].
    pose proof i_app as BA.
    destruct D as [D|(T0 & i0 & C & X & P)]; [split; [lia|auto]|].
    assert (Y : prefix (firstn (Z.to_nat (BallotBox.lc (r_box n))) (r_log n)) L').
    { apply PP; [apply prefix_firstn|]. eapply prefix_trans; [exact P|]. eapply (G_cm_ll conf0 dec); eauto. }
    assert (BL : 0 <= BallotBox.lc (r_box n) <= zlen (r_log n)) by lia.
    pose proof (prefix_len _ _ Y) as YL. rewrite zlen_firstn_le in YL by auto.
    split; auto. right. exists T0, i0. sp; auto.
    rewrite (prefix_firstn_eq _ _ _ Y) by (rewrite zlen_firstn_le; auto). exact P.
Qed.

Lemma inv_append_req : forall c p G from t prev pt es commit n' o, Inv G c ->
  In (RApp from t prev pt es commit) (rnet c) ->
  append_req from t prev pt es commit (rnodes c p) = Some (n', o) -> exists G', Inv G' (nxt c p n' o).
Proof.
  intros c p G from t prev pt es commit n' o I M H. unfold append_req in H. set (n := rnodes c p) in *.
  assert (N : NI G p n) by apply I. assert (S : SF G) by apply I.
  destruct (Z.ltb_spec t (r_term n)) as [LT|GE].
  { injection H as <- <-. exists G. apply inv_quiet; auto. fold n. lia. }
  destruct (v_net _ _ _ _ _ I _ M) as [(SL & (l & HE) & HC) _].
  pose proof (NI_check_step_down _ _ _ _ _ _ t from N) as N1.
  destruct (check_step_down_term t from n GE) as (T1 & R1 & L1 & Y1 & C1 & F1).
  set (n1 := check_step_down t from n) in *. clearbody n1.
  destruct (opeer_eqb (Some from) (r_leader n1)); cbn [negb] in H.
  2:{ injection H as <- <-. exists G. apply inv_quiet; auto; [apply NI_step_down; auto|].
      fold n. destruct (step_down_term (t + 1) n1) as (X & _). lia. }
  destruct (Z.eqb_spec (term_at (r_log n1) prev) pt) as [TA|]; cbn [negb] in H.
  2:{ injection H as <- <-. exists G. apply inv_quiet; auto. fold n. lia. }
  subst t. set (t := r_term n1) in *.
  assert (WF : wfl (gll G) (gll G t)) by (apply (G_ll_wfl conf0 dec); auto).
  assert (PF : posl (gll G t)) by (apply (G_ll_pos conf0 dec); auto).
  assert (WL : wfl (gll G) (r_log n1)) by apply N1.
  destruct (slice_at _ _ _ _ _ _ WL WF PF SL TA) as (a & b & EF & Za & Pa).
  pose proof (zlen_nonneg a). pose proof (zlen_nonneg b). pose proof (zlen_nonneg es).
  assert (ZF : zlen (gll G t) = prev + zlen es + zlen b) by (rewrite EF, !zlen_app; lia).
  assert (NLd : r_st n1 <> RLead) by congruence.
  destruct es as [|e0 es0].
  - destruct (set_committed (Z.min commit prev) n1) as [n2|] eqn:SC; [|discriminate H]. injection H as <- <-.
    destruct (NI_commit G p n1 commit prev n2) as (N2 & T2 & _); auto.
    + fold t. rewrite (prefix_firstn_eq a) by (auto; rewrite EF; apply prefix_app). auto.
    + fold t. rewrite zlen_nil in ZF. lia.
    + eauto.
    + exists G. apply inv_quiet; auto. fold n. lia.
  - set (es := e0 :: es0) in *. clearbody es. set (upto := prev + zlen es) in *.
    destruct (follow_log _ _ _ _ _ _ WL WF PF SL TA) as (L' & k & FA & KK & W' & PU & PP & IN). fold upto in PU, KK.
    rewrite FA in H. set (n2 := set_log L' k n1) in *.
    assert (UL : upto <= zlen L').
    { pose proof (prefix_len _ _ PU) as X. rewrite zlen_firstn_le in X by lia. exact X. }
    assert (UK : upto <= k <= zlen L').
    { destruct KK as [->|[EL ->]]; [lia|]. pose proof (i_sync _ _ _ _ _ _ N1) as X. rewrite EL in *. lia. }
    assert (N2 : NI G p n2).
    { unfold n2. destruct KK as [->|[EL ->]]; [eapply NI_follow; eauto|]. rewrite EL. apply NI_sync; auto.
      pose proof (i_sync _ _ _ _ _ _ N1) as X. rewrite EL in *. lia. }
    destruct (set_committed (Z.min commit upto) n2) as [n3|] eqn:SC; [|discriminate H]. injection H as <- <-.
    destruct (NI_commit G p n2 commit upto n3) as (N3 & T3 & F3); auto.
    + change (r_term n2) with t. lia.
    + change (r_term n2) with t. eauto.
    + change (r_term n2) with t in T3. set (G' := addak G p t upto).
      assert (NV : forall t' c', gvt G p t' c' -> t' <= t). { intros t' c' Hv. unfold t. eapply i_vt; eauto. }
      assert (S' : SF G'). { apply addak_SF; auto. }
      assert (N2' : NI G' p n2).
      { apply addak_NI; auto. intros i O B. cbn [n2 set_log r_log r_sync].
        apply prefix_trans with (b := firstn (Z.to_nat upto) L').
        - apply prefix_trans with (b := firstn (Z.to_nat upto) (gll G t)); [apply prefix_firstn2; auto|].
          pose proof (prefix_firstn_eq _ _ upto PU) as X. rewrite X by (rewrite zlen_firstn_le; lia). apply prefix_refl.
        - apply prefix_firstn2. lia. }
      destruct (NI_commit G' p n2 commit upto n3) as (N3' & _ & _); auto.
      * change (r_term n2) with t. cbn [G' addak gll]. lia.
      * change (r_term n2) with t. cbn [G' addak gel]. eauto.
      * change (r_term n2) with t. destruct HC as [HC|(T0 & i0 & HC1 & HC2)]; auto. right. exists T0, i0. split; auto.
        eapply cm_ext; [apply addak_gext|exact HC1].
      * exists G'. apply inv_step with (G := G); auto.
        -- apply addak_gext.
        -- intros q u _. reflexivity.
        -- fold n. lia.
        -- intros m [<-|[]]. split; auto. cbn [msg_ok]. split; [cbn [G' addak gll]; lia|].
           intros j O B. cbn [G' addak gak]. right. rewrite F3. cbn [n2 set_log r_self].
           rewrite (i_self _ _ _ _ _ _ N1). auto.
        -- intros x [<-|[]]. exact Logic.I.
Qed.

Lemma slice_of : forall (F : list lent) prev m, 0 <= prev <= zlen F ->
  slice F prev (term_at F prev) (firstn (Z.to_nat m) (skipn (Z.to_nat prev) F)).
Proof.
  intros F prev m H. exists (firstn (Z.to_nat prev) F), (skipn (Z.to_nat m) (skipn (Z.to_nat prev) F)). sp; auto.
  - rewrite !firstn_skipn. reflexivity.
  - apply zlen_firstn_le; auto.
Qed.
Lemma inv_send : forall c p G prev m k n' o, Inv G c -> send prev m k (rnodes c p) = Some (n', o) -> Inv G (nxt c p n' o).
Proof.
  intros c p G prev m k n' o I H. unfold send in H. set (n := rnodes c p) in *.
  assert (N : NI G p n) by apply I.
  assert (Q : Inv G (nxt c p n [])). { apply inv_quiet; auto. fold n. lia. }
  destruct (r_st n) eqn:E; try (injection H as <- <-; auto; fail).
  destruct ((0 <=? prev) && (prev <=? zlen (r_log n)) && (k <=? BallotBox.lc (r_box n))) eqn:B; [|discriminate H]. injection H as <- <-.
  assert (BP : 0 <= prev <= zlen (r_log n)) by lia. assert (BK : k <= BallotBox.lc (r_box n)) by lia.
  apply inv_same; auto.
  - fold n. lia.
  - intros x [<-|[]]. split; auto. cbn [msg_ok]. rewrite (i_self _ _ _ _ _ _ N).
    destruct (i_lead _ _ _ _ _ _ N E) as (l0 & D1 & D2 & D3 & D4 & D5 & D6 & D7). sp.
    + rewrite <- D2. apply slice_of; auto.
    + eauto.
    + destruct (i_lc _ _ _ _ _ _ N) as [A [A0|(T0 & i0 & C & X & P)]]; [left; unfold lc in A0; lia|right].
      exists T0, i0. sp; auto. pose proof (prefix_len _ _ P) as PL.
      pose proof (i_app _ _ _ _ _ _ N) as BA. unfold lc in *.
      rewrite zlen_firstn_le in PL by lia. destruct C as [[O _] _]. rewrite (PX_len (gll G)) in PL by lia. lia.
  - intros x [<-|[]]. exact Logic.I.
Qed.
Lemma inv_apply_one : forall c p G n' o, Inv G c -> apply_one (rnodes c p) = Some (n', o) -> Inv G (nxt c p n' o).
Proof.
  intros c p G n' o I H. unfold apply_one in H. set (n := rnodes c p) in *.
  assert (N : NI G p n) by apply I.
  assert (Q : Inv G (nxt c p n [])). { apply inv_quiet; auto. fold n. lia. }
  destruct (Z.ltb_spec (r_applied n) (BallotBox.lc (r_box n))) as [L|]; [|injection H as <- <-; auto].
  destruct (znth (r_log n) (r_applied n)) as [e|] eqn:Z0; [|discriminate H]. injection H as <- <-.
  pose proof N as N'. destruct N'. apply inv_same; auto.
  - constructor; cbn [set_applied r_self r_st r_term r_voted r_leader r_log r_sync r_box r_applied r_ballot r_stage r_done]; auto.
    unfold lc in *. cbn [set_applied r_box]. lia.
  - fold n. cbn [set_applied r_term]. lia.
  - intros m [].
  - intros x [<-|[]]. cbn [out_ok]. destruct i_lc as [A [A0|(T0 & i0 & C & X & P)]]; unfold lc in *; [lia|].
    exists T0, i0. pose proof (prefix_len _ _ P) as PL. rewrite zlen_firstn_le in PL by lia.
    destruct (proj1 C) as [O _]. rewrite (PX_len (gll G)) in PL by lia. sp; auto; try lia.
    replace (r_applied n + 1 - 1) with (r_applied n) by lia.
    eapply prefix_znth; [apply (PX_prefix (gll G) T0 i0)|]. eapply prefix_znth; [exact P|].
    rewrite znth_firstn_eq by lia. exact Z0.
Qed.

(** every event *)
Lemma inv_rcstep : forall c pe c' G, Inv G c -> rcstep conf0 boot dec c pe = Some c' -> exists G', Inv G' c'.
Proof.
  intros c [p e] c' G I H. unfold rcstep in H. destruct (deliverable c p e) eqn:DL; [|discriminate H].
  destruct (rstep conf0 boot dec (rnodes c p) e) as [[n' o]|] eqn:ST; [|discriminate H]. injection H as <-.
  change (exists G', Inv G' (nxt c p n' o)).
  assert (MSG : forall from m, received p e = Some (from, m) -> In m (rnet c)).
  { intros from m R. unfold deliverable in DL. rewrite R in DL. apply andb_prop in DL. destruct DL as [_ DL].
    destruct (in_dec rmsg_dec m (rnet c)); [auto|discriminate DL]. }
  destruct e; cbn [rstep received] in *.
  - eapply inv_elect; eauto.
  - injection ST as ST. eapply inv_vote_req; eauto.
  - eapply inv_got_vote; eauto. intros n -> _ _.
    destruct (v_net _ _ _ _ _ I _ (MSG _ _ eq_refl)) as [X _]. exact X.
  - eapply inv_got_vote; eauto. intros n -> E _. rewrite (i_self _ _ _ _ _ _ (v_ni _ _ _ _ _ I p)).
    eapply i_cself; eauto. apply I.
  - destruct (r_term (rnodes c p) <=? t); injection ST as <- <-; exists G.
    + apply inv_stepdown; auto.
    + apply inv_quiet; auto; [apply I|lia].
  - eapply inv_append_req; eauto.
  - injection ST as ST. exists G. eapply inv_ack; eauto.
  - eapply inv_disk; eauto.
  - eapply inv_propose; eauto.
  - injection ST as <- <-. exists G. apply inv_request; auto.
  - eapply inv_caught; eauto.
  - eapply inv_conf_done; eauto.
  - exists G. eapply inv_send; eauto.
  - exists G. eapply inv_apply_one; eauto.
  - destruct (crash k a (rnodes c p)) as [n1|] eqn:CR; [|discriminate ST]. injection ST as <- <-. exists G. eapply inv_crash; eauto.
Qed.
Definition G0 : gh := mkG (fun _ => []) [] (fun _ _ _ => False) (fun _ _ => []) (fun _ _ _ => False).
Lemma inv_init : Inv G0 rcinit.
Proof.
  constructor.
  - constructor; cbn [G0 gll gel gak gcl gvt].
    + intros t p l [].
    + intros t X. congruence.
    + intros t p l p' l' [].
    + intros w p l j [].
    + intros t e c [].
    + intros t p l [].
    + intros n t c c' [].
    + intros n t c [].
    + intros n T i [].
  - intros p. cbn [rcinit rnodes]. unfold rinit. constructor; cbn [r_self r_st r_term r_voted r_leader r_log r_sync r_box r_applied r_ballot r_stage r_done G0 gll gel gak gcl gvt]; auto;
      try (intros X; discriminate X); try (intros ? []; fail); try (intros ? ? []; fail); try lia.
    + apply wfl_nil.
    + change (zlen (@nil lent)) with 0. lia.
    + intros c. split; [discriminate|intros []].
    + apply inv0_init.
    + unfold lc. cbn [r_box BallotBox.box_init BallotBox.lc]. change (zlen (@nil lent)) with 0. split; [lia|auto].
    + unfold lc. cbn [r_box BallotBox.box_init BallotBox.lc]. lia.
  - intros m [].
  - intros n t p [].
  - intros x [].
Qed.
Lemma inv_rcrun : forall es c c' G, Inv G c -> rcrun conf0 boot dec c es = Some c' -> exists G', Inv G' c'.
Proof.
  induction es as [|e es IH]; intros c c' G I H; cbn [rcrun] in H; [injection H as <-; eauto|].
  destruct (rcstep conf0 boot dec c e) as [c1|] eqn:ST; [|discriminate H].
  destruct (inv_rcstep _ _ _ _ I ST) as [G1 I1]. eapply IH; eauto.
Qed.
End Follow.
