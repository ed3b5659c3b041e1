(** Membership changes keep the invariant: requests, catching up, configuration entries committed. *)
From Verif Require Import Base BaseLemmas LogEntry Ballot QuorumSpec BallotProofs BallotBoxProofs Node LogPrefix Reconf ReconfStatic ReconfInv ReconfGhost ReconfNode ReconfVote ReconfLead.
From Verif Require BallotBox BallotBoxSpec ConfCtx ConfCtxProofs.

Section Stage.
Variable conf0 : list peer.
Variable boot : peer -> bool.
Variable dec : Z -> option jconf.
Notation cfg := (cfg conf0 dec).
Notation SF := (SF conf0 dec).
Notation cm := (cm conf0 dec).
Notation NI := (NI conf0 boot dec).
Notation Inv := (Inv conf0 boot dec).
Notation lastat := (lastat dec).

Lemma NI_stage : forall G p n dn st, NI G p n ->
  (forall d, In d dn -> In d (r_done n)) ->
  (r_st n <> RLead -> st = SNone) ->
  (r_st n = RLead -> forall l0, stage_ok conf0 dec n l0 -> stage_ok conf0 dec (set_stage st (set_done dn n)) l0) ->
  NI G p (set_stage st (set_done dn n)).
Proof.
  intros G p n dn st H D F L. destruct H.
  constructor; cbn [set_stage set_done r_self r_st r_term r_voted r_leader r_log r_sync r_box r_applied r_ballot r_stage r_done]; auto.
  - intros X. split; auto. apply i_foll; auto.
  - intros X. destruct (i_cand X) as (A1 & A2 & A3 & A4 & A5 & A6). sp; auto. intros d Hd. apply (A6 d). apply D. exact Hd.
  - intros X. destruct (i_lead X) as (l0 & D1 & D2 & D3 & D4 & D5 & D6 & D7). exists l0. sp; auto.
Qed.
Lemma stage_set : forall n, set_stage (r_stage n) (set_done (r_done n) n) = n.
Proof. destruct n; reflexivity. Qed.

Lemma conf_cfg : forall G p n, NI G p n -> r_st n = RLead -> conf_of conf0 boot dec (r_self n) (r_log n) = cfg (r_log n).
Proof.
  intros G p n N E. destruct (i_lead _ _ _ _ _ _ N E) as (l0 & _ & _ & _ & _ & _ & _ & D7).
  destruct (stage_lastat conf0 dec _ _ D7) as (j & (J1 & J2 & _) & _). eapply conf_of_cfg; eauto.
Qed.

Lemma inv_request : forall c p G new, Inv G c -> Inv G (nxt c p (request conf0 boot dec new (rnodes c p)) []).
Proof.
  intros c p G new I. set (n := rnodes c p).
  assert (N : NI G p n) by apply I.
  assert (Q : Inv G (nxt c p n [])). { apply inv_quiet; auto. fold n. lia. }
  unfold request. destruct (r_st n) eqn:E; auto. destruct (r_stage n) eqn:ES; auto.
  rewrite (conf_cfg _ _ _ N E). destruct (ConfCtx.conf_equals _ _) eqn:EQ; auto.
  apply inv_quiet; auto; [|fold n; cbn [set_stage r_term]; lia].
  assert (X : NI G p (set_stage (SCatch (ConfCtx.to_set new) (fst (cfg (r_log n)))) (set_done (r_done n) n))).
  { apply NI_stage; auto; [congruence|]. intros _ l0 H. unfold stage_ok in H. rewrite ES in H.
    destruct H as (X1 & X2 & X3). unfold stage_ok. cbn [set_stage set_done r_stage r_done r_log r_term]. sp; auto.
    apply ConfCtxProofs.to_set_NoDup. }
  destruct n; exact X.
Qed.

Lemma apply_conf_form : forall cc v st d n n2,
  apply_conf conf0 boot dec cc v (set_stage st (set_done d n)) = Some n2 ->
  dec v = Some cc /\ exists n1, lead_append conf0 boot dec v (set_stage st n) = Some n1 /\
    n2 = set_done ((zlen (r_log n) + 1, r_term n) :: d) n1.
Proof.
  intros cc v st d n n2 H. unfold apply_conf in H. destruct (holds dec v cc) eqn:HV; [|discriminate H]. split.
  { unfold holds in HV. destruct (dec v) as [x|]; [|discriminate HV]. destruct (jconf_dec x cc); [congruence|discriminate HV]. }
  destruct (lead_append conf0 boot dec v (set_stage st (set_done d n))) as [n1|] eqn:LA; [|discriminate H]. inversion H; subst n2; clear H.
  destruct (lead_append_form _ _ _ _ _ _ LA) as [P ->].
  cbn [set_stage set_done r_self r_st r_term r_voted r_leader r_log r_sync r_box r_applied r_ballot r_stage r_done] in *.
  eexists. split.
  - unfold lead_append. unfold BallotBox.append_pending_task. cbn [set_stage r_box].
    destruct (Z.ltb_spec 0 (BallotBox.pend (r_box n))); [reflexivity|lia].
  - unfold set_done, set_box, set_log, set_stage. cbn [r_self r_st r_term r_voted r_leader r_log r_sync r_box r_applied r_ballot r_stage r_done].
    rewrite zlen_snoc. reflexivity.
Qed.

Lemma inv_apply : forall c p G cc v st d n2 l0 j, Inv G c -> r_st (rnodes c p) = RLead ->
  In (r_term (rnodes c p), p, l0) (gel G) ->
  apply_conf conf0 boot dec cc v (set_stage st (set_done d (rnodes c p))) = Some n2 ->
  (st = SJoint (fst cc) /\ snd cc <> None \/ st = SStable (fst cc) /\ snd cc = None) ->
  wf_jconf cc -> overlapping (cfg (r_log (rnodes c p))) cc ->
  zlen l0 < j <= lc (rnodes c p) -> lastat (r_log (rnodes c p)) j ->
  (forall x, In x d -> In x (r_done (rnodes c p)) /\ snd x <> r_term (rnodes c p)) ->
  exists G', Inv G' (nxt c p n2 []).
Proof.
  intros c p G cc v st d n2 l0 j I E EL H HS W OV J1 J2 HD. set (n := rnodes c p) in *.
  destruct (apply_conf_form _ _ _ _ _ _ H) as (DV & n1 & LA & ->).
  assert (N : NI G p n) by apply I.
  destruct (i_lead _ _ _ _ _ _ N E) as (l1 & D1 & D2 & _).
  eapply inv_append with (v := v) (l0 := l0) (st := st); eauto; fold n.
  - intros c0 X. rewrite DV in X. injection X as <-. sp; auto. exists j. auto.
  - intros x [<-|Hx]; cbn [snd]; [lia|]. destruct (HD x Hx) as [A _]. apply N. exact A.
  - destruct (lead_append_form _ _ _ _ _ _ LA) as [_ ->]. unfold stage_ok.
    cbn [set_stage set_done r_self r_st r_term r_voted r_leader r_log r_sync r_box r_applied r_ballot r_stage r_done].
    assert (CF : cfg (r_log n ++ [mkL (r_term n) v]) = cc) by (rewrite cfg_snoc; cbn [l_val]; rewrite DV; reflexivity).
    assert (LN : exists j0, lastat (r_log n ++ [mkL (r_term n) v]) j0 /\ zlen l0 < j0 /\
       forall x, In x ((zlen (r_log n) + 1, r_term n) :: d) -> snd x = r_term n -> fst x = j0).
    { exists (zlen (r_log n) + 1). sp.
      - eapply lastat_snoc; eauto.
      - destruct J2. lia.
      - intros x [<-|Hx] Y; auto. destruct (HD x Hx). congruence. }
    destruct HS as [(-> & X)|(-> & X)]; rewrite CF; destruct cc as [a [o|]]; cbn [fst snd] in *; try congruence; split; eauto.
Qed.

Lemma cfg_lastat : forall L j k, lastat L j -> j <= k -> cfg (firstn (Z.to_nat k) L) = cfg L.
Proof.
  intros L j k (J1 & J2 & J3) H. destruct (Z.le_gt_cases (zlen L) k). { rewrite firstn_zall; auto. }
  assert (X : forall m, 0 <= m -> m <= zlen L - k -> cfg (firstn (Z.to_nat (k + m)) L) = cfg (firstn (Z.to_nat k) L)).
  { intros m Hm. pattern m. apply natlike_ind; auto.
    - intros _. rewrite Z.add_0_r. reflexivity.
    - intros x Hx IH B. unfold Z.succ. rewrite Z.add_assoc. rewrite cfg_next by lia.
      rewrite J3 by lia. apply IH. lia. }
  specialize (X (zlen L - k)). rewrite <- X by lia. replace (k + (zlen L - k)) with (zlen L) by lia. rewrite firstn_zall by lia. reflexivity.
Qed.

Lemma cfg_log_wf : forall G p n, SF G -> NI G p n -> wf_jconf (cfg (r_log n)).
Proof. intros G p n S N. eapply (cfg_wf conf0 dec (gll G)); [apply S|apply N]. Qed.

Lemma next_catch : forall c p G v new old n' o, Inv G c -> r_st (rnodes c p) = RLead -> r_stage (rnodes c p) = SCatch new old ->
  next_stage conf0 boot dec v (rnodes c p) = Some (n', o) -> exists G', Inv G' (nxt c p n' o).
Proof.
  intros c p G v new old n' o I E ES H. set (n := rnodes c p) in *.
  assert (N : NI G p n) by apply I.
  destruct (i_lead _ _ _ _ _ _ N E) as (l0 & D1 & D2 & D3 & D4 & D5 & D6 & D7).
  pose proof (cfg_log_wf _ _ _ (v_sf _ _ _ _ _ I) N) as WF.
  unfold stage_ok in D7. rewrite ES in D7. destruct D7 as (X1 & X2 & X3 & X4 & X5 & j & X6 & X7).
  assert (CF : cfg (r_log n) = (old, None)). { rewrite (surjective_pairing (cfg (r_log n))), X2, X3. reflexivity. }
  rewrite CF in WF. destruct WF as [WO _]. cbn [fst] in WO.
  assert (HD : forall x, In x (r_done n) -> In x (r_done n) /\ snd x <> r_term n). { intros x Hx. split; auto. }
  assert (SD : forall st, set_stage st n = set_stage st (set_done (r_done n) n)) by (destruct n; reflexivity).
  unfold next_stage in H. rewrite ES in H.
  destruct (Z.ltb_spec 1 (zlen (ConfCtx.diff new old) + zlen (ConfCtx.diff old new))) as [L|L].
  - destruct (apply_conf conf0 boot dec (new, Some old) v (set_stage (SJoint new) n)) as [n2|] eqn:AC; [|discriminate H].
    cbn [option_map] in H. injection H as <- <-. rewrite SD in AC.
    eapply inv_apply with (l0 := l0) (j := j); eauto; fold n; cbn [fst snd]; auto.
    + left. split; auto. discriminate.
    + split; cbn; auto.
    + rewrite CF. apply ov_enter.
  - destruct (apply_conf conf0 boot dec (new, None) v (set_stage (SStable new) n)) as [n2|] eqn:AC; [|discriminate H].
    cbn [option_map] in H. injection H as <- <-. rewrite SD in AC.
    eapply inv_apply with (l0 := l0) (j := j); eauto; fold n; cbn [fst snd]; auto.
    + split; cbn; auto.
    + rewrite CF. destruct (ConfCtxProofs.one_change old new) as [A|A]; auto.
      * intros Y. apply (proj2 (ConfCtxProofs.conf_equals_spec _ _)) in Y. congruence.
      * apply ov_add; auto.
      * apply ov_del; auto.
Qed.

Lemma inv_caught : forall c p G ok v n' o, Inv G c -> caught conf0 boot dec ok v (rnodes c p) = Some (n', o) ->
  exists G', Inv G' (nxt c p n' o).
Proof.
  intros c p G ok v n' o I H. unfold caught in H. set (n := rnodes c p) in *.
  assert (N : NI G p n) by apply I.
  assert (Q : Inv G (nxt c p n [])). { apply inv_quiet; auto. fold n. lia. }
  destruct (r_st n) eqn:E; try (injection H as <- <-; eauto; fail).
  destruct (r_stage n) eqn:ES; try (injection H as <- <-; eauto; fail).
  destruct ok; [eapply next_catch; eauto|]. injection H as <- <-. exists G.
  apply inv_quiet; auto; [|fold n; cbn [set_stage r_term]; lia].
  assert (X : NI G p (set_stage SNone (set_done (r_done n) n))).
  { apply NI_stage; auto. intros _ l0 H. unfold stage_ok in H. rewrite ES in H.
    destruct H as (X1 & X2 & X3 & X4 & X5 & X6). unfold stage_ok. cbn [set_stage set_done r_stage r_done r_log r_term]. sp; auto. }
  destruct n; exact X.
Qed.

Lemma inv_conf_done : forall c p G i t v n' o, Inv G c -> conf_done conf0 boot dec i t v (rnodes c p) = Some (n', o) ->
  exists G', Inv G' (nxt c p n' o).
Proof.
  intros c p G i t v n' o I H. unfold conf_done in H. set (n := rnodes c p) in *.
  assert (N : NI G p n) by apply I.
  destruct (existsb (fun d => (fst d =? i) && (snd d =? t)) (r_done n)) eqn:EX; [|discriminate H].
  destruct (Z.leb_spec i (BallotBox.lc (r_box n))) as [LE|]; [|discriminate H]. cbn [andb] in H.
  apply existsb_exists in EX. destruct EX as (d0 & Hd0 & EQ0). apply andb_prop in EQ0. destruct EQ0 as [EQ1 EQ2].
  apply Z.eqb_eq in EQ1, EQ2.
  set (d := filter (fun d => negb ((fst d =? i) && (snd d =? t))) (r_done n)) in *.
  assert (DI : forall x, In x d -> In x (r_done n) /\ ~ (fst x = i /\ snd x = t)).
  { intros x Hx. unfold d in Hx. apply filter_In in Hx. destruct Hx as [A B]. split; auto. intros [X Y].
    rewrite X, Y, !Z.eqb_refl in B. discriminate B. }
  clearbody d. cbn [set_done r_st] in H. change (r_term (set_done d n)) with (r_term n) in H.
  assert (SD : set_done d n = set_stage (r_stage n) (set_done d n)) by (destruct n; reflexivity).
  assert (QQ : r_st n <> RLead \/ t <> r_term n -> exists G', Inv G' (nxt c p (set_done d n) [])).
  { intros HH. exists G. apply inv_quiet; auto; [|fold n; cbn [set_done r_term]; lia]. rewrite SD.
    apply NI_stage; auto.
    - intros x Hx. apply DI; auto.
    - intros X. apply N. exact X.
    - intros X l0 S0. destruct HH as [HH|HH]; [congruence|]. unfold stage_ok, idle in *.
      cbn [set_stage set_done r_stage r_done r_log r_term]. 
      change (lc (set_stage (r_stage n) (set_done d n))) with (lc n).
      destruct (r_stage n).
      + destruct S0 as (A1 & A2 & A3). sp; auto. intros x Hx. apply A1. apply DI; auto.
      + destruct S0 as (A1 & A2 & A3 & A4 & A5 & A6). sp; auto. intros x Hx. apply A1. apply DI; auto.
      + destruct S0 as (A1 & j & A2 & A3 & A4). split; auto. exists j. sp; auto. intros x Hx. apply A4. apply DI; auto.
      + destruct S0 as (A1 & j & A2 & A3 & A4). split; auto. exists j. sp; auto. intros x Hx. apply A4. apply DI; auto. }
  destruct (r_st n) eqn:E; try (injection H as <- <-; apply QQ; left; discriminate).
  destruct (Z.eqb_spec t (r_term n)) as [ET|NT]; [|injection H as <- <-; apply QQ; right; auto].
  assert (S : SF G) by apply I.
  destruct (i_lead _ _ _ _ _ _ N E) as (l0 & D1 & D2 & D3 & D4 & D5 & D6 & D7).
  pose proof (cfg_log_wf _ _ _ S N) as WF.
  unfold next_stage in H. change (r_stage (set_done d n)) with (r_stage n) in H. unfold stage_ok in D7.
  destruct (r_stage n) as [|new old|new|new] eqn:ES.
  - destruct D7 as (A1 & _). exfalso. apply (A1 d0 Hd0). congruence.
  - destruct D7 as (A1 & _). exfalso. apply (A1 d0 Hd0). congruence.
  - destruct D7 as ((o0 & CF) & j & J1 & J2 & J3).
    assert (i = j) by (rewrite <- EQ1; apply J3; auto; congruence). subst j.
    destruct (apply_conf conf0 boot dec (new, None) v (set_stage (SStable new) (set_done d n))) as [n2|] eqn:AC; [|discriminate H].
    cbn [option_map] in H. injection H as <- <-.
    eapply inv_apply with (l0 := l0) (j := i); eauto; fold n; cbn [fst snd]; auto.
    + rewrite CF in WF. destruct WF as [WF _]. split; cbn in *; auto.
    + rewrite CF. apply ov_leave.
    + intros x Hx. destruct (DI x Hx) as [A B]. split; auto. intros Y. apply B. split; [apply J3; auto|congruence].
  - destruct D7 as (CF & j & J1 & J2 & J3).
    assert (i = j) by (rewrite <- EQ1; apply J3; auto; congruence). subst j.
    assert (NS : NI G p (set_stage SNone (set_done d n))).
    { apply NI_stage; auto.
      - intros x Hx. apply DI; auto.
      - intros _ l1 H1. unfold stage_ok in H1. rewrite ES in H1. destruct H1 as (_ & j' & K1 & K2 & K3).
        unfold stage_ok, idle. cbn [set_stage set_done r_stage r_done r_log r_term]. sp.
        + intros x Hx Y. destruct (DI x Hx) as [A B]. apply B. split; [|congruence]. apply J3; auto.
        + rewrite CF. reflexivity.
        + exists j'. split; auto. split; auto. rewrite <- (K3 d0 Hd0 ltac:(congruence)). rewrite EQ1. exact LE. }
    assert (OO : out_ok conf0 dec G (p, ROChanged (r_term (set_done d n)) new (firstn (Z.to_nat (BallotBox.lc (r_box (set_done d n)))) (r_log (set_done d n))))).
    { cbn [out_ok set_done r_term r_box r_log]. split.
      - erewrite cfg_lastat; eauto.
      - exists (lc n). split; [rewrite D2; reflexivity|]. destruct D6; auto. unfold lc in *. lia. }
    destruct (memb _ _) in H; injection H as <- <-; exists G; apply inv_same; auto.
    + fold n. cbn [set_stage set_done r_term]. lia.
    + intros m [].
    + intros x [<-|[]]. exact OO.
    + apply NI_step_down; auto.
    + pose proof (step_down_term (r_term (set_stage SNone (set_done d n))) (set_stage SNone (set_done d n))) as (X & _).
      fold n. cbn [set_stage set_done r_term] in X |- *. exact X.
    + intros m [].
    + intros x [<-|[]]. exact OO.
Qed.
End Stage.
