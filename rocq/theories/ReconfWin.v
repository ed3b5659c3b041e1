(** Counting votes and becoming leader keep the invariant. *)
From Verif Require Import Base BaseLemmas LogEntry Ballot QuorumSpec BallotProofs BallotBoxProofs Node LogPrefix Reconf ReconfStatic ReconfInv ReconfGhost ReconfNode ReconfVote ReconfLead ReconfStage.
From Verif Require BallotBox BallotBoxSpec ConfCtx ConfCtxProofs.

Section Win.
Variable conf0 : list peer.
Variable boot : peer -> bool.
Variable dec : Z -> option jconf.
Notation cfg := (cfg conf0 dec).
Notation SF := (SF conf0 dec).
Notation cm := (cm conf0 dec).
Notation NI := (NI conf0 boot dec).
Notation Inv := (Inv conf0 boot dec).
Notation lastat := (lastat dec).

Lemma become_form : forall v n n2 o, become_leader conf0 boot dec v n = Some (n2, o) ->
  let l := r_log n in let c := conf_of conf0 boot dec (r_self n) l in let l' := l ++ [mkL (r_term n) v] in
  let c' := conf_of conf0 boot dec (r_self n) l' in
  BallotBox.reset_pending_index (r_box n) (zlen l + 1) = Some (BallotBox.mkBox (lc n) (zlen l + 1) [] (BallotBox.mkCQ (zlen l + 1) [])) /\
  dec v = Some c /\ o = [ROElected (r_term n) l] /\
  n2 = mkR (r_self n) RLead (r_term n) (r_voted n) (Some (r_self n)) l' (r_sync n)
         (BallotBox.mkBox (lc n) (zlen l + 1) [ballot_init (fst c') (snd c')] (BallotBox.mkCQ (zlen l + 1) [None]))
         (r_applied n) (r_ballot n) (match snd c with None => SStable (fst c) | Some _ => SJoint (fst c) end)
         ((zlen l + 1, r_term n) :: r_done n).
Proof.
  intros v n n2 o H l c l' c'. unfold become_leader in H. fold l in H. fold c in H.
  destruct (BallotBox.reset_pending_index (r_box n) (zlen l + 1)) as [b|] eqn:RP; [|discriminate H].
  assert (EB : b = BallotBox.mkBox (lc n) (zlen l + 1) [] (BallotBox.mkCQ (zlen l + 1) [])).
  { unfold BallotBox.reset_pending_index in RP. destruct (BallotBox.bq (r_box n)); [|discriminate RP].
    destruct (BallotBox.cq_q (BallotBox.cq (r_box n))); [|discriminate RP].
    destruct ((BallotBox.pend (r_box n) =? 0) && (BallotBox.lc (r_box n) <? zlen l + 1)); [|discriminate RP].
    injection RP as <-. reflexivity. }
  subst b. split; auto.
  set (st := match snd c with None => SStable (fst c) | Some _ => SJoint (fst c) end) in *.
  set (n1 := mkR (r_self n) RLead (r_term n) (r_voted n) (Some (r_self n)) l (r_sync n)
      (BallotBox.mkBox (lc n) (zlen l + 1) [] (BallotBox.mkCQ (zlen l + 1) [])) (r_applied n) (r_ballot n) st (r_done n)) in *.
  destruct (apply_conf conf0 boot dec c v n1) as [n3|] eqn:AC; [|discriminate H]. injection H as <- <-.
  change n1 with (set_stage st (set_done (r_done n) n1)) in AC.
  destruct (apply_conf_form _ _ _ _ _ _ _ _ _ AC) as (DV & n4 & LA & ->). sp; auto.
  destruct (lead_append_form _ _ _ _ _ _ LA) as [P ->]. reflexivity.
Qed.

Lemma inv_got_vote : forall c p G from t v n' o, Inv G c ->
  (forall n, n = rnodes c p -> r_st n = RCand -> t = r_term n -> gvt G from t p) ->
  got_vote conf0 boot dec from t v (rnodes c p) = Some (n', o) -> exists G', Inv G' (nxt c p n' o).
Proof.
  intros c p G from t v n' o I GV H. unfold got_vote in H. set (n := rnodes c p) in *.
  assert (N : NI G p n) by apply I.
  assert (Q : Inv G (nxt c p n [])). { apply inv_quiet; auto. fold n. lia. }
  destruct (r_st n) eqn:E; try (injection H as <- <-; eauto; fail).
  destruct (Z.eqb_spec t (r_term n)) as [ET|NT]; [|injection H as <- <-; eauto].
  specialize (GV n eq_refl E ET). set (b := grant1 (r_ballot n) from) in *.
  assert (S : SF G) by apply I.
  pose proof (cfg_log_wf _ _ _ _ _ _ S N) as WF.
  destruct (i_cand _ _ _ _ _ _ N E) as (A1 & A2 & A3 & (acks & A4 & A5) & A6 & A7).
  assert (BOK : ballot_ok (fst (cfg (r_log n))) (snd (cfg (r_log n))) (from :: acks) b).
  { unfold b, grant1. apply grant_ok; auto. }
  assert (BA : forall a, In a (from :: acks) -> gvt G a (r_term n) p).
  { intros a [<-|Ha]; [rewrite <- ET; auto|auto]. }
  assert (NB : NI G p (set_ballot b n)).
  { destruct N. constructor; cbn [set_ballot r_self r_st r_term r_voted r_leader r_log r_sync r_box r_applied r_ballot r_stage r_done]; auto.
    intros _. sp; auto. exists (from :: acks). split; auto. }
  destruct (granted b) eqn:GR.
  2:{ injection H as <- <-. exists G. apply inv_quiet; auto. fold n. cbn [set_ballot r_term]. lia. }
  pose proof (proj1 (ballot_ok_granted _ _ _ _ BOK) GR) as HQ.
  destruct (become_form _ _ _ _ H) as (F1 & F2 & F3 & F4). clear H.
  cbn [set_ballot r_self r_st r_term r_voted r_leader r_log r_sync r_box r_applied r_ballot r_stage r_done] in F1, F2, F3, F4.
  destruct N. rewrite i_self in *. rewrite A3 in F2, F4. change (lc (set_ballot b n)) with (lc n) in *.
  set (l := r_log n) in *. set (e := mkL (r_term n) v) in *.
  destruct (SF_elect conf0 dec G (r_term n) p l v (from :: acks) S A2 i_wfl i_term) as (S' & EX & CP & LE); auto.
  { intros x Hx. split; [apply i_tm; auto|apply A1; auto]. }
  fold e in S', EX, LE.
  set (G' := mkG (setll (gll G) (r_term n) (l ++ [e])) ((r_term n, p, l) :: gel G) (gak G) (gcl G) (gvt G)) in *.
  assert (CF : cfg (l ++ [e]) = cfg l) by (rewrite cfg_snoc; cbn [e l_val]; rewrite F2; reflexivity).
  assert (LS : lastat (l ++ [e]) (zlen l + 1)) by (eapply lastat_snoc; cbn [e l_val]; eauto).
  assert (CO : conf_of conf0 boot dec p (l ++ [e]) = cfg l).
  { rewrite <- CF. eapply conf_of_cfg. apply LS. }
  rewrite CO in F4.
  assert (LL : gll G' (r_term n) = l ++ [e]) by (cbn [G' gll]; apply setll_same).
  assert (LN : zlen (l ++ [e]) = zlen l + 1) by apply zlen_snoc.
  exists G'. apply inv_step with (G := G); auto.
  - intros q u _. reflexivity.
  - subst n'. constructor; cbn [r_self r_st r_term r_voted r_leader r_log r_sync r_box r_applied r_ballot r_stage r_done]; auto;
      try (intros X; discriminate X); try (intros X; congruence).
    + apply wfl_app with (t := r_term n).
      * eapply wfl_ext; [exact i_wfl|apply EX].
      * intros x [<-|[]]. reflexivity.
      * rewrite LL. apply prefix_refl.
    + intros x Hx. apply in_app_or in Hx. destruct Hx as [Hx|[<-|[]]]; [apply i_tm; auto|]. cbn [e l_term]. lia.
    + lia.
    + intros t0 l1 [X|X]; [injection X as <- _; lia|eauto].
    + intros T i Ha. cbn [G' gak] in Ha. destruct (i_ak T i Ha) as [X D]. split; auto.
      pose proof (own_bound _ _ _ (s9 _ _ _ S _ _ _ Ha)) as OB.
      rewrite (PX_ext (gll G) (gll G')) by (try apply EX; auto).
      destruct D as [D|D]; [left|right].
      * rewrite <- (firstn_prefix_eq l (l ++ [e])) by (try apply prefix_app; lia). exact D.
      * eapply lacks_ext; [apply EX|apply EX|exact OB|exact D].
    + pose proof (inv0_step _ (BallotBox.EReset (zlen l + 1)) (BallotBox.mkBox (lc n) (zlen l + 1) [] (BallotBox.mkCQ (zlen l + 1) [])) [] i_box) as B1.
      cbn [BallotBox.step] in B1. rewrite F1 in B1. specialize (B1 eq_refl).
      apply (inv0_append _ (fst (cfg l)) (snd (cfg l))) in B1; [exact B1|]. cbn [BallotBox.pend]. pose proof (zlen_nonneg l). lia.
    + unfold lc in *. cbn [r_box BallotBox.lc]. destruct i_lc as [B D]. split; [lia|].
      destruct D as [D|(T0 & i0 & C & X & P)]; auto. right. exists T0, i0. sp; auto. { eapply cm_ext; eauto. }
      rewrite (cm_PX _ _ _ _ _ _ _ EX C). rewrite <- (firstn_prefix_eq l (l ++ [e])) by (try apply prefix_app; lia). exact P.
    + intros x [<-|Hx]; [cbn [snd]; lia|auto].
    + intros _. exists l. cbn [BallotBox.pend BallotBox.bq]. sp; auto.
      * left; reflexivity.
      * lia.
      * rewrite LN. unfold zlen at 2. cbn [length]. lia.
      * intros k x Hx. cbn [r_box r_term BallotBox.pend BallotBox.bq] in *.
        pose proof (znth_some_bound _ _ _ Hx) as Bk. change (zlen [ballot_init (fst (cfg l)) (snd (cfg l))]) with 1 in Bk.
        assert (k = 0) by lia. subst k. rewrite znth_cons_0 in Hx. injection Hx as <-. exists []. split; [|intros a []].
        unfold PX. rewrite LL. rewrite firstn_zall by lia. rewrite CF. apply ballot_ok_init.
      * left. unfold lc. cbn [r_box BallotBox.lc]. apply i_lc.
      * assert (DN : exists j, lastat (l ++ [e]) j /\ zlen l < j /\
           forall d, In d ((zlen l + 1, r_term n) :: r_done n) -> snd d = r_term n -> fst d = j).
        { exists (zlen l + 1). sp; auto; [lia|]. intros d [<-|Hd] X; auto. exfalso. apply (A7 d Hd). exact X. }
        unfold stage_ok. cbn [r_stage r_log r_done r_term]. rewrite CF.
        destruct (cfg l) as [a [oo|]]; cbn [fst snd]; split; eauto.
  - subst n'. fold n. cbn [r_term]. lia.
  - rewrite F3. intros m [].
  - rewrite F3. intros x [<-|[]]. cbn [out_ok G' gel]. left. reflexivity.
Qed.
End Win.
