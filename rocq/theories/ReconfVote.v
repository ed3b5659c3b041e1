(** Elections keep the invariant: elect_self, vote requests, step downs, crashes. *)
From Verif Require Import Base BaseLemmas LogEntry Ballot QuorumSpec BallotProofs BallotBoxProofs Node LogPrefix Reconf ReconfStatic ReconfInv ReconfGhost ReconfNode.
From Verif Require BallotBox BallotBoxSpec ConfCtx.

Section Vote.
Variable conf0 : list peer.
Variable boot : peer -> bool.
Variable dec : Z -> option jconf.
Notation cfg := (cfg conf0 dec).
Notation SF := (SF conf0 dec).
Notation cm := (cm conf0 dec).
Notation NI := (NI conf0 boot dec).
Notation Inv := (Inv conf0 boot dec).
Definition nxt (c : rcluster) (p : peer) (n : rnode) (o : list rout) : rcluster :=
  mkRC (upd (rnodes c) p n) (sends o ++ rnet c) (map (pair p) o ++ rtrace c).

Lemma step_down_term : forall t n, r_term n <= r_term (step_down t n) /\ r_log (step_down t n) = r_log n /\
  r_sync (step_down t n) = r_sync n /\ r_self (step_down t n) = r_self n /\ r_st (step_down t n) = RFoll /\
  (r_term n <= t -> r_term (step_down t n) = t).
Proof.
  intros. unfold step_down. cbn [r_term r_log r_sync r_self r_st]. sp; auto.
  - destruct (Z.ltb_spec (r_term n) t); lia.
  - intros. destruct (Z.ltb_spec (r_term n) t); lia.
Qed.
Lemma inv_quiet : forall c p G n', Inv G c -> NI G p n' -> r_term (rnodes c p) <= r_term n' -> Inv G (nxt c p n' []).
Proof. intros. apply inv_same; auto; intros ? []. Qed.

Lemma inv_stepdown : forall c p G t, Inv G c -> Inv G (nxt c p (step_down t (rnodes c p)) []).
Proof.
  intros c p G t I. apply inv_quiet; auto.
  - apply NI_step_down. apply I.
  - apply step_down_term.
Qed.

Lemma inv_crash : forall c p G k a n', Inv G c -> crash k a (rnodes c p) = Some n' -> Inv G (nxt c p n' []).
Proof.
  intros c p G k a n' I H. unfold crash in H. set (n := rnodes c p) in *.
  destruct ((r_sync n <=? k) && (k <=? zlen (r_log n)) && ((0 <=? a) && (a <=? r_applied n) && (a <=? k))) eqn:B; [|discriminate H].
  assert (BK : r_sync n <= k <= zlen (r_log n)) by lia. assert (BA : 0 <= a <= r_applied n /\ a <= k) by lia. clear B. inversion H; clear H; subst n'.
  pose proof (v_ni _ _ _ _ _ I p) as N. fold n in N. destruct N.
  assert (LK : zlen (firstn (Z.to_nat k) (r_log n)) = k) by (apply zlen_firstn_le; lia).
  apply inv_quiet; auto; [|fold n; cbn [r_term]; lia].
  constructor; cbn [r_self r_st r_term r_voted r_leader r_log r_sync r_box r_applied r_ballot r_stage r_done]; auto;
    try (intros X; discriminate X).
  - eapply wfl_prefix; [eauto|apply prefix_firstn].
  - intros e He. apply i_tm. eapply prefix_In; [apply prefix_firstn|exact He].
  - lia.
  - intros T i Ha. destruct (i_ak T i Ha) as [X [D|D]]; auto. split; auto. left.
    eapply prefix_trans; [exact D|]. rewrite firstn_firstn. replace (Nat.min (Z.to_nat k) (Z.to_nat k)) with (Z.to_nat k) by lia.
    apply prefix_firstn2. lia.
  - unfold Inv0. cbn [BallotBox.lc BallotBox.pend BallotBox.bq BallotBox.cq BallotBox.cq_first BallotBox.cq_q]. sp; auto; lia.
  - unfold lc in *. cbn [r_box BallotBox.lc]. split; [lia|]. destruct i_lc as [B1 [B2|(T0 & i0 & C & L & P)]]; [left; lia|].
    right. exists T0, i0. sp; auto. rewrite firstn_firstn. replace (Nat.min (Z.to_nat a) (Z.to_nat k)) with (Z.to_nat a) by lia.
    eapply prefix_trans; [|exact P]. apply prefix_firstn2. lia.
  - unfold lc. cbn [r_box BallotBox.lc]. lia.
  - intros d [].
Qed.

(** a vote is given *)
Definition addv (G : gh) (p : peer) (t : Z) (c : peer) (cl' : peer -> Z -> list lent) : gh :=
  mkG (gll G) (gel G) (gak G) cl' (fun n t' c' => gvt G n t' c' \/ (n = p /\ t' = t /\ c' = c)).
Lemma addv_gext : forall G p t c cl', gext p G (addv G p t c cl').
Proof.
  intros. constructor; cbn [addv gll gel gak gvt gcl]; auto.
  - intros t'; apply prefix_refl.
  - intros n t' c' [|(-> & _)] N; [auto|congruence].
Qed.
Lemma addv_SF : forall G p t c cl', SF G ->
  (forall c', gvt G p t c' -> c' = c) ->
  (forall n t' c', gvt G n t' c' -> cl' c' t' = gcl G c' t') ->
  (forall T i, gak G p T i -> T <= t) ->
  wfl (gll G) (cl' c t) -> (forall e, In e (cl' c t) -> 1 <= l_term e < t) ->
  (forall T i, T < t -> gak G p T i -> prefix (PX (gll G) T i) (cl' c t) \/ lacks (gll G) (gel G) T i t) ->
  SF (addv G p t c cl').
Proof.
  intros G p t c cl' S V K A W Tm E. apply (SF_votes_acks conf0 dec); auto.
  - intros n t' c1 c2 [H1|(-> & -> & ->)] [H2|(E1 & E2 & E3)]; subst; auto.
    + eapply s7; eauto.
    + symmetry; auto.
  - intros n t' c' [H|(-> & -> & ->)]; auto.
Qed.

Lemma inv_elect : forall c p G n' o, Inv G c -> elect conf0 boot dec (rnodes c p) = Some (n', o) ->
  exists G', Inv G' (nxt c p n' o).
Proof.
  intros c p G n' o I H. unfold elect in H. set (n := rnodes c p) in *.
  pose proof (v_ni _ _ _ _ _ I p) as N. fold n in N.
  assert (NL : r_st n <> RLead) by (intros X; rewrite X in H; discriminate H).
  assert (H' : (if contains (conf_of conf0 boot dec (r_self n) (r_log n)) (r_self n)
     then Some (mkR (r_self n) RCand (r_term n + 1) (Some (r_self n)) None (r_log n) (zlen (r_log n))
                     (r_box n) (r_applied n) (ballot_init (fst (conf_of conf0 boot dec (r_self n) (r_log n))) (snd (conf_of conf0 boot dec (r_self n) (r_log n)))) SNone (r_done n),
               [ROSend (RVoteReq (r_self n) (r_term n + 1) (last_id (r_log n)))]) else Some (n, [])) = Some (n', o)).
  { destruct (r_st n); [congruence|exact H|exact H]. }
  clear H. destruct (contains _ _) eqn:EC.
  2:{ inversion H'; subst n' o. exists G. apply inv_quiet; auto. fold n. lia. }
  inversion H'; clear H'; subst n' o. destruct N. rewrite i_self in *.
  pose proof (conf_of_contains _ _ _ _ _ EC) as ECF. rewrite ECF.
  set (t := r_term n + 1).
  set (cl' := fun q u => if (q =? p) && (u =? t) then r_log n else gcl G q u).
  assert (CL : cl' p t = r_log n) by (unfold cl'; rewrite !Z.eqb_refl; reflexivity).
  assert (CK : clkeep c p G (addv G p t p cl')).
  { intros q u Q. cbn [addv gcl]. unfold cl'. destruct (Z.eqb_spec q p); cbn [andb]; auto.
    destruct (Z.eqb_spec u t); auto. destruct Q as [Q|Q]; [congruence|]. fold n in Q. lia. }
  assert (S' : SF (addv G p t p cl')).
  { apply addv_SF; auto.
    - apply I.
    - intros c' Hv. apply i_vt in Hv. lia.
    - intros n0 t' c' Hv. apply CK. pose proof (v_vt _ _ _ _ _ I _ _ _ Hv) as B.
      destruct (Z.eq_dec c' p) as [->|]; auto.
    - intros T i Ha. destruct (i_ak _ _ Ha). lia.
    - rewrite CL; auto.
    - rewrite CL. intros e He. specialize (i_tm e He). lia.
    - intros T i HT Ha. rewrite CL. destruct (i_ak _ _ Ha) as [_ [D|D]].
      + left. eapply prefix_trans; [exact D|apply prefix_firstn].
      + right. eapply lacks_mono; [|exact D]. lia. }
  exists (addv G p t p cl'). apply inv_step with (G := G); auto.
  - apply addv_gext.
  - constructor; cbn [r_self r_st r_term r_voted r_leader r_log r_sync r_box r_applied r_ballot r_stage r_done addv gll gel gak gcl gvt]; auto;
    try (intros X; discriminate X).
    + lia.
    + intros e He. specialize (i_tm e He). lia.
    + pose proof (zlen_nonneg (r_log n)). lia.
    + intros t0 c0 [Hv|(_ & -> & _)]; [apply i_vt in Hv; lia|lia].
    + intros c0. split.
      * intros X; injection X as X; subst c0. right; auto.
      * intros [Hv|(_ & _ & ->)]; auto. apply i_vt in Hv. lia.
    + intros t0 l Hl. apply i_el in Hl. lia.
    + intros T i Ha. destruct (i_ak _ _ Ha) as [B D]. split; [lia|]. rewrite firstn_zall by lia.
      destruct D as [D|D]; [left; eapply prefix_trans; [exact D|apply prefix_firstn]|right; eapply lacks_mono; [|exact D]; lia].
    + destruct i_lc as [B D]. split; auto. destruct D as [D|(T0 & i0 & C & L & P)]; auto.
      right. exists T0, i0. sp; auto. lia.
    + intros d Hd. specialize (i_done d Hd). lia.
    + intros _. split; auto. apply i_foll; auto.
    + intros _. sp; auto.
      * intros e He. specialize (i_tm e He). lia.
      * exists []. split; [apply ballot_ok_init|intros a []].
      * intros l Hl. apply i_el in Hl. lia.
      * intros d Hd. cbn [r_done r_term] in *. specialize (i_done d Hd). lia.
  - fold n. cbn [r_term]. lia.
  - intros m [<-|[]]. cbn [msg_ok addv gll gel gak gcl gvt r_term]. sp; auto; try lia.
    + rewrite CL; auto.
    + rewrite CL; auto.
    + rewrite CL. intros e He. specialize (i_tm e He). lia.
  - intros t0 q [Hv|(_ & -> & ->)]; auto. right; left. split; auto. cbn [r_term]. lia.
  - intros x [<-|[]]. exact Logic.I.
Qed.

Lemma inv_vote_req : forall c p G cand t last lease n' o, Inv G c ->
  In (RVoteReq cand t last) (rnet c) ->
  vote_req cand t last lease (rnodes c p) = (n', o) -> exists G', Inv G' (nxt c p n' o).
Proof.
  intros c p G cand t last lease n' o I M H. unfold vote_req in H.
  destruct (Z.ltb_spec t (r_term (rnodes c p))) as [LT|GE].
  { inversion H; subst. exists G. apply inv_quiet; auto; [apply I|lia]. }
  destruct lease. { inversion H; subst. exists G. apply inv_quiet; auto; [apply I|lia]. }
  pose proof (v_ni _ _ _ _ _ I p) as N. set (n := rnodes c p) in *.
  set (n0 := set_log (r_log n) (zlen (r_log n)) n) in *.
  assert (N0 : NI G p n0). { apply NI_sync; auto. destruct N; lia. }
  set (n1 := if r_term n0 <? t then step_down t n0 else n0) in *.
  assert (N1 : NI G p n1 /\ r_term n1 = t /\ r_log n1 = r_log n /\ r_sync n1 = zlen (r_log n)).
  { unfold n1. change (r_term n0) with (r_term n). destruct (Z.ltb_spec (r_term n) t) as [L|L].
    - destruct (step_down_term t n0) as (_ & X1 & X2 & _ & _ & X3). change (r_term n0) with (r_term n) in X3.
      sp; [apply NI_step_down; auto|apply X3; lia|exact X1|exact X2].
    - sp; auto. change (r_term n0) with (r_term n). lia. }
  destruct N1 as (N1 & T1 & L1 & Y1). clearbody n1. clear n0 N0.
  destruct (v_net _ _ _ _ _ I _ M) as [(ML & MW & MT) MR]. cbn [req_ok] in MR.
  destruct (id_geb last (last_id (r_log n1)) && opeer_eqb (r_voted n1) None) eqn:OK.
  2:{ destruct ((t =? r_term n1) && opeer_eqb (r_voted n1) (Some cand)) eqn:GR; inversion H; subst n' o.
      - exists G. apply inv_same; auto.
        + fold n. lia.
        + intros m [<-|[]]. cbn [msg_ok]. split; auto. apply andb_prop in GR. destruct GR as [_ GR].
          rewrite (i_self _ _ _ _ _ _ N1). rewrite <- T1. apply (i_voted _ _ _ _ _ _ N1).
          destruct (r_voted n1); [|discriminate GR]. cbn in GR. apply Z.eqb_eq in GR. congruence.
        + intros x [<-|[]]. exact Logic.I.
      - exists G. apply inv_quiet; auto. fold n. lia. }
  apply andb_prop in OK. destruct OK as [OK1 OK2].
  assert (V1 : r_voted n1 = None) by (destruct (r_voted n1); [discriminate OK2|reflexivity]).
  set (n2 := step_down t n1) in *.
  assert (N2 : NI G p n2) by (apply NI_step_down; auto).
  destruct (step_down_term t n1) as (_ & L2 & Y2 & F2 & R2 & T2). fold n2 in L2, Y2, F2, R2, T2. specialize (T2 ltac:(lia)).
  assert (V2 : r_voted n2 = None). { unfold n2, step_down. cbn [r_voted]. destruct (_ <? _); auto. }
  assert (W2 : wfl (gll G) (r_log n2)) by apply N2.
  clearbody n2.
  change (r_term (set_voted (Some cand) n2)) with (r_term n2) in H.
  change (r_voted (set_voted (Some cand) n2)) with (Some cand) in H.
  change (r_self (set_voted (Some cand) n2)) with (r_self n2) in H.
  rewrite T2, Z.eqb_refl in H. cbn [andb opeer_eqb] in H. rewrite Z.eqb_refl in H. inversion H; clear H; subst n' o.
  destruct N2. rewrite i_self.
  assert (NV : forall c', ~ gvt G p t c').
  { intros c' Hv. rewrite <- T2 in Hv. apply i_voted in Hv. congruence. }
  assert (S' : SF (addv G p t cand (gcl G))).
  { apply addv_SF; auto.
    - apply I.
    - intros c' Hv. exfalso; eapply NV; eauto.
    - intros T i Ha. destruct (i_ak _ _ Ha). lia.
    - intros T i HT Ha. destruct (i_ak _ _ Ha) as [_ [D|D]]; [|rewrite T2 in D; auto].
      assert (SS : SF G) by apply I.
      eapply (uptodate conf0 dec G (r_log n2) (gcl G cand t)); eauto.
      + intros e He. apply MT in He. lia.
      + eapply s9; eauto.
      + eapply prefix_trans; [exact D|apply prefix_firstn].
      + rewrite <- ML, L2. exact OK1. }
  exists (addv G p t cand (gcl G)). apply inv_step with (G := G); auto.
  - apply addv_gext.
  - intros q u _. reflexivity.
  - constructor; cbn [set_voted r_self r_st r_term r_voted r_leader r_log r_sync r_box r_applied r_ballot r_stage r_done addv gll gel gak gcl gvt]; auto;
    try (intros X; rewrite R2 in X; discriminate X).
    + intros t0 c0 [Hv|(_ & -> & _)]; [apply i_vt in Hv; lia|lia].
    + intros c0. split.
      * intros X; injection X as X; subst c0. right; auto.
      * intros [Hv|(_ & _ & ->)]; auto. apply i_voted in Hv. congruence.
  - fold n. cbn [set_voted r_term]. lia.
  - intros m [<-|[]]. cbn [msg_ok addv gvt]. split; auto.
  - intros t0 q [Hv|(_ & -> & ->)]; auto.
  - intros x [<-|[]]. exact Logic.I.
Qed.
End Vote.
