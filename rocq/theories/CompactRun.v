(** Every execution of Compact.v is one of Reconf.v: the steps put together. *)
From Verif Require Import Base BaseLemmas LogEntry Ballot Node LogPrefix Reconf ReconfSpec ReconfStatic ReconfInv ReconfGhost ReconfNode ReconfFollow BallotBoxProofs Compact CompactInv CompactSim CompactFollow CompactSnap CompactInst CompactRel.
From Verif Require BallotBox ConfCtx.

Section Run.
Variable conf0 : list peer.
Variable boot : peer -> bool.
Variable dec : Z -> option jconf.
Notation SI := (SI dec).
Notation NI := (NI conf0 boot dec).
Notation Inv := (Inv conf0 boot dec).
Notation snap_is := (snap_is dec).
Notation Rel := (Rel dec).
Notation runs := (runs conf0 boot dec).

(** only applying, loading and restarting touch the state machine *)
Lemma sm_lead_append : forall v n n', Compact.lead_append conf0 boot dec v n = Some n' -> s_sm n' = s_sm n.
Proof.
  intros v n n' E. unfold Compact.lead_append in E. cbv zeta in E. destruct (BallotBox.append_pending_task _ _ _ _); [|discriminate E].
  injection E as <-. reflexivity.
Qed.
Lemma sm_apply_conf : forall c v n n', Compact.apply_conf conf0 boot dec c v n = Some n' -> s_sm n' = s_sm n.
Proof.
  intros c v n n' E. unfold Compact.apply_conf in E. destruct (holds dec v c); [|discriminate E].
  destruct (Compact.lead_append conf0 boot dec v n) eqn:L; [|discriminate E]. injection E as <-. apply (sm_lead_append _ _ _ L).
Qed.
Lemma sm_become : forall v n n' o, Compact.become_leader conf0 boot dec v n = Some (n', o) -> s_sm n' = s_sm n.
Proof.
  intros v n n' o E. unfold Compact.become_leader in E. destruct (BallotBox.reset_pending_index _ _); [|discriminate E]. cbv zeta in E.
  destruct (Compact.apply_conf _ _ _ _ _ _) eqn:L; [|discriminate E]. injection E as <- _. apply sm_apply_conf in L. exact L.
Qed.
Lemma sm_got : forall from t v n n' o, Compact.got_vote conf0 boot dec from t v n = Some (n', o) -> s_sm n' = s_sm n.
Proof.
  intros from t v n n' o E. unfold Compact.got_vote in E. destruct (r_st (core n)); try (injection E as <- _; reflexivity).
  destruct (t =? _); [|injection E as <- _; reflexivity]. cbv zeta in E. destruct (granted _); [apply sm_become in E; exact E|injection E as <- _; reflexivity].
Qed.
Lemma sm_next : forall v n n' o, Compact.next_stage conf0 boot dec v n = Some (n', o) -> s_sm n' = s_sm n.
Proof.
  intros v n n' o E. unfold Compact.next_stage in E. destruct (r_stage (core n)) as [|new old|new|new]; [discriminate E| | |].
  - destruct (1 <? _); destruct (Compact.apply_conf _ _ _ _ _ _) eqn:L; try discriminate E; injection E as <- _; apply sm_apply_conf in L; exact L.
  - destruct (Compact.apply_conf _ _ _ _ _ _) eqn:L; try discriminate E; injection E as <- _; apply sm_apply_conf in L; exact L.
  - cbv zeta in E. destruct (memb _ _); injection E as <- _; reflexivity.
Qed.
Lemma sm_commit_to : forall f l p n n' o, Compact.commit_to f l p n = (n', o) -> s_sm n' = s_sm n.
Proof. intros f l p n n' o E. unfold Compact.commit_to in E. destruct (BallotBox.commit_at _ _ _ _) as [[b r] [i|]]; injection E as <- _; reflexivity. Qed.
Lemma sm_upto : forall i n n', commit_upto i n = Some n' -> s_sm n' = s_sm n.
Proof. intros i n n' E. unfold commit_upto in E. destruct (set_committed i (core n)); [|discriminate E]. injection E as <-. reflexivity. Qed.
Lemma sm_follow : forall prev es n n', follow prev es n = Some n' -> s_sm n' = s_sm n.
Proof.
  intros prev es n n' E. unfold follow in E. cbv zeta in E. destruct (prev =? last_index n); [injection E as <-; reflexivity|].
  destruct (skip_known n (prev + 1) es) as [i rest]. destruct rest; [injection E as <-; reflexivity|].
  destruct (i <=? last_index n); [|injection E as <-; reflexivity]. destruct (i - 1 <? _); [discriminate E|injection E as <-; reflexivity].
Qed.
Lemma sm_append : forall from t prev pt es c n n' o, Compact.append_req from t prev pt es c n = Some (n', o) -> s_sm n' = s_sm n.
Proof.
  intros from t prev pt es c n n' o E. unfold Compact.append_req in E. destruct (t <? _); [injection E as <- _; reflexivity|]. cbv zeta in E.
  destruct (negb _); [injection E as <- _; reflexivity|]. destruct (negb _); [injection E as <- _; reflexivity|].
  destruct es as [|e es].
  - destruct (commit_upto _ _) eqn:L; [|discriminate E]. injection E as <- _. apply sm_upto in L. exact L.
  - destruct (_ <? prev); [injection E as <- _; reflexivity|]. destruct (_ <=? _).
    + destruct (commit_upto _ _) eqn:L; [|discriminate E]. injection E as <- _. apply sm_upto in L. exact L.
    + destruct (follow _ _ _) eqn:L1; [|discriminate E]. destruct (commit_upto _ _) eqn:L; [|discriminate E]. injection E as <- _.
      apply sm_upto in L. apply sm_follow in L1. rewrite L, L1. reflexivity.
Qed.
Lemma sm_vote : forall c t l b n n' o, Compact.vote_req c t l b n = (n', o) -> s_sm n' = s_sm n.
Proof.
  intros c t l b n n' o E. unfold Compact.vote_req in E. destruct (t <? _); [injection E as <- _; reflexivity|]. destruct b; [injection E as <- _; reflexivity|].
  cbv zeta in E. set (n1 := on _ n) in E. assert (X1 : s_sm n1 = s_sm n) by reflexivity. clearbody n1.
  set (n2 := if _ <? t then _ else n1) in E. assert (X2 : s_sm n2 = s_sm n) by (unfold n2; destruct (_ <? t); auto). clearbody n2.
  set (n3 := if id_geb _ _ && _ then _ else n2) in E. assert (X3 : s_sm n3 = s_sm n) by (unfold n3; destruct (id_geb _ _ && _); auto). clearbody n3.
  destruct (_ && _); injection E as <- _; auto.
Qed.

Lemma send_run : forall ca p a prev m k, rnodes ca p = a -> r_st a = RLead -> 0 <= prev <= zlen (r_log a) -> k <= lc a -> 0 <= lc a ->
  let msg := RApp (r_self a) (r_term a) prev (term_at (r_log a) prev) (firstn (Z.to_nat m) (skipn (Z.to_nat prev) (r_log a))) k in
  exists ca', runs ca ca' /\ rnodes ca' p = a /\ (forall q, q <> p -> rnodes ca' q = rnodes ca q) /\ more ca ca' /\
    In msg (rnet ca') /\ In (p, ROSend msg) (rtrace ca') /\ In (RApp (r_self a) (r_term a) 0 0 [] 0) (rnet ca') /\
    (forall q x, In (q, x) (rtrace ca') -> told x -> In (q, x) (rtrace ca)).
Proof.
  intros ca p a prev m k Ha RS BP LK L0 msg. unfold lc in *.
  assert (S1 : Reconf.rstep conf0 boot dec a (ESend prev m k) = Some (a, [ROSend msg])).
  { cbn [Reconf.rstep]. unfold Reconf.send. rewrite RS. destruct (Z.leb_spec 0 prev); [|lia]. destruct (Z.leb_spec prev (zlen (r_log a))); [|lia].
    destruct (Z.leb_spec k (BallotBox.lc (r_box a))); [|lia]. reflexivity. }
  assert (S2 : Reconf.rstep conf0 boot dec a (ESend 0 0 0) = Some (a, [ROSend (RApp (r_self a) (r_term a) 0 0 [] 0)])).
  { cbn [Reconf.rstep]. unfold Reconf.send. rewrite RS. destruct (Z.leb_spec 0 0); [|lia]. destruct (Z.leb_spec 0 (zlen (r_log a))); [|pose proof (zlen_nonneg (r_log a)); lia].
    destruct (Z.leb_spec 0 (BallotBox.lc (r_box a))); [|lia]. reflexivity. }
  set (c1 := after ca p a [ROSend msg]). set (c2 := after c1 p a [ROSend (RApp (r_self a) (r_term a) 0 0 [] 0)]).
  exists c2. sp.
  - eapply runs_one; [apply one_step with (e := ESend prev m k); [reflexivity|rewrite Ha; exact S1]|]. fold c1.
    eapply runs_one; [apply one_step with (e := ESend 0 0 0); [reflexivity|unfold c1; rewrite after_self; exact S2]|apply runs_refl].
  - apply after_self.
  - intros q Hq. unfold c2. rewrite after_other by auto. apply after_other; auto.
  - eapply more_trans; apply after_more.
  - apply after_more. cbn [c1 after rnet sends flat_map app]. left. reflexivity.
  - apply after_more. cbn [c1 after rtrace map app]. left. reflexivity.
  - cbn [c2 after rnet sends flat_map app]. left. reflexivity.
  - intros q x Hx T. cbn [c2 c1 after rtrace map app] in Hx. destruct Hx as [Hx|[Hx|Hx]]; auto; injection Hx as <- <-; destruct T.
Qed.

Theorem sim_step : forall cs ca G p e cs', Rel cs ca -> Inv G ca -> scstep conf0 boot dec cs (p, e) = Some cs' ->
  exists ca', runs ca ca' /\ Rel cs' ca'.
Proof.
  intros cs ca G p e cs' R I E. unfold scstep in E. destruct (sdeliverable cs p e) eqn:DL; [|discriminate E].
  destruct (sstep conf0 boot dec (snodes cs p) e) as [[n' o]|] eqn:ST; [|discriminate E]. injection E as <-.
  pose proof (x_si _ _ _ R p) as H. assert (N : NI G p (abs (snodes cs p))). { rewrite <- (x_nodes _ _ _ R p). apply I. }
  assert (S : SF conf0 dec G) by apply I. set (n := snodes cs p) in *.
  assert (B0 : Inv0 (r_box (abs n))) by apply N.
  pose proof (fun m Hm => x_net _ _ _ R m Hm) as XN.
  assert (FD : forall a o', fed (after ca p a o') p (s_sm n)). { intros a o'. eapply fed_more; [apply after_more|apply R]. }
  assert (EX : forall o' e', o = map SO o' -> deliverable ca p e' = true -> (forall x y z, e' <> ESend x y z) ->
     Reconf.rstep conf0 boot dec (abs n) e' = Some (abs n', o') -> SI n' -> s_sm n' = s_sm n ->
     exists ca', runs ca ca' /\ Rel (mkSC (supd (snodes cs) p n') (ssends o ++ snet cs) (map (pair p) o ++ strace cs)) ca').
  { intros o' e' -> D NS RS SI' SM. eapply exact_step; eauto. rewrite SM. apply FD. }
  assert (PL : forall (r : option (snode * list rout)), plain r = Some (n', o) -> exists o', r = Some (n', o') /\ o = map SO o').
  { intros [[m o']|] X; [|discriminate X]. injection X as <- <-. eauto. }
  destruct e; cbn [sstep] in ST.
  - (* CElect *) destruct (PL _ ST) as (o' & X & EO). destruct (sim_elect conf0 boot dec _ _ _ H X) as [A S'].
    eapply (EX o' EElect); eauto; try discriminate. unfold Compact.elect in X. cbv zeta in X. destruct (r_st (core n)); try discriminate X; destruct (contains _ _); injection X as <- _; reflexivity.
  - (* CVoteReq *) destruct (PL _ ST) as (o' & X & EO). injection X as X. destruct (sim_vote_req dec _ _ _ _ _ _ _ H X) as [A S'].
    destruct (sdeliver _ _ _ _ _ DL eq_refl) as [NP M]. apply XN in M.
    eapply (EX o' (EVoteReq cand t last lease)); eauto; try discriminate.
    + eapply deliver; eauto; [reflexivity|apply M].
    + cbn [Reconf.rstep]. rewrite A. reflexivity.
    + eapply sm_vote; eauto.
  - (* CVoteOk *) destruct (PL _ ST) as (o' & X & EO). destruct (sim_got_vote conf0 boot dec _ _ _ _ _ _ H X) as [A S'].
    destruct (sdeliver _ _ _ _ _ DL eq_refl) as [NP M]. apply XN in M.
    eapply (EX o' (EVoteOk from t v)); eauto; try discriminate.
    + eapply deliver; eauto; [reflexivity|apply M].
    + eapply sm_got; eauto.
  - (* CGrantSelf *) destruct (PL _ ST) as (o' & X & EO). destruct (sim_got_vote conf0 boot dec _ _ _ _ _ _ H X) as [A S'].
    eapply (EX o' (EGrantSelf v)); eauto; try discriminate. eapply sm_got; eauto.
  - (* CStepDown *) destruct (r_term (core n) <=? t) eqn:L; injection ST as <- <-.
    + destruct (sim_step_down dec t n H) as [A S']. eapply (EX [] (EStepDown t)); eauto; try discriminate. cbn [Reconf.rstep].
      change (r_term (abs n)) with (r_term (core n)). rewrite L, A. reflexivity.
    + exists ca. split; [apply runs_refl|]. apply quiet_step; auto.
  - (* CApp *) destruct (PL _ ST) as (o' & X & EO). destruct (sdeliver _ _ _ _ _ DL eq_refl) as [NP M]. apply XN in M. destruct M as [M1 M2].
    destruct (v_net _ _ _ _ _ I _ M1) as [(SL & _) _].
    destruct (sim_append_req conf0 boot dec G p from t prev pt es commit n n' o' S N H SL X) as [S' [[B ->]|A]].
    + subst o. eapply beat_step; eauto. eapply sm_append; eauto.
    + eapply (EX o' (EApp from t prev pt es commit)); eauto; try discriminate.
      * refine (deliver _ _ _ _ _ _ NP M1); reflexivity.
      * eapply sm_append; eauto.
  - (* CAck *) destruct (PL _ ST) as (o' & X & EO). injection X as X. destruct (sim_ack dec _ _ _ _ _ _ _ H B0 X) as [A S'].
    destruct (sdeliver _ _ _ _ _ DL eq_refl) as [NP M]. apply XN in M.
    eapply (EX o' (EAck from t upto first)); eauto; try discriminate.
    + eapply deliver; eauto; [reflexivity|apply M].
    + cbn [Reconf.rstep]. rewrite A. reflexivity.
    + unfold Compact.ack in X. destruct (r_st (core n)); try (injection X as <- _; reflexivity). destruct (t =? _); [apply sm_commit_to in X; exact X|injection X as <- _; reflexivity].
  - (* CDisk *) destruct (PL _ ST) as (o' & X & EO). destruct (sim_disk dec _ _ _ _ _ H B0 X) as [A S'].
    eapply (EX o' (EDisk first k)); eauto; try discriminate.
    unfold Compact.disk in X. destruct (k <=? _); [|discriminate X]. cbv zeta in X. destruct (r_st _); injection X as X; try (subst; reflexivity); try (injection X as <- _; reflexivity).
    apply sm_commit_to in X. exact X.
  - (* CPropose *) destruct (PL _ ST) as (o' & X & EO). destruct (sim_propose conf0 boot dec _ _ _ _ H X) as [A S'].
    eapply (EX o' (EPropose v)); eauto; try discriminate.
    unfold Compact.propose in X. destruct (r_st (core n)); try (injection X as <- _; reflexivity). destruct (dec v); [injection X as <- _; reflexivity|].
    destruct (Compact.lead_append _ _ _ _ _) eqn:L; [|discriminate X]. injection X as <- _. eapply sm_lead_append; eauto.
  - (* CRequest *) injection ST as <- <-. destruct (sim_request conf0 boot dec new n H) as [A S'].
    eapply (EX [] (ERequest new)); eauto; try discriminate.
    + cbn [Reconf.rstep]. rewrite A. reflexivity.
    + unfold Compact.request. destruct (r_st (core n)); auto. destruct (r_stage (core n)); auto. cbv zeta. destruct (ConfCtx.conf_equals _ _); reflexivity.
  - (* CCaught *) destruct (PL _ ST) as (o' & X & EO). destruct (sim_caught conf0 boot dec _ _ _ _ _ H X) as [A S'].
    eapply (EX o' (ECaught ok v)); eauto; try discriminate.
    unfold Compact.caught in X. destruct (r_st (core n)); try (injection X as <- _; reflexivity). destruct (r_stage (core n)); try (injection X as <- _; reflexivity).
    destruct ok; [eapply sm_next; eauto|injection X as <- _; reflexivity].
  - (* CConfDone *) destruct (PL _ ST) as (o' & X & EO). destruct (sim_conf_done conf0 boot dec _ _ _ _ _ _ H X) as [A S'].
    eapply (EX o' (EConfDone i t v)); eauto; try discriminate.
    unfold Compact.conf_done in X. destruct (existsb _ _ && _); [|discriminate X]. cbv zeta in X. destruct (r_st _); try (injection X as <- _; reflexivity).
    destruct (t =? _); [apply sm_next in X; exact X|injection X as <- _; reflexivity].
  - (* CSend *) destruct (PL _ ST) as (o' & X & EO). unfold Compact.send in X. destruct (r_st (core n)) eqn:RS; try (injection X as <- <-; subst o; exists ca; split; [apply runs_refl|apply quiet_step; auto]; fail).
    cbv zeta in X. set (pt := sterm n prev) in *.
    destruct ((0 <=? prev) && (prev <=? last_index n) && ((prev =? 0) || negb (pt =? 0))) eqn:B; [|discriminate X]. injection X as <- <-.
    rewrite !andb_true_iff in B. destruct B as [[B1 B2] B3]. apply Z.leb_le in B1, B2.
    destruct (SI_bounds dec n H) as (b1 & b2 & b3 & b4 & b5). destruct (zlen_hist dec n H) as [Z0 _].
    assert (PT : pt = term_at (hist n) prev).
    { destruct (sterm_hist dec n prev H) as [Y|[Y1 Y2]]; [exact Y|]. exfalso. fold pt in Y1. rewrite Y1 in B3.
      destruct (Z.eqb_spec prev 0); [lia|discriminate B3]. }
    set (m' := if s_first n <=? prev + 1 then m else 0).
    destruct (send_run ca p (abs n) prev m' (BallotBox.lc (r_box (core n)))) as (ca' & RR & X1 & X2 & X3 & X4 & X5 & X6 & X7); auto.
    { apply R. }
    { change (r_log (abs n)) with (hist n). lia. }
    { unfold lc. change (BallotBox.lc (r_box (abs n))) with (Z.max (BallotBox.lc (r_box (core n))) (mid n)). lia. }
    { pose proof (i_app _ _ _ _ _ _ N). lia. }
    change (r_log (abs n)) with (hist n) in *. rewrite <- PT in *. change (r_self (abs n)) with (r_self (core n)) in *. change (r_term (abs n)) with (r_term (core n)) in *.
    assert (ES : firstn (Z.to_nat m') (skipn (Z.to_nat prev) (hist n)) = (if s_first n <=? prev + 1 then firstn (Z.to_nat m) (skipn (Z.to_nat (prev + 1 - s_first n)) (r_log (core n))) else [])).
    { unfold m'. destruct (Z.leb_spec (s_first n) (prev + 1)); [|reflexivity]. f_equal. unfold hist.
      set (A := firstn (Z.to_nat (s_first n - 1)) (p_data (s_disk n))) in *. rewrite skipn_app. rewrite (skipn_all2 A) by (unfold zlen in *; lia).
      cbn [app]. f_equal. unfold zlen in *. lia. }
    rewrite ES in *. subst o. exists ca'. split; [exact RR|]. eapply Rel_step; eauto.
    + eapply fed_more; [exact X3|apply R].
    + intros x [<-|[]]. exact X5.
    + intros r [Y|[]]. injection Y as <-. cbn [sent_ok]. auto.
    + intros L t s [Y|[]]. discriminate Y.
  - (* CSendSnap *) injection ST as ST. unfold send_snapshot in ST. destruct (r_st (core n)) eqn:RS; try (injection ST as <- <-; exists ca; split; [apply runs_refl|apply quiet_step; auto]; fail).
    destruct (Z.ltb_spec 0 (p_idx (s_disk n))) as [L0|]; [|injection ST as <- <-; exists ca; split; [apply runs_refl|apply quiet_step; auto]].
    injection ST as <- <-. destruct (SI_bounds dec n H) as (b1 & b2 & b3 & b4 & b5). pose proof (q_disk _ _ H). destruct (q_data _ _ H) as (D1 & D2 & D3 & D4).
    set (s := s_disk n) in *.
    destruct (send_run ca p (abs n) 0 (p_idx s) (p_idx s)) as (ca' & RR & X1 & X2 & X3 & X4 & X5 & X6 & X7); auto.
    { apply R. }
    { change (r_log (abs n)) with (hist n). lia. }
    { pose proof (i_app _ _ _ _ _ _ N). change (r_applied (abs n)) with (r_applied (core n)) in *. lia. }
    { pose proof (i_app _ _ _ _ _ _ N). lia. }
    change (r_log (abs n)) with (hist n) in *. rewrite term_at_0 in *. change (Z.to_nat 0) with 0%nat in *. cbn [skipn] in *. rewrite <- D1 in *.
    change (r_self (abs n)) with (r_self (core n)) in *. change (r_term (abs n)) with (r_term (core n)) in *.
    assert (ZD : zlen (p_data s) = p_idx s) by (rewrite D1; apply zlen_firstn_le; lia).
    assert (SS : snap_is s (p_data s)).
    { unfold CompactInv.snap_is. sp; auto; try lia.
      - symmetry. apply firstn_zall. lia.
      - rewrite D3, D1. symmetry. apply term_firstn. lia. }
    assert (F : fed ca' p (p_data s)).
    { eapply fed_more; [exact X3|]. intros i e Hi. apply R. fold n. eapply prefix_znth; [|exact Hi]. rewrite (q_sm _ _ H), D1. apply prefix_firstn2. lia. }
    exists ca'. split; [exact RR|]. eapply Rel_step; eauto.
    + eapply fed_more; [exact X3|apply R].
    + intros x [<-|[]]. cbn [done_ok]. sp; auto; apply SS.
    + intros r [Y|[]]. discriminate Y.
    + intros L t s0 [Y|[]]. injection Y as <- <- <-. cbn [sent_ok]. sp; auto; apply SS.
  - (* CApply *) destruct (PL _ ST) as (o' & X & EO). destruct (sim_apply_one dec _ _ _ H X) as (A & S' & W). subst o.
    eapply (exact_step conf0 boot dec cs ca p n' o' EApply); eauto; try discriminate.
    intros i e Hi. cbn [after rtrace]. unfold Compact.apply_one in X. destruct (_ <? _); [|injection X as <- <-; cbn [map app]; apply R; exact Hi].
    destruct (znth (r_log (core n)) _) as [x|] eqn:Zx; [|discriminate X]. injection X as <- <-. cbn [set_sm s_sm map app] in *.
    destruct (Z_lt_le_dec (i - 1) (zlen (s_sm n))) as [L|L].
    + right. apply R. rewrite znth_app1 in Hi by lia. exact Hi.
    + left. assert (LS : zlen (s_sm n) = r_applied (core n)).
      { rewrite (q_sm _ _ H). destruct (SI_bounds dec n H) as (? & ? & ? & ? & ?). apply zlen_firstn_le. lia. }
      pose proof (znth_some_bound _ _ _ Hi) as ZB. rewrite zlen_app in ZB. change (zlen [x]) with 1 in ZB.
      rewrite znth_app2 in Hi by lia. replace (i - 1 - zlen (s_sm n)) with 0 in Hi by lia. rewrite znth_cons_0 in Hi. injection Hi as <-. f_equal. f_equal. lia.
  - (* CCrash *) destruct (sim_crash conf0 boot dec G p n k n' o N H ST) as (S' & a & RC & A & SM & PS & OO).
    set (d := p_idx (s_disk n)) in *. exists (after ca p a []). split.
    + eapply runs_one; [|apply runs_refl]. apply one_step with (e := ECrash (Z.max k d) d); [reflexivity|]. rewrite (x_nodes _ _ _ R). fold n. cbn [Reconf.rstep]. rewrite RC. reflexivity.
    + assert (F : fed ca p (p_data (s_disk n))). { intros i e Hi. apply R. fold n. eapply prefix_znth; eauto. }
      assert (F' : fed (after ca p a []) p (p_data (s_disk n))) by (eapply fed_more; [apply after_more|exact F]).
      eapply Rel_step; eauto using after_more.
      * rewrite after_self. auto.
      * intros q Hq. apply after_other; auto.
      * rewrite SM. exact F'.
      * intros x Hx. destruct OO as [->| ->]; [destruct Hx|]. destruct Hx as [<-|[]]. exact F'.
      * intros r Hr. destruct OO as [->| ->]; [destruct Hr|]. destruct Hr as [Hr|[]]. discriminate Hr.
      * intros L t s Hr. destruct OO as [->| ->]; [destruct Hr|]. destruct Hr as [Hr|[]]. discriminate Hr.
  - (* CSaveStart *) injection ST as <- <-. destruct (sim_save_start conf0 boot dec G p n S N H) as (A & S' & SM). exists ca. split; [apply runs_refl|apply quiet_step; auto].
  - injection ST as <- <-. destruct (sim_save_store dec n H) as (A & S' & SM). exists ca. split; [apply runs_refl|apply quiet_step; auto].
  - destruct (save_set n) as [m|] eqn:X; [|discriminate ST]. injection ST as <- <-. destruct (sim_save_set conf0 boot dec G p n m N H X) as (A & S' & SM). exists ca. split; [apply runs_refl|apply quiet_step; auto].
  - destruct (clear_buffered n) as [m|] eqn:X; [|discriminate ST]. injection ST as <- <-. destruct (sim_clear dec n m H X) as (A & S' & SM). exists ca. split; [apply runs_refl|apply quiet_step; auto].
  - (* CInst *) destruct (sdeliver _ _ _ _ _ DL eq_refl) as [NP M]. apply XN in M. destruct M as (M1 & M2 & M3 & M4).
    destruct (v_net _ _ _ _ _ I _ M1) as [((xa & xb & EF & Za & _) & [l0 HL] & CM) _].
    assert (xa = []) as -> by (apply zlen_0_nil; auto).
    destruct CM as [CM|(T0 & i0 & C & LT & LI)]; [lia|].
    destruct (sim_install conf0 boot dec G p from t s ok n n' o T0 i0 l0 S N H) as [S' [(-> & SM & B)|(-> & SM & PS & a1 & AP & EA & E1 & L1 & L2 & PD)]]; auto.
    { cbn [app] in EF. exists xb. exact EF. }
    + eapply beat_step; eauto.
    + set (o1 := [ROSend (RAck (r_self a1) t (p_idx s))]) in *. set (c1 := after ca p a1 o1).
      assert (S1 : rcstep conf0 boot dec ca (p, EApp from t 0 0 (p_data s) (p_idx s)) = Some c1).
      { apply one_step; [refine (deliver _ _ _ _ _ _ NP M1); reflexivity|]. rewrite (x_nodes _ _ _ R). exact AP. }
      assert (N1 : rnodes c1 p = a1) by apply after_self. destruct M3 as (D1 & D2 & _). pose proof (prefix_len _ _ PD).
      destruct (SI_bounds dec n H) as (b1 & b2 & b3 & b4 & b5).
      destruct (apply_many conf0 boot dec p (Z.to_nat (p_idx s - r_applied a1)) c1) as (ca' & RR & X1 & X2 & X3 & X4 & X5); rewrite N1 in *; try lia.
      replace (r_applied a1 + Z.of_nat (Z.to_nat (p_idx s - r_applied a1))) with (p_idx s) in * by lia.
      assert (MO : more ca ca') by (eapply more_trans; [apply after_more|exact X3]).
      assert (F : fed ca' p (p_data s)).
      { intros i e Hi. pose proof (prefix_znth _ _ _ _ PD Hi) as Hi'. pose proof (znth_some_bound _ _ _ Hi) as ZB.
        assert (LD : zlen (p_data s) = p_idx s). { apply (f_equal zlen) in D1. rewrite zlen_firstn_le in D1 by lia. exact D1. }
        destruct (Z_lt_le_dec (r_applied a1) i); [apply X4; auto; lia|].
        apply MO. apply R. fold n.
        assert (LS : zlen (s_sm n) = r_applied (core n)) by (rewrite (q_sm _ _ H); apply zlen_firstn_le; lia).
        destruct (znth_in_bound (s_sm n) (i - 1)) as [y Hy]; [lia|]. pose proof (prefix_znth _ _ _ _ PS Hy). congruence. }
      exists ca'. split; [eapply runs_one; eauto|]. eapply Rel_step; eauto.
      * rewrite X1. symmetry. exact EA.
      * intros q Hq. rewrite X2 by auto. apply after_other; auto.
      * rewrite SM. exact F.
      * intros x [<-|[]]. exact F.
      * intros r [X|[]]. discriminate X.
      * intros L t0 s0 [X|[]]. discriminate X.
      * intros q x Hx T. left. specialize (X5 q x Hx T). cbn [c1 o1 after rtrace map app] in X5. destruct X5 as [X5|X5]; auto. injection X5 as <- <-. destruct T.
Qed.
Lemma rel_init : Rel scinit rcinit.
Proof.
  constructor; cbn [scinit rcinit snodes snet strace rnodes].
  - reflexivity.
  - intros p. apply SI_init.
  - intros m [].
  - intros p o [].
  - intros p i e Hi. cbn [sinit s_sm] in Hi. apply znth_some_bound in Hi. change (zlen (@nil lent)) with 0 in Hi. lia.
  - intros p o [].
Qed.
Lemma runs_inv : forall ca ca' G, Inv G ca -> runs ca ca' -> exists G', Inv G' ca'.
Proof. intros ca ca' G I [es E]. eapply inv_rcrun; eauto. Qed.
Lemma rcrun_app : forall es1 es2 c c1, Reconf.rcrun conf0 boot dec c es1 = Some c1 -> Reconf.rcrun conf0 boot dec c (es1 ++ es2) = Reconf.rcrun conf0 boot dec c1 es2.
Proof.
  induction es1 as [|e es1 IH]; intros es2 c c1 E; cbn [Reconf.rcrun app] in *; [injection E as <-; reflexivity|].
  destruct (Reconf.rcstep conf0 boot dec c e); [|discriminate E]. auto.
Qed.
Lemma runs_trans : forall a b c, runs a b -> runs b c -> runs a c.
Proof. intros a b c [e1 H1] [e2 H2]. exists (e1 ++ e2). rewrite (rcrun_app _ _ _ _ H1). exact H2. Qed.
Lemma sim_run : forall es cs ca G cs', Rel cs ca -> Inv G ca -> scrun conf0 boot dec cs es = Some cs' -> exists ca', runs ca ca' /\ Rel cs' ca'.
Proof.
  induction es as [|[p e] es IH]; intros cs ca G cs' R I E; cbn [scrun] in E.
  - injection E as <-. exists ca. split; auto. apply runs_refl.
  - destruct (scstep conf0 boot dec cs (p, e)) as [c1|] eqn:ST; [|discriminate E].
    destruct (sim_step _ _ _ _ _ _ R I ST) as (ca1 & R1 & RL1). destruct (runs_inv _ _ _ I R1) as [G1 I1].
    destruct (IH _ _ _ _ RL1 I1 E) as (ca' & R2 & RL2). exists ca'. split; auto. eapply runs_trans; eauto.
Qed.
Theorem sim_all : forall es cs, scrun conf0 boot dec scinit es = Some cs -> exists ca, reachable conf0 boot dec ca /\ Rel cs ca.
Proof. intros es cs E. destruct (sim_run _ _ _ _ _ rel_init (inv_init conf0 boot dec) E) as (ca & R & RL). exists ca. split; auto. Qed.
End Run.
