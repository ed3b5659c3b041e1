(** Every execution of Compact.v is one of Reconf.v, on what the nodes stand for. *)
From Verif Require Import Base BaseLemmas LogEntry Ballot Node LogPrefix Reconf ReconfSpec ReconfStatic ReconfInv ReconfGhost ReconfNode ReconfFollow BallotBoxProofs Compact CompactInv CompactSim CompactFollow CompactSnap CompactInst.
From Verif Require BallotBox ConfCtx.

Section Rel.
Variable conf0 : list peer.
Variable boot : peer -> bool.
Variable dec : Z -> option jconf.
Notation SI := (SI dec).
Notation NI := (NI conf0 boot dec).
Notation Inv := (Inv conf0 boot dec).
Notation snap_is := (snap_is dec).
Notation rcrun := (rcrun conf0 boot dec).
Notation rcstep := (rcstep conf0 boot dec).
Notation rstep := (rstep conf0 boot dec).

Definition sent_ok (ca : rcluster) (m : smsg) : Prop :=
  match m with
  | SMsg m => In m (rnet ca) /\ match m with RApp L t _ _ _ _ => In (RApp L t 0 0 [] 0) (rnet ca) | _ => True end
  | SInst L t s => In (RApp L t 0 0 (p_data s) (p_idx s)) (rnet ca) /\ In (RApp L t 0 0 [] 0) (rnet ca) /\ snap_is s (p_data s) /\ 0 < p_idx s
  end.
Definition fed (ca : rcluster) (p : peer) (l : list lent) : Prop := forall i e, znth l (i - 1) = Some e -> In (p, ROApply i e) (rtrace ca).
Definition told (o : rout) : Prop := match o with ROSend _ | ROApply _ _ => False | _ => True end.
Definition done_ok (ca : rcluster) (p : peer) (o : sout) : Prop :=
  match o with
  | SO o => In (p, o) (rtrace ca)
  | SOInst L t s => snap_is s (p_data s) /\ 0 < p_idx s /\ fed ca p (p_data s)
  | SOLoad l => fed ca p l
  end.
Record Rel (cs : scluster) (ca : rcluster) : Prop := mkRel {
  x_nodes : forall p, rnodes ca p = abs (snodes cs p);
  x_si : forall p, SI (snodes cs p);
  x_net : forall m, In m (snet cs) -> sent_ok ca m;
  x_tr : forall p o, In (p, o) (strace cs) -> done_ok ca p o;
  x_sm : forall p, fed ca p (s_sm (snodes cs p));
  x_back : forall p o, In (p, o) (rtrace ca) -> told o -> In (p, SO o) (strace cs) }.

Definition more (ca ca' : rcluster) : Prop := (forall m, In m (rnet ca) -> In m (rnet ca')) /\ (forall x, In x (rtrace ca) -> In x (rtrace ca')).
Lemma more_refl : forall ca, more ca ca.
Proof. intros; split; auto. Qed.
Lemma more_trans : forall a b c, more a b -> more b c -> more a c.
Proof. intros a b c [X Y] [U V]. split; auto. Qed.
Lemma sent_more : forall ca ca' m, more ca ca' -> sent_ok ca m -> sent_ok ca' m.
Proof.
  intros ca ca' m [X _] H. destruct m as [m|L t s]; cbn [sent_ok] in *.
  - destruct H as [H1 H2]. split; auto. destruct m; auto.
  - destruct H as (H1 & H2 & H3). sp; auto; apply H3.
Qed.
Lemma fed_more : forall ca ca' p l, more ca ca' -> fed ca p l -> fed ca' p l.
Proof. intros ca ca' p l [_ X] H i e Hi. auto. Qed.
Lemma done_more : forall ca ca' p o, more ca ca' -> done_ok ca p o -> done_ok ca' p o.
Proof.
  intros ca ca' p o M H. destruct o; cbn [done_ok] in *; [apply M; auto| |eapply fed_more; eauto].
  destruct H as (A & B & C). sp; auto. eapply fed_more; eauto.
Qed.
Lemma in_ssends : forall m o, In m (ssends o) -> (exists r, m = SMsg r /\ In (SO (ROSend r)) o) \/ (exists L t s, m = SInst L t s /\ In (SOInst L t s) o).
Proof.
  intros m o H. unfold ssends in H. apply in_flat_map in H. destruct H as (x & Hx & Hm).
  destruct x as [r|L t s|l]; [|right|destruct Hm].
  - destruct r; try (destruct Hm; fail). destruct Hm as [<-|[]]. left. eauto.
  - destruct Hm as [<-|[]]. eauto 6.
Qed.
Lemma Rel_step : forall cs ca p n' o ca', Rel cs ca -> more ca ca' ->
  rnodes ca' p = abs n' -> (forall q, q <> p -> rnodes ca' q = rnodes ca q) -> SI n' -> fed ca' p (s_sm n') ->
  (forall x, In x o -> done_ok ca' p x) ->
  (forall r, In (SO (ROSend r)) o -> sent_ok ca' (SMsg r)) ->
  (forall L t s, In (SOInst L t s) o -> sent_ok ca' (SInst L t s)) ->
  (forall q x, In (q, x) (rtrace ca') -> told x -> In (q, x) (rtrace ca) \/ (q = p /\ In (SO x) o)) ->
  Rel (mkSC (supd (snodes cs) p n') (ssends o ++ snet cs) (map (pair p) o ++ strace cs)) ca'.
Proof.
  intros cs ca p n' o ca' R M A1 A2 S F D1 D2 D3 D4. constructor; cbn [snodes snet strace].
  - intros q. unfold supd. destruct (Z.eqb_spec q p) as [->|N]; auto. rewrite A2 by auto. apply R.
  - intros q. unfold supd. destruct (Z.eqb_spec q p) as [->|N]; auto. apply R.
  - intros m H. apply in_app_or in H. destruct H as [H|H].
    + apply in_ssends in H. destruct H as [(r & -> & H)|(L & t & s & -> & H)]; auto.
    + eapply sent_more; eauto. apply R; auto.
  - intros q x H. apply in_app_or in H. destruct H as [H|H].
    + apply in_map_iff in H. destruct H as (y & E & Hy). injection E as <- <-. auto.
    + eapply done_more; eauto. apply R; auto.
  - intros q. unfold supd. destruct (Z.eqb_spec q p) as [->|N]; auto. eapply fed_more; eauto. apply R.
  - intros q x H T. apply in_or_app. destruct (D4 q x H T) as [X|[-> X]]; [right; apply R; auto|left; apply in_map; auto].
Qed.

(** the part Reconf.v's node takes *)
Definition after (ca : rcluster) (p : peer) (a : rnode) (o : list rout) : rcluster :=
  mkRC (upd (rnodes ca) p a) (sends o ++ rnet ca) (map (pair p) o ++ rtrace ca).
Lemma after_more : forall ca p a o, more ca (after ca p a o).
Proof. intros. split; cbn [after rnet rtrace]; intros; apply in_or_app; auto. Qed.
Lemma after_self : forall ca p a o, rnodes (after ca p a o) p = a.
Proof. intros. cbn [after rnodes]. unfold upd. rewrite Z.eqb_refl. reflexivity. Qed.
Lemma after_other : forall ca p a o q, q <> p -> rnodes (after ca p a o) q = rnodes ca q.
Proof. intros. cbn [after rnodes]. unfold upd. destruct (Z.eqb_spec q p); congruence. Qed.
Lemma one_step : forall ca p e a o, deliverable ca p e = true -> rstep (rnodes ca p) e = Some (a, o) -> rcstep ca (p, e) = Some (after ca p a o).
Proof. intros ca p e a o D E. unfold Reconf.rcstep. rewrite D, E. reflexivity. Qed.
Lemma deliver : forall ca p e from m, received p e = Some (from, m) -> from <> p -> In m (rnet ca) -> deliverable ca p e = true.
Proof.
  intros ca p e from m R N H. unfold deliverable. rewrite R. destruct (Z.eqb_spec from p); [congruence|]. cbn [negb andb].
  destruct (in_dec rmsg_dec m (rnet ca)); auto.
Qed.
Lemma deliver0 : forall ca p e, received p e = None -> deliverable ca p e = true.
Proof. intros ca p e R. unfold deliverable. rewrite R. reflexivity. Qed.
Definition runs (ca ca' : rcluster) : Prop := exists es, rcrun ca es = Some ca'.
Lemma runs_refl : forall ca, runs ca ca.
Proof. intros. exists []. reflexivity. Qed.
Lemma runs_one : forall ca pe c1 ca', rcstep ca pe = Some c1 -> runs c1 ca' -> runs ca ca'.
Proof. intros ca pe c1 ca' H [es E]. exists (pe :: es). cbn [Reconf.rcrun]. rewrite H. exact E. Qed.

Lemma apply_many : forall p k ca, 0 <= r_applied (rnodes ca p) -> r_applied (rnodes ca p) + Z.of_nat k <= lc (rnodes ca p) ->
  r_applied (rnodes ca p) + Z.of_nat k <= zlen (r_log (rnodes ca p)) ->
  exists ca', runs ca ca' /\ rnodes ca' p = set_applied (r_applied (rnodes ca p) + Z.of_nat k) (rnodes ca p) /\
    (forall q, q <> p -> rnodes ca' q = rnodes ca q) /\ more ca ca' /\
    (forall i e, r_applied (rnodes ca p) < i <= r_applied (rnodes ca p) + Z.of_nat k -> znth (r_log (rnodes ca p)) (i - 1) = Some e -> In (p, ROApply i e) (rtrace ca')) /\
    (forall q x, In (q, x) (rtrace ca') -> told x -> In (q, x) (rtrace ca)).
Proof.
  intros p. induction k as [|k IH]; intros ca A B C.
  - exists ca. sp; auto using runs_refl, more_refl; try lia. replace (r_applied (rnodes ca p) + Z.of_nat 0) with (r_applied (rnodes ca p)) by lia. destruct (rnodes ca p); reflexivity.
  - set (a := rnodes ca p) in *. destruct (znth_in_bound (r_log a) (r_applied a)) as [e He]; [lia|].
    assert (ST : rstep a EApply = Some (set_applied (r_applied a + 1) a, [ROApply (r_applied a + 1) e])).
    { cbn [Reconf.rstep]. unfold Reconf.apply_one. unfold lc in B. destruct (Z.ltb_spec (r_applied a) (BallotBox.lc (r_box a))); [|lia]. rewrite He. reflexivity. }
    set (c1 := after ca p (set_applied (r_applied a + 1) a) [ROApply (r_applied a + 1) e]).
    assert (S1 : rcstep ca (p, EApply) = Some c1) by (apply one_step; [apply deliver0; reflexivity|exact ST]).
    assert (N1 : rnodes c1 p = set_applied (r_applied a + 1) a) by apply after_self.
    destruct (IH c1) as (ca' & R & X1 & X2 & X3 & X4 & X5); rewrite N1 in *; cbn [set_applied r_applied r_log] in *; try lia.
    { unfold lc in *. cbn [set_applied r_box]. lia. }
    exists ca'. sp.
    + eapply runs_one; eauto.
    + rewrite X1. unfold set_applied. cbn [r_self r_st r_term r_voted r_leader r_log r_sync r_box r_applied r_ballot r_stage r_done]. f_equal. lia.
    + intros q Hq. rewrite X2 by auto. apply after_other; auto.
    + eapply more_trans; [apply after_more|exact X3].
    + intros i e' Hi Ze. destruct (Z.eq_dec i (r_applied a + 1)) as [->|N].
      * replace (r_applied a + 1 - 1) with (r_applied a) in Ze by lia. apply X3. cbn [c1 after rtrace map app]. left. congruence.
      * apply X4; auto. lia.
    + intros q x Hx T. specialize (X5 q x Hx T). cbn [c1 after rtrace map app] in X5. destruct X5 as [X5|X5]; auto. injection X5 as <- <-. destruct T.
Qed.

Definition noapp (o : list rout) : Prop := forall L t a b es c, ~ In (ROSend (RApp L t a b es c)) o.
Lemma noapp_nil : noapp [].
Proof. intros L t a b es c []. Qed.
Lemma noapp_1 : forall x, (forall L t a b es c, x <> ROSend (RApp L t a b es c)) -> noapp [x].
Proof. intros x H L t a b es c [E|[]]. eapply H; eauto. Qed.
Ltac na := first [apply noapp_nil | apply noapp_1; discriminate].
Lemma noapp_become : forall v n n' o, Reconf.become_leader conf0 boot dec v n = Some (n', o) -> noapp o.
Proof.
  intros v n n' o E. unfold Reconf.become_leader in E. destruct (BallotBox.reset_pending_index _ _); [|discriminate E]. cbv zeta in E.
  destruct (Reconf.apply_conf _ _ _ _ _ _); [|discriminate E]. injection E as <- <-. na.
Qed.
Lemma noapp_got : forall from t v n n' o, Reconf.got_vote conf0 boot dec from t v n = Some (n', o) -> noapp o.
Proof.
  intros from t v n n' o E. unfold Reconf.got_vote in E. destruct (r_st n); try (injection E as <- <-; na; fail).
  destruct (t =? r_term n); [|injection E as <- <-; na]. cbv zeta in E. destruct (granted _); [eapply noapp_become; eauto|injection E as <- <-; na].
Qed.
Lemma noapp_next : forall v n n' o, Reconf.next_stage conf0 boot dec v n = Some (n', o) -> noapp o.
Proof.
  intros v n n' o E. unfold Reconf.next_stage in E. destruct (r_stage n) as [|new old|new|new]; [discriminate E| | |].
  - destruct (1 <? _); destruct (Reconf.apply_conf _ _ _ _ _ _); try discriminate E; injection E as <- <-; na.
  - destruct (Reconf.apply_conf _ _ _ _ _ _); try discriminate E; injection E as <- <-; na.
  - cbv zeta in E. destruct (memb _ _); injection E as <- <-; na.
Qed.
Lemma noapp_commit : forall f l p n n' o, Reconf.commit_to f l p n = (n', o) -> noapp o.
Proof. intros f l p n n' o E. unfold Reconf.commit_to in E. destruct (BallotBox.commit_at _ _ _ _) as [[b r] [i|]]; injection E as <- <-; na. Qed.
Lemma noapp_step : forall n e n' o, rstep n e = Some (n', o) -> (forall x y z, e <> ESend x y z) -> noapp o.
Proof.
  intros n e n' o E NS. destruct e; cbn [Reconf.rstep] in E.
  - unfold Reconf.elect in E. cbv zeta in E. destruct (r_st n); [discriminate E| |]; destruct (contains _ _); injection E as <- <-; na.
  - injection E as E. unfold Reconf.vote_req in E. destruct (t <? r_term n); [injection E as <- <-; na|]. destruct lease; [injection E as <- <-; na|].
    cbv zeta in E. match type of E with (if ?x then _ else _) = _ => destruct x end; injection E as <- <-; na.
  - eapply noapp_got; eauto.
  - eapply noapp_got; eauto.
  - destruct (r_term n <=? t); injection E as <- <-; na.
  - unfold Reconf.append_req in E. destruct (t <? r_term n); [injection E as <- <-; na|]. cbv zeta in E.
    destruct (negb _); [injection E as <- <-; na|]. destruct (negb _); [injection E as <- <-; na|].
    destruct es; (destruct (set_committed _ _); [|discriminate E]); injection E as <- <-; na.
  - injection E as E. unfold Reconf.ack in E. destruct (r_st n); try (injection E as <- <-; na; fail).
    destruct (t =? r_term n); [eapply noapp_commit; eauto|injection E as <- <-; na].
  - unfold Reconf.disk in E. destruct (k <=? _); [|discriminate E]. cbv zeta in E. destruct (r_st _); injection E as E; try (injection E as <- <-; na; fail); try (subst; na; fail).
    eapply noapp_commit; eauto.
  - unfold Reconf.propose in E. destruct (r_st n); try (injection E as <- <-; na; fail). destruct (dec v); [injection E as <- <-; na|].
    destruct (Reconf.lead_append _ _ _ _ _); [|discriminate E]. injection E as <- <-; na.
  - injection E as <- <-; na.
  - unfold Reconf.caught in E. destruct (r_st n); try (injection E as <- <-; na; fail). destruct (r_stage n); try (injection E as <- <-; na; fail).
    destruct ok; [eapply noapp_next; eauto|injection E as <- <-; na].
  - unfold Reconf.conf_done in E. destruct (existsb _ _ && _); [|discriminate E]. cbv zeta in E. destruct (r_st _); try (injection E as <- <-; na; fail).
    destruct (t =? _); [eapply noapp_next; eauto|injection E as <- <-; na].
  - exfalso. eapply NS. reflexivity.
  - unfold Reconf.apply_one in E. destruct (r_applied n <? _); [|injection E as <- <-; na]. destruct (znth _ _); [|discriminate E]. injection E as <- <-; na.
  - destruct (Reconf.crash k a n); [|discriminate E]. injection E as <- <-; na.
Qed.

(** one step for one *)
Lemma exact_step : forall cs ca p n' o e, Rel cs ca -> deliverable ca p e = true -> (forall x y z, e <> ESend x y z) ->
  rstep (abs (snodes cs p)) e = Some (abs n', o) -> SI n' ->
  fed (after ca p (abs n') o) p (s_sm n') ->
  exists ca', runs ca ca' /\ Rel (mkSC (supd (snodes cs) p n') (ssends (map SO o) ++ snet cs) (map (pair p) (map SO o) ++ strace cs)) ca'.
Proof.
  intros cs ca p n' o e R D NS E S F. exists (after ca p (abs n') o). split.
  - eapply runs_one; [apply one_step; [exact D|rewrite (x_nodes _ _ R); exact E]|apply runs_refl].
  - assert (OT : forall x, In x o -> In (p, x) (rtrace (after ca p (abs n') o))).
    { intros x Hx. cbn [after rtrace]. apply in_or_app. left. apply in_map; auto. }
    eapply Rel_step; eauto using after_more, after_self, after_other.
    + intros x Hx. apply in_map_iff in Hx. destruct Hx as (y & <- & Hy). cbn [done_ok]. auto.
    + intros r Hr. apply in_map_iff in Hr. destruct Hr as (y & X & Hy). injection X as ->. cbn [sent_ok]. split.
      * cbn [after rnet]. apply in_or_app. left. unfold sends. apply in_flat_map. exists (ROSend r). split; auto. left. reflexivity.
      * destruct r; auto. exfalso. eapply noapp_step; eauto.
    + intros L t s Hx. apply in_map_iff in Hx. destruct Hx as (y & X & _). discriminate X.
    + intros q x Hx _. cbn [after rtrace] in Hx. apply in_app_or in Hx. destruct Hx as [Hx|Hx]; auto. apply in_map_iff in Hx. destruct Hx as (y & X & Hy). injection X as <- <-. right. split; auto. apply in_map; auto.
Qed.
Lemma quiet_step : forall cs ca p n', Rel cs ca -> abs n' = abs (snodes cs p) -> SI n' -> s_sm n' = s_sm (snodes cs p) ->
  Rel (mkSC (supd (snodes cs) p n') (ssends [] ++ snet cs) (map (pair p) [] ++ strace cs)) ca.
Proof.
  intros cs ca p n' R A S M. eapply Rel_step; eauto using more_refl; try (intros ? []; fail); try (intros ? ? ? []; fail).
  - rewrite A. apply R.
  - rewrite M. apply R.
Qed.
Lemma beat_step : forall cs ca p n' from t, Rel cs ca -> from <> p -> In (RApp from t 0 0 [] 0) (rnet ca) ->
  beat from t (abs (snodes cs p)) (abs n') -> SI n' -> s_sm n' = s_sm (snodes cs p) ->
  exists ca', runs ca ca' /\ Rel (mkSC (supd (snodes cs) p n') (ssends [] ++ snet cs) (map (pair p) [] ++ strace cs)) ca'.
Proof.
  intros cs ca p n' from t R N I [B|B] S M.
  - exists ca. split; [apply runs_refl|]. apply quiet_step; auto.
  - eapply (exact_step cs ca p n' [] (EApp from t 0 0 [] 0)); eauto; try discriminate.
    + eapply deliver; eauto. reflexivity.
    + rewrite M. eapply fed_more; [apply after_more|apply R].
Qed.

Lemma sdeliver : forall cs p e from m, sdeliverable cs p e = true -> sreceived p e = Some (from, m) -> from <> p /\ In m (snet cs).
Proof.
  intros cs p e from m D E. unfold sdeliverable in D. rewrite E in D. apply andb_prop in D. destruct D as [D1 D2].
  apply negb_true_iff in D1. apply Z.eqb_neq in D1. destruct (in_dec smsg_dec m (snet cs)); [auto|discriminate D2].
Qed.
End Rel.
