(** Steps of Compact.v that are, one by one, steps of Reconf.v on what the node stands for. *)
From Verif Require Import Base BaseLemmas LogEntry Ballot Node LogPrefix Reconf ReconfStatic ReconfInv BallotBoxProofs Compact CompactInv.
From Verif Require BallotBox ConfCtx.

Lemma hist_grow : forall n f l, r_log (f (core n)) = r_log (core n) ++ l -> hist (on f n) = hist n ++ l.
Proof. intros n f l L. unfold hist, on. cbn [core s_first s_disk]. rewrite L, app_assoc. reflexivity. Qed.
Lemma hist_same : forall n f, r_log (f (core n)) = r_log (core n) -> hist (on f n) = hist n.
Proof. intros n f L. unfold hist, on. cbn [core s_first s_disk]. rewrite L. reflexivity. Qed.
Lemma abs_same : forall n f, (forall h k, absc h k (f (core n)) = f (absc h k (core n))) -> r_log (f (core n)) = r_log (core n) ->
  abs (on f n) = f (abs n).
Proof. intros n f H L. unfold abs. rewrite (hist_same n f L). change (core (on f n)) with (f (core n)). change (mid (on f n)) with (mid n). apply H. Qed.

Section Sim.
Variable conf0 : list peer.
Variable boot : peer -> bool.
Variable dec : Z -> option jconf.
Notation SI := (SI dec).
Notation s_conf := (s_conf conf0 boot dec).
Notation conf_of := (conf_of conf0 boot dec).

Lemma s_conf_abs : forall n, SI n -> s_conf n = conf_of (r_self (abs n)) (r_log (abs n)).
Proof. intros n H. apply (s_conf_hist conf0 boot dec); auto. Qed.
Lemma last_abs : forall n, SI n -> last_index n = zlen (r_log (abs n)).
Proof. intros n H. symmetry. apply (zlen_hist dec); auto. Qed.

Lemma sim_lead_append : forall v n n', SI n -> Compact.lead_append conf0 boot dec v n = Some n' ->
  Reconf.lead_append conf0 boot dec v (abs n) = Some (abs n') /\ SI n'.
Proof.
  intros v n n' H E. unfold Compact.lead_append in E.
  set (f := fun c => set_log (r_log c ++ [mkL (r_term c) v]) (r_sync c) c) in *. set (n1 := on f n) in *.
  assert (H1 : SI n1) by (apply SI_grow with (l := [mkL (r_term (core n)) v]); auto).
  assert (HH : hist n1 = hist n ++ [mkL (r_term (core n)) v]) by (apply hist_grow; reflexivity).
  unfold Reconf.lead_append. rewrite (s_conf_abs n1 H1) in E.
  change (r_self (abs n1)) with (r_self (abs n)) in E. change (r_log (abs n1)) with (hist n1) in E. rewrite HH in E.
  change (r_log (abs n)) with (hist n). change (r_term (abs n)) with (r_term (core n)).
  change (r_box (abs n)) with (mx (mid n) (r_box (core n))). rewrite mx_append.
  change (r_box (core n1)) with (r_box (core n)) in E.
  destruct (BallotBox.append_pending_task (r_box (core n)) _ _ None) as [b|]; [|discriminate E].
  injection E as <-. cbn [option_map]. split.
  - f_equal. unfold abs, absc, mid. cbn [core on set_box set_log r_self r_st r_term r_voted r_leader r_log r_sync r_box r_applied r_ballot r_stage r_done s_snap].
    rewrite <- HH. reflexivity.
  - apply SI_same; auto.
Qed.
Lemma sim_apply_conf : forall c v n n', SI n -> Compact.apply_conf conf0 boot dec c v n = Some n' ->
  Reconf.apply_conf conf0 boot dec c v (abs n) = Some (abs n') /\ SI n'.
Proof.
  intros c v n n' H E. unfold Compact.apply_conf, Reconf.apply_conf in *. destruct (holds dec v c); [|discriminate E].
  destruct (Compact.lead_append conf0 boot dec v n) as [n1|] eqn:E1; [|discriminate E].
  destruct (sim_lead_append _ _ _ H E1) as [A1 S1]. rewrite A1. injection E as <-. split.
  - rewrite <- (last_abs n1 S1). reflexivity.
  - apply SI_same; auto.
Qed.
Lemma SI_bounds : forall n, SI n -> 1 <= s_first n <= mid n + 1 /\ 0 <= mid n /\ mid n <= r_applied (core n) /\ r_applied (core n) <= zlen (hist n) /\ zlen (hist n) = last_index n.
Proof.
  intros n H. pose proof (q_first _ _ H). pose proof (q_mid _ _ H). pose proof (q_disk _ _ H). pose proof (q_app _ _ H).
  sp; try lia. apply (zlen_hist dec); auto.
Qed.
Lemma sim_become_leader : forall v n n' o, SI n -> Compact.become_leader conf0 boot dec v n = Some (n', o) ->
  Reconf.become_leader conf0 boot dec v (abs n) = Some (abs n', o) /\ SI n'.
Proof.
  intros v n n' o H E. unfold Compact.become_leader, Reconf.become_leader in *.
  destruct (SI_bounds n H) as (B1 & B2 & B3 & B4 & B5).
  destruct (BallotBox.reset_pending_index (r_box (core n)) (last_index n + 1)) as [b|] eqn:Eb; [|discriminate E].
  rewrite <- (last_abs n H). change (r_box (abs n)) with (mx (mid n) (r_box (core n))).
  rewrite (mx_reset _ _ _ b) by (auto; lia).
  rewrite <- (s_conf_abs n H). cbv zeta in *.
  match type of E with context [Compact.apply_conf _ _ _ _ _ ?x] => set (n1 := x) in * end.
  assert (S1 : SI n1) by (apply SI_same; auto).
  destruct (Compact.apply_conf conf0 boot dec (s_conf n) v n1) as [n2|] eqn:E1; [|discriminate E].
  destruct (sim_apply_conf _ _ _ _ S1 E1) as [A1 S2]. injection E as <- <-.
  match goal with |- context [Reconf.apply_conf _ _ _ _ _ ?x] => change x with (abs n1) end.
  rewrite A1. split; auto.
Qed.
Lemma sim_elect : forall n n' o, SI n -> Compact.elect conf0 boot dec n = Some (n', o) ->
  Reconf.elect conf0 boot dec (abs n) = Some (abs n', o) /\ SI n'.
Proof.
  intros n n' o H E. unfold Compact.elect, Reconf.elect in *. cbv zeta in *.
  change (r_st (abs n)) with (r_st (core n)).
  rewrite <- (s_conf_abs n H), <- (last_abs n H). cbn [r_log].
  change (last_id (r_log (abs n))) with (last_id (hist n)). rewrite <- (last_lid_hist dec n H).
  change (r_self (abs n)) with (r_self (core n)).
  set (last := last_lid n) in *. set (k := last_index n) in *.
  destruct (r_st (core n)); [discriminate E| |];
   (destruct (contains (s_conf n) (r_self (core n))); injection E as <- <-; split; auto; apply SI_same; auto).
Qed.
Lemma abs_voted : forall x n, abs (on (set_voted x) n) = set_voted x (abs n).
Proof. intros. apply abs_same; auto. Qed.
Lemma abs_down : forall t n, abs (on (step_down t) n) = step_down t (abs n).
Proof. intros. apply abs_same; auto. intros. apply abs_step_down. Qed.
Lemma SI_down : forall t n, SI n -> SI (on (step_down t) n).
Proof. intros. apply SI_same; auto. Qed.
Lemma on_on : forall f g n, on f (on g n) = on (fun c => f (g c)) n.
Proof. reflexivity. Qed.
Lemma sim_vote_req : forall cand t last lease n n' o, SI n -> Compact.vote_req cand t last lease n = (n', o) ->
  Reconf.vote_req cand t last lease (abs n) = (abs n', o) /\ SI n'.
Proof.
  intros cand t last lease n n' o H E. unfold Compact.vote_req, Reconf.vote_req in *.
  change (r_term (abs n)) with (r_term (core n)).
  destruct (t <? r_term (core n)); [injection E as <- <-; auto|]. destruct lease; [injection E as <- <-; auto|].
  pose proof (last_lid_hist dec n H) as LL. pose proof (last_abs n H) as LA. rewrite LL, LA in E. cbv zeta in *.
  set (k := zlen (r_log (abs n))) in *.
  set (n1 := on (fun c => set_log (r_log c) k c) n) in *.
  assert (S1 : SI n1) by (apply SI_same; auto).
  change (set_log (r_log (abs n)) k (abs n)) with (abs n1) in *.
  assert (L1 : last_id (r_log (abs n1)) = last_id (hist n)) by reflexivity.
  clearbody n1. change (r_term (abs n1)) with (r_term (core n1)).
  set (n2 := if r_term (core n1) <? t then on (step_down t) n1 else n1) in *.
  assert (S2 : SI n2 /\ abs n2 = (if r_term (core n1) <? t then step_down t (abs n1) else abs n1) /\ last_id (r_log (abs n2)) = last_id (hist n)).
  { unfold n2. destruct (r_term (core n1) <? t); [rewrite abs_down; sp; auto; apply SI_down; auto|auto]. }
  destruct S2 as (S2 & A2 & L2). rewrite <- A2. clearbody n2. rewrite L2.
  change (r_voted (abs n2)) with (r_voted (core n2)).
  set (b := id_geb last (last_id (hist n)) && opeer_eqb (r_voted (core n2)) None) in *.
  set (n3 := if b then on (fun c => set_voted (Some cand) (step_down t c)) n2 else n2) in *.
  assert (S3 : SI n3 /\ abs n3 = (if b then set_voted (Some cand) (step_down t (abs n2)) else abs n2)).
  { unfold n3. destruct b; auto. rewrite <- on_on, abs_voted, abs_down. split; auto. apply SI_same; auto. apply SI_down; auto. }
  destruct S3 as (S3 & A3). rewrite <- A3. clearbody n3.
  change (r_term (abs n3)) with (r_term (core n3)). change (r_voted (abs n3)) with (r_voted (core n3)). change (r_self (abs n3)) with (r_self (core n3)).
  destruct ((t =? r_term (core n3)) && opeer_eqb (r_voted (core n3)) (Some cand)); injection E as <- <-; auto.
Qed.
Lemma sim_got_vote : forall from t v n n' o, SI n -> Compact.got_vote conf0 boot dec from t v n = Some (n', o) ->
  Reconf.got_vote conf0 boot dec from t v (abs n) = Some (abs n', o) /\ SI n'.
Proof.
  intros from t v n n' o H E. unfold Compact.got_vote, Reconf.got_vote in *. cbv zeta in *.
  change (r_st (abs n)) with (r_st (core n)). change (r_term (abs n)) with (r_term (core n)). change (r_ballot (abs n)) with (r_ballot (core n)).
  destruct (r_st (core n)); try (injection E as <- <-; auto; fail).
  destruct (t =? r_term (core n)); [|injection E as <- <-; auto].
  set (b := grant1 (r_ballot (core n)) from) in *. set (n1 := on (set_ballot b) n) in *.
  assert (S1 : SI n1) by (apply SI_same; auto). change (set_ballot b (abs n)) with (abs n1).
  destruct (granted b); [apply sim_become_leader; auto|injection E as <- <-; auto].
Qed.
Lemma sim_commit_to : forall first last p n n' o, SI n -> Inv0 (r_box (abs n)) -> Compact.commit_to first last p n = (n', o) ->
  Reconf.commit_to first last p (abs n) = (abs n', o) /\ SI n'.
Proof.
  intros first last p n n' o H I E. unfold Compact.commit_to, Reconf.commit_to in *.
  change (r_box (abs n)) with (mx (mid n) (r_box (core n))) in *.
  destruct (BallotBox.commit_at (r_box (core n)) first last p) as [[b r] c] eqn:Eb.
  rewrite (mx_commit _ _ _ _ _ _ _ _ I Eb). destruct c; injection E as <- <-; split; try reflexivity; apply SI_same; auto.
Qed.
Lemma sim_ack : forall from t upto first n n' o, SI n -> Inv0 (r_box (abs n)) -> Compact.ack from t upto first n = (n', o) ->
  Reconf.ack from t upto first (abs n) = (abs n', o) /\ SI n'.
Proof.
  intros from t upto first n n' o H I E. unfold Compact.ack, Reconf.ack in *.
  change (r_st (abs n)) with (r_st (core n)). change (r_term (abs n)) with (r_term (core n)).
  destruct (r_st (core n)); try (injection E as <- <-; auto; fail).
  destruct (t =? r_term (core n)); [apply sim_commit_to; auto|injection E as <- <-; auto].
Qed.
Lemma sim_disk : forall first k n n' o, SI n -> Inv0 (r_box (abs n)) -> Compact.disk first k n = Some (n', o) ->
  Reconf.disk first k (abs n) = Some (abs n', o) /\ SI n'.
Proof.
  intros first k n n' o H I E. unfold Compact.disk, Reconf.disk in *. rewrite <- (last_abs n H). cbv zeta in *.
  destruct (k <=? last_index n); [|discriminate E].
  set (n1 := on (fun c => set_log (r_log c) (Z.max (r_sync c) k) c) n) in *.
  assert (S1 : SI n1) by (apply SI_same; auto).
  change (set_log (r_log (abs n)) (Z.max (r_sync (abs n)) k) (abs n)) with (abs n1).
  assert (I1 : Inv0 (r_box (abs n1))) by exact I.
  clearbody n1. change (r_st (abs n1)) with (r_st (core n1)). change (r_self (abs n1)) with (r_self (core n1)).
  destruct (r_st (core n1)); try (injection E as <- <-; auto; fail).
  injection E as E. destruct (sim_commit_to _ _ _ _ _ _ S1 I1 E) as [A S2]. rewrite A. auto.
Qed.
Lemma sim_propose : forall v n n' o, SI n -> Compact.propose conf0 boot dec v n = Some (n', o) ->
  Reconf.propose conf0 boot dec v (abs n) = Some (abs n', o) /\ SI n'.
Proof.
  intros v n n' o H E. unfold Compact.propose, Reconf.propose in *. change (r_st (abs n)) with (r_st (core n)).
  destruct (r_st (core n)); try (injection E as <- <-; auto; fail).
  destruct (dec v); [injection E as <- <-; auto|].
  destruct (Compact.lead_append conf0 boot dec v n) as [n1|] eqn:E1; [|discriminate E].
  destruct (sim_lead_append _ _ _ H E1) as [A1 S1]. rewrite A1. injection E as <- <-. auto.
Qed.
Lemma sim_request : forall new n, SI n -> Reconf.request conf0 boot dec new (abs n) = abs (Compact.request conf0 boot dec new n) /\ SI (Compact.request conf0 boot dec new n).
Proof.
  intros new n H. unfold Compact.request, Reconf.request. rewrite <- (s_conf_abs n H). cbv zeta.
  change (r_st (abs n)) with (r_st (core n)). change (r_stage (abs n)) with (r_stage (core n)).
  destruct (r_st (core n)); auto. destruct (r_stage (core n)); auto.
  destruct (ConfCtx.conf_equals _ _); auto. split; [reflexivity|apply SI_same; auto].
Qed.
Lemma sim_next_stage : forall v n n' o, SI n -> Compact.next_stage conf0 boot dec v n = Some (n', o) ->
  Reconf.next_stage conf0 boot dec v (abs n) = Some (abs n', o) /\ SI n'.
Proof.
  intros v n n' o H E. unfold Compact.next_stage, Reconf.next_stage in *. change (r_stage (abs n)) with (r_stage (core n)).
  destruct (r_stage (core n)) as [|new old|new|new]; [discriminate E| | |].
  - destruct (1 <? _).
    + set (n1 := on (set_stage (SJoint new)) n) in *. change (set_stage (SJoint new) (abs n)) with (abs n1).
      assert (S1 : SI n1) by (apply SI_same; auto).
      destruct (Compact.apply_conf _ _ _ _ _ _) as [n2|] eqn:E1; [|discriminate E]. injection E as <- <-.
      destruct (sim_apply_conf _ _ _ _ S1 E1) as [A1 S2]. rewrite A1. auto.
    + set (n1 := on (set_stage (SStable new)) n) in *. change (set_stage (SStable new) (abs n)) with (abs n1).
      assert (S1 : SI n1) by (apply SI_same; auto).
      destruct (Compact.apply_conf _ _ _ _ _ _) as [n2|] eqn:E1; [|discriminate E]. injection E as <- <-.
      destruct (sim_apply_conf _ _ _ _ S1 E1) as [A1 S2]. rewrite A1. auto.
  - set (n1 := on (set_stage (SStable new)) n) in *. change (set_stage (SStable new) (abs n)) with (abs n1).
    assert (S1 : SI n1) by (apply SI_same; auto).
    destruct (Compact.apply_conf _ _ _ _ _ _) as [n2|] eqn:E1; [|discriminate E]. injection E as <- <-.
    destruct (sim_apply_conf _ _ _ _ S1 E1) as [A1 S2]. rewrite A1. auto.
  - cbv zeta in *. set (n1 := on (set_stage SNone) n) in *. change (set_stage SNone (abs n)) with (abs n1).
    assert (S1 : SI n1) by (apply SI_same; auto). change (r_self (abs n1)) with (r_self (core n1)).
    destruct (memb (r_self (core n1)) new); injection E as <- <-; split; auto.
    + f_equal. f_equal. symmetry. change (step_down (r_term (abs n1)) (abs n1)) with ((fun c => step_down (r_term c) c) (abs n1)).
      apply abs_same; auto. intros. apply abs_step_down.
    + apply SI_same; auto.
Qed.
Lemma sim_caught : forall ok v n n' o, SI n -> Compact.caught conf0 boot dec ok v n = Some (n', o) ->
  Reconf.caught conf0 boot dec ok v (abs n) = Some (abs n', o) /\ SI n'.
Proof.
  intros ok v n n' o H E. unfold Compact.caught, Reconf.caught in *.
  change (r_st (abs n)) with (r_st (core n)). change (r_stage (abs n)) with (r_stage (core n)).
  destruct (r_st (core n)); try (injection E as <- <-; auto; fail).
  destruct (r_stage (core n)); try (injection E as <- <-; auto; fail).
  destruct ok; [apply sim_next_stage; auto|]. injection E as <- <-. split; [reflexivity|apply SI_same; auto].
Qed.
Lemma sim_conf_done : forall i t v n n' o, SI n -> Compact.conf_done conf0 boot dec i t v n = Some (n', o) ->
  Reconf.conf_done conf0 boot dec i t v (abs n) = Some (abs n', o) /\ SI n'.
Proof.
  intros i t v n n' o H E. unfold Compact.conf_done, Reconf.conf_done in *. cbv zeta in *.
  change (r_done (abs n)) with (r_done (core n)). change (BallotBox.lc (r_box (abs n))) with (Z.max (BallotBox.lc (r_box (core n))) (mid n)).
  destruct (existsb _ (r_done (core n))); [|discriminate E]. cbn [andb] in *.
  destruct (Z.leb_spec i (BallotBox.lc (r_box (core n)))); [|discriminate E].
  destruct (Z.leb_spec i (Z.max (BallotBox.lc (r_box (core n))) (mid n))); [|lia].
  set (D := filter _ (r_done (core n))) in *. change (on _ n) with (on (set_done D) n) in E. set (n1 := on (set_done D) n) in *.
  assert (S1 : SI n1) by (apply SI_same; auto). change (set_done D (abs n)) with (abs n1).
  change (r_st (abs n1)) with (r_st (core n1)). change (r_term (abs n1)) with (r_term (core n1)).
  destruct (r_st (core n1)); try (injection E as <- <-; auto; fail).
  destruct (t =? r_term (core n1)); [apply sim_next_stage; auto|injection E as <- <-; auto].
Qed.
Lemma sim_step_down : forall t n, SI n -> Reconf.step_down t (abs n) = abs (on (step_down t) n) /\ SI (on (step_down t) n).
Proof. intros. rewrite abs_down. split; auto. apply SI_down; auto. Qed.
Lemma sim_apply_one : forall n n' o, SI n -> Compact.apply_one n = Some (n', o) ->
  Reconf.apply_one (abs n) = Some (abs n', o) /\ SI n' /\
  forall i e, In (ROApply i e) o <-> (s_sm n' = s_sm n ++ [e] /\ i = zlen (s_sm n) + 1).
Proof.
  intros n n' o H E. destruct (SI_bounds n H) as (B1 & B2 & B3 & B4 & B5). unfold Compact.apply_one, Reconf.apply_one in *.
  change (r_applied (abs n)) with (r_applied (core n)). change (BallotBox.lc (r_box (abs n))) with (Z.max (BallotBox.lc (r_box (core n))) (mid n)).
  change (r_log (abs n)) with (hist n). set (a := r_applied (core n)) in *.
  destruct (Z.ltb_spec a (BallotBox.lc (r_box (core n)))).
  - destruct (Z.ltb_spec a (Z.max (BallotBox.lc (r_box (core n))) (mid n))); [|lia].
    pose proof (znth_hist dec n (a + 1) H ltac:(lia)) as Z1. replace (a + 1 - 1) with a in Z1 by lia. rewrite Z1.
    destruct (znth (r_log (core n)) (a + 1 - s_first n)) as [e|] eqn:En; [|discriminate E]. injection E as <- <-.
    assert (Hh : hist (set_sm (s_sm n ++ [e]) (a + 1) (l_term e) n) = hist n) by reflexivity.
    assert (LS : zlen (s_sm n) = a) by (rewrite (q_sm _ _ H); fold a; apply zlen_firstn_le; lia).
    split; [reflexivity|]. split.
    + pose proof (znth_some_bound _ _ _ Z1) as ZB. destruct H.
      constructor; auto; rewrite ?Hh; cbn [set_sm core s_first s_virt s_snap s_sconf s_disk s_save s_sm s_aterm r_applied set_applied]; fold a in q_disk, q_sm, q_save |- *.
      * lia.
      * lia.
      * rewrite q_sm. symmetry. apply firstn_snoc. exact Z1.
      * unfold term_at. replace (a + 1 - 1) with a by lia. rewrite Z1. reflexivity.
      * intros s b Hs. destruct (q_save s b Hs) as (X1 & X2 & X3). sp; auto; lia.
    + intros i e'. rewrite LS. cbn [set_sm s_sm]. split.
      * intros [X|[]]. injection X as <- <-. auto.
      * intros [X ->]. apply app_inv_head in X. injection X as <-. left. reflexivity.
  - destruct (Z.ltb_spec a (Z.max (BallotBox.lc (r_box (core n))) (mid n))); [lia|]. injection E as <- <-. split; auto. split; auto.
    intros i e. split; [intros []|]. intros [X _]. exfalso. apply (f_equal (@length _)) in X. rewrite app_length in X. cbn in X. lia.
Qed.
End Sim.
