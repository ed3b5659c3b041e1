From Verif Require Import Base BaseLemmas LogEntry Repl ReplSpec.

Ltac dmh H :=
  match type of H with
  | context[match ?x with _ => _ end] => let E := fresh "E" in destruct x eqn:E
  end.
Ltac inj H := injection H; clear H; intros; subst.

Lemma reqs_app : forall a b, reqs (a ++ b) = reqs a ++ reqs b.
Proof. intros. apply flat_map_app. Qed.
Lemma reqs_chk : forall n b, reqs (chk n b) = [].
Proof. intros n []; reflexivity. Qed.
Lemma reqs_in : forall o k p n, In (k, p, n) (reqs o) <-> exists t es cm, In (OReq k p t es cm) o /\ n = zlen es.
Proof.
  induction o as [|x o IH]; intros k p n.
  - cbn. split; [tauto|]. intros (t & es & cm & [] & _).
  - change (x :: o) with ([x] ++ o) at 1. rewrite reqs_app, in_app_iff, IH. split.
    + intros [H|(t & es & cm & H & E)]; [|exists t, es, cm; split; [right|]; auto].
      destruct x; cbn in H; try tauto. destruct H as [H|[]]. injection H as <- <- <-.
      exists prevterm, es, committed. split; [left|]; auto.
    + intros (t & es & cm & [H|H] & E).
      * subst x. left. cbn. left. congruence.
      * right. exists t, es, cm. auto.
Qed.

(** * What each function sends *)
Definition Sends (s s' : rep) (o : list rout) : Prop :=
  (reqs o = [] /\ r_sent s' = r_sent s /\ r_calls s' = r_calls s) \/
  (exists p n, reqs o = [(r_calls s, p, n)] /\ r_sent s' = (r_calls s, p, n) :: r_sent s /\ r_calls s' = r_calls s + 1).
Lemma sends_none : forall s s' o, reqs o = [] -> r_sent s' = r_sent s -> r_calls s' = r_calls s -> Sends s s' o.
Proof. left; auto. Qed.
Lemma sends_pre : forall s s1 s' o1 o, reqs o1 = [] -> r_sent s1 = r_sent s -> r_calls s1 = r_calls s ->
  Sends s1 s' o -> Sends s s' (o1 ++ o).
Proof.
  intros s s1 s' o1 o A B C [[D [E F]]|[p [n [D [E F]]]]].
  - left. rewrite reqs_app, A, D, E, F. auto.
  - right. exists p, n. rewrite reqs_app, A, D, E, F, B, C. auto.
Qed.
Lemma sends_post : forall s s1 s' o1 o, reqs o1 = [] -> r_sent s' = r_sent s1 -> r_calls s' = r_calls s1 ->
  Sends s s1 o -> Sends s s' (o ++ o1).
Proof.
  intros s s1 s' o1 o A B C [[D [E F]]|[p [n [D [E F]]]]].
  - left. rewrite reqs_app, A, D, B, C, E, F. auto.
  - right. exists p, n. rewrite reqs_app, A, D, B, C, E, F. auto.
Qed.

Lemma install_sent : forall v s s' o, install v s = (s', o) -> reqs o = [] /\ r_sent s' = r_sent s /\ r_calls s' = r_calls s.
Proof.
  intros v s s' o H. unfold install, block in H. destruct (v_snap v); [inj H; destruct (r_st s); auto|..];
  (destruct (r_reader s); [inj H; auto|]); cbn in H; inj H; auto.
Qed.
Lemma notify_sent : forall v c b s s' o, notify v c b s = (s', o) -> reqs o = [] /\ r_sent s' = r_sent s /\ r_calls s' = r_calls s.
Proof.
  intros v c b s s' o H. unfold notify, run_catch in H. repeat dmh H; inj H; auto.
Qed.
Lemma wait_more_sent : forall c v s, r_sent (wait_more c v s) = r_sent s /\ r_calls (wait_more c v s) = r_calls s.
Proof.
  intros. unfold wait_more, lm_wait. destruct (_ && _ && _); [destruct (negb _)|];
  match goal with |- context[if ?b then set_stat _ _ else _] => destruct b end; auto.
Qed.
Lemma send_empty_sent : forall v s s' o, send_empty v s = (s', o) -> Sends s s' o.
Proof.
  intros v s s' o H. unfold send_empty, fill in H. destruct (_ && _); cbn [negb] in H.
  - destruct (install v s) as [s1 o1] eqn:E. inj H. destruct (install_sent _ _ _ _ E) as [A [B C]].
    left. rewrite reqs_app, reqs_chk, A. auto.
  - inj H. right. exists (r_next s - 1), 0. cbn [app]. rewrite !reqs_app, !reqs_chk. auto.
Qed.
Lemma send_entries_sent : forall c v s s' o, send_entries c v s = (s', o) -> Sends s s' o.
Proof.
  intros c v s s' o H. unfold send_entries in H. destruct (_ || _ || _); [inj H; left; auto|].
  unfold fill in H. destruct (_ && _); cbn [negb] in H.
  - destruct (install v (reset_next s)) as [s1 o1] eqn:E. inj H. destruct (install_sent _ _ _ _ E) as [A [B C]].
    left. rewrite reqs_app, reqs_chk, A. auto.
  - destruct (prepare _ _ _ _ _ _) as [[es ro] rc]. destruct es as [|e es].
    + destruct (_ <? _).
      * destruct (install v (reset_next (set_ro ro s))) as [s1 o1] eqn:E. inj H. destruct (install_sent _ _ _ _ E) as [A [B C]].
        left. cbn [app]. rewrite A. auto.
      * destruct (rc =? R_EREADONLY); inj H; left.
        -- destruct (_ =? 0); auto.
        -- destruct (wait_more_sent c v (set_ro ro s)) as [-> ->]. auto.
    + inj H. right. exists (r_next s - 1), (zlen (e :: es)). cbn [app].
      match goal with |- context[wait_more c v ?x] => destruct (wait_more_sent c v x) as [-> ->] end. auto.
Qed.
Lemma after_success_sent : forall c v s s' o, after_success c v s = (s', o) -> Sends s s' o.
Proof.
  intros c v s s' o H. unfold after_success, timeout_now in H.
  destruct (notify _ _ _ _) as [s1 o1] eqn:E1. destruct (notify_sent _ _ _ _ _ _ E1) as [A [B C]].
  destruct ((0 <? r_tni s1) && (r_tni s1 <? min_flying s1)).
  - destruct (send_entries _ _ _) as [s3 o3] eqn:E3. apply send_entries_sent in E3. inj H.
    apply sends_pre with (s1 := s1); [auto..|]. apply (sends_pre _ (set_tni 0 s1) _ [OTimeoutNow false]); auto.
  - destruct (send_entries _ _ _) as [s3 o3] eqn:E3. apply send_entries_sent in E3. inj H.
    apply sends_pre with (s1 := s1); auto.
Qed.
Lemma on_rpc_sent : forall c v call p n r s s' o, on_rpc c v call p n r s = (s', o) -> Sends s s' o.
Proof.
  intros c v call p n r s s' o H. unfold on_rpc in H.
  destruct (negb _); [inj H; left; rewrite reqs_chk; auto|].
  destruct r as [|[] t last].
  - inj H. left. rewrite reqs_chk. unfold block. destruct (r_st (reset_next s)); auto.
  - destruct (negb _); [inj H; left; rewrite reqs_chk; auto|].
    destruct (pop_acked _ _ _) as [fl sz]. destruct (after_success _ _ _) as [s1 o1] eqn:E. inj H.
    apply after_success_sent in E. apply sends_pre with (s1 := s); [auto using reqs_chk..|].
    apply sends_pre with (s1 := set_fly (r_next s) sz fl s); auto. destruct (0 <? n); auto.
  - destruct (_ <? t).
    + destruct (notify _ _ _ _) as [s1 o1] eqn:E. destruct (notify_sent _ _ _ _ _ _ E) as [A [B C]]. inj H.
      left. rewrite !reqs_app, reqs_chk, A. auto.
    + match type of H with context[send_empty v ?x] => set (sx := x) in H; destruct (send_empty v sx) as [s1 o1] eqn:E end. inj H.
      apply send_empty_sent in E. apply sends_pre with (s1 := sx); auto using reqs_chk;
      unfold sx; destruct (_ <? _); auto; destruct (_ <? _); auto.
Qed.
Lemma on_installed_sent : forall c v i ok s s' o, on_installed c v i ok s = (s', o) -> Sends s s' o.
Proof.
  intros c v i ok s s' o H. unfold on_installed in H. destruct ok; cbn [negb] in H.
  - apply after_success_sent in H. exact H.
  - inj H. left. unfold block. match goal with |- context[match ?x with _ => _ end] => destruct x end; auto.
Qed.
Lemma block_over_sent : forall v s s' o, block_over v s = (s', o) -> Sends s s' o.
Proof. intros v s s' o H. unfold block_over in H. destruct (negb _); [inj H; left; auto|]. eapply send_empty_sent; eauto. Qed.
Lemma woken_sent : forall c v b s s' o, woken c v b s = (s', o) -> Sends s s' o.
Proof.
  intros c v b s s' o H. unfold woken in H. destruct (_ && _); [|inj H; left; auto].
  apply send_entries_sent in H. exact H.
Qed.
Lemma rstep_sent : forall c s e s' o, rstep c s e = Some (s', o) -> Sends s s' o.
Proof.
  intros c s [e v] s' o H. unfold rstep in H. destruct (r_dead s); [discriminate|]. destruct e.
  - destruct (find_call call (r_sent s)) as [[p n]|]; [|discriminate]. injection H as H. eapply on_rpc_sent; eauto.
  - destruct (drop_one i (r_snaps s)) as [l|]; [|discriminate]. injection H as H. apply on_installed_sent in H. exact H.
  - injection H as H. unfold send_heartbeat, fill in H. destruct (_ && _); cbn [negb] in H; inj H; left; auto.
  - injection H as H. unfold on_heartbeat in H. destruct r as [[t ro]|]; [|inj H; left; auto].
    destruct (_ <? _).
    + destruct (notify _ _ _ _) as [s1 o1] eqn:E. destruct (notify_sent _ _ _ _ _ _ E) as [A [B C]]. inj H.
      left. rewrite reqs_app, A. auto.
    + inj H. left. destruct (_ || _); auto.
  - inj H. left; auto.
  - destruct (r_fired s); [discriminate|]. injection H as H. apply woken_sent in H. exact H.
  - destruct (r_tm1 s); [discriminate|]. inj H. left; auto.
  - destruct (r_tm2 s); [discriminate|]. injection H as H. apply block_over_sent in H. exact H.
  - injection H as H. unfold wait_caught_up in H. repeat dmh H; inj H; left; auto.
  - injection H as H. left. apply (notify_sent _ _ _ _ _ _ H).
  - injection H as H. unfold transfer, timeout_now in H. repeat dmh H; inj H; left; auto.
  - inj H. left; auto.
  - injection H as H. unfold change_readonly in H. destruct (_ || _); [inj H; left; auto|]. destruct b; [inj H; left; auto|].
    inj H. left. destruct (wait_more_sent c v (set_ro 0 s)) as [-> ->]. auto.
  - unfold timeout_now in H. inj H. left; auto.
  - injection H as H. unfold on_timeout_now in H.
    destruct r as [t|]; [destruct (_ <? _)|]; try (destruct stepped; [|inj H; left; auto]);
    (destruct (notify _ _ _ _) as [s1 o1] eqn:E; destruct (notify_sent _ _ _ _ _ _ E) as [A [B C]]; inj H;
    left; rewrite ?reqs_app, ?A; auto).
  - injection H as H. left. apply (notify_sent _ _ _ _ _ _ H).
  - injection H as H. unfold stop2 in H. destruct (notify _ _ _ _) as [s1 o1] eqn:E; destruct (notify_sent _ _ _ _ _ _ E) as [A [B C]]; inj H.
    left; rewrite A; auto.
Qed.
