From Verif Require Import Base BaseLemmas QuorumSpec BallotBox ConfCtx ConfCtxSpec.

(** * Sets as lists *)
Lemma diff_In : forall a b p, In p (diff a b) <-> In p a /\ ~ In p b.
Proof. intros. unfold diff. rewrite filter_In, negb_true_iff, memb_false. reflexivity. Qed.
Lemma diff_nil : forall a b, diff a b = [] -> incl a b.
Proof.
  intros a b H p Hp. destruct (in_dec Z.eq_dec p b); auto. exfalso. assert (K : In p (diff a b)) by (apply diff_In; auto). rewrite H in K. exact K.
Qed.
Lemma conf_equals_spec : forall a b, conf_equals a b = true <-> (forall p, In p a <-> In p b).
Proof.
  intros a b. unfold conf_equals. split.
  - destruct (diff a b) eqn:E1; [|discriminate]. destruct (diff b a) eqn:E2; [|discriminate]. intros _ p. split; apply diff_nil; assumption.
  - intros H. assert (E1 : diff a b = []). { destruct (diff a b) as [|x l] eqn:E; auto. assert (K : In x (diff a b)) by (rewrite E; left; auto). apply diff_In in K. rewrite H in K. tauto. }
    assert (E2 : diff b a = []). { destruct (diff b a) as [|x l] eqn:E; auto. assert (K : In x (diff b a)) by (rewrite E; left; auto). apply diff_In in K. rewrite <- H in K. tauto. }
    rewrite E1, E2. reflexivity.
Qed.
Lemma add_p_In : forall p l q, In q (add_p p l) <-> q = p \/ In q l.
Proof.
  intros p l q. unfold add_p. destruct (memb p l) eqn:E; [apply memb_In in E|cbn]; split; intros H; auto.
  - destruct H as [->|H]; auto.
  - destruct H as [->|H]; auto.
  - destruct H as [->|H]; auto.
Qed.
Lemma rem_p_In : forall p l q, In q (rem_p p l) <-> In q l /\ q <> p.
Proof. intros. unfold rem_p. rewrite filter_In, negb_true_iff, Z.eqb_neq. reflexivity. Qed.
Lemma target_NoDup : forall r cur, NoDup cur -> NoDup (target cur r).
Proof.
  intros r cur H. destruct r; cbn.
  - unfold add_p. destruct (memb p cur) eqn:E; auto. constructor; auto. apply memb_false. exact E.
  - apply NoDup_filter. exact H.
  - apply NoDup_nodup.
Qed.
Lemma diff_NoDup : forall a b, NoDup a -> NoDup (diff a b).
Proof. intros. apply NoDup_filter. exact H. Qed.
(** One difference: one peer more or one peer less. *)
Lemma one_change : forall a b, NoDup a -> NoDup b -> zlen (diff b a) + zlen (diff a b) <= 1 -> ~ (forall p, In p a <-> In p b) ->
  adds_one a b \/ adds_one b a.
Proof.
  intros a b Ha Hb H Hne. destruct (diff b a) as [|p l] eqn:E1; destruct (diff a b) as [|q m] eqn:E2.
  - exfalso. apply Hne. intros x. split; apply diff_nil; assumption.
  - right. rewrite !zlen_cons in H. pose proof (zlen_nonneg m). assert (m = []) by (apply zlen_0_nil; change (zlen (@nil peer)) with 0 in H; lia). subst m.
    assert (Hq : In q (diff a b)) by (rewrite E2; left; auto). apply diff_In in Hq. exists q. split; [tauto|]. intros x. split.
    + intros Hx. destruct (in_dec Z.eq_dec x b); auto. left. assert (K : In x (diff a b)) by (apply diff_In; auto). rewrite E2 in K. destruct K as [K|[]]; auto.
    + intros [->|Hx]; [tauto|]. eapply diff_nil; eauto.
  - left. rewrite !zlen_cons in H. pose proof (zlen_nonneg l). assert (l = []) by (apply zlen_0_nil; change (zlen (@nil peer)) with 0 in H; lia). subst l.
    assert (Hq : In p (diff b a)) by (rewrite E1; left; auto). apply diff_In in Hq. exists p. split; [tauto|]. intros x. split.
    + intros Hx. destruct (in_dec Z.eq_dec x a); auto. left. assert (K : In x (diff b a)) by (apply diff_In; auto). rewrite E1 in K. destruct K as [K|[]]; auto.
    + intros [->|Hx]; [tauto|]. eapply diff_nil; eauto.
  - exfalso. rewrite !zlen_cons in H. pose proof (zlen_nonneg m). pose proof (zlen_nonneg l). lia.
Qed.
Lemma norm_fst : forall n o, fst (norm n o) = n. Proof. reflexivity. Qed.

(** * The invariant *)
Definition wf_c (c : ConfCtx.jconf) : Prop := NoDup (fst c) /\ match snd c with None => True | Some o => NoDup o /\ o <> [] end.
Definition cur_waits (s : xstate) : list peer := map (fun w => fst (fst w)) (filter (fun w => snd w =? cx_ver s) (x_wait s)).

(** Everything but the count of reports due. *)
Record xcore (s : xstate) : Prop := mkCore {
  k_conf : wf_c (x_conf s);
  k_off : x_role s = RNone -> cx_stage s = SNone /\ x_repl s = [];
  k_trans : x_role s = RTransferring -> cx_stage s = SNone;
  k_none : cx_stage s = SNone -> cx_done s = None;
  k_stage : x_role s <> RNone -> match cx_stage s with
    | SNone => snd (x_conf s) = None
    | SCatchingUp => snd (x_conf s) = None /\ cx_old s = fst (x_conf s) /\ NoDup (cx_new s) /\
        cx_n s = zlen (diff (cx_new s) (cx_old s)) + zlen (diff (cx_old s) (cx_new s)) /\ ~ (forall p, In p (cx_old s) <-> In p (cx_new s))
    | SJoint => x_conf s = norm (cx_new s) (Some (cx_old s)) /\ NoDup (cx_new s) /\ NoDup (cx_old s)
    | SStable => x_conf s = (cx_new s, None) /\ NoDup (cx_new s)
    end;
  k_cd : forall t, In t (x_cd s) -> t <= x_term s;
  k_wait : forall p t v, In (p, t, v) (x_wait s) -> v <= cx_ver s /\ t <= x_term s;
  k_cur : cx_stage s <> SCatchingUp -> cur_waits s = [];
  k_curadd : cx_stage s = SCatchingUp -> NoDup (cur_waits s) /\ (forall p, In p (cur_waits s) -> In p (cx_add s)) }.
Definition due (s : xstate) : Prop :=
  leading (x_role s) = true -> unreported (x_term s) s = match cx_stage s with SJoint | SStable => 1%nat | _ => O end.
Definition xinv (s : xstate) : Prop := xcore s /\ due s.

(** Every entry logged in this step overlaps what was in force. *)
Definition ov_out (s : xstate) (o : list xout) : Prop :=
  logged o = [] \/ exists n old, logged o = [(n, old)] /\ overlapping (x_conf s) (n, old).

Lemma logged_run : forall c k, logged (run_done c k) = [].
Proof. intros [c|] k; reflexivity. Qed.
Lemma logged_app : forall a b, logged (a ++ b) = logged a ++ logged b.
Proof. intros. apply flat_map_app. Qed.

Lemma waits_old : forall s s', x_wait s' = x_wait s -> (forall p t v, In (p, t, v) (x_wait s) -> v < cx_ver s') -> cur_waits s' = [].
Proof.
  intros s s' E H. unfold cur_waits. rewrite E. destruct (filter _ _) as [|[[p t] v] l] eqn:F; auto. exfalso.
  assert (K : In (p, t, v) (filter (fun w => snd w =? cx_ver s') (x_wait s))) by (rewrite F; left; auto).
  apply filter_In in K. destruct K as [K1 K2]. apply H in K1. cbn in K2. apply Z.eqb_eq in K2. lia.
Qed.
(** Under [xcore] nothing older than the version can count once it is raised. *)
Lemma raised : forall s p t v, xcore s -> In (p, t, v) (x_wait s) -> v < cx_ver s + 1.
Proof. intros s p t v C H. apply (k_wait _ C) in H. lia. Qed.

Lemma reset_core : forall st s s' o, xcore s -> (forall (R : x_role s <> RNone), cx_stage s <> SNone -> snd (x_conf s) = None) ->
  reset st s = (s', o) ->
  xcore s' /\ cx_stage s' = SNone /\ x_role s' = x_role s /\ x_term s' = x_term s /\ x_conf s' = x_conf s /\ x_cd s' = x_cd s /\ logged o = [] /\ x_self s' = x_self s.
Proof.
  intros st s s' o C Hst H. unfold reset in H. destruct (cx_stage s) eqn:E;
    [injection H as <- <-; rewrite E; split; [exact C|]; repeat split; auto| | |].
  all: injection H as <- <-; cbn [cx_stage x_role x_term x_conf x_cd x_self]; rewrite logged_run; split; [|repeat split; auto].
  all: destruct C as [H1 H2 H3 H4 H5 H6 H7 H8 H9]; split; cbn [x_conf x_role cx_stage x_repl cx_done x_cd x_wait x_term cx_ver]; auto; try discriminate.
  all: try (intros R; destruct (H2 R) as [A _]; congruence).
  all: try (intros R; apply Hst; congruence).
  all: try (intros R; apply H7 in R; split; [lia|tauto]).
  all: try (intros p t v R; apply H7 in R; split; [lia|tauto]).
  all: try (intros _; eapply (waits_old s); [reflexivity|]; intros p t v K; apply H7 in K; cbn; lia).
Qed.

(** Stepping down forgets the stage, whatever the configuration. *)
Lemma sd_core2 : forall t c s s' o, xcore s -> wf_c c -> step_down t (set_conf c s) = (s', o) ->
  xcore s' /\ cx_stage s' = SNone /\ x_role s' = RNone /\ logged o = [] /\ x_conf s' = c.
Proof.
  intros t c s s' o C HC H. unfold step_down in H. destruct (reset None _) as [s1 o1] eqn:E. injection H as <- <-.
  unfold reset in E. cbn [set_conf cx_stage x_self cx_old cx_new x_repl x_role x_term x_conf cx_ver x_wait x_cd cx_done] in E. destruct C as [H1 H2 H3 H4 H5 H6 H7 H8 H9].
  destruct (cx_stage s) eqn:ES; injection E as <- <-; cbn [cx_stage x_self cx_old cx_new x_repl x_role x_term x_conf cx_ver x_wait x_cd cx_done]; rewrite ?logged_run.
  all: split; [|auto].
  all: split; cbn [cx_stage x_self cx_old cx_new x_repl x_role x_term x_conf cx_ver x_wait x_cd cx_done]; auto; try discriminate; try congruence.
  all: try (intros t0 K; apply H6 in K; lia).
  all: try (intros p t0 v K; apply H7 in K; lia).
  all: intros _; try (eapply (waits_old s); [reflexivity|]; intros p t0 v K; apply H7 in K; cbn; lia).
Qed.
Lemma set_conf_id : forall s, set_conf (x_conf s) s = s.
Proof. intros []. reflexivity. Qed.
Lemma sd_core : forall t s s' o, xcore s -> step_down t s = (s', o) ->
  xcore s' /\ cx_stage s' = SNone /\ x_role s' = RNone /\ logged o = [] /\ x_conf s' = x_conf s.
Proof.
  intros t s s' o C H. apply (sd_core2 t (x_conf s) s s' o C (k_conf _ C)). rewrite set_conf_id. exact H.
Qed.

Definition after (s s' : xstate) (o : list xout) : Prop :=
  match logged o with [] => x_conf s' = x_conf s | [(n, old)] => x_conf s' = norm n old | _ => False end.
Definition good (s s' : xstate) (o : list xout) : Prop := xinv s' /\ ov_out s o /\ after s s' o.

Lemma count_snoc : forall l t, count_occ Z.eq_dec (l ++ [t]) t = S (count_occ Z.eq_dec l t).
Proof. intros. rewrite count_occ_app. cbn. destruct (Z.eq_dec t t); [lia|congruence]. Qed.
Lemma wf_norm : forall n o, NoDup n -> match o with Some o => NoDup o | None => True end -> wf_c (norm n o).
Proof. intros n [[|x o]|] H1 H2; split; cbn; auto. split; auto. discriminate. Qed.

(** Logging an entry: the state handed to unsafe_apply_configuration, with its stage set. *)
Lemma apply_ok : forall s0 s new old s' o, apply_conf new old s = Some (s', o) ->
  x_role s = RLeader -> cx_new s = new -> NoDup new -> match old with Some o => NoDup o /\ o = cx_old s | None => True end ->
  cx_stage s = match old with Some _ => SJoint | None => SStable end ->
  unreported (x_term s) s = O -> cur_waits s = [] ->
  (forall t, In t (x_cd s) -> t <= x_term s) -> (forall p t v, In (p, t, v) (x_wait s) -> v <= cx_ver s /\ t <= x_term s) ->
  overlapping (x_conf s0) (new, old) -> good s0 s' o.
Proof.
  intros s0 s new old s' o H R En ND Ho Es Hu Hw Hcd Hwt OV. unfold apply_conf in H. rewrite Es in H.
  assert (HW : wf_c (norm new old)) by (apply wf_norm; auto; destruct old; tauto).
  assert (X : match old with Some _ => SJoint | None => SStable end <> SNone /\ match old with Some _ => SJoint | None => SStable end <> SCatchingUp) by (destruct old; split; discriminate).
  destruct (match old with Some _ => SJoint | None => SStable end) eqn:E3; try (destruct X; congruence).
  all: injection H as <- <-; split; [|split; [right; exists new, old; auto|reflexivity]].
  all: split; [|intros _; unfold unreported; cbn [x_cd x_term cx_stage]; rewrite count_snoc; unfold unreported in Hu; rewrite Hu; reflexivity].
  all: split; cbn [x_conf x_role cx_stage x_repl cx_done x_cd x_wait x_term cx_ver cx_new cx_old cx_n]; auto; try congruence; try discriminate.
  all: try (intros t K; apply in_app_or in K; destruct K as [K|[<-|[]]]; [auto|lia]).
  all: intros _; subst new; destruct old; try discriminate; try (destruct Ho as [H1 ->]); auto.
Qed.

Lemma next_stage_ok : forall s, xcore s -> x_role s <> RNone -> cx_stage s <> SNone -> unreported (x_term s) s = O ->
  cur_waits s = [] -> exists s' o, next_stage s = Some (s', o) /\ good s s' o.
Proof.
  intros s C R Hs Hu Hw. pose proof (k_stage _ C R) as K.
  assert (RL : x_role s = RLeader). { destruct (x_role s) eqn:E; auto; [|congruence]. exfalso. apply Hs. apply (k_trans _ C E). }
  assert (A : forall st new old, cx_new s = new -> NoDup new -> match old with Some o => NoDup o /\ o = cx_old s | None => True end ->
     st = match old with Some _ => SJoint | None => SStable end -> overlapping (x_conf s) (new, old) ->
     exists s' o, apply_conf new old (set_stage st s) = Some (s', o) /\ good s s' o).
  { intros st new old H1 H2 H3 H4 H5. destruct (apply_conf new old (set_stage st s)) as [[s' o]|] eqn:E.
    - exists s', o. split; auto. eapply apply_ok; [exact E|exact RL|exact H1|exact H2|exact H3|exact H4|exact Hu|exact Hw|apply (k_cd _ C)|apply (k_wait _ C)|exact H5].
    - exfalso. unfold apply_conf in E. cbn [set_stage cx_stage] in E. subst st. destruct old; discriminate. }
  unfold next_stage. destruct (cx_stage s) eqn:Es; [congruence| | |].
  - destruct K as [K1 [K2 [K3 [K4 K5]]]]. assert (Ec : x_conf s = (cx_old s, None)) by (rewrite K2, <- K1; apply surjective_pairing).
    assert (NDo : NoDup (cx_old s)) by (rewrite K2; apply (k_conf _ C)).
    destruct (Z.ltb_spec 1 (cx_n s)) as [Hl|Hl].
    + apply A; auto. rewrite Ec. apply ov_enter.
    + apply A; auto. rewrite Ec. destruct (one_change (cx_old s) (cx_new s)) as [O|O]; auto; [lia|apply ov_add; auto|apply ov_del; auto].
  - destruct K as [K1 [K2 K3]]. apply A; auto. rewrite K1. unfold norm. destruct (cx_old s) as [|x l]; [apply ov_same|apply ov_leave].
  - destruct K as [K1 K2]. destruct (reset (Some 0) s) as [s1 o1] eqn:E1.
    destruct (reset_core _ _ _ _ C ltac:(intros; rewrite K1; reflexivity) E1) as [C1 [S1 [R1 [T1 [F1 [D1 [L1 _]]]]]]].
    destruct (negb (memb (x_self s) (cx_new s))).
    + destruct (step_down (x_term s1) s1) as [s2 o2] eqn:E2. destruct (sd_core _ _ _ _ C1 E2) as [C2 [S2 [R2 [L2 F2]]]]. exists s2, (o1 ++ o2). split; auto.
      split; [split; [exact C2|intros Y; rewrite R2 in Y; discriminate]|]. unfold ov_out, after. rewrite logged_app, L1, L2. cbn. split; [left; auto|]. rewrite F2. exact F1.
    + exists s1, o1. split; auto. split; [split; [exact C1|intros _; rewrite S1; unfold unreported; rewrite T1, D1; exact Hu]|].
      unfold ov_out, after. rewrite L1. auto.
Qed.

Lemma NoDup_app_snoc : forall (l : list peer) x, NoDup l -> ~ In x l -> NoDup (l ++ [x]).
Proof.
  induction l as [|y l IH]; intros x H Hn; cbn; [constructor; auto; constructor|]. inversion H; subst. constructor.
  - intros K. apply in_app_or in K. destruct K as [K|[->|[]]]; [auto|]. apply Hn. left; auto.
  - apply IH; auto. intros K. apply Hn. right; auto.
Qed.
(** Outcome of a catch-up report for the present round. *)
Lemma ctx_fail_ok : forall s0 s, x_conf s0 = x_conf s -> xcore s -> x_role s <> RNone -> cx_stage s = SCatchingUp -> unreported (x_term s) s = O ->
  exists s' o, ctx_caughtup (cx_ver s) 0 false s = Some (s', o) /\ good s0 s' o.
Proof.
  intros s0 s EC C R Hs Hu. unfold ctx_caughtup. rewrite Z.eqb_refl. cbn [negb]. rewrite Hs. destruct (reset (Some ECATCHUP) s) as [s1 o1] eqn:E1.
  pose proof (k_stage _ C R) as K. rewrite Hs in K.
  destruct (reset_core _ _ _ _ C ltac:(intros; tauto) E1) as [C1 [S1 [R1 [T1 [F1 [D1 [L1 _]]]]]]].
  exists s1, o1. split; auto. split; [split; [exact C1|intros _; rewrite S1; unfold unreported; rewrite T1, D1; exact Hu]|].
  unfold ov_out, after. rewrite L1. split; [auto|]. congruence.
Qed.
Lemma ctx_fail_peer : forall v p q s, ctx_caughtup v p false s = ctx_caughtup v q false s.
Proof. reflexivity. Qed.

Lemma cur_waits_snoc : forall s s' p t, x_wait s' = x_wait s ++ [(p, t, cx_ver s)] -> cx_ver s' = cx_ver s -> cur_waits s' = cur_waits s ++ [p].
Proof. intros s s' p t H1 H2. unfold cur_waits. rewrite H1, H2, filter_app, map_app. cbn. rewrite Z.eqb_refl. reflexivity. Qed.

Lemma start_adding_ok : forall ps fail s0 s, x_conf s0 = x_conf s -> xcore s -> x_role s = RLeader -> cx_stage s = SCatchingUp -> unreported (x_term s) s = O ->
  NoDup ps -> (forall p, In p ps -> In p (cx_add s) /\ ~ In p (cur_waits s)) ->
  exists s' o, start_adding ps fail s = Some (s', o) /\ good s0 s' o.
Proof.
  induction ps as [|p ps IH]; intros fail s0 s EC C R Hs Hu ND Hp; cbn [start_adding].
  - exists s, []. split; auto. split; [split; [exact C|]|split; [left; reflexivity|symmetry; exact EC]].
    intros _. rewrite Hs. exact Hu.
  - destruct (negb (memb p (x_repl s)) && fail p).
    + rewrite (ctx_fail_peer _ p 0). apply ctx_fail_ok; auto. congruence.
    + inversion ND as [|? ? Hn ND']; subst. apply IH; auto.
      * destruct (Hp p (or_introl eq_refl)) as [Ha Hnw]. destruct C as [H1 H2 H3 H4 H5 H6 H7 H8 H9].
        match goal with |- xcore ?x => set (s1 := x) end. assert (CW : cur_waits s1 = cur_waits s ++ [p]) by (apply (cur_waits_snoc s s1 p (x_term s)); reflexivity).
        split; [exact H1|intros K; change (x_role s1) with (x_role s) in K; congruence|exact H3|exact H4|exact H5|exact H6| | |].
        -- intros q t v K. change (x_wait s1) with (x_wait s ++ [(p, x_term s, cx_ver s)]) in K. change (cx_ver s1) with (cx_ver s). change (x_term s1) with (x_term s).
           apply in_app_or in K. destruct K as [K|[K|[]]]; [exact (H7 _ _ _ K)|]. injection K as <- <- <-. lia.
        -- intros K. exfalso. apply K. exact Hs.
        -- intros _. rewrite CW. change (cx_add s1) with (cx_add s). destruct (H9 Hs) as [H10 H11]. split.
           ++ apply NoDup_app_snoc; auto.
           ++ intros q K. apply in_app_or in K. destruct K as [K|[<-|[]]]; auto.
      * intros q Hq. destruct (Hp q (or_intror Hq)) as [Ha Hnw]. split; [exact Ha|].
        match goal with |- ~ In q (cur_waits ?x) => rewrite (cur_waits_snoc s x p (x_term s)) by reflexivity end.
        intros K. apply in_app_or in K. destruct K as [K|[<-|[]]]; auto.
Qed.

(** * The events *)
Lemma start_ok : forall old new done fail s, xinv s -> x_role s = RLeader -> cx_stage s = SNone -> old = fst (x_conf s) -> NoDup new ->
  ~ (forall p, In p old <-> In p new) -> exists s' o, start old new done fail s = Some (s', o) /\ good s s' o.
Proof.
  intros old new done fail s [C D] R Hs Eo ND Hne. unfold start. rewrite Hs, (k_none _ C Hs).
  match goal with |- context [next_stage ?x] => set (s1 := x) end.
  assert (Hu : unreported (x_term s) s = O) by (rewrite D by (rewrite R; reflexivity); rewrite Hs; reflexivity).
  assert (W : cur_waits s = []) by (apply (k_cur _ C); rewrite Hs; discriminate).
  assert (Hsn : snd (x_conf s) = None). { assert (K : x_role s <> RNone) by (rewrite R; discriminate). apply (k_stage _ C) in K. rewrite Hs in K. exact K. }
  assert (C1 : xcore s1).
  { destruct C as [H1 H2 H3 H4 H5 H6 H7 H8 H9]. split; [exact H1|intros K; change (x_role s1) with (x_role s) in K; congruence|intros K; change (x_role s1) with (x_role s) in K; congruence|intros K; discriminate K| |exact H6|exact H7| |].
    - intros _. change (snd (x_conf s) = None /\ old = fst (x_conf s) /\ NoDup new /\ zlen (diff new old) + zlen (diff old new) = zlen (diff new old) + zlen (diff old new) /\ ~ (forall p, In p old <-> In p new)). auto.
    - intros K. exfalso. apply K. reflexivity.
    - intros _. change (cur_waits s1) with (cur_waits s). rewrite W. split; [constructor|intros p []]. }
  change (exists s' o, match diff new old with [] => next_stage s1 | _ => start_adding (diff new old) fail s1 end = Some (s', o) /\ good s s' o).
  destruct (diff new old) as [|x l] eqn:E.
  - destruct (next_stage_ok s1 C1) as [s' [o [H1 H2]]]; auto; [change (x_role s1) with (x_role s); congruence|discriminate|].
    exists s', o. split; auto.
  - apply start_adding_ok; auto.
    + rewrite <- E. apply diff_NoDup. exact ND.
    + intros p Hp. split; [exact Hp|]. change (cur_waits s1) with (cur_waits s). rewrite W. auto.
Qed.

Lemma register_ok : forall r done fail s, xinv s ->
  (done <> None \/ ~ (x_role s = RLeader /\ cx_stage s = SNone /\ conf_equals (fst (x_conf s)) (target (fst (x_conf s)) r) = true)) ->
  exists s' o, register r done fail s = Some (s', o) /\ good s s' o.
Proof.
  intros r done fail s I Hd.
  assert (Triv : forall code, exists s' o, Some (s, run_done done code) = Some (s', o) /\ good s s' o).
  { intros code. exists s, (run_done done code). split; auto. split; [exact I|]. unfold ov_out, after. rewrite logged_run. auto. }
  unfold register. destruct (x_role s) eqn:R; auto. destruct (cx_stage s) eqn:Hs; auto.
  destruct (conf_equals (fst (x_conf s)) (target (fst (x_conf s)) r)) eqn:E.
  - destruct done as [c|]; [|destruct Hd as [Hd|Hd]; [congruence|exfalso; apply Hd; auto]]. exists s, [XRun c 0]. split; auto. split; [exact I|]. split; [left; reflexivity|reflexivity].
  - destruct (start_ok (fst (x_conf s)) (target (fst (x_conf s)) r) done fail s I R Hs) as [s' [o [H1 H2]]]; eauto.
    + apply target_NoDup. apply (k_conf _ (proj1 I)).
    + intros K. apply conf_equals_spec in K. congruence.
Qed.

Lemma nth_remove : forall A k (l : list A) w, nth_error l k = Some w -> exists a b, l = a ++ w :: b /\ remove_nth k l = a ++ b.
Proof.
  induction k as [|k IH]; intros [|x l] w H; try discriminate.
  - injection H as ->. exists [], l. auto.
  - destruct (IH l w H) as [a [b [-> E]]]. exists (x :: a), b. cbn. rewrite E. auto.
Qed.

Definition drop_wait (k : nat) (s : xstate) : xstate :=
  mkX (x_self s) (x_role s) (x_term s) (x_conf s) (cx_stage s) (cx_n s) (cx_ver s) (cx_new s) (cx_old s) (cx_add s) (cx_done s) (x_repl s) (remove_nth k (x_wait s)) (x_cd s).

Lemma drop_wait_ok : forall k p t v s, xcore s -> nth_error (x_wait s) k = Some (p, t, v) ->
  xcore (drop_wait k s) /\ (v = cx_ver s -> cx_stage s = SCatchingUp /\ In p (cx_add s) /\ ~ In p (cur_waits (drop_wait k s)) /\ NoDup (cur_waits (drop_wait k s)) /\ (forall q, In q (cur_waits (drop_wait k s)) -> In q (cx_add s))).
Proof.
  intros k p t v s C H. destruct (nth_remove _ _ _ _ H) as [a [b [E1 E2]]].
  assert (W1 : cur_waits s = map (fun w => fst (fst w)) (filter (fun w => snd w =? cx_ver s) a) ++ (if v =? cx_ver s then [p] else []) ++ map (fun w => fst (fst w)) (filter (fun w => snd w =? cx_ver s) b)).
  { unfold cur_waits. rewrite E1, filter_app, map_app. f_equal. cbn [filter snd]. destruct (v =? cx_ver s); reflexivity. }
  assert (W2 : cur_waits (drop_wait k s) = map (fun w => fst (fst w)) (filter (fun w => snd w =? cx_ver s) a) ++ map (fun w => fst (fst w)) (filter (fun w => snd w =? cx_ver s) b)).
  { unfold cur_waits, drop_wait. cbn [x_wait cx_ver]. rewrite E2, filter_app, map_app. reflexivity. }
  set (A := map (fun w => fst (fst w)) (filter (fun w => snd w =? cx_ver s) a)) in *. set (B := map (fun w => fst (fst w)) (filter (fun w => snd w =? cx_ver s) b)) in *. clearbody A B.
  assert (Sub : NoDup (cur_waits s) -> NoDup (A ++ B)).
  { rewrite W1. destruct (v =? cx_ver s); auto. intros N. apply NoDup_remove_1 in N. exact N. }
  destruct C as [H1 H2 H3 H4 H5 H6 H7 H8 H9]. split.
  - split; [exact H1|exact H2|exact H3|exact H4|exact H5|exact H6| | |].
    + intros p0 t0 v0 K. apply (H7 p0 t0 v0). rewrite E1. change (x_wait (drop_wait k s)) with (remove_nth k (x_wait s)) in K. rewrite E2 in K. apply in_or_app. apply in_app_or in K. destruct K; [left|right; right]; auto.
    + intros K. specialize (H8 K). rewrite W2. rewrite W1 in H8. apply app_eq_nil in H8. destruct H8 as [-> H8]. apply app_eq_nil in H8. destruct H8 as [_ ->]. reflexivity.
    + intros K. destruct (H9 K) as [N Q]. rewrite W2. split; [auto|]. intros q Hq. apply Q. rewrite W1. apply in_app_or in Hq. destruct Hq; apply in_or_app; [left; auto|right; apply in_or_app; right; auto].
  - intros Ev. rewrite Ev, Z.eqb_refl in W1.
    assert (St : cx_stage s = SCatchingUp).
    { destruct (cx_stage s) eqn:Es; auto; exfalso; rewrite H8 in W1 by discriminate; symmetry in W1; apply app_eq_nil in W1; destruct W1 as [_ W1]; discriminate. }
    destruct (H9 St) as [N Q]. split; [exact St|]. split; [apply Q; rewrite W1; apply in_or_app; right; left; auto|]. rewrite W2. rewrite W1 in N. split; [apply NoDup_remove_2 in N; exact N|]. split; [apply NoDup_remove_1 in N; exact N|].
    intros q Hq. apply Q. rewrite W1. apply in_app_or in Hq. destruct Hq; apply in_or_app; [left; auto|right; right; auto].
Qed.

Lemma good_from : forall s0 s s' o, x_conf s0 = x_conf s -> good s s' o -> good s0 s' o.
Proof. intros s0 s s' o E [H1 [H2 H3]]. unfold good, ov_out, after in *. rewrite E. auto. Qed.

Lemma caughtup_ok : forall k c s w, xinv s -> nth_error (x_wait s) k = Some w -> exists s' o, caughtup k c s = Some (s', o) /\ good s s' o.
Proof.
  intros k c s [[p t] v] [C D] H. unfold caughtup. rewrite H. cbv zeta. fold (drop_wait k s). destruct (drop_wait_ok k p t v s C H) as [C1 Hv]. set (s1 := drop_wait k s) in *.
  assert (I1 : xinv s1) by (split; [exact C1|exact D]).
  assert (Triv : exists s' o, Some (s1, @nil xout) = Some (s', o) /\ good s s' o).
  { exists s1, []. split; auto. split; [exact I1|]. split; [left; reflexivity|reflexivity]. }
  destruct (x_role s1) eqn:R; auto. destruct (negb (t =? x_term s1)); auto.
  change (x_role s1) with (x_role s) in R. assert (RN : x_role s <> RNone) by (rewrite R; discriminate).
  assert (Fail : exists s' o, ctx_caughtup v p false s1 = Some (s', o) /\ good s s' o).
  { destruct (Z.eq_dec v (cx_ver s1)) as [->|Ne].
    - destruct (Hv eq_refl) as [St _]. rewrite (ctx_fail_peer _ p 0). apply ctx_fail_ok; auto. change (unreported (x_term s) s = O). rewrite D by (rewrite R; reflexivity). rewrite St. reflexivity.
    - unfold ctx_caughtup. apply Z.eqb_neq in Ne. rewrite Ne. exact Triv. }
  destruct c; auto.
  - unfold ctx_caughtup. destruct (Z.eqb_spec v (cx_ver s1)) as [Ev|Ne]; cbn [negb]; auto.
    destruct (Hv Ev) as [St [Hin [Hnw [ND Q]]]]. change (cx_stage s1) with (cx_stage s). rewrite St. cbv zeta.
    match goal with |- context [next_stage ?x] => set (s2 := x) end.
    assert (C2 : xcore s2).
    { destruct C1 as [H1 H2 H3 H4 H5 H6 H7 H8 H9]. change (cx_stage s1) with (cx_stage s) in *; change (x_role s1) with (x_role s) in *. split; [exact H1| | | | |exact H6|exact H7| |].
      - intros K. change (x_role s2) with (x_role s) in K. congruence.
      - intros K. change (x_role s2) with (x_role s) in K. congruence.
      - intros K. discriminate K.
      - intros _. specialize (H5 RN). rewrite St in H5. exact H5.
      - intros K. exfalso. apply K. reflexivity.
      - intros _. split; [exact ND|]. intros q Hq. change (In q (rem_p p (cx_add s))). apply rem_p_In. split; [apply Q; exact Hq|]. intros ->. apply Hnw. exact Hq. }
    assert (Hu : unreported (x_term s2) s2 = O). { change (unreported (x_term s) s = O). rewrite D by (rewrite R; reflexivity). rewrite St. reflexivity. }
    change (cx_add s2) with (rem_p p (cx_add s)). destruct (rem_p p (cx_add s)) as [|x l] eqn:Ea.
    + destruct (next_stage_ok s2 C2) as [s' [o [H1 H2]]]; auto; [discriminate| |].
      * assert (K : forall q, ~ In q (cur_waits s2)). { intros q Hq. apply (k_curadd _ C2 eq_refl) in Hq. change (cx_add s2) with (rem_p p (cx_add s)) in Hq. rewrite Ea in Hq. exact Hq. }
        destruct (cur_waits s2) as [|q l]; auto. exfalso. apply (K q). left; auto.
      * exists s', o. split; auto.
    + exists s2, []. split; auto. split; [split; [exact C2|intros _; exact Hu]|]. split; [left; reflexivity|reflexivity].
  - destruct (memb p (x_repl s1)); auto.
    eexists _, _. split; [reflexivity|]. match goal with |- good s ?x _ => set (s2 := x) end.
    split; [|split; [left; reflexivity|reflexivity]]. split; [|intros _; apply D; rewrite R; reflexivity]. destruct (k_wait _ C p t v ltac:(eapply nth_error_In; exact H)) as [Hvle _].
    destruct C1 as [H1 H2 H3 H4 H5 H6 H7 H8 H9]. split; [exact H1|intros K; discriminate K|intros K; discriminate K|exact H4|intros _; exact (H5 RN)|exact H6| | |].
    + intros q t0 v0 K. change (x_wait s2) with (x_wait s1 ++ [(p, x_term s1, v)]) in K. apply in_app_or in K. destruct K as [K|[K|[]]]; [exact (H7 _ _ _ K)|]. injection K as <- <- <-. change (x_term s2) with (x_term s). change (x_term s1) with (x_term s). change (cx_ver s2) with (cx_ver s). lia.
    + intros K. unfold cur_waits. change (x_wait s2) with (x_wait s1 ++ [(p, x_term s1, v)]). rewrite filter_app, map_app. change (cx_ver s2) with (cx_ver s). specialize (H8 K). unfold cur_waits in H8. change (cx_ver s1) with (cx_ver s) in H8. rewrite H8. cbn [filter snd app].
      destruct (Z.eqb_spec v (cx_ver s)) as [Ev|]; auto. destruct (Hv Ev) as [St _]. exfalso. apply K. exact St.
    + intros K. destruct (H9 K) as [N Q]. destruct (Z.eq_dec v (cx_ver s)) as [Ev|Ne].
      * assert (CW : cur_waits s2 = cur_waits s1 ++ [p]). { apply (cur_waits_snoc s1 s2 p (x_term s)); [change (x_wait s1 ++ [(p, x_term s1, v)] = x_wait s1 ++ [(p, x_term s, cx_ver s1)]); rewrite Ev; reflexivity|reflexivity]. } rewrite CW. destruct (Hv Ev) as [_ [Hin [Hnw _]]]. split; [apply NoDup_app_snoc; auto|].
        intros q Hq. apply in_app_or in Hq. destruct Hq as [Hq|[<-|[]]]; auto.
      * assert (CW : cur_waits s2 = cur_waits s1). { unfold cur_waits. change (x_wait s2) with (x_wait s1 ++ [(p, x_term s1, v)]). change (cx_ver s2) with (cx_ver s). change (cx_ver s1) with (cx_ver s). rewrite filter_app, map_app. cbn [filter snd]. apply Z.eqb_neq in Ne. rewrite Ne. apply app_nil_r. }
        rewrite CW. auto.
Qed.

Lemma conf_done_ok : forall k s t, xinv s -> nth_error (x_cd s) k = Some t -> exists s' o, conf_done k s = Some (s', o) /\ good s s' o.
Proof.
  intros k s t [C D] H. unfold conf_done. rewrite H. cbv zeta. match goal with |- context [next_stage ?x] => set (s1 := x) end.
  destruct (nth_remove _ _ _ _ H) as [a [b [E1 E2]]].
  assert (C1 : xcore s1). { destruct C as [H1 H2 H3 H4 H5 H6 H7 H8 H9]. split; [exact H1|exact H2|exact H3|exact H4|exact H5| |exact H7|exact H8|exact H9]. intros t0 K. apply H6. change (x_cd s1) with (remove_nth k (x_cd s)) in K. rewrite E2 in K. rewrite E1. apply in_app_or in K. apply in_or_app. destruct K; [left|right; right]; auto. }
  assert (Cn : forall u, unreported u s = ((if Z.eq_dec t u then 1 else 0) + unreported u s1)%nat).
  { intros u. unfold unreported. change (x_cd s1) with (remove_nth k (x_cd s)). rewrite E2, E1, !count_occ_app. cbn [count_occ]. destruct (Z.eq_dec t u); lia. }
  change (x_role s1) with (x_role s). change (x_term s1) with (x_term s). destruct (leading (x_role s)) eqn:L; cbn [negb orb].
  - destruct (Z.eqb_spec t (x_term s)) as [Et|Ne]; cbn [negb].
    + specialize (D L). specialize (Cn (x_term s)). destruct (Z.eq_dec t (x_term s)); [|congruence].
      assert (St : cx_stage s = SJoint \/ cx_stage s = SStable) by (destruct (cx_stage s); try lia; auto).
      destruct (next_stage_ok s1 C1) as [s' [o [H1 H2]]].
      * change (x_role s <> RNone). intros R. rewrite R in L. discriminate.
      * change (cx_stage s <> SNone). destruct St as [->| ->]; discriminate.
      * change (unreported (x_term s) s1 = O). destruct St as [K|K]; rewrite K in D; lia.
      * change (cur_waits s = []). apply (k_cur _ C). destruct St as [->| ->]; discriminate.
      * exists s', o. split; auto.
    + exists s1, []. split; auto. split; [split; [exact C1|]|split; [left; reflexivity|reflexivity]].
      intros _. change (x_term s1) with (x_term s). change (cx_stage s1) with (cx_stage s). rewrite <- (D L). specialize (Cn (x_term s)). destruct (Z.eq_dec t (x_term s)); [congruence|]. lia.
  - exists s1, []. split; auto. split; [split; [exact C1|]|split; [left; reflexivity|reflexivity]].
    intros K. change (x_role s1) with (x_role s) in K. congruence.
Qed.

Lemma elected_ok : forall t fail s, xinv s -> leading (x_role s) = false -> x_term s < t -> exists s' o, become_leader t fail s = Some (s', o) /\ good s s' o.
Proof.
  intros t fail s [C D] L Ht. assert (R : x_role s = RNone) by (destruct (x_role s); try discriminate; auto).
  destruct (k_off _ C R) as [St _]. unfold become_leader, flush. cbn [cx_stage]. rewrite St. cbn [x_conf].
  assert (Hu : forall u, t <= u -> count_occ Z.eq_dec (x_cd s) u = O). { intros u Hu. apply count_occ_not_In. intros K. apply (k_cd _ C) in K. lia. }
  assert (W : cur_waits s = []) by (apply (k_cur _ C); rewrite St; discriminate).
  destruct (k_conf _ C) as [N1 N2]. destruct (snd (x_conf s)) as [o|] eqn:Es.
  - match goal with |- context [apply_conf ?a ?b ?x] => set (s1 := x); destruct (apply_conf a b s1) as [[s' o']|] eqn:E; [|discriminate] end.
    exists s', o'. split; auto. apply (apply_ok s s1 _ _ _ _ E); auto.
    + tauto.
    + apply (Hu t); lia.
    + intros u K. apply (k_cd _ C) in K. change (x_term s1) with t. lia.
    + intros p u v K. apply (k_wait _ C) in K. change (x_term s1) with t. change (cx_ver s1) with (cx_ver s). lia.
    + rewrite <- Es, <- surjective_pairing. destruct (x_conf s). apply ov_same.
  - match goal with |- context [apply_conf ?a ?b ?x] => set (s1 := x); destruct (apply_conf a b s1) as [[s' o']|] eqn:E; [|discriminate] end.
    exists s', o'. split; auto. apply (apply_ok s s1 _ _ _ _ E); auto.
    + apply (Hu t); lia.
    + intros u K. apply (k_cd _ C) in K. change (x_term s1) with t. lia.
    + intros p u v K. apply (k_wait _ C) in K. change (x_term s1) with t. change (cx_ver s1) with (cx_ver s). lia.
    + rewrite <- Es, <- surjective_pairing. destruct (x_conf s). apply ov_same.
Qed.

Lemma to_set_NoDup : forall l, NoDup (to_set l). Proof. intros. apply NoDup_nodup. Qed.

(** The events whose closures exist, with a closure wherever one will be run. *)
Definition enabled (s : xstate) (e : xev) : Prop :=
  match e with
  | XReq r None _ => ~ (x_role s = RLeader /\ cx_stage s = SNone /\ conf_equals (fst (x_conf s)) (target (fst (x_conf s)) r) = true)
  | XCaught k _ => nth_error (x_wait s) k <> None
  | XDone k => nth_error (x_cd s) k <> None
  | _ => True
  end.
(** Events that replace the configuration without logging it. *)
Definition by_hand (e : xev) : bool := match e with XResetPeers _ | XFollow _ => true | _ => false end.
Definition good' (e : xev) (s s' : xstate) (o : list xout) : Prop :=
  xinv s' /\ ov_out s o /\ (if by_hand e then logged o = [] else after s s' o).

Lemma good_good' : forall e s s' o, by_hand e = false -> good s s' o -> good' e s s' o.
Proof. intros e s s' o E [H1 [H2 H3]]. unfold good'. rewrite E. auto. Qed.

Lemma sd_good : forall t s s' o, xinv s -> step_down t s = (s', o) -> good s s' o.
Proof.
  intros t s s' o [C D] H. destruct (sd_core _ _ _ _ C H) as [C2 [S2 [R2 [L2 F2]]]]. split; [split; [exact C2|intros Y; rewrite R2 in Y; discriminate]|].
  unfold ov_out, after. rewrite L2. auto.
Qed.

Lemma xstep_ok : forall s e, xinv s -> enabled s e -> exists s' o, xstep s e = Some (s', o) /\ good' e s s' o.
Proof.
  intros s e I En. pose proof I as [C D].
  assert (Triv : forall e, exists s' o, Some (s, @nil xout) = Some (s', o) /\ good' e s s' o).
  { intros e0. exists s, []. split; auto. split; [exact I|]. split; [left; reflexivity|]. destruct (by_hand e0); reflexivity. }
  assert (Sd : forall t c e, wf_c c -> (by_hand e = true \/ c = x_conf s) -> exists s' o, Some (step_down t (set_conf c s)) = Some (s', o) /\ good' e s s' o).
  { intros t c e0 W B. destruct (step_down t (set_conf c s)) as [s' o] eqn:E. exists s', o. split; auto. destruct (sd_core2 _ _ _ _ _ C W E) as [C2 [S2 [R2 [L2 F2]]]].
    split; [split; [exact C2|intros Y; rewrite R2 in Y; discriminate]|]. unfold ov_out, after. rewrite L2. split; [auto|]. destruct (by_hand e0); auto. destruct B; congruence. }
  destruct e; cbn [xstep].
  - destruct (register_ok r done fail s I) as [s' [o [H1 H2]]]; [destruct done; [left; discriminate|right; exact En]|]. exists s', o. split; [exact H1|apply good_good'; [reflexivity|exact H2]].
  - cbn in En. destruct (nth_error (x_wait s) k) as [w|] eqn:E; [|congruence]. destruct (caughtup_ok k c s w I E) as [s' [o [H1 H2]]]. exists s', o. split; [exact H1|apply good_good'; [reflexivity|exact H2]].
  - cbn in En. destruct (nth_error (x_cd s) k) as [w|] eqn:E; [|congruence]. destruct (conf_done_ok k s w I E) as [s' [o [H1 H2]]]. exists s', o. split; [exact H1|apply good_good'; [reflexivity|exact H2]].
  - destruct (leading (x_role s)) eqn:L; [apply Triv|]. cbn [orb]. destruct (Z.leb_spec t (x_term s)); [apply Triv|].
    destruct (elected_ok t fail s I L H) as [s' [o [H1 H2]]]. exists s', o. split; [exact H1|apply good_good'; [reflexivity|exact H2]].
  - pose proof (Sd t (x_conf s) (XStepDown t) (k_conf _ C) (or_intror eq_refl)) as K. rewrite set_conf_id in K. exact K.
  - destruct (x_role s) eqn:R; try apply Triv. destruct (cx_stage s) eqn:St; try apply Triv.
    eexists _, _. split; [reflexivity|]. match goal with |- good' _ s ?x _ => set (s1 := x) end. split; [|split; [left; reflexivity|reflexivity]].
    split; [|intros _; specialize (D ltac:(rewrite R; reflexivity)); rewrite St in D; exact D]. destruct C as [H1 H2 H3 H4 H5 H6 H7 H8 H9]. split; [exact H1| |intros _; reflexivity|intros _; apply H4; exact St| |exact H6|exact H7| |].
    + intros K. discriminate K.
    + intros _. assert (K : x_role s <> RNone) by (rewrite R; discriminate). apply H5 in K. rewrite St in K. exact K.
    + intros K. apply H8. rewrite St. discriminate.
    + intros K. discriminate K.
  - destruct (x_role s) eqn:R; try apply Triv.
    eexists _, _. split; [reflexivity|]. match goal with |- good' _ s ?x _ => set (s1 := x) end. split; [|split; [left; reflexivity|reflexivity]].
    split; [|intros _; apply D; rewrite R; reflexivity]. destruct C as [H1 H2 H3 H4 H5 H6 H7 H8 H9]. split; [exact H1| | |exact H4| |exact H6|exact H7|exact H8|exact H9].
    + intros K. discriminate K.
    + intros K. discriminate K.
    + intros _. assert (K : x_role s <> RNone) by (rewrite R; discriminate). apply H5 in K. exact K.
  - unfold reset_peers. pose proof (k_conf _ C) as [W1 W2]. pose proof (to_set_NoDup l) as N. destruct (to_set l) as [|x m] eqn:El; [apply Triv|]. destruct (fst (x_conf s)) as [|y n].
    + apply Sd; [split; [exact N|exact W2]|left; reflexivity].
    + destruct (_ && _); [apply Triv|]. destruct (conf_equals (y :: n) (x :: m)); [apply Triv|]. apply Sd; [split; [exact N|exact Logic.I]|left; reflexivity].
  - destruct (x_role s) eqn:R; try apply Triv. eexists _, _. split; [reflexivity|]. match goal with |- good' _ s ?x _ => set (s1 := x) end. split; [|split; [left; reflexivity|reflexivity]].
    split; [|intros K; change (x_role s1) with (x_role s) in K; rewrite R in K; discriminate]. destruct C as [H1 H2 H3 H4 H5 H6 H7 H8 H9]. split; [|exact H2|exact H3|exact H4| |exact H6|exact H7|exact H8|exact H9].
    + apply wf_norm; [apply to_set_NoDup|]. destruct (snd c); cbn; auto. apply to_set_NoDup.
    + intros K. change (x_role s1) with (x_role s) in K. congruence.
Qed.

Lemma xstep_None : forall s e, ~ enabled s e -> xstep s e = None.
Proof.
  intros s e H. destruct e; cbn in H; try tauto.
  - destruct done; [tauto|]. cbn. unfold register. destruct (x_role s) eqn:R; try (exfalso; apply H; intros [K _]; discriminate).
    destruct (cx_stage s) eqn:St; try (exfalso; apply H; intros [_ [K _]]; discriminate).
    destruct (conf_equals (fst (x_conf s)) (target (fst (x_conf s)) r)) eqn:E; auto. exfalso. apply H. intros [_ [_ K]]. discriminate.
  - cbn. unfold caughtup. destruct (nth_error (x_wait s) k); auto. exfalso. apply H. discriminate.
  - cbn. unfold conf_done. destruct (nth_error (x_cd s) k); auto. exfalso. apply H. discriminate.
Qed.
