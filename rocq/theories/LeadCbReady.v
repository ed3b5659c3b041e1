(** Leadership callbacks: the configuration context has been advanced (membership changes and transfers are accepted again)
    before on_leader_start is called. *)
From Verif Require Import Base LeadCb LeadCbSpec LeadCbProofs LeadCbStep LeadCbStep2 LeadCbStep3 LeadCbMain.

Definition rf (s : lc) (t : Z) : Prop := lleading (l_role s) = true -> l_term s = t -> l_ready s = true.
Definition A2 (s : lc) : Prop :=
  match l_run s with
  | Some (_, a) => forall pre t post, a = pre ++ AStart t :: post -> In (ADone t) pre \/ rf s t
  | None => True
  end /\ (forall t, In (TStart t) (l_queue s) -> rf s t).
Definition Rel (s : lc) (t : Z) : Prop := In (TStart t) (l_queue s) \/ exists k a, l_run s = Some (k, a) /\ In (AStart t) a.

Lemma A2_keep s s' : A2 s -> l_run s' = l_run s ->
  (forall t, In (TStart t) (l_queue s') -> In (TStart t) (l_queue s) \/ rf s' t) ->
  (forall t, Rel s t -> rf s t -> rf s' t) -> A2 s'.
Proof.
  intros [H1 H2] R Q M. split.
  - rewrite R. destruct (l_run s) as [[k a]|] eqn:E; auto. intros pre t post Ea. destruct (H1 pre t post Ea) as [X|X]; auto.
    right. apply M; auto. right. exists k, a. split; auto. rewrite Ea. apply in_app_iff. right; left; auto.
  - intros t Ht. destruct (Q t Ht) as [X|X]; auto. apply M; auto. left; auto.
Qed.
Lemma A2_off s s' : A2 s -> l_run s' = l_run s -> lleading (l_role s') = false -> A2 s'.
Proof.
  intros H R L. apply A2_keep with s; auto; intros t; [right|intros _ _]; intros X; congruence.
Qed.

Lemma clear_keep s : l_run (clear_leader s) = l_run s /\ l_role (clear_leader s) = l_role s /\ l_term (clear_leader s) = l_term s /\
  l_ready (clear_leader s) = l_ready s /\ forall t, In (TStart t) (l_queue (clear_leader s)) -> In (TStart t) (l_queue s).
Proof.
  unfold clear_leader, push. destruct (l_leader s); [destruct (lleading (l_role s))|]; red_lc; repeat (split; auto).
  intros t H. apply in_app_iff in H. destruct H as [H|[H|[]]]; auto. discriminate.
Qed.
Lemma clear_A2 s : A2 s -> A2 (clear_leader s).
Proof.
  intros H. destruct (clear_keep s) as (E1 & E2 & E3 & E4 & E5). apply A2_keep with s; auto.
  intros t _. unfold rf. rewrite E2, E3, E4. auto.
Qed.
Lemma sd_A2 t s : A2 s -> A2 (lstep_down t s).
Proof.
  intros H. destruct (lactive (l_role s)) eqn:A.
  - destruct (sd_role t s A) as (R & _ & _ & E & _). apply A2_off with s; auto. rewrite R. auto.
  - unfold lstep_down. rewrite A. auto.
Qed.
Lemma follow_A2 l s : A2 s -> A2 (follow l s).
Proof.
  intros H. unfold follow. destruct (l_leader s); auto. apply A2_keep with s; auto.
  - intros t. red_lc. intros X. apply in_app_iff in X. destruct X as [X|[X|[]]]; auto. discriminate.
Qed.

Lemma step_A2 h s e s' o : LI h s -> A2 s -> lstep s e = Some (s', o) -> A2 s'.
Proof.
  intros I H E. destruct e; cbn [lstep] in E.
  - destruct (l_role s) eqn:R; try discriminate; injection E as <- <-;
      (apply A2_off with s; auto; red_lc; destruct (clear_keep s) as (E1 & _); auto).
  - destruct (l_role s) eqn:R; try discriminate. injection E as <- <-. apply A2_keep with s; auto.
    intros t Rt _ _ Et. exfalso. red_lc.
    assert (W : In (TStart t) (l_queue s) \/ (exists k a, l_run s = Some (k, a) /\ In (AStart t) a) -> exists i, In (OElected t i) h).
    { intros [X|(k & a & X & Y)].
      - destruct (i_tst _ _ I t X) as (i & Hi & _). eauto.
      - assert (NE : l_err s = false). { destruct (l_err s) eqn:Er; auto. destruct (i_err _ _ I Er); congruence. }
        pose proof (i_reach _ _ I NE) as Z1. rewrite X in Z1. destruct Z1 as [_ Z1]. revert Z1 Y. generalize (reached h 0). clear.
        induction a as [|x a IH]; intros r Z1 Y; [destruct Y|]. destruct Y as [->|Y].
        + cbn in Z1. destruct Z1 as [(i & Hi & _) _]. eauto.
        + destruct x; cbn in Z1; eapply IH; try eassumption; apply Z1. }
    destruct (W Rt) as (i & Hi). destruct (i_once _ _ I t i Hi) as [_ X]. specialize (X R). lia.
  - injection E as <- <-. apply sd_A2; auto.
  - destruct (_ || _); injection E as <- <-; auto. unfold check_sd. apply follow_A2.
    destruct (l_term s <? t); [apply sd_A2; auto|]. destruct (l_role s); try (apply sd_A2; auto; fail). destruct (l_leader s); auto. apply sd_A2; auto.
  - destruct (l_role s) eqn:R; injection E as <- <-; auto. apply clear_A2; auto.
  - destruct (l_role s) eqn:R; try (injection E as <- <-; auto; fail). destruct (l_ready s) eqn:Rd; injection E as <- <-; auto.
    apply A2_keep with s; auto.
    + intros t. red_lc. intros X. apply in_app_iff in X. destruct X as [X|[X|[]]]; auto. discriminate.
    + intros t _ _ _ _. red_lc. auto.
  - destruct (existsb _ _); [|discriminate].
    assert (B : A2 (set_node (l_role s) (l_term s) (l_leader s) (l_ready s) (filter (fun x => negb (x =? t)) (l_timers s)) s)) by (apply A2_keep with s; auto).
    destruct (l_role s) eqn:R; try (injection E as <- <-; auto; fail). destruct (t =? l_term s) eqn:Et; injection E as <- <-; auto.
    pose proof (i_trans _ _ I R) as Rd. apply A2_keep with s; auto.
    + intros t' _. right. intros _ _. red_lc. auto.
    + intros t' _ _ _ _. red_lc. auto.
  - destruct (lleading (l_role s)); [|discriminate]. injection E as <- <-. apply A2_keep with s; auto.
  - destruct (_ && _); [|discriminate]. injection E as <- <-. apply A2_keep with s; auto.
  - destruct (_ && _); [|discriminate]. injection E as <- <-. apply A2_keep with s; auto.
    intros t. red_lc. intros X. apply in_app_iff in X. destruct X as [X|[X|[]]]; auto. discriminate.
  - destruct (_ && _); [|discriminate]. injection E as <- <-. apply A2_keep with s; auto.
  - destruct (nth_error _ _); [|discriminate]. injection E as <- <-. apply A2_keep with s; auto.
    intros t. red_lc. intros X. apply in_app_iff in X. destruct X as [X|[X|[]]]; auto. discriminate.
  - destruct (l_queue s) as [|[k| | | | |] [|[k'| | | | |] q]] eqn:Q; try discriminate. injection E as <- <-. apply A2_keep with s; auto.
    intros t. red_lc. rewrite Q. intros [X|X]; [discriminate|]. left. right; right; auto.
  - destruct H as [H1 H2]. destruct (l_run s) as [[k [|[i|t|t] a]]|] eqn:R.
    + injection E as <- <-. split; [exact Logic.I|auto].
    + injection E as <- <-. split; auto. red_lc. intros pre t post Ea. destruct (H1 (AApply i :: pre) t post) as [[X|X]|X]; auto; [rewrite Ea; auto|discriminate].
    + injection E as <- <-. red_lc. split; red_lc.
      * intros pre t' post Ea. destruct (H1 (ADone t :: pre) t' post) as [[X|X]|X]; auto; [rewrite Ea; auto| |].
        -- injection X as ->. right. intros L1 L2. red_lc. rewrite L1, L2, Z.eqb_refl. auto.
        -- right. intros L1 L2. red_lc. destruct (_ && _); auto.
      * intros t' Ht L1 L2. red_lc. destruct (_ && _); auto. apply (H2 t'); auto.
    + injection E as <- <-. split; auto. red_lc. intros pre t' post Ea. destruct (H1 (AStart t :: pre) t' post) as [[X|X]|X]; auto; [rewrite Ea; auto|discriminate].
    + destruct (l_queue s) as [|x q] eqn:Q; [discriminate|].
      assert (H2' : forall t, In (TStart t) q -> rf s t) by (intros t Ht; apply H2; right; auto).
      assert (B : A2 (set_q q (l_flight s) s)) by (split; [red_lc; rewrite R; auto|auto]).
      destruct x as [k|k| |t|l t|l t]; try (injection E as <- <-; exact B).
      * destruct (do_committed k (set_q q (l_flight s) s)) as [s2|] eqn:D; [|discriminate]. injection E as <- <-.
        unfold do_committed in D. destruct (l_err _); [injection D as <-; exact B|]. destruct (k <=? _); [injection D as <-; exact B|].
        assert (AA : forall n i f cl pre t post, acts_of i n f cl = pre ++ AStart t :: post -> In (ADone t) pre).
        { clear. induction n as [|n IH]; intros i f cl pre t post X; cbn [acts_of] in X; [destruct pre; discriminate|].
          destruct pre as [|p pre]; [discriminate|]. injection X as <- X. right.
          destruct (done_at f cl i) as [t'|]; [|eapply IH; eauto].
          destruct pre as [|p pre]; [discriminate|]. cbn in X. injection X as <- X.
          destruct pre as [|p pre]; cbn in X; injection X as X X'; [left; congruence|]. right. right. eapply IH; eauto. }
        unfold pop_until in D. destruct (_ || _).
        -- injection D as <-. split; [|exact H2']. red_lc. intros pre t post Ea. left. eapply AA; eauto.
        -- destruct (_ <? k); [discriminate|]. injection D as <-. split; [|exact H2']. red_lc. intros pre t post Ea. left. eapply AA; eauto.
      * destruct (_ || _); injection E as <- <-; [exact B|]. split; [red_lc; auto|exact H2'].
  - destruct (l_run s) as [[k a]|] eqn:R; [|discriminate]. injection E as <- <-. split; [|intros t _ X; discriminate].
    rewrite die_fsm. red_lc. exact Logic.I.
  - injection E as <- <-. apply A2_off with s; auto. apply die_run.
  - destruct (l_role s) eqn:R; try discriminate. destruct (l_run s) eqn:Ru; [discriminate|]. injection E as <- <-.
    split; [exact Logic.I|]. intros t Ht X. red_lc. rewrite R in X. discriminate.
Qed.

Lemma run_A2 es : forall h s s' o, LI h s -> NS h s -> A2 s -> lrun s es = Some (s', o) -> A2 s'.
Proof.
  induction es as [|e es IH]; intros h s s' o I N H E; cbn in E.
  - injection E as <- <-. auto.
  - destruct (lstep s e) as [[s1 p1]|] eqn:E1; [|discriminate]. destruct (lrun s1 es) as [[s2 p2]|] eqn:E2; [|discriminate].
    injection E as <- <-. destruct (step_LI h s e s1 p1 I N E1) as [I1 _]. exact (IH _ _ _ _ I1 (step_NS h s e s1 p1 I N E1) (step_A2 h s e s1 p1 I H E1) E2).
Qed.
