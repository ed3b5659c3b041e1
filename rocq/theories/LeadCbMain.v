(** Leadership callbacks: every step keeps the invariant of LeadCbProofs, and every call satisfies [call_ok]. *)
From Verif Require Import Base LeadCb LeadCbSpec LeadCbProofs LeadCbStep LeadCbStep2 LeadCbStep3.

(** What each callback (or election) must satisfy, given everything before it. *)
Definition call_ok (h : list cb) (c : cb) : Prop :=
  match c with
  | CbApply i => i = reached h 0 + 1
  | CbSnap k => reached h 0 <= k
  | CbStart t => exists i, In (OElected t i) h /\ i <= reached h 0
  | OElected t _ => forall t' i', In (OElected t' i') h -> t' < t
  | _ => True
  end.
Definition calls_ok (h o : list cb) : Prop := match o with [] => True | [c] => call_ok h c | _ => False end.

(** Where a state stands in the order of terms. *)
Definition uterm (u : ustate) : Z := match u with UNone m => m | ULead t => t | UFollow _ t => t end.
Lemma uoks_mono l : forall u v, uoks u l v -> uterm u <= uterm v.
Proof.
  induction l as [|c l IH]; intros u v H; inversion H; subst; [lia|]. apply IH in H5. inversion H3; subst; cbn in *; lia.
Qed.
Lemma uok_det u c v w : uok u c v -> uok u c w -> v = w.
Proof. intros H1 H2. inversion H1; subst; inversion H2; subst; auto. Qed.
Lemma uoks_det l : forall u v w, uoks u l v -> uoks u l w -> v = w.
Proof.
  induction l as [|c l IH]; intros u v w H1 H2; inversion H1; subst; inversion H2; subst; auto.
  pose proof (uok_det _ _ _ _ H4 H5). subst. eapply IH; eauto.
Qed.
Lemma weaken_none l : forall a b m, b <= a -> uoks (UNone a) l (UNone m) -> exists m', m' <= m /\ uoks (UNone b) l (UNone m').
Proof.
  induction l as [|c l IH]; intros a b m L H; inversion H; subst.
  - exists b. split; auto. constructor.
  - inversion H3; subst.
    all: try (destruct (IH _ b _ L H5) as (m' & M1 & M2); exists m'; split; [solve [auto]|]; econstructor; [constructor|auto]; fail).
    all: exists m; split; [lia|]; econstructor; [constructor; lia|eauto].
Qed.
Lemma drop_start l : forall t m0 m, m0 < t -> uoks (ULead t) l (UNone m) -> exists m', m' <= m /\ uoks (UNone m0) l (UNone m').
Proof.
  induction l as [|c l IH]; intros t m0 m L H; inversion H; subst.
  inversion H3; subst.
  - exists m. split; [lia|]. econstructor; [constructor; auto|auto].
  - destruct (IH _ _ _ L H5) as (m' & M1 & M2); exists m'; split; auto; econstructor; [constructor|auto].
  - destruct (IH _ _ _ L H5) as (m' & M1 & M2); exists m'; split; auto; econstructor; [constructor|auto].
  - destruct (IH _ _ _ L H5) as (m' & M1 & M2); exists m'; split; auto; econstructor; [constructor|auto].
Qed.
Lemma acb_one a : (exists t, In (AStart t) a /\ flat_map acb1 a = [CbStart t]) \/ flat_map acb1 a = [] \/ (exists t t' r, flat_map acb1 a = CbStart t :: CbStart t' :: r).
Proof.
  induction a as [|x a IH]; cbn; auto. destruct x; cbn.
  - destruct IH as [(t' & I1 & ->)|[->|(t1 & t2 & r & ->)]]; eauto 10.
  - destruct IH as [(t' & I1 & ->)|[->|(t1 & t2 & r & ->)]]; eauto 10.
  - destruct IH as [(t' & I1 & ->)|[->|(t1 & t2 & r & ->)]]; eauto 10.
Qed.
Lemma drop_acts u a q m : (forall m0 t, u = UNone m0 -> In (AStart t) a -> m0 < t) ->
  uoks u (flat_map acb1 a ++ q) (UNone m) -> exists m', m' <= m /\ uoks u q (UNone m').
Proof.
  intros N H. destruct (acb_one a) as [(t & I1 & E)|[E|(t & t' & r & E)]]; rewrite E in H; cbn in H.
  - inversion H; subst. inversion H3; subst. eapply drop_start; eauto.
  - exists m. split; [lia|auto].
  - inversion H; subst. inversion H3; subst. inversion H5; subst. match goal with X : uok (ULead _) _ _ |- _ => inversion X end.
Qed.

(** The leadership about to be started is of a term the user has not heard of. *)
Definition NS (h : list cb) (s : lc) : Prop :=
  forall m k a t, uoks (UNone 0) h (UNone m) -> l_run s = Some (k, a) -> In (AStart t) a -> m < t.
Lemma acts_in n : forall i f cl t, In (AStart t) (acts_of i n f cl) -> In (Some t) cl.
Proof.
  induction n as [|n IH]; intros i f cl t H; cbn [acts_of] in H; [destruct H|]. destruct H as [H|H]; [discriminate|].
  destruct (done_at f cl i) as [t'|] eqn:D; [|eapply IH; eauto].
  cbn in H. destruct H as [H|[H|H]]; [discriminate| |eapply IH; eauto]. injection H as <-.
  unfold done_at in D. destruct (i <? f); [discriminate|]. destruct (nth_error cl _) as [x|] eqn:X; [|discriminate]. subst.
  eapply nth_error_In; eauto.
Qed.
Lemma commit_NS h s k q s' : LI h s -> l_run s = None -> do_committed k (set_q q (l_flight s) s) = Some s' -> NS h s'.
Proof.
  intros I R D m k' a t U0 E Hi.
  assert (C : In (Some t) (l_cq s)).
  { unfold do_committed in D. destruct (l_err _); [injection D as <-; red_lc; congruence|]. destruct (k <=? _); [injection D as <-; red_lc; congruence|].
    unfold pop_until in D. destruct (_ || _).
    - injection D as <-. red_lc. injection E as <- <-. apply acts_in in Hi. destruct Hi.
    - destruct (_ <? k); [discriminate|]. injection D as <-. red_lc. injection E as <- <-. apply acts_in in Hi.
      rewrite <- (firstn_skipn (Z.to_nat (k - l_first s + 1)) (l_cq s)). apply in_app_iff. auto. }
  assert (W : hd None (l_cq s) = Some t).
  { pose proof (i_none _ _ I) as N. destruct (l_cq s) as [|x l]; [destruct C|]. destruct C as [->|C]; auto.
    cbn in N. unfold allnone in N. rewrite Forall_forall in N. apply N in C. discriminate. }
  destruct (i_wait _ _ I t W) as (-> & L & _). destruct (i_u _ _ I) as (u & v & U1 & U2 & U3).
  rewrite (uoks_det _ _ _ _ U1 U0) in U2. apply uoks_mono in U2. cbn in U2.
  unfold final in U3. rewrite L in U3. destruct U3 as [(_ & m' & -> & X)|[X _]]; [cbn in *; lia|].
  exfalso. apply X. apply waiting_hd. eauto.
Qed.
Lemma NS_keep h s s' : NS h s -> l_run s' = l_run s \/ l_run s' = None -> NS h s'.
Proof. intros H [R|R] m k a t U E; rewrite R in E; [eapply H; eauto|discriminate]. Qed.
Lemma NS_cb h s s' c : NS h s ->
  (forall u m, uok u c (UNone m) -> u = UNone m) -> (forall k a t, l_run s' = Some (k, a) -> In (AStart t) a -> exists k' a', l_run s = Some (k', a') /\ In (AStart t) a') ->
  NS (h ++ [c]) s'.
Proof.
  intros H C R m k a t U E Hi. destruct (R k a t E Hi) as (k' & a' & E' & Hi').
  apply uoks_app in U. destruct U as (u & U1 & U2). apply uoks_one in U2. apply C in U2. subst. eapply H; eauto.
Qed.

Lemma die_role s : l_role (die s) = LDead.
Proof. reflexivity. Qed.
Lemma die_fsm k s : die (set_fsm k true None s) = set_fsm k true None (die s).
Proof.
  unfold die, lstep_down, clear_leader, push. destruct s as [r t ld rd la co f cq q fl tm ap er ru]. cbn [l_role set_fsm].
  destruct r; cbn [lactive lleading negb]; try reflexivity; destruct ld; reflexivity.
Qed.
Lemma die_run s : l_run (die s) = l_run s.
Proof.
  unfold die, lstep_down, clear_leader, push. destruct s as [r t ld rd la co f cq q fl tm ap er ru]. cbn [l_role].
  destruct r; cbn [lactive lleading negb]; try reflexivity; destruct ld; reflexivity.
Qed.

(** The state machine reports an error (or a task carries one) at a node that is already stopped. *)
Lemma err_LI h s k : LI h s -> NS h s -> l_role s = LDead -> (match l_run s with Some (k', _) => k' = k | None => k = l_applied s end) ->
  LI h (set_fsm k true None s).
Proof.
  intros I N R K. destruct I as [U T BC BF BQ BA CQ NO WA RU ER LE CA RD TR RE EL RY TS ON].
  rewrite R in *. cbn [lleading] in *. rewrite CQ in *.
  assert (U' : exists u m, uoks (UNone 0) h u /\ uoks u (qcb (l_queue s)) (UNone m) /\ m <= l_term s).
  { destruct U as (u & v & U1 & U2 & U3). unfold final in U3. rewrite R in U3. destruct U3 as (m & -> & M).
    destruct (l_run s) as [[k' a]|] eqn:RUN; cbn [acb] in U2.
    - assert (N' : forall m0 t, u = UNone m0 -> In (AStart t) a -> m0 < t) by (intros m0 t -> Hi; eapply N; eauto).
      destruct (drop_acts _ _ _ _ N' U2) as (m' & M1 & M2). exists u, m'. split; auto. split; auto. lia.
    - exists u, m. auto. }
  red_lc. constructor; red_lc; rewrite ?R, ?CQ in *; cbn [lleading] in *; auto; try (intros; discriminate).
  - destruct U' as (u & m & U1 & U2 & U3). exists u, (UNone m). split; auto. split; auto. unfold final; red_lc. eauto.
  - split; auto. destruct BA as [B1 B2]. destruct (l_run s) as [[k' a]|]; subst; auto.
Qed.

Lemma step_LI h s e s' o : LI h s -> NS h s -> lstep s e = Some (s', o) -> LI (h ++ o) s' /\ calls_ok h o.
Proof.
  intros I NSs H.
  assert (SIL : o = [] /\ LI h s' -> LI (h ++ o) s' /\ calls_ok h o).
  { intros [-> X]. rewrite app_nil_r. split; auto. exact Logic.I. }
  destruct e; try (apply SIL; solve [eauto using elect_LI, transfer_LI, ttimeout_LI, append_LI, report_LI, merge_LI]).
  - destruct (win_LI h s s' o I H) as [E X]. split; auto. rewrite E. cbn. intros t' i' Hi.
    destruct (i_once _ _ I t' i' Hi) as [_ X2]. apply X2. unfold lstep in H. destruct (l_role s); auto; discriminate.
  - apply SIL. injection H as <- <-. split; auto. apply sd_LI; auto.
  - apply SIL. unfold lstep in H. destruct (negb (lactive (l_role s)) || (t <? l_term s)) eqn:Z1; injection H as <- <-; split; auto.
    apply orb_false_iff in Z1. apply check_sd_LI; auto. apply negb_false_iff. tauto.
  - apply SIL. unfold lstep in H. destruct (l_role s) eqn:R; injection H as <- <-; split; auto. apply clear_LI; auto. rewrite R; auto.
  - apply SIL. unfold lstep in H. destruct (negb (lleading (l_role s)) && (l_commit s <=? n)) eqn:Z1; [|discriminate].
    injection H as <- <-. apply andb_true_iff in Z1. destruct Z1 as [Z1 Z2]. split; auto. apply log_LI; auto; [apply negb_true_iff; auto|apply Z.leb_le; auto].
  - apply SIL. unfold lstep in H. destruct (negb (lleading (l_role s)) && (l_commit s <=? k)) eqn:Z1; [|discriminate].
    injection H as <- <-. apply andb_true_iff in Z1. destruct Z1 as [Z1 Z2]. split; auto. apply install_LI; auto; [apply negb_true_iff; auto|apply Z.leb_le; auto].
  - apply SIL. unfold lstep in H. destruct ((l_commit s <? k) && (k <=? l_last s)) eqn:Z1; [|discriminate].
    injection H as <- <-. apply andb_true_iff in Z1. destruct Z1 as [Z1 Z2]. split; auto. apply commit_LI; auto.
    apply Z.ltb_lt in Z1. apply Z.leb_le in Z2. auto.
  - unfold lstep in H. destruct (l_run s) as [[k [|[i|t|t] a]]|] eqn:E.
    + apply SIL. injection H as <- <-. split; auto. eapply fsm_end_LI; eauto.
    + injection H as <- <-. exact (fsm_apply_LI h s k i a I E).
    + apply SIL. injection H as <- <-. split; auto. exact (fsm_done_LI h s k t a I E).
    + injection H as <- <-. exact (fsm_start_LI h s k t a I E).
    + destruct (l_queue s) as [|x q] eqn:Q; [discriminate|]. destruct x as [k|k| |t|l t|l t].
      * destruct (fsm_commit_LI h s k q I E Q) as (s2 & E2 & I2). rewrite E2 in H. cbn in H. injection H as <- <-. apply SIL. auto.
      * destruct (fsm_snap_LI h s k q s' o I E Q H) as [I2 [->|[-> X]]]; split; auto. exact Logic.I.
      * injection H as <- <-. destruct (fsm_task_LI h s _ q _ I E Q eq_refl) as [X Y]. split; auto. exact Logic.I.
      * injection H as <- <-. destruct (fsm_task_LI h s _ q _ I E Q eq_refl) as [X Y]. split; auto. apply Y; auto.
      * injection H as <- <-. destruct (fsm_task_LI h s _ q _ I E Q eq_refl) as [X Y]. split; auto. exact Logic.I.
      * injection H as <- <-. destruct (fsm_task_LI h s _ q _ I E Q eq_refl) as [X Y]. split; auto. exact Logic.I.
  - apply SIL. unfold lstep in H. destruct (l_run s) as [[k a]|] eqn:E; [|discriminate]. injection H as <- <-. split; auto.
    rewrite die_fsm. apply err_LI; [apply die_LI; auto|apply NS_keep with s; auto; left; apply die_run|apply die_role|]. rewrite die_run, E. auto.
  - apply SIL. injection H as <- <-. split; auto. apply die_LI; auto.
  - apply SIL. unfold lstep in H. destruct (l_role s) eqn:R; try discriminate. destruct (l_run s) eqn:E; [discriminate|].
    injection H as <- <-. split; auto. apply err_LI; auto. rewrite E. auto.
Qed.

Lemma step_NS h s e s' o : LI h s -> NS h s -> lstep s e = Some (s', o) -> NS (h ++ o) s'.
Proof.
  intros I N E.
  assert (SIL : forall s1, Some (s1, []) = Some (s', o) -> l_run s1 = l_run s \/ l_run s1 = None -> NS (h ++ o) s').
  { intros s1 [= <- <-] R. rewrite app_nil_r. apply NS_keep with s; auto. }
  assert (CL : l_run (clear_leader s) = l_run s) by (unfold clear_leader, push; destruct (l_leader s); [destruct (lleading (l_role s))|]; auto).
  assert (SD : forall t, l_run (lstep_down t s) = l_run s).
  { intros t. destruct (lactive (l_role s)) eqn:A; [apply (sd_role t s A)|]. unfold lstep_down. rewrite A. auto. }
  assert (FO : forall l s0, l_run (follow l s0) = l_run s0) by (intros l s0; unfold follow; destruct (l_leader s0); auto).
  destruct e; cbn [lstep] in E.
  - destruct (l_role s); try discriminate; (eapply SIL; [exact E|left; exact CL]).
  - destruct (l_role s); try discriminate. injection E as <- <-. eapply NS_cb; eauto. intros u m X; inversion X; auto.
  - eapply SIL; [exact E|auto].
  - destruct (_ || _); (eapply SIL; [exact E|left; auto]). unfold check_sd. rewrite FO.
    destruct (l_term s <? t); auto. destruct (l_role s); auto. destruct (l_leader s); auto.
  - destruct (l_role s); (eapply SIL; [exact E|left; auto]).
  - destruct (l_role s); try (eapply SIL; [exact E|left; auto]; fail). destruct (l_ready s); (eapply SIL; [exact E|left; auto]).
  - destruct (existsb _ _); [|discriminate]. destruct (l_role s); try (eapply SIL; [exact E|left; auto]; fail). destruct (t =? l_term s); (eapply SIL; [exact E|left; auto]).
  - destruct (lleading (l_role s)); [|discriminate]. eapply SIL; [exact E|left; auto].
  - destruct (_ && _); [|discriminate]. eapply SIL; [exact E|left; auto].
  - destruct (_ && _); [|discriminate]. eapply SIL; [exact E|left; auto].
  - destruct (_ && _); [|discriminate]. eapply SIL; [exact E|left; auto].
  - destruct (nth_error _ _); [|discriminate]. eapply SIL; [exact E|left; auto].
  - destruct (l_queue s) as [|[k| | | | |] [|[k'| | | | |] q]]; try discriminate. eapply SIL; [exact E|left; auto].
  - destruct (l_run s) as [[k [|[i|t|t] a]]|] eqn:R.
    + eapply SIL; [exact E|right; auto].
    + injection E as <- <-. eapply NS_cb; eauto. { intros u m X; inversion X; auto. }
      intros k' a' t' E1 Hi. red_lc. injection E1 as <- <-. exists k, (AApply i :: a). split; auto. right; auto.
    + injection E as <- <-. rewrite app_nil_r. intros m k' a' t' U E1 Hi. red_lc. injection E1 as <- <-. eapply N; eauto. right; auto.
    + injection E as <- <-. intros m k' a' t' U. apply uoks_app in U. destruct U as (u & U1 & U2). apply uoks_one in U2. inversion U2.
    + destruct (l_queue s) as [|x q] eqn:Q; [discriminate|].
      assert (RN : forall c s1, l_run s1 = None -> NS (h ++ c) s1) by (intros c s1 R1 m k a t _ E1; congruence).
      destruct x as [k|k| |t|l t|l t]; try (injection E as <- <-; apply RN; exact R).
      * destruct (do_committed k (set_q q (l_flight s) s)) as [s2|] eqn:D; [|discriminate]. injection E as <- <-. rewrite app_nil_r.
        eapply commit_NS; eauto.
      * destruct (_ || _); injection E as <- <-; apply RN; auto.
  - destruct (l_run s) as [[k a]|] eqn:R; [|discriminate]. eapply SIL; [exact E|right]. rewrite die_fsm. auto.
  - eapply SIL; [exact E|left; apply die_run].
  - destruct (l_role s); try discriminate. destruct (l_run s); [discriminate|]. eapply SIL; [exact E|right; auto].
Qed.

Lemma run_LI es : forall h s s' o, LI h s -> NS h s -> lrun s es = Some (s', o) ->
  LI (h ++ o) s' /\ forall o1 c o2, o = o1 ++ c :: o2 -> call_ok (h ++ o1) c.
Proof.
  induction es as [|e es IH]; intros h s s' o I N H; cbn in H.
  - injection H as <- <-. rewrite app_nil_r. split; auto. intros o1 c o2 E. destruct o1; discriminate.
  - destruct (lstep s e) as [[s1 p1]|] eqn:E1; [|discriminate]. destruct (lrun s1 es) as [[s2 p2]|] eqn:E2; [|discriminate].
    injection H as <- <-. destruct (step_LI h s e s1 p1 I N E1) as [I1 C1]. pose proof (step_NS h s e s1 p1 I N E1) as N1. destruct (IH _ _ _ _ I1 N1 E2) as [I2 C2].
    rewrite app_assoc. split; auto. intros o1 c o2 E. destruct p1 as [|c1 [|]]; cbn in C1; [|  |tauto].
    + rewrite app_nil_r in C2. apply (C2 o1 c o2); auto.
    + destruct o1 as [|x o1]; cbn in E; injection E as <- E.
      * rewrite app_nil_r. auto.
      * specialize (C2 o1 c o2 E). rewrite <- app_assoc in C2. exact C2.
Qed.

Lemma init_run es s h : lrun linit es = Some (s, h) -> LI h s /\ forall h1 c h2, h = h1 ++ c :: h2 -> call_ok h1 c.
Proof. intros H. apply (run_LI es [] linit s h init_LI); auto. intros m k a t _ E. discriminate. Qed.

(** The executor's loop never fails its check. *)
Lemma fsm_enabled h s : LI h s -> (l_run s <> None \/ l_queue s <> []) -> exists s' o, lstep s LFsm = Some (s', o).
Proof.
  intros I W. unfold lstep. destruct (l_run s) as [[k [|[i|t|t] a]]|] eqn:E; eauto.
  destruct (l_queue s) as [|x q] eqn:Q; [destruct W; congruence|]. destruct x as [k|k| |t|l t|l t]; eauto.
  - destruct (fsm_commit_LI h s k q I E Q) as (s2 & -> & _). cbn. eauto.
  - destruct (l_err s || (k <? l_applied s)); eauto.
Qed.
