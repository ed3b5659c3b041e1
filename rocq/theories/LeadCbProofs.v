From Verif Require Import Base LeadCb LeadCbSpec.

Lemma uoks_app u a b w : uoks u (a ++ b) w <-> exists v, uoks u a v /\ uoks v b w.
Proof.
  revert u. induction a as [|c a IH]; intros u; cbn.
  - split; [intros H; exists u; split; [constructor|auto]|intros (v & H1 & H2); inversion H1; subst; auto].
  - split.
    + intros H. inversion H; subst. apply IH in H5. destruct H5 as (v & H5 & H6).
      exists v. split; auto. econstructor; eauto.
    + intros (v & H1 & H2). inversion H1; subst. econstructor; eauto. apply IH. eauto.
Qed.
Lemma uoks_nil u v : uoks u [] v <-> u = v.
Proof. split; intros H; [inversion H; auto|subst; constructor]. Qed.
Lemma uoks_one u c v : uoks u [c] v <-> uok u c v.
Proof. split; intros H; [inversion H; subst; inversion H5; subst; auto|econstructor; eauto; constructor]. Qed.

Lemma reached_app a b r : reached (a ++ b) r = reached b (reached a r).
Proof. revert r. induction a as [|c a IH]; intros r; cbn; auto. destruct c; apply IH. Qed.

(** The callbacks still to come. *)
Definition acb1 (a : act) : list cb := match a with AStart t => [CbStart t] | _ => [] end.
Definition acb (r : option (Z * list act)) : list cb := match r with Some (_, l) => flat_map acb1 l | None => [] end.
Definition qcb1 (t : task) : list cb :=
  match t with
  | TCommitted _ | TSnap _ => []
  | TStop t => [CbStop t] | TStart t => [CbStart t] | TStartF l t => [CbStartF l t] | TStopF l t => [CbStopF l t]
  end.
Definition qcb (q : list task) : list cb := flat_map qcb1 q.
Lemma qcb_app a b : qcb (a ++ b) = qcb a ++ qcb b.
Proof. apply flat_map_app. Qed.

Definition waiting (s : lc) : Prop := exists t tl, l_cq s = Some t :: tl.
Definition allnone (l : list (option Z)) : Prop := Forall (fun o => o = None) l.

Definition final (s : lc) (v : ustate) : Prop :=
  match l_role s with
  | LLeader => (waiting s /\ exists m, v = UNone m /\ m < l_term s) \/ (~ waiting s /\ v = ULead (l_term s))
  | LCandidate => exists m, v = UNone m /\ m < l_term s
  | LTransferring | LDead => exists m, v = UNone m /\ m <= l_term s
  | LFollower => match l_leader s with
                 | Some l => v = UFollow l (l_term s)
                 | None => exists m, v = UNone m /\ m <= l_term s
                 end
  end.

Definition qle (b : Z) (t : task) : Prop := match t with TCommitted k | TSnap k => k <= b | _ => True end.

(** [acts] apply the indices after [r] one by one up to [k]. *)
Fixpoint chain (r : Z) (acts : list act) (k : Z) : Prop :=
  match acts with
  | [] => r = k
  | AApply i :: a => i = r + 1 /\ chain i a k
  | _ :: a => chain r a k
  end.
(** Every start comes with an election whose first entry has been applied. *)
Definition won (h : list cb) (t r : Z) : Prop := exists i, In (OElected t i) h /\ i <= r.
Fixpoint awon (h : list cb) (r : Z) (acts : list act) : Prop :=
  match acts with
  | [] => True
  | AApply i :: a => awon h i a
  | ADone t :: a | AStart t :: a => won h t r /\ awon h r a
  end.

Record LI (h : list cb) (s : lc) : Prop := mkLI {
  i_u : exists u v, uoks (UNone 0) h u /\ uoks u (acb (l_run s) ++ qcb (l_queue s)) v /\ final s v;
  i_term : 0 <= l_term s;
  i_bc : 0 <= l_commit s <= l_last s;
  i_bf : Forall (fun k => k <= l_commit s) (l_flight s);
  i_bq : Forall (qle (l_commit s)) (l_queue s);
  i_ba : l_applied s <= l_commit s /\ match l_run s with Some (k, _) => k <= l_commit s | None => True end;
  i_cq : if lleading (l_role s) then l_first s + zlen (l_cq s) = l_last s + 1 else l_cq s = [];
  i_none : allnone (tl (l_cq s));
  i_wait : forall t, hd None (l_cq s) = Some t ->
             t = l_term s /\ l_role s = LLeader /\ l_ready s = false /\ l_applied s < l_first s /\
             match l_run s with Some (k, _) => k < l_first s | None => True end /\
             (forall k, In (TSnap k) (l_queue s) -> k < l_first s) /\
             (forall q1 k q2, l_queue s = q1 ++ TCommitted k :: q2 -> l_first s <= k -> qcb q2 = []) /\
             (l_first s <= l_commit s -> exists k, (In k (l_flight s) \/ In (TCommitted k) (l_queue s)) /\ l_first s <= k);
  i_run : match l_run s with
          | Some (k, a) => forall t, In (ADone t) a \/ In (AStart t) a ->
                             t <= l_term s /\ (t = l_term s -> ~ waiting s)
          | None => True end;
  i_err : l_err s = true -> l_role s = LDead /\ l_run s = None;
  i_lead : lleading (l_role s) = true -> l_leader s <> None;
  i_cand : l_role s = LCandidate \/ l_role s = LDead -> l_leader s = None;
  i_ready : l_ready s = true -> lleading (l_role s) = true;
  i_trans : l_role s = LTransferring -> l_ready s = true;
  (* what has been applied *)
  i_reach : l_err s = false -> match l_run s with
                               | Some (k, a) => chain (reached h 0) a k /\ awon h (reached h 0) a
                               | None => reached h 0 = l_applied s
                               end;
  i_el : lleading (l_role s) = true -> exists i, In (OElected (l_term s) i) h /\ (waiting s -> i = l_first s);
  i_rdy : l_ready s = true -> won h (l_term s) (reached h 0);
  i_tst : forall t, In (TStart t) (l_queue s) -> won h t (reached h 0);
  i_once : forall t i, In (OElected t i) h -> t <= l_term s /\ (l_role s = LCandidate -> t < l_term s) }.

Lemma won_app h t r h' r' : won h t r -> r <= r' -> won (h ++ h') t r'.
Proof. intros (i & Hi & L) Hr. exists i. split; [apply in_app_iff; auto|lia]. Qed.
Lemma awon_app h h' a : forall r, awon h r a -> awon (h ++ h') r a.
Proof.
  induction a as [|x a IH]; intros r; cbn; auto. destruct x; auto.
  - intros [H1 H2]; split; auto. apply won_app with r; auto; lia.
  - intros [H1 H2]; split; auto. apply won_app with r; auto; lia.
Qed.

Lemma waiting_hd s : waiting s <-> exists t, hd None (l_cq s) = Some t.
Proof.
  unfold waiting. split.
  - intros (t & tl & ->). exists t. auto.
  - intros (t & H). destruct (l_cq s) as [|x l]; cbn in H; [discriminate|]. subst. eauto.
Qed.

Lemma init_LI : LI [] linit.
Proof.
  constructor; cbn; auto; try lia; try discriminate; try tauto.
  - exists (UNone 0), (UNone 0). split; [constructor|]. split; [constructor|]. exists 0. split; auto. lia.
  - constructor.
Qed.

(** Closures popped. *)
Lemma done_allnone first cl i : allnone cl -> done_at first cl i = None.
Proof.
  intros A. unfold done_at. destruct (i <? first); auto. destruct (nth_error cl _) as [o|] eqn:E; auto.
  apply nth_error_In in E. unfold allnone in A. rewrite Forall_forall in A. apply A; auto.
Qed.
Lemma acts_allnone n : forall i first cl, allnone cl ->
  flat_map acb1 (acts_of i n first cl) = [] /\ (forall t, ~ In (ADone t) (acts_of i n first cl) /\ ~ In (AStart t) (acts_of i n first cl)).
Proof.
  induction n as [|n IH]; intros i first cl A; cbn [acts_of]; [split; auto|].
  rewrite done_allnone by auto. cbn [app flat_map acb1]. destruct (IH (i + 1) first cl A) as [H1 H2].
  split; auto. intros t. destruct (H2 t). split; intros [E|E]; try discriminate; auto.
Qed.
Lemma done_after first t cl i : allnone cl -> i <> first -> done_at first (Some t :: cl) i = None.
Proof.
  intros A Hi. unfold done_at. destruct (i <? first) eqn:E; auto. apply Z.ltb_ge in E.
  replace (Z.to_nat (i - first)) with (S (Z.to_nat (i - first - 1))) by lia. cbn [nth_error].
  destruct (nth_error cl _) as [o|] eqn:E2; auto.
  apply nth_error_In in E2. unfold allnone in A. rewrite Forall_forall in A. apply A; auto.
Qed.
Lemma acts_past n : forall i first t cl, allnone cl -> first < i ->
  flat_map acb1 (acts_of i n first (Some t :: cl)) = [] /\ (forall t', ~ In (ADone t') (acts_of i n first (Some t :: cl)) /\ ~ In (AStart t') (acts_of i n first (Some t :: cl))).
Proof.
  induction n as [|n IH]; intros i first t cl A Hi; cbn [acts_of]; [split; auto|].
  rewrite done_after by (auto; lia). cbn [app flat_map acb1]. destruct (IH (i + 1) first t cl A) as [H1 H2]; [lia|].
  split; auto. intros t'. destruct (H2 t'). split; intros [E|E]; try discriminate; auto.
Qed.
Lemma acts_start n : forall i first t cl, allnone cl -> i <= first < i + Z.of_nat n ->
  flat_map acb1 (acts_of i n first (Some t :: cl)) = [CbStart t] /\
  (forall t', In (ADone t') (acts_of i n first (Some t :: cl)) \/ In (AStart t') (acts_of i n first (Some t :: cl)) -> t' = t).
Proof.
  induction n as [|n IH]; intros i first t cl A Hi; [lia|]. cbn [acts_of].
  destruct (Z.eq_dec i first) as [->|Hn].
  - assert (done_at first (Some t :: cl) first = Some t) as ->.
    { unfold done_at. rewrite Z.ltb_irrefl. rewrite Z.sub_diag. reflexivity. }
    destruct (acts_past n (first + 1) first t cl A) as [H1 H2]; [lia|].
    cbn [app flat_map acb1]. rewrite H1. split; auto.
    intros t'. cbn [In app]. destruct (H2 t').
    intros [[E|[E|[E|E]]]|[E|[E|[E|E]]]]; try discriminate; try congruence; tauto.
  - rewrite done_after by auto. cbn [app flat_map acb1].
    destruct (IH (i + 1) first t cl A) as [H1 H2]; [lia|]. split; auto.
    intros t' H. apply H2. cbn [In] in H. destruct H as [[E|E]|[E|E]]; try discriminate; auto.
Qed.
Lemma acts_chain n : forall i first cl, chain (i - 1) (acts_of i n first cl) (i - 1 + Z.of_nat n).
Proof.
  induction n as [|n IH]; intros i first cl; cbn [acts_of chain]; [lia|].
  split; [lia|]. specialize (IH (i + 1) first cl). replace (i + 1 - 1) with i in IH by lia.
  replace (i - 1 + Z.of_nat (S n)) with (i + Z.of_nat n) by lia.
  destruct (done_at first cl i); cbn [app chain]; auto.
Qed.
Lemma acts_won h e n : forall i first cl,
  (forall j t, done_at first cl j = Some t -> In (OElected t e) h /\ e <= j) -> awon h (i - 1) (acts_of i n first cl).
Proof.
  induction n as [|n IH]; intros i first cl D; cbn [acts_of awon]; auto.
  specialize (IH (i + 1) first cl D). replace (i + 1 - 1) with i in IH by lia.
  destruct (done_at first cl i) as [t|] eqn:E; cbn [app awon]; auto.
  destruct (D _ _ E) as [D1 D2]. assert (won h t i) by (exists e; auto). auto.
Qed.
