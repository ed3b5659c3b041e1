(** What a node that drops log entries stands for in Reconf.v, and what stays true of its
    snapshots. *)
From Verif Require Import Base BaseLemmas LogEntry Ballot Node LogPrefix Reconf ReconfStatic BallotBoxProofs Compact.
From Verif Require BallotBox ConfCtx.

Definition mx (k : Z) (b : BallotBox.box) : BallotBox.box :=
  BallotBox.mkBox (Z.max (BallotBox.lc b) k) (BallotBox.pend b) (BallotBox.bq b) (BallotBox.cq b).
Definition absc (h : list lent) (k : Z) (c : rnode) : rnode :=
  mkR (r_self c) (r_st c) (r_term c) (r_voted c) (r_leader c) h (r_sync c) (mx k (r_box c))
      (r_applied c) (r_ballot c) (r_stage c) (r_done c).
Definition mid (n : snode) : Z := li_index (s_snap n).
Definition abs (n : snode) : rnode := absc (hist n) (mid n) (core n).

Lemma mx_append : forall k b c o x, BallotBox.append_pending_task (mx k b) c o x = option_map (mx k) (BallotBox.append_pending_task b c o x).
Proof. intros. unfold BallotBox.append_pending_task, mx. cbn [BallotBox.pend]. destruct (0 <? BallotBox.pend b); reflexivity. Qed.
Lemma mx_reset : forall k b i b', k < i -> BallotBox.reset_pending_index b i = Some b' ->
  BallotBox.reset_pending_index (mx k b) i = Some (mx k b').
Proof.
  intros k b i b' L H. unfold BallotBox.reset_pending_index, mx in *. cbn [BallotBox.bq BallotBox.cq BallotBox.pend BallotBox.lc].
  destruct (BallotBox.bq b); [|discriminate H]. destruct (BallotBox.cq_q (BallotBox.cq b)); [|discriminate H].
  destruct (BallotBox.pend b =? 0); [|discriminate H]. cbn [andb] in *.
  destruct (Z.ltb_spec (BallotBox.lc b) i); [|discriminate H]. injection H as <-.
  destruct (Z.ltb_spec (Z.max (BallotBox.lc b) k) i); [reflexivity|lia].
Qed.
Lemma mx_commit : forall k b first last p b' r o, Inv0 (mx k b) -> BallotBox.commit_at b first last p = (b', r, o) ->
  BallotBox.commit_at (mx k b) first last p = (mx k b', r, o).
Proof.
  intros k b first last p b' r o I H. unfold BallotBox.commit_at in *. cbn [mx BallotBox.pend BallotBox.bq BallotBox.lc BallotBox.cq].
  destruct (Z.eqb_spec (BallotBox.pend b) 0) as [|P0]; [injection H as <- <- <-; reflexivity|].
  destruct (last <? BallotBox.pend b); [injection H as <- <- <-; reflexivity|].
  destruct (_ <=? last); [injection H as <- <- <-; reflexivity|].
  destruct (BallotBox.commit_loop (BallotBox.bq b) (BallotBox.pend b) (Z.max (BallotBox.pend b) first) last p no_hint 0) as [q c] eqn:E.
  destruct (Z.eqb_spec c 0) as [|Nc]; [injection H as <- <- <-; reflexivity|]. injection H as <- <- <-.
  assert (BP : k < BallotBox.pend b /\ 0 < BallotBox.pend b).
  { destruct I as (I1 & I2 & _). cbn [mx BallotBox.lc BallotBox.pend] in *. destruct I2 as [I2|I2]; [congruence|lia]. }
  destruct (commit_loop_spec _ _ _ _ _ _ _ _ _ (proj2 BP) E) as (_ & _ & [Q|(Q & _)] & _); [congruence|].
  unfold mx. cbn [BallotBox.lc BallotBox.pend BallotBox.bq BallotBox.cq]. rewrite Z.max_l by lia. reflexivity.
Qed.
Lemma mx_set : forall k b i b' r o, BallotBox.set_last_committed_index b i = Some (b', r, o) ->
  exists r' o', BallotBox.set_last_committed_index (mx k b) i = Some (mx k b', r', o').
Proof.
  intros k b i b' r o H. unfold BallotBox.set_last_committed_index in *. cbn [mx BallotBox.pend BallotBox.bq BallotBox.lc BallotBox.cq].
  destruct (negb (BallotBox.pend b =? 0) || _).
  - destruct (i <? BallotBox.pend b); [|discriminate H]. injection H as <- _ _. eauto.
  - destruct (Z.ltb_spec i (BallotBox.lc b)).
    + injection H as <- _ _. destruct (Z.ltb_spec i (Z.max (BallotBox.lc b) k)); [eauto|lia].
    + destruct (Z.ltb_spec (BallotBox.lc b) i); injection H as <- _ _.
      * destruct (Z.ltb_spec i (Z.max (BallotBox.lc b) k)).
        { do 2 eexists. unfold mx. cbn [BallotBox.lc BallotBox.pend BallotBox.bq BallotBox.cq]. rewrite !Z.max_r by lia. reflexivity. }
        destruct (Z.ltb_spec (Z.max (BallotBox.lc b) k) i).
        { do 2 eexists. unfold mx. cbn [BallotBox.lc BallotBox.pend BallotBox.bq BallotBox.cq]. rewrite (Z.max_l i k) by lia. reflexivity. }
        do 2 eexists. unfold mx. cbn [BallotBox.lc BallotBox.pend BallotBox.bq BallotBox.cq]. replace (Z.max (BallotBox.lc b) k) with (Z.max i k) by lia. reflexivity.
      * destruct (Z.ltb_spec i (Z.max (BallotBox.lc b) k)); [eauto|].
        destruct (Z.ltb_spec (Z.max (BallotBox.lc b) k) i); [lia|eauto].
Qed.
Lemma abs_step_down : forall h k t c, absc h k (step_down t c) = step_down t (absc h k c).
Proof.
  intros. unfold step_down, absc. cbn [r_self r_st r_term r_voted r_leader r_log r_sync r_box r_applied r_ballot r_stage r_done].
  f_equal. destruct (r_st c); reflexivity.
Qed.
Lemma abs_check : forall h k t from c, absc h k (check_step_down t from c) = check_step_down t from (absc h k c).
Proof.
  intros. unfold check_step_down.
  set (c1 := if r_term c <? t then _ else _).
  set (a1 := if r_term (absc h k c) <? t then _ else _).
  assert (E : absc h k c1 = a1).
  { unfold c1, a1. cbn [absc r_term r_st r_leader]. destruct (r_term c <? t); [apply abs_step_down|].
    destruct (r_st c); try apply abs_step_down. destruct (r_leader c); [reflexivity|apply abs_step_down]. }
  rewrite <- E. cbn [absc r_leader]. destruct (r_leader c1); reflexivity.
Qed.
Lemma abs_on : forall f n, (forall h k c, absc h k (f c) = f (absc h k c)) -> (forall c, r_log (f c) = r_log c) -> abs (on f n) = f (abs n).
Proof. intros f n H1 H2. unfold abs. rewrite <- H1. f_equal. unfold hist, on. cbn [core s_first s_disk]. rewrite H2. reflexivity. Qed.

Section Inv.
Variable conf0 : list peer.
Variable boot : peer -> bool.
Variable dec : Z -> option jconf.
Notation last_conf := (last_conf dec).

(** [s] is a snapshot of the history [h] *)
Definition snap_is (s : snapshot) (h : list lent) : Prop :=
  p_data s = firstn (Z.to_nat (p_idx s)) h /\ 0 <= p_idx s <= zlen h /\ p_term s = term_at h (p_idx s) /\
  (0 < p_idx s -> forall b, last_conf b (p_data s) = p_conf s).
Record SI (n : snode) : Prop := mkSI {
  q_first : 1 <= s_first n <= mid n + 1;
  q_mid : 0 <= mid n <= p_idx (s_disk n);
  q_disk : p_idx (s_disk n) <= r_applied (core n);
  q_app : r_applied (core n) <= zlen (hist n);
  q_data : snap_is (s_disk n) (hist n);
  q_mterm : li_term (s_snap n) = term_at (hist n) (mid n);
  q_mconf : 0 < mid n -> forall b, last_conf b (firstn (Z.to_nat (mid n)) (hist n)) = s_sconf n;
  q_virt : li_index (s_virt n) = 0 \/ (li_index (s_virt n) = s_first n - 1 /\ li_term (s_virt n) = term_at (hist n) (s_first n - 1));
  q_sm : s_sm n = firstn (Z.to_nat (r_applied (core n))) (hist n);
  q_at : s_aterm n = term_at (hist n) (r_applied (core n));
  q_save : forall s b, s_save n = Some (s, b) -> snap_is s (hist n) /\ 0 < p_idx s <= r_applied (core n) /\ (b = true -> s = s_disk n) }.

Lemma zlen_hist : forall n, SI n -> zlen (firstn (Z.to_nat (s_first n - 1)) (p_data (s_disk n))) = s_first n - 1 /\
  zlen (hist n) = last_index n.
Proof.
  intros n H. destruct H. destruct q_data0 as (D1 & D2 & _).
  assert (E : zlen (firstn (Z.to_nat (s_first n - 1)) (p_data (s_disk n))) = s_first n - 1).
  { apply zlen_firstn_le. rewrite D1, zlen_firstn_le; lia. }
  split; auto. unfold hist, last_index. rewrite zlen_app, E. reflexivity.
Qed.
Lemma znth_hist : forall n i, SI n -> s_first n <= i -> znth (hist n) (i - 1) = znth (r_log (core n)) (i - s_first n).
Proof.
  intros n i H L. destruct (zlen_hist n H) as [Z0 _]. unfold hist. rewrite znth_app2; [|rewrite Z0; lia].
  f_equal. lia.
Qed.
Lemma term_firstn : forall (h : list lent) i k, i <= k -> term_at (firstn (Z.to_nat k) h) i = term_at h i.
Proof.
  intros h i k H. unfold term_at. destruct (Z_le_gt_dec i 0).
  { unfold znth. destruct (Z.ltb_spec (i - 1) 0); [reflexivity|lia]. }
  rewrite znth_firstn_eq by lia. reflexivity.
Qed.
Lemma term_over : forall h i, zlen h < i -> term_at h i = 0.
Proof. intros h i H. unfold term_at. rewrite (proj2 (znth_none h (i - 1))) by lia. reflexivity. Qed.
(** what LogManager knows of terms *)
Lemma sterm_hist : forall n i, SI n -> sterm n i = term_at (hist n) i \/ (sterm n i = 0 /\ 0 < i < s_first n).
Proof.
  intros n i H. destruct (zlen_hist n H) as [Z0 Z1]. pose proof (znth_hist n i H) as Z2. unfold sterm.
  destruct (Z.eqb_spec i 0) as [->|N0]; [left; symmetry; apply term_at_0|].
  destruct (Z.eqb_spec i (li_index (s_virt n))) as [->|N1].
  { left. destruct (q_virt _ H) as [X|[X Y]]; [congruence|]. rewrite X, Y. reflexivity. }
  destruct (Z.eqb_spec i (li_index (s_snap n))) as [->|N2]; [left; apply q_mterm; auto|].
  destruct (Z.ltb_spec (last_index n) i) as [L|L]; cbn [orb].
  { left. symmetry. apply term_over. lia. }
  destruct (Z.ltb_spec i (s_first n)) as [F|F].
  - destruct (Z_le_gt_dec i 0); [|right; split; [auto|lia]]. left. unfold term_at, znth. destruct (Z.ltb_spec (i - 1) 0); [reflexivity|lia].
  - left. unfold term_at. rewrite Z2 by lia. reflexivity.
Qed.
Lemma sterm_at : forall n i, SI n -> s_first n <= i \/ i = mid n -> sterm n i = term_at (hist n) i.
Proof.
  intros n i H B. destruct (sterm_hist n i H) as [|[E L]]; auto. destruct B as [B|B]; [lia|].
  unfold sterm in *. subst i. destruct (Z.eqb_spec (mid n) 0) as [->|N0]; [symmetry; apply term_at_0|].
  destruct (Z.eqb_spec (mid n) (li_index (s_virt n))) as [X|N1].
  { destruct (q_virt _ H) as [X1|[X1 Y]]; [congruence|]. rewrite X, X1, Y. reflexivity. }
  unfold mid. rewrite Z.eqb_refl. rewrite (q_mterm _ H). reflexivity.
Qed.
Lemma last_lid_hist : forall n, SI n -> last_lid n = last_id (hist n).
Proof.
  intros n H. destruct (zlen_hist n H) as [_ Z1]. unfold last_lid, last_id. rewrite Z1.
  destruct (Z.eqb_spec (last_index n) (li_index (s_snap n))) as [E|N].
  - destruct (s_snap n) as [i t] eqn:S. cbn [li_index] in E. rewrite E. f_equal.
    pose proof (q_mterm _ H) as X. unfold mid in X. rewrite S in X. exact X.
  - f_equal. destruct (Z.eq_dec (zlen (r_log (core n))) 0) as [Y|Y].
    + exfalso. apply N. unfold last_index. pose proof (q_first _ H). pose proof (q_disk _ H). pose proof (q_mid _ H). pose proof (q_app _ H).
      unfold mid, last_index in *. lia.
    + apply sterm_at; auto. left. unfold last_index. pose proof (zlen_nonneg (r_log (core n))). lia.
Qed.

(** configurations *)
Lemma last_conf_idem : forall l b, last_conf (last_conf b l) l = last_conf b l.
Proof.
  assert (X : forall l b b', last_conf b l = last_conf b' l \/ (last_conf b l = b /\ last_conf b' l = b')).
  { induction l as [|e l IH]; intros b b'; cbn [Reconf.last_conf]; auto. destruct (dec (l_val e)); auto. }
  intros l b. destruct (X l (last_conf b l) b) as [E|[E _]]; exact E.
Qed.
Lemma last_conf_pre : forall j l x, last_conf (last_conf x (firstn j l)) l = last_conf x l.
Proof.
  intros j l x. transitivity (last_conf (last_conf x (firstn j l)) (firstn j l ++ skipn j l)).
  - rewrite firstn_skipn. reflexivity.
  - rewrite last_conf_app, last_conf_idem, <- last_conf_app, firstn_skipn. reflexivity.
Qed.
Lemma s_conf_hist : forall n, SI n -> s_conf conf0 boot dec n = conf_of conf0 boot dec (r_self (core n)) (hist n).
Proof.
  intros n H. unfold s_conf, conf_of. set (b := (if boot _ then _ else _, None)).
  destruct (zlen_hist n H) as [Z0 Z1]. fold (mid n). destruct (Z.eqb_spec (mid n) 0) as [E|N].
  - f_equal. unfold hist. replace (s_first n - 1) with 0 by (pose proof (q_first _ H); lia). reflexivity.
  - pose proof (q_mid _ H). pose proof (q_first _ H). pose proof (q_disk _ H). pose proof (q_app _ H).
    rewrite <- (q_mconf _ H ltac:(lia) b). unfold hist in *.
    set (A := firstn (Z.to_nat (s_first n - 1)) (p_data (s_disk n))) in *. set (l := r_log (core n)) in *.
    rewrite firstn_app. rewrite (firstn_all2 A) by (unfold zlen in *; lia). rewrite !last_conf_app.
    apply last_conf_pre.
Qed.
Lemma conf_at_hist : forall n, SI n -> 0 < r_applied (core n) ->
  (forall b b', last_conf b (firstn (Z.to_nat (r_applied (core n))) (hist n)) = last_conf b' (firstn (Z.to_nat (r_applied (core n))) (hist n))) ->
  forall b, last_conf b (firstn (Z.to_nat (r_applied (core n))) (hist n)) = conf_at dec n (r_applied (core n)).
Proof.
  intros n H P D b. unfold conf_at. set (a := r_applied (core n)) in *.
  destruct (zlen_hist n H) as [Z0 Z1].
  pose proof (q_mid _ H). pose proof (q_first _ H). pose proof (q_disk _ H). pose proof (q_app _ H). fold a in H2, H3.
  set (k := mid n) in *.
  assert (E : firstn (Z.to_nat a) (hist n) = firstn (Z.to_nat (s_first n - 1)) (p_data (s_disk n)) ++ firstn (Z.to_nat (a - (s_first n - 1))) (r_log (core n))).
  { unfold hist. set (A := firstn (Z.to_nat (s_first n - 1)) (p_data (s_disk n))) in *. rewrite firstn_app.
    rewrite (firstn_all2 A) by (unfold zlen in *; lia). f_equal. f_equal. unfold zlen in *. lia. }
  destruct (Z.eq_dec k 0) as [K|K].
  - rewrite (D b (s_sconf n)), E. replace (s_first n - 1) with 0 by lia. reflexivity.
  - rewrite <- (q_mconf _ H ltac:(fold k; lia) b). fold k. rewrite E. unfold hist in *.
    set (A := firstn (Z.to_nat (s_first n - 1)) (p_data (s_disk n))) in *. set (l := r_log (core n)) in *.
    rewrite (firstn_app (Z.to_nat k)). rewrite (firstn_all2 (n := Z.to_nat k) A) by (unfold zlen in *; lia). rewrite !last_conf_app.
    set (j := (Z.to_nat k - length A)%nat).
    replace (firstn j l) with (firstn j (firstn (Z.to_nat (a - (s_first n - 1))) l)).
    2:{ rewrite firstn_firstn. f_equal. unfold j, zlen in *. lia. }
    symmetry. apply last_conf_pre.
Qed.

(** the log may change above what is applied *)
Lemma snap_is_ext : forall s h h' a, snap_is s h -> p_idx s <= a -> 0 <= a <= zlen h -> a <= zlen h' ->
  firstn (Z.to_nat a) h' = firstn (Z.to_nat a) h -> snap_is s h'.
Proof.
  intros s h h' a (A & B & C & D) L1 L2 L3 E. unfold snap_is. sp; auto; try lia.
  - rewrite A. transitivity (firstn (Z.to_nat (p_idx s)) (firstn (Z.to_nat a) h)).
    + rewrite firstn_firstn. f_equal. lia.
    + rewrite <- E, firstn_firstn. f_equal. lia.
  - rewrite C, <- (term_firstn h _ a), <- (term_firstn h' _ a), E by lia. reflexivity.
Qed.
Lemma SI_core : forall n c', SI n -> r_applied c' = r_applied (core n) ->
  firstn (Z.to_nat (r_applied (core n))) (hist (on (fun _ => c') n)) = firstn (Z.to_nat (r_applied (core n))) (hist n) ->
  SI (on (fun _ => c') n).
Proof.
  intros n c' H EA E. set (n' := on (fun _ => c') n) in *. set (a := r_applied (core n)) in *.
  pose proof (q_mid _ H). pose proof (q_first _ H). pose proof (q_disk _ H). pose proof (q_app _ H). fold a in H2, H3.
  assert (LA : a <= zlen (hist n')).
  { assert (X : zlen (firstn (Z.to_nat a) (hist n')) = a) by (rewrite E; apply zlen_firstn_le; lia).
    rewrite zlen_firstn in X. lia. }
  assert (T : forall i, i <= a -> term_at (hist n') i = term_at (hist n) i).
  { intros i Hi. rewrite <- (term_firstn (hist n) _ a), <- (term_firstn (hist n') _ a), E by lia. reflexivity. }
  destruct H. constructor; auto; cbn [n' on core s_first s_virt s_snap s_sconf s_disk s_save s_sm s_aterm]; try rewrite EA; fold a n'; auto.
  - eapply snap_is_ext; eauto. lia.
  - change (mid n') with (mid n). rewrite q_mterm0. symmetry. apply T. lia.
  - change (mid n') with (mid n). intros P b. rewrite <- (q_mconf0 P b). f_equal.
    transitivity (firstn (Z.to_nat (mid n)) (firstn (Z.to_nat a) (hist n'))).
    + rewrite firstn_firstn. f_equal. lia.
    + rewrite E, firstn_firstn. f_equal. lia.
  - destruct q_virt0 as [X|[X Y]]; auto. right. split; auto. rewrite Y. symmetry. apply T. lia.
  - rewrite q_sm0. symmetry. exact E.
  - rewrite q_at0. symmetry. apply T. lia.
  - intros s b Hs. destruct (q_save0 s b Hs) as (X1 & X2 & X3). sp; auto; try lia. eapply snap_is_ext; eauto; lia.
Qed.
Lemma SI_same : forall n f, SI n -> r_applied (f (core n)) = r_applied (core n) -> r_log (f (core n)) = r_log (core n) -> SI (on f n).
Proof.
  intros n f H A L. change (on f n) with (on (fun _ => f (core n)) n). apply SI_core; auto.
  unfold hist, on. cbn [core s_first s_disk]. rewrite L. reflexivity.
Qed.
Lemma SI_grow : forall n f l, SI n -> r_applied (f (core n)) = r_applied (core n) -> r_log (f (core n)) = r_log (core n) ++ l -> SI (on f n).
Proof.
  intros n f l H A L. change (on f n) with (on (fun _ => f (core n)) n). apply SI_core; auto.
  replace (hist (on (fun _ => f (core n)) n)) with (hist n ++ l).
  - pose proof (q_mid _ H). pose proof (q_disk _ H). pose proof (q_app _ H). rewrite firstn_app.
    replace (Z.to_nat (r_applied (core n)) - length (hist n))%nat with 0%nat by (unfold zlen in *; lia). cbn [firstn]. apply app_nil_r.
  - unfold hist, on. cbn [core s_first s_disk]. rewrite L, app_assoc. reflexivity.
Qed.
Lemma SI_init : forall p, SI (sinit p).
Proof.
  intros p. constructor; cbn [sinit rinit core s_first s_virt s_snap s_sconf s_disk s_save s_sm s_aterm no_snapshot p_idx p_term p_conf p_data r_applied r_log mid li_index li_term];
    unfold mid, snap_is, hist; cbn [sinit rinit core s_first s_virt s_snap s_sconf s_disk s_save s_sm s_aterm no_snapshot p_idx p_term p_conf p_data r_applied r_log mid li_index li_term];
    try reflexivity; auto; try (split; lia); try (intros X; discriminate X); try (intros ? ? X; discriminate X).
  sp; try reflexivity; try (intros X; discriminate X).
Qed.
End Inv.
