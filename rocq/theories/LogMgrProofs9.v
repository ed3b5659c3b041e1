(** Lemmas for LogManager, part 9: every closure is answered once; errors stick. *)
From Verif Require Import Base BaseLemmas LogEntry LogRef LogRefProofs ConfMgr ConfMgrSpec ConfMgrProofs BallotBox LogMgr LogMgrSpec LogMgrProofs LogMgrProofs2 LogMgrProofs3 LogMgrProofs4 LogMgrProofs5 LogMgrProofs6 LogMgrProofs7.

Definition cntK (c : closure) (P : list dtask) : nat := length (filter (fun t => match t with KAppend c' _ _ => c' =? c | _ => false end) P).
Definition cntD (c : closure) (o : list gout) : nat := length (filter (fun x => match x with GDone c' _ => c' =? c | _ => false end) o).
Lemma cntK_app : forall c a b, cntK c (a ++ b) = (cntK c a + cntK c b)%nat.
Proof. intros. unfold cntK. rewrite filter_app, app_length. auto. Qed.
Lemma cntD_app : forall c a b, cntD c (a ++ b) = (cntD c a + cntD c b)%nat.
Proof. intros. unfold cntD. rewrite filter_app, app_length. auto. Qed.
Lemma cntD_map : forall c b code, cntD c (map (fun x : closure * list entry * list entry => GDone (fst (fst x)) code) b) = cntK c (map toK b).
Proof.
  intros c b code. unfold cntD, cntK. induction b as [|x b IH]; cbn; auto. destruct (fst (fst x) =? c); cbn; auto.
Qed.
Lemma pend_push_eq : forall t s, pend (push t s) = pend s ++ [t].
Proof. intros. unfold pend, push. cbn. rewrite app_assoc. auto. Qed.
Ltac cc := unfold cntK, cntD, pend in *; cbn; try (match goal with |- context [?a =? ?b] => destruct (a =? b) end); cbn; lia.
Lemma truncp_cnt : forall k s s' c, truncate_prefix k s = Some s' -> cntK c (pend s') = cntK c (pend s).
Proof.
  intros k s s' c H. unfold truncate_prefix in H. destruct (_ <? _); [discriminate|]. injection H as <-. rewrite pend_push_eq, cntK_app. cc.
Qed.
Lemma conflict_cnt : forall es s s1 es1 c, check_and_resolve_conflict es s = Some (CGo s1 es1) -> cntK c (pend s1) = cntK c (pend s).
Proof.
  intros es s s1 es1 c H. unfold check_and_resolve_conflict in H. destruct es as [|e0 es]. { injection H as <- <-. auto. }
  destruct (_ =? 0). { injection H as <- <-. auto. }
  destruct (_ <? _); [discriminate|]. destruct (_ <=? _); [discriminate|]. destruct (_ =? _). { injection H as <- <-. auto. }
  destruct (skip_matching s (e0 :: es)) as [[|e1 r]|]; [injection H as <- <-; auto| |discriminate].
  destruct (_ <=? _); [|injection H as <- <-; auto].
  destruct (unsafe_truncate_suffix (e_index e1 - 1) s) eqn:U; [|discriminate]. injection H as <- <-.
  unfold unsafe_truncate_suffix in U. destruct (_ <? _); [discriminate|]. destruct (unsafe_get_term _ _); [|discriminate].
  destruct (_ && _); [discriminate|]. injection U as <-.
  match goal with |- cntK c (pend ?x) = _ => change (pend x) with (pend (push (KSuffix (e_index e1 - 1) z) s)) end. rewrite pend_push_eq, cntK_app. cc.
Qed.
Lemma flush_form : forall n s s' o, disk_flush n s = Some (s', o) ->
  exists lid b st done, g_run s = Some (lid, b) /\ (if g_err s then (g_st s, []) else s_append (g_st s) (buf_entries b) n) = (st, done) /\
    let err := g_err s || negb (zlen done =? zlen (buf_entries b)) in
    g_q s' = g_q s /\ (exists lid', g_run s' = Some (lid', [])) /\ g_err s' = err /\ g_st s' = st /\
    o = (if g_err s then [] else GStored done :: if negb (zlen done =? zlen (buf_entries b)) then [GErr G_EIO] else [])
         ++ map (fun x => GDone (fst (fst x)) (if err then G_EIO else 0)) b.
Proof.
  intros n s s' o H. unfold disk_flush in H. destruct (g_run s) as [[lid [|y b]]|] eqn:R; try discriminate.
  unfold flush in H. destruct (if g_err s then _ else _) as [st done] eqn:SA. injection H as <- <-. exists lid, (y :: b), st, done.
  split; auto. split; auto. cbv zeta. split; auto. split; [eexists; reflexivity|]. auto.
Qed.
Definition isApp (c : closure) (e : gev) : nat := match e with VAppend c' _ => if c' =? c then 1 else 0 | _ => 0 end.
Lemma count_step : forall mb s e s' o c, gstep mb s e = Some (s', o) -> (cntK c (pend s') + cntD c o = cntK c (pend s) + isApp c e)%nat.
Proof.
  intros mb s e s' o c H. unfold gstep in H.
  destruct e as [c' es|i t cf old| |id|k|c'|rid i|rid i|rid| |ok|n|]; cbn [isApp].
  - unfold append_entries in H. destruct (g_err s). { injection H as <- <-. unfold cntD. cbn. destruct (c' =? c); cc. }
    destruct (check_and_resolve_conflict es s) as [[code|s1 es1]|] eqn:K; [| |discriminate].
    { injection H as <- <-. unfold cntD. cbn. destruct (c' =? c); cc. }
    destruct (cm_add_all (g_cm s1) es1) as [m|]; [|discriminate]. injection H as <- <-. rewrite pend_push_eq, cntK_app.
    change (pend (set_cm m (set_mem (g_mem s1 ++ es1) s1))) with (pend s1). rewrite (conflict_cnt _ _ _ _ c K). unfold cntD, cntK at 2. cbn. destruct (c' =? c); cc.
  - unfold noout in H. destruct (set_snapshot i t cf old s) as [s1|] eqn:S; [|discriminate]. injection H as <- <-. change (cntD c []) with 0%nat.
    unfold set_snapshot in S. destruct (_ <=? _). { injection S as <-. lia. }
    destruct (cm_set_snapshot _ _); [|discriminate]. destruct (unsafe_get_term s i); [|discriminate]. cbv zeta in S.
    destruct (_ =? 0). { apply truncp_cnt with (c := c) in S. rewrite S. cc. }
    destruct (_ =? _).
    + destruct (_ <? _). { apply truncp_cnt with (c := c) in S. rewrite S. cc. } injection S as <-. cc.
    + injection S as <-. unfold reset. rewrite pend_push_eq, cntK_app. cc.
  - unfold noout in H. destruct (clear_bufferred s) as [s1|] eqn:S; [|discriminate]. injection H as <- <-. change (cntD c []) with 0%nat.
    unfold clear_bufferred in S. destruct (negb _). { apply truncp_cnt with (c := c) in S. rewrite S. cc. } injection S as <-. lia.
  - injection H as <- <-. unfold set_applied_id. destruct (id_ltb _ _); cc.
  - unfold noout in H. destruct (clear_memory k s) as [s1|] eqn:S; [|discriminate]. injection H as <- <-.
    unfold clear_memory in S. destruct (nth_error _ _); [|discriminate]. destruct (mem_clear 256 l (g_mem s)) as [m b]. injection S as <-. cc.
  - injection H as H. unfold last_log_id_flush in H. destruct (_ =? _); injection H as <- <-. { cc. }
    rewrite pend_push_eq, cntK_app. cc.
  - unfold get_entry1 in H. destruct (_ || _). { injection H as <- <-. cc. } destruct (mem_get _ _) as [[?|]|]; [| |discriminate]; injection H as <- <-; cc.
  - unfold get_term1 in H. destruct (_ =? _). { injection H as <- <-. cc. } destruct (_ =? _). { injection H as <- <-. cc. }
    destruct (_ =? _). { injection H as <- <-. cc. } destruct (_ || _). { injection H as <- <-. cc. }
    destruct (mem_get _ _) as [[?|]|]; [| |discriminate]; injection H as <- <-; cc.
  - unfold read_storage in H. destruct (find_read _ _) as [[i [|]]|]; [| |discriminate].
    + destruct (r_get _ _); injection H as <- <-; cc.
    + injection H as <- <-; cc.
  - unfold disk_begin in H. destruct (g_run s) eqn:R; [discriminate|]. destruct (g_q s) eqn:Q; [discriminate|]. injection H as <- <-. unfold pend. rewrite R. cbn [set_thread g_run g_q map app]. rewrite Q. unfold cntD. cbn [filter length]. lia.
  - unfold disk_take in H. destruct (g_run s) as [[lid b]|] eqn:R; [|discriminate]. destruct (g_q s) as [|t q] eqn:Q; [discriminate|].
    destruct t as [c' [|e es] all|c' w|k|k t|m].
    2: { destruct (full mb b); [discriminate|]. injection H as <- <-. unfold pend. rewrite R, Q. cbn [with_run set_thread g_run g_q]. rewrite map_app, <- app_assoc. reflexivity. }
    all: destruct b as [|y b]; [|discriminate]; unfold pend; rewrite R, Q.
    + injection H as <- <-. cbn. unfold cntK, cntD. cbn. destruct (c' =? c); cc.
    + destruct (_ || _); [|discriminate]. injection H as <- <-. cc.
    + destruct ok; injection H as <- <-; cc.
    + destruct ok; injection H as <- <-; cc.
    + destruct ok; injection H as <- <-; cc.
  - apply flush_form in H. destruct H as [lid [b [st [done [R [SA [Q1 [[lid' Q2] [_ [_ ->]]]]]]]]]].
    rewrite cntD_app, cntD_map. unfold pend. rewrite R, Q1, Q2. cbn [map app]. rewrite cntK_app.
    match goal with |- (_ + (cntD c ?x + _) = _)%nat => assert (Hz : cntD c x = 0%nat) by (destruct (g_err s); auto; destruct (negb _); auto) end.
    rewrite Hz. lia.
  - unfold disk_end in H. destruct (g_run s) as [[lid [|? ?]]|] eqn:R; try discriminate. unfold pend. rewrite R. destruct (id_ltb _ _); injection H as <- <-; cc.
Qed.
Lemma count_run : forall mb r cm h s c, ran mb r cm h s -> (cntK c (pend s) + answers c h = asks c h)%nat.
Proof.
  intros mb r cm h s c R. induction R as [|h s e s' o R IH S]; [reflexivity|]. apply (count_step _ _ _ _ _ c) in S.
  unfold answers, asks in *. rewrite flat_map_app, !filter_app, !app_length. cbn [flat_map snd]. rewrite app_nil_r. fold (cntD c o).
  cbn [filter fst]. unfold isApp in S. destruct e; cbn [length]; try lia. destruct (_ =? c); cbn [length]; lia.
Qed.

Lemma err_step : forall mb s e s' o, gstep mb s e = Some (s', o) ->
  g_err s' = g_err s || existsb (fun x => match x with GErr _ => true | _ => false end) o.
Proof.
  intros mb s e s' o H. unfold gstep in H.
  destruct e as [c' es|i t cf old| |id|k|c'|rid i|rid i|rid| |ok|n|].
  - unfold append_entries in H. destruct (g_err s) eqn:Er. { injection H as <- <-. rewrite Er. auto. }
    destruct (check_and_resolve_conflict es s) as [[code|s1 es1]|] eqn:K; [injection H as <- <-; rewrite Er; auto| |discriminate].
    destruct (cm_add_all (g_cm s1) es1) as [m|]; [|discriminate]. injection H as <- <-. cbn.
    unfold check_and_resolve_conflict in K. destruct es as [|e0 es]. { injection K as <- <-. auto. }
    destruct (_ =? 0). { injection K as <- <-. auto. }
    destruct (_ <? _); [discriminate|]. destruct (_ <=? _); [discriminate|]. destruct (_ =? _). { injection K as <- <-. auto. }
    destruct (skip_matching s (e0 :: es)) as [[|e1 r]|]; [injection K as <- <-; auto| |discriminate].
    destruct (_ <=? _); [|injection K as <- <-; auto].
    unfold unsafe_truncate_suffix in K. destruct (_ <? _); [discriminate|]. destruct (unsafe_get_term _ _); [|discriminate].
    destruct (_ && _); [discriminate|]. injection K as <- <-. auto.
  - unfold noout in H. destruct (set_snapshot i t cf old s) as [s1|] eqn:S; [|discriminate]. injection H as <- <-. cbn [existsb]. rewrite orb_false_r.
    unfold set_snapshot in S. destruct (_ <=? _). { injection S as <-. auto. }
    destruct (cm_set_snapshot _ _); [|discriminate]. destruct (unsafe_get_term s i); [|discriminate]. cbv zeta in S.
    unfold truncate_prefix in S. destruct (_ =? 0). { destruct (_ <? _); [discriminate|]. injection S as <-. auto. }
    destruct (_ =? _). { destruct (_ <? _); [|injection S as <-; auto]. destruct (_ <? _); [discriminate|]. injection S as <-. auto. }
    injection S as <-. auto.
  - unfold noout in H. destruct (clear_bufferred s) as [s1|] eqn:S; [|discriminate]. injection H as <- <-. cbn [existsb]. rewrite orb_false_r.
    unfold clear_bufferred, truncate_prefix in S. destruct (negb _); [|injection S as <-; auto]. destruct (_ <? _); [discriminate|]. injection S as <-. auto.
  - injection H as <- <-. unfold set_applied_id. destruct (id_ltb _ _); cbn; rewrite orb_false_r; auto.
  - unfold noout in H. destruct (clear_memory k s) as [s1|] eqn:S; [|discriminate]. injection H as <- <-. cbn. rewrite orb_false_r.
    unfold clear_memory in S. destruct (nth_error _ _); [|discriminate]. destruct (mem_clear 256 l (g_mem s)) as [m b]. injection S as <-. auto.
  - injection H as H. unfold last_log_id_flush in H. destruct (_ =? _); injection H as <- <-; cbn; rewrite orb_false_r; auto.
  - unfold get_entry1 in H. destruct (_ || _). { injection H as <- <-. cbn. rewrite orb_false_r. auto. }
    destruct (mem_get _ _) as [[?|]|]; [| |discriminate]; injection H as <- <-; cbn; rewrite orb_false_r; auto.
  - unfold get_term1 in H. repeat (match type of H with (if ?a then _ else _) = _ => destruct a end; [injection H as <- <-; cbn; rewrite orb_false_r; auto|]).
    destruct (mem_get _ _) as [[?|]|]; [| |discriminate]; injection H as <- <-; cbn; rewrite orb_false_r; auto.
  - unfold read_storage in H. destruct (find_read _ _) as [[i [|]]|]; [| |discriminate].
    + destruct (r_get _ _); injection H as <- <-; cbn; rewrite ?orb_false_r, ?orb_true_r; auto.
    + injection H as <- <-; cbn; rewrite orb_false_r; auto.
  - unfold disk_begin in H. destruct (g_run s) eqn:R; [discriminate|]. destruct (g_q s) eqn:Q; [discriminate|]. injection H as <- <-. cbn. rewrite orb_false_r. auto.
  - unfold disk_take in H. destruct (g_run s) as [[lid b]|] eqn:R; [|discriminate]. destruct (g_q s) as [|t q] eqn:Q; [discriminate|].
    destruct t as [c' [|e es] all|c' w|k|k t|m].
    2: { destruct (full mb b); [discriminate|]. injection H as <- <-. cbn. rewrite orb_false_r. auto. }
    all: destruct b as [|y b]; [|discriminate].
    + injection H as <- <-. cbn. rewrite orb_false_r. auto.
    + destruct (_ || _); [|discriminate]. injection H as <- <-. cbn. rewrite orb_false_r. auto.
    + destruct ok; injection H as <- <-; cbn; rewrite ?orb_false_r, ?orb_true_r; auto.
    + destruct ok; injection H as <- <-; cbn; rewrite ?orb_false_r, ?orb_true_r; auto.
    + destruct ok; injection H as <- <-; cbn; rewrite ?orb_false_r, ?orb_true_r; auto.
  - apply flush_form in H. destruct H as [lid [b [st [done [R [SA [_ [_ [-> [_ ->]]]]]]]]]].
    rewrite existsb_app. destruct (existsb _ (map _ b)) eqn:X.
    { apply existsb_exists in X. destruct X as [x [X1 X2]]. apply in_map_iff in X1. destruct X1 as [z [<- _]]. discriminate. }
    rewrite orb_false_r. destruct (g_err s); auto. cbn. destruct (negb _); auto.
  - unfold disk_end in H. destruct (g_run s) as [[lid [|? ?]]|] eqn:R; try discriminate. destruct (id_ltb _ _); injection H as <- <-; cbn; rewrite orb_false_r; auto.
Qed.
Lemma err_run : forall mb r cm h s, ran mb r cm h s -> (g_err s = true <-> exists e o c, In (e, o) h /\ In (GErr c) o).
Proof.
  intros mb r cm h s R. induction R as [|h s e s' o R IH S].
  - cbn. split; [discriminate|intros [e [o [c [[] _]]]]].
  - rewrite (err_step _ _ _ _ _ S), orb_true_iff, IH. clear. split.
    + intros [[e1 [o1 [c [H1 H2]]]]|H].
      * exists e1, o1, c. split; auto. apply in_or_app. auto.
      * apply existsb_exists in H. destruct H as [x [H1 H2]]. destruct x; try discriminate. exists e, o, code. split; auto. apply in_or_app. right. left. auto.
    + intros [e1 [o1 [c [H1 H2]]]]. apply in_app_or in H1. destruct H1 as [H1|[H1|[]]].
      * left. exists e1, o1, c. auto.
      * injection H1 as -> ->. right. apply existsb_exists. exists (GErr c). auto.
Qed.
(** A write acknowledged as stored was stored in full, whatever happened before. *)
Lemma flush_ok : forall n s s' o c, disk_flush n s = Some (s', o) -> In (GDone c 0) o ->
  exists done, In (GStored done) o /\ (forall lid b, g_run s = Some (lid, b) -> done = buf_entries b) /\ g_st s' = mkR (r_first (g_st s)) (r_list (g_st s) ++ done).
Proof.
  intros n s s' o c H Hin. apply flush_form in H. destruct H as [lid [b [st [done [R [SA [_ [_ [_ [Hst ->]]]]]]]]]].
  rewrite R.
  apply in_app_or in Hin. destruct Hin as [Hin|Hin]. { destruct (g_err s); [destruct Hin|]. destruct Hin as [X|X]; [discriminate|]. destruct (negb _); [destruct X as [X|[]]; discriminate|destruct X]. }
  apply in_map_iff in Hin. destruct Hin as [z [Hz _]]. injection Hz as _ Hz.
  destruct (g_err s) eqn:Er; cbn [orb] in Hz; [discriminate|]. destruct (negb _) eqn:NB; [discriminate|]. apply negb_false_iff, Z.eqb_eq in NB.
  destruct (s_append_all _ _ _ _ _ SA NB) as [-> ->]. exists (buf_entries b). split; [left; auto|]. split; auto. intros lid0 b0 X. injection X as <- <-. auto.
Qed.
