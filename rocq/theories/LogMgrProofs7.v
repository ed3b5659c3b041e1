(** Lemmas for LogManager, part 7: runs. *)
From Verif Require Import Base BaseLemmas LogEntry LogRef LogRefProofs ConfMgr ConfMgrSpec ConfMgrProofs BallotBox LogMgr LogMgrSpec LogMgrProofs LogMgrProofs2 LogMgrProofs3 LogMgrProofs4 LogMgrProofs5 LogMgrProofs6.

Lemma spec_run_snoc : forall r h x, spec_run r (h ++ [x]) = spec_step (spec_run r h) x.
Proof. intros. unfold spec_run. rewrite fold_left_app. auto. Qed.
Lemma ever_snoc : forall r h e o, ever r (h ++ [(e, o)]) = ever r h ++ accepted o.
Proof. intros. unfold ever. rewrite flat_map_app. cbn. rewrite app_nil_r, app_assoc. auto. Qed.
Lemma last_snoc_eq : forall {A} (a : list A) x b y, a ++ [x] = b ++ [y] -> a = b /\ x = y.
Proof. intros. apply app_inj_tail. auto. Qed.
Lemma GI_init : forall r cm, good_start r cm -> ids_increase (r_list r) -> GI (r_list r) (mkSL r (mkId 0 0)) (g_init r cm).
Proof.
  intros r cm [Gd [C1 C2]] I. rewrite conf_entries_cconf in C1. assert (C := good_contig _ Gd). destruct Gd as [Gd1 [Gd2 Gd3]].
  assert (Hd : forall a l, r_list r = l ++ [a] -> mkId (r_last r) (r_term r (r_last r)) = e_id a).
  { intros a l R. assert (Hg : r_get r (r_last r) = Some a).
    { unfold r_get, r_last. rewrite R. zl. rewrite znth_app2 by lia. replace (r_first r + (zlen l + (0 + 1)) - 1 - r_first r - zlen l) with 0 by lia. apply znth_cons_0. }
    unfold r_term. rewrite Hg. rewrite <- (r_get_index _ _ _ C Hg) at 1. unfold e_index, e_term. destruct (e_id a); auto. }
  constructor; cbn [sl_log sl_snap g_init]; cbn; try (intros; tauto); auto.
  - exists (r_list r). rewrite app_nil_r. auto.
  - split; auto.
  - constructor.
  - exists (r_list r). rewrite app_nil_r. auto.
  - intros e He. exact (rising_in _ _ _ Gd3 He).
  - intros d Hdd. assert (d = mkId (r_last r) (r_term r (r_last r))) by (destruct Hdd as [<-|[<-|[]]]; auto). subst d. split; [|apply below_nil].
    destruct (r_list r) as [|a l] eqn:R using rev_ind.
    + left. cbn. unfold r_term, r_get. rewrite R, znth_nil. lia.
    + right. exists a. split; [apply in_or_app; right; left; auto|]. left. eapply Hd; eauto.
  - intros Hne. unfold endlid. cbn. unfold last_id_of. cbn. destruct (exists_last Hne) as [l [a R]]. rewrite (Hd _ _ R), R. destruct l; cbn; auto. rewrite last_last. auto.
  - intros X. destruct (id_lt_irr _ X).
  - sp; auto; lia.
  - unfold r_last. pose proof (zlen_nonneg (r_list r)). sp; lia.
  - intros e He. apply r_get_bound in He. lia.
  - split; auto. rewrite C2. auto.
Qed.
Lemma run_GI : forall mb r cm h s, good_run mb r cm h s -> GI (ever r h) (spec_run r h) s.
Proof.
  intros mb r cm h s [St [R [Lg [He [Ig Ir]]]]]. induction R as [|h s e s' o R IH S].
  - unfold ever. cbn. rewrite app_nil_r. apply GI_init; auto.
  - unfold ids_grow in Ig. rewrite ever_snoc in *. rewrite spec_run_snoc.
    assert (Lg' : all_legal mb r cm h).
    { intros h1 e1 o1 h2 s1 Hh R1. apply (Lg h1 e1 o1 (h2 ++ [(e, o)]) s1); auto. rewrite Hh, <- app_assoc. auto. }
    assert (He' : healthy h) by (intros e1 o1 c Hin; apply (He e1 o1 c); apply in_or_app; auto).
    assert (Ig' : ids_grow r h) by (apply incr_app in Ig; apply Ig).
    eapply GI_step; eauto.
    intros c. apply (He e o c). apply in_or_app. right. left. auto.
Qed.
Lemma good_run_prefix : forall mb r cm h e o s', good_run mb r cm (h ++ [(e, o)]) s' -> exists s, good_run mb r cm h s /\ gstep mb s e = Some (s', o) /\ LogMgrSpec.legal (spec_run r h) (g_applied s) e.
Proof.
  intros mb r cm h e o s' [St [R [Lg [He [Ig Ir]]]]]. inversion R as [Q|h0 s e0 s0 o0 R0 S Q].
  - destruct h; discriminate.
  - apply last_snoc_eq in Q. destruct Q as [-> Q]. injection Q as -> ->. subst s0. exists s. split; [|split; auto; eapply Lg; [reflexivity|auto]].
    split; auto. split; auto. split; [|split; [|split]]; auto.
    + intros h1 e1 o1 h2 s1 Hh R1. apply (Lg h1 e1 o1 (h2 ++ [(e, o)]) s1); auto. rewrite Hh, <- app_assoc. auto.
    + intros e1 o1 c Hin. apply (He e1 o1 c). apply in_or_app; auto.
    + unfold ids_grow in *. rewrite ever_snoc in Ig. apply incr_app in Ig. apply Ig.
Qed.

(** Where pending work came from. *)
Definition came (s : lmgr) (e : gev) (o : list gout) (t : dtask) : Prop :=
  match t with
  | KAppend c es1 all => exists es, e = VAppend c es /\ accepted o = es1 /\ all = asked es o
  | KLast c w => e = VLastId c /\ (g_last s =? li_index (g_snap s)) = false /\ w = mkId (g_last s) (match unsafe_get_term s (g_last s) with Some t => t | None => 0 end)
  | _ => True
  end.
Lemma pend_push : forall t s x, In x (pend (push t s)) -> x = t \/ In x (pend s).
Proof. intros t s x H. unfold pend, push in *. cbn in H. rewrite app_assoc in H. apply in_app_or in H. destruct H as [H|[H|[]]]; auto. Qed.
Lemma conflict_pend : forall es s s1 es1 x, check_and_resolve_conflict es s = Some (CGo s1 es1) -> In x (pend s1) -> In x (pend s) \/ exists k t, x = KSuffix k t.
Proof.
  intros es s s1 es1 x H Hin. unfold check_and_resolve_conflict in H. destruct es as [|e0 es]. { injection H as <- <-. auto. }
  destruct (e_index e0 =? 0). { injection H as <- <-. auto. }
  destruct (_ <? _); [discriminate|]. destruct (_ <=? _); [discriminate|]. destruct (_ =? _). { injection H as <- <-. auto. }
  destruct (skip_matching s (e0 :: es)) as [[|e1 r]|]; [injection H as <- <-; auto| |discriminate].
  destruct (e_index e1 <=? g_last s); [|injection H as <- <-; auto].
  unfold unsafe_truncate_suffix in H. destruct (_ <? _); [discriminate|].
  destruct (unsafe_get_term _ _); [|discriminate]. destruct (_ && _); [discriminate|]. injection H as <- <-.
  match type of Hin with In _ (pend (set_last _ ?z)) => change (In x (pend z)) in Hin end.
  apply pend_push in Hin. destruct Hin as [->|Hin]; eauto.
Qed.
Lemma truncp_pend : forall k s s' x, truncate_prefix k s = Some s' -> In x (pend s') -> In x (pend s) \/ exists k, x = KPrefix k.
Proof. unfold truncate_prefix. intros k s s' x H Hin. destruct (_ <? _); [discriminate|]. injection H as <-. apply pend_push in Hin. destruct Hin as [->|Hin]; eauto. Qed.
Lemma pend_step : forall mb s e s' o t, gstep mb s e = Some (s', o) -> In t (pend s') -> In t (pend s) \/ came s e o t.
Proof.
  intros mb s e s' o x H Hin. unfold gstep in H.
  destruct e as [c es|i t cf old| |id|k|c|rid i|rid i|rid| |ok|n|].
  - unfold append_entries in H. destruct (g_err s). { injection H as <- <-. auto. }
    destruct (check_and_resolve_conflict es s) as [[code|s1 es1]|] eqn:K; [injection H as <- <-; auto| |discriminate].
    destruct (cm_add_all (g_cm s1) es1); [|discriminate]. injection H as <- <-. apply pend_push in Hin. destruct Hin as [->|Hin].
    + right. exists es. cbn. rewrite app_nil_r. sp; auto. unfold asked. cbn. rewrite app_nil_r. auto.
    + change (In x (pend s1)) in Hin. destruct (conflict_pend _ _ _ _ _ K Hin) as [Hi|[k [t ->]]]; auto. right. exact I.
  - unfold noout in H. destruct (set_snapshot i t cf old s) as [s1|] eqn:S; [|discriminate]. injection H as <- <-.
    unfold set_snapshot in S. destruct (_ <=? _). { injection S as <-. auto. }
    destruct (cm_set_snapshot _ _); [|discriminate]. destruct (unsafe_get_term s i) as [u|]; [|discriminate]. cbv zeta in S.
    destruct (u =? 0). { apply (truncp_pend _ _ _ x) in S; auto. destruct S as [S|[k ->]]; [left; exact S|right; exact I]. }
    destruct (u =? t).
    { destruct (_ <? _). { apply (truncp_pend _ _ _ x) in S; auto. destruct S as [S|[k ->]]; [left; exact S|right; exact I]. }
      injection S as <-. left. exact Hin. }
    injection S as <-. apply pend_push in Hin. destruct Hin as [->|Hin]; [right; exact I|left; exact Hin].
  - unfold noout in H. destruct (clear_bufferred s) as [s1|] eqn:S; [|discriminate]. injection H as <- <-. unfold clear_bufferred in S.
    destruct (negb _). { apply (truncp_pend _ _ _ x) in S; auto. destruct S as [S|[k ->]]; [left; exact S|right; exact I]. }
    injection S as <-. auto.
  - injection H as <- <-. unfold set_applied_id in Hin. destruct (id_ltb _ _); auto.
  - unfold noout in H. destruct (clear_memory k s) as [s1|] eqn:S; [|discriminate]. injection H as <- <-. unfold clear_memory in S.
    destruct (nth_error _ _); [|discriminate]. destruct (mem_clear _ _ _). injection S as <-. auto.
  - injection H as H. unfold last_log_id_flush in H. destruct (g_last s =? li_index (g_snap s)) eqn:Hne; injection H as <- <-; auto. apply pend_push in Hin. destruct Hin as [->|Hin]; auto. right. cbn; auto.
  - unfold get_entry1 in H. destruct (_ || _). { injection H as <- <-. auto. }
    destruct (mem_get (g_mem s) i) as [[e|]|]; [| |discriminate]; injection H as <- <-; auto.
  - unfold get_term1 in H. repeat (match type of H with (if ?a then _ else _) = _ => destruct a end; [injection H as <- <-; auto|]).
    destruct (mem_get (g_mem s) i) as [[e|]|]; [| |discriminate]; injection H as <- <-; auto.
  - unfold read_storage in H. destruct (find_read rid (g_reads s)) as [[i [|]]|]; [| |discriminate].
    + destruct (r_get (g_st s) i); injection H as <- <-; auto.
    + injection H as <- <-. auto.
  - unfold disk_begin in H. destruct (g_run s) eqn:R; [discriminate|]. destruct (g_q s) eqn:Q; [discriminate|]. injection H as <- <-.
    left. unfold pend in *. rewrite R. cbn in *. rewrite Q in *. auto.
  - unfold disk_take in H. destruct (g_run s) as [[lid b]|] eqn:R; try discriminate. destruct (g_q s) as [|t q] eqn:Q; [discriminate|]. left.
    assert (Hq : forall y, In y q -> In y (pend s)) by (intros y Hy; unfold pend; rewrite R, Q; apply in_or_app; right; right; auto).
    destruct t as [c [|e es] all|c w|k|k t|m].
    2: { destruct (full mb b); [discriminate|]. injection H as <- <-. unfold pend in *. rewrite R, Q. cbn in Hin. rewrite map_app, <- app_assoc in Hin. exact Hin. }
    all: destruct b as [|y b]; [|discriminate].
    2: destruct (_ || _); [|discriminate].
    3,4,5: destruct ok.
    all: injection H as <- <-; apply Hq; exact Hin.
  - unfold disk_flush in H. destruct (g_run s) as [[lid [|y b]]|] eqn:R; try discriminate.
    destruct (flush n lid (y :: b) s) as [[s1 lid1] o1] eqn:F. injection H as <- <-. left. unfold pend in *. rewrite R. cbn in Hin. apply in_or_app. auto.
  - unfold disk_end in H. destruct (g_run s) as [[lid [|? ?]]|] eqn:R; try discriminate. left. unfold pend. rewrite R.
    destruct (id_ltb lid (g_disk s)); injection H as <- <-; exact Hin.
Qed.
Lemma pend_run : forall mb r cm h s t, ran mb r cm h s -> In t (pend s) -> exists h1 e o h2 s1, h = h1 ++ (e, o) :: h2 /\ ran mb r cm h1 s1 /\ gstep mb s1 e <> None /\ came s1 e o t.
Proof.
  intros mb r cm h s t R. induction R as [|h s e s' o R IH S]; intros Hin. { destruct Hin. }
  destruct (pend_step _ _ _ _ _ _ S Hin) as [Hin'|C].
  - destruct (IH Hin') as [h1 [e1 [o1 [h2 [s1 [-> [R1 [S1 C1]]]]]]]]. exists h1, e1, o1, (h2 ++ [(e, o)]), s1. sp; auto. rewrite <- app_assoc. auto.
  - exists h, e, o, [], s. sp; auto. congruence.
Qed.

Lemma good_run_split : forall mb r cm h1 e o h2 s, good_run mb r cm (h1 ++ (e, o) :: h2) s ->
  exists s1 s2, good_run mb r cm h1 s1 /\ gstep mb s1 e = Some (s2, o) /\ good_run mb r cm (h1 ++ [(e, o)]) s2 /\ LogMgrSpec.legal (spec_run r h1) (g_applied s1) e.
Proof.
  intros mb r cm h1 e o h2. induction h2 as [|x h2 IH] using rev_ind; intros s H.
  - destruct (good_run_prefix _ _ _ _ _ _ _ H) as [s1 [K1 [K2 K3]]]. exists s1, s. sp; auto.
  - replace (h1 ++ (e, o) :: h2 ++ [x]) with ((h1 ++ (e, o) :: h2) ++ [x]) in H by (rewrite <- app_assoc; auto).
    destruct x as [e' o']. destruct (good_run_prefix _ _ _ _ _ _ _ H) as [s1 [K1 _]]. eapply IH; eauto.
Qed.
Lemma ran_det : forall mb r cm h s1, ran mb r cm h s1 -> forall s2, ran mb r cm h s2 -> s1 = s2.
Proof.
  intros mb r cm h s1 R. induction R as [|h s e s' o R IH S]; intros s2 R2.
  - inversion R2 as [|h0 s0 e0 s0' o0 R0 S0 Q]; auto. destruct h0; discriminate.
  - inversion R2 as [Q|h0 s0 e0 s0' o0 R0 S0 Q]. { destruct h; discriminate. }
    apply last_snoc_eq in Q. destruct Q as [-> Q]. injection Q as -> ->. rewrite (IH _ R0) in S. congruence.
Qed.
Lemma last_id_last : forall r sn, good_log r -> r_list r <> [] -> last_id_of (mkSL r sn) = mkId (r_last r) (r_term r (r_last r)) /\ r_first r <= r_last r.
Proof.
  intros r sn Gd Hne. destruct (exists_last Hne) as [l [a R]]. assert (C := good_contig _ Gd).
  assert (Hg : r_get r (r_last r) = Some a).
  { unfold r_get, r_last. rewrite R. zl. rewrite znth_app2 by lia. replace (r_first r + (zlen l + (0 + 1)) - 1 - r_first r - zlen l) with 0 by lia. apply znth_cons_0. }
  split; [|apply r_get_bound in Hg; lia].
  unfold r_term. rewrite Hg. rewrite <- (r_get_index _ _ _ C Hg) at 1. unfold last_id_of. cbn. rewrite R. unfold e_index, e_term.
  destruct l; cbn; rewrite ?last_last; destruct (e_id a); auto.
Qed.
Lemma GI_lastw : forall E x s c, GI E x s -> LogMgrSpec.legal x (g_applied s) (VLastId c) -> 
  (if g_last s =? li_index (g_snap s) then g_snap s else mkId (g_last s) (match unsafe_get_term s (g_last s) with Some t => t | None => 0 end)) = last_id_of x.
Proof.
  intros E x s c G L. rewrite (i_last _ _ _ G), (i_snap _ _ _ G). cbn in L. destruct x as [xl xs]. cbn [sl_log sl_snap] in *.
  assert (Gd := i_good _ _ _ G). cbn [sl_log] in Gd.
  destruct (Z.eqb_spec (r_last xl) (li_index xs)) as [Q|Q].
  - destruct (r_list xl) as [|a l] eqn:R. { unfold last_id_of. cbn. rewrite R. auto. }
    destruct (last_id_last xl xs Gd) as [H1 H2]; [congruence|]. rewrite H1. destruct (r_get_range xl (r_last xl) ltac:(lia)) as [e He].
    unfold r_term. rewrite He. assert (T := i_snt _ _ _ G e). cbn in T. rewrite <- Q in T. rewrite (T He), Q. destruct xs; auto.
  - destruct (last_id_last xl xs Gd) as [H1 H2]. { tauto. } rewrite H1. rewrite (GI_term _ _ _ (r_last xl) G H2). auto.
Qed.
Lemma stays_stored : forall mb r cm h s h2 s2 e, good_run mb r cm h s -> good_run mb r cm (h ++ h2) s2 -> In e (ever r h) -> ~ In e (appends (pend s)) ->
  ~ In e (appends (pend s2)).
Proof.
  intros mb r cm h s h2. induction h2 as [|[ev o] h2 IH] using rev_ind; intros s2 e G G2 He Hn.
  - rewrite app_nil_r in G2. destruct G as [_ [R _]], G2 as [_ [R2 _]]. rewrite <- (ran_det _ _ _ _ _ R _ R2). auto.
  - rewrite app_assoc in G2. destruct (good_run_prefix _ _ _ _ _ _ _ G2) as [s1 [K1 [K2 _]]]. specialize (IH _ _ G K1 He Hn).
    intros Hin. unfold appends in Hin. apply in_flat_map in Hin. destruct Hin as [t [Ht Hin]]. destruct (pend_step _ _ _ _ _ _ K2 Ht) as [Ht'|C].
    + apply IH. unfold appends. apply in_flat_map. eauto.
    + destruct t; try destruct Hin. destruct C as [es0 [_ [C _]]]. subst es. 
      destruct G2 as [_ [_ [_ [_ [Ig _]]]]]. unfold ids_grow in Ig. rewrite ever_snoc in Ig. apply incr_app in Ig. destruct Ig as [_ [_ Ig]].
      apply (id_lt_irr (e_id e)). apply Ig; auto. unfold ever in *. rewrite flat_map_app, app_assoc. apply in_or_app. auto.
Qed.
Lemma reads_step : forall mb s e s' o rid x, gstep mb s e = Some (s', o) -> find_read rid (g_reads s) = Some x ->
  (forall i, e <> VGet rid i) -> (forall i, e <> VTerm rid i) -> e <> VRead rid -> find_read rid (g_reads s') = Some x.
Proof.
  intros mb s e s' o rid x H F N1 N2 N3. unfold gstep in H.
  destruct e as [c es|i t cf old| |id|k|c|rid' i|rid' i|rid'| |ok|n|].
  - unfold append_entries in H. destruct (g_err s). { injection H as <- <-. auto. }
    destruct (check_and_resolve_conflict es s) as [[code|s1 es1]|] eqn:K; [injection H as <- <-; auto| |discriminate].
    destruct (cm_add_all (g_cm s1) es1); [|discriminate]. injection H as <- <-. cbn.
    replace (g_reads s1) with (g_reads s); auto. clear F. unfold check_and_resolve_conflict in K. destruct es as [|e0 es]. { injection K as <- <-. auto. }
    destruct (e_index e0 =? 0). { injection K as <- <-. auto. }
    destruct (_ <? _); [discriminate|]. destruct (_ <=? _); [discriminate|]. destruct (_ =? _). { injection K as <- <-. auto. }
    destruct (skip_matching s (e0 :: es)) as [[|e1 r]|]; [injection K as <- <-; auto| |discriminate].
    destruct (e_index e1 <=? g_last s); [|injection K as <- <-; auto].
    unfold unsafe_truncate_suffix in K. destruct (_ <? _); [discriminate|].
    destruct (unsafe_get_term _ _); [|discriminate]. destruct (_ && _); [discriminate|]. injection K as <- <-. auto.
  - unfold noout in H. destruct (set_snapshot i t cf old s) as [s1|] eqn:S; [|discriminate]. injection H as <- <-.
    unfold set_snapshot in S. destruct (_ <=? _). { injection S as <-. auto. }
    destruct (cm_set_snapshot _ _); [|discriminate]. destruct (unsafe_get_term s i) as [u|]; [|discriminate]. cbv zeta in S. unfold truncate_prefix in S.
    destruct (u =? 0). { destruct (_ <? _); [discriminate|]. injection S as <-. auto. }
    destruct (u =? t).
    { destruct (0 <? _). { destruct (_ <? _); [discriminate|]. injection S as <-. auto. } injection S as <-. auto. }
    injection S as <-. auto.
  - unfold noout in H. destruct (clear_bufferred s) as [s1|] eqn:S; [|discriminate]. injection H as <- <-. unfold clear_bufferred, truncate_prefix in S.
    destruct (negb _). { destruct (_ <? _); [discriminate|]. injection S as <-. auto. } injection S as <-. auto.
  - injection H as <- <-. unfold set_applied_id. destruct (id_ltb _ _); auto.
  - unfold noout in H. destruct (clear_memory k s) as [s1|] eqn:S; [|discriminate]. injection H as <- <-. unfold clear_memory in S.
    destruct (nth_error _ _); [|discriminate]. destruct (mem_clear _ _ _). injection S as <-. auto.
  - injection H as H. unfold last_log_id_flush in H. destruct (_ =? _); injection H as <- <-; auto.
  - assert (rid' <> rid) by (intros ->; apply (N1 i); auto). unfold get_entry1 in H. destruct (_ || _). { injection H as <- <-. auto. }
    destruct (mem_get (g_mem s) i) as [[e|]|]; [| |discriminate]; injection H as <- <-; auto. cbn. destruct (Z.eqb_spec rid' rid); congruence.
  - assert (rid' <> rid) by (intros ->; apply (N2 i); auto). unfold get_term1 in H. repeat (match type of H with (if ?a then _ else _) = _ => destruct a end; [injection H as <- <-; auto|]).
    destruct (mem_get (g_mem s) i) as [[e|]|]; [| |discriminate]; injection H as <- <-; auto. cbn. destruct (Z.eqb_spec rid' rid); congruence.
  - assert (Hr : rid' <> rid) by congruence. unfold read_storage in H. destruct (find_read rid' (g_reads s)) as [[i [|]]|]; [| |discriminate].
    + assert (X : find_read rid (drop_read rid' (g_reads s)) = Some x).
      { revert F. clear - Hr. induction (g_reads s) as [|[k y] l IH]; cbn; auto. destruct (Z.eqb_spec k rid'); cbn; destruct (Z.eqb_spec k rid); auto; congruence. }
      destruct (r_get (g_st s) i); injection H as <- <-; auto.
    + assert (X : find_read rid (drop_read rid' (g_reads s)) = Some x).
      { revert F. clear - Hr. induction (g_reads s) as [|[k y] l IH]; cbn; auto. destruct (Z.eqb_spec k rid'); cbn; destruct (Z.eqb_spec k rid); auto; congruence. }
      injection H as <- <-. auto.
  - unfold disk_begin in H. destruct (g_run s) eqn:R; [discriminate|]. destruct (g_q s) eqn:Q; [discriminate|]. injection H as <- <-. auto.
  - unfold disk_take in H. destruct (g_run s) as [[lid b]|] eqn:R; try discriminate. destruct (g_q s) as [|t q] eqn:Q; [discriminate|].
    destruct t as [c [|e es] all|c w|k|k t|m].
    2: { destruct (full mb b); [discriminate|]. injection H as <- <-. auto. }
    all: destruct b as [|y b]; [|discriminate].
    2: destruct (_ || _); [|discriminate].
    3,4,5: destruct ok.
    all: injection H as <- <-; auto.
  - unfold disk_flush in H. destruct (g_run s) as [[lid [|y b]]|] eqn:R; try discriminate.
    destruct (flush n lid (y :: b) s) as [[s1 lid1] o1] eqn:FF. injection H as <- <-. cbn. unfold flush in FF.
    destruct (if g_err s then _ else _) as [st done]. injection FF as <- <- <-. auto.
  - unfold disk_end in H. destruct (g_run s) as [[lid [|? ?]]|] eqn:R; try discriminate.
    destruct (id_ltb lid (g_disk s)); injection H as <- <-; auto.
Qed.
Lemma reads_run : forall mb r cm h2 h s s2 rid x, ran mb r cm h s -> ran mb r cm (h ++ h2) s2 -> find_read rid (g_reads s) = Some x ->
  (forall e o, In (e, o) h2 -> (forall i, e <> VGet rid i) /\ (forall i, e <> VTerm rid i) /\ e <> VRead rid) -> find_read rid (g_reads s2) = Some x.
Proof.
  intros mb r cm h2. induction h2 as [|[e o] h2 IH] using rev_ind; intros h s s2 rid x R R2 F N.
  - rewrite app_nil_r in R2. rewrite <- (ran_det _ _ _ _ _ R _ R2). auto.
  - rewrite app_assoc in R2. inversion R2 as [Q|h0 s0 e0 s0' o0 R0 S0 Q]. { destruct (h ++ h2); discriminate. }
    apply last_snoc_eq in Q. destruct Q as [-> Q]. injection Q as -> ->. subst.
    destruct (N e o) as [N1 [N2 N3]]. { apply in_or_app. right. left. auto. }
    apply (reads_step mb s0 e s2 o rid x S0); auto. apply (IH h s s0 rid x R R0 F). intros e1 o1 Hin. apply (N e1 o1). apply in_or_app; auto.
Qed.
