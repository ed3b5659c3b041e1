(** Lemmas for LogManager, part 8: what a follower's batch does, and when calls abort. *)
From Verif Require Import Base BaseLemmas LogEntry LogRef LogRefProofs ConfMgr ConfMgrSpec ConfMgrProofs BallotBox LogMgr LogMgrSpec LogMgrProofs LogMgrProofs2 LogMgrProofs3 LogMgrProofs4 LogMgrProofs5 LogMgrProofs6 LogMgrProofs7.

Lemma cm_add_total : forall es k m, contig k es -> (forall c, In c (cm_confs m) -> ce_index c < k) -> cm_add_all m es <> None.
Proof.
  induction es as [|e es IH]; intros k m C H; cbn [cm_add_all]; [discriminate|]. destruct C as [C1 C2].
  destruct (is_conf e).
  - assert (A : cm_add m (conf_entry e) = Some (mkCM (cm_confs m ++ [conf_entry e]) (cm_snap m))).
    { unfold cm_add. destruct (back_cases (cm_confs m)) as [[_ ->]|[l [b [Hl ->]]]]; auto.
      assert (ce_index b < k) by (apply H; rewrite Hl; apply in_or_app; right; left; auto).
      change (ce_index (conf_entry e)) with (e_index e). destruct (Z.leb_spec (e_index e) (ce_index b)); auto; lia. }
    rewrite A. apply (IH (k + 1)); auto. cbn. intros c Hc. apply in_app_or in Hc. destruct Hc as [Hc|[<-|[]]]; [specialize (H _ Hc); lia|].
    change (ce_index (conf_entry e)) with (e_index e). lia.
  - apply (IH (k + 1)); auto. intros c Hc. specialize (H _ Hc). lia.
Qed.
Lemma mem_pop_get : forall E x s k, GI E x s -> exists o, mem_get (mem_pop_back k (g_mem s)) k = Some o.
Proof.
  intros E x s k G. destruct (i_mem _ _ _ G) as [pre [P1 _]]. assert (Gd := i_good _ _ _ G).
  assert (C := good_contig _ Gd). rewrite P1 in C. apply contig_app in C. destruct C as [C1 C2]. rewrite (pop_back_firstn _ _ _ C2).
  destruct Gd as [A1 [A2 A3]].
  set (n := Z.to_nat _). 
  edestruct (mem_get_log (mkR (r_first (sl_log x) + zlen pre) (firstn n (g_mem s))) [] (firstn n (g_mem s)) k) as [o [O1 _]]; eauto.
  split; [cbn; pose proof (zlen_nonneg pre); lia|]. cbn. split; [apply consec_contig; apply contig_firstn; auto|].
  apply rising_firstn. rewrite P1 in A3. eapply rising_app_r; eauto.
Qed.
Lemma skip_total : forall E x s es i, GI E x s -> contig i es -> r_first (sl_log x) <= i -> skip_matching s es <> None.
Proof.
  intros E x s es. induction es as [|e es IH]; intros i G C Hi; cbn [skip_matching]; [discriminate|]. destruct C as [C1 C2].
  rewrite (GI_term _ _ _ _ G) by lia. destruct (negb _); [discriminate|]. apply (IH (i + 1)); auto. lia.
Qed.
Lemma trunc_term_pos : forall E x s k, GI E x s -> r_first (sl_log x) - 1 <= k <= r_last (sl_log x) -> li_index (g_applied s) <= k ->
  (1 < r_first (sl_log x) -> 0 < li_index (sl_snap x)) ->
  unsafe_truncate_suffix k s <> None.
Proof.
  intros E x s k G Hk Ha Hs H. unfold unsafe_truncate_suffix in H. destruct (Z.ltb_spec k (li_index (g_applied s))); [lia|]. cbv zeta in H.
  destruct (i_virt _ _ _ G) as [V1 [V2 V3]]. destruct (i_sn _ _ _ G) as [S1 [S2 S3]]. destruct (i_good _ _ _ G) as [Gd1 _].
  destruct (unsafe_get_term (set_last k (set_mem (mem_pop_back k (g_mem s)) s)) k) as [t|] eqn:U.
  - destruct (Z.eqb_spec k 0) as [K0|K0]; cbn [negb andb] in H; [discriminate|].
    destruct (Z.eqb_spec t 0) as [T0|T0]; [|discriminate]. subst t. clear H.
    assert (Hc : k = li_index (sl_snap x) \/ r_first (sl_log x) <= k) by lia.
    destruct Hc as [Hc|Hc].
    + unfold unsafe_get_term in U. cbn in U. destruct (Z.eqb_spec k 0); [lia|]. rewrite (i_snap _ _ _ G) in U.
      destruct (Z.eqb_spec k (li_index (g_virt s))).
      * rewrite V3 in U by lia. injection U as U. lia.
      * destruct (Z.eqb_spec k (li_index (sl_snap x))); [|lia]. injection U as U. lia.
    + destruct (r_get_range (sl_log x) k ltac:(lia)) as [e He]. assert (Te : 1 <= e_term e).
      { apply (i_E1 _ _ _ G), (i_LE _ _ _ G). unfold r_get in He. eapply znth_In; eauto. }
      destruct (Z.eq_dec k (li_index (sl_snap x))) as [Q|Q].
      * unfold unsafe_get_term in U. cbn in U. destruct (Z.eqb_spec k 0); [lia|]. rewrite (i_snap _ _ _ G) in U.
        destruct (Z.eqb_spec k (li_index (g_virt s))); [lia|]. destruct (Z.eqb_spec k (li_index (sl_snap x))); [|lia]. injection U as U. lia.
      * destruct (trunc_term E x s k 0 G Hk Ha U) as [[X _]|[[X _]|[e' [X Y]]]]; auto; try congruence.
        rewrite He in X. injection X as <-. lia.
  - clear H. unfold unsafe_get_term in U. cbn in U. destruct (k =? 0); [discriminate|]. destruct (_ =? _); [discriminate|].
    destruct (_ =? _); [discriminate|]. destruct (_ || _); [discriminate|].
    destruct (mem_pop_get _ _ _ k G) as [o O]. rewrite O in U. destruct o; discriminate.
Qed.

Lemma put_get : forall L e1 rest i, contig (r_first L) (r_list L) -> contig (e_index e1) (e1 :: rest) ->
  r_first L <= e_index e1 <= r_last L + 1 ->
  r_get (put_entries L (e1 :: rest)) i = if i <? e_index e1 then r_get L i else znth (e1 :: rest) (i - e_index e1).
Proof.
  intros L e1 rest i C C1 H. unfold r_last in H. unfold put_entries, r_get. cbn [r_first r_list].
  assert (Hf : zlen (firstn (Z.to_nat (e_index e1 - r_first L)) (r_list L)) = e_index e1 - r_first L).
  { unfold zlen in *. rewrite firstn_length. lia. }
  destruct (Z.ltb_spec i (e_index e1)).
  - rewrite znth_app1 by lia. apply znth_firstn. lia.
  - rewrite znth_app2 by lia. f_equal. lia.
Qed.
Lemma put_last : forall L e1 rest, r_first L <= e_index e1 <= r_last L + 1 ->
  r_first (put_entries L (e1 :: rest)) = r_first L /\ r_last (put_entries L (e1 :: rest)) = e_index e1 + zlen (e1 :: rest) - 1.
Proof.
  intros L e1 rest H. unfold r_last, put_entries in *. cbn [r_first r_list]. split; auto. rewrite zlen_app.
  assert (Hf : zlen (firstn (Z.to_nat (e_index e1 - r_first L)) (r_list L)) = e_index e1 - r_first L).
  { unfold zlen in *. rewrite firstn_length. lia. } lia.
Qed.

Lemma append_form : forall E x s c e0 es', GI E x s -> legal_batch x (e0 :: es') -> e_index e0 <> 0 ->
  (r_last (sl_log x) + 1 < e_index e0 -> append_entries c (e0 :: es') s = Some (s, [GDone c G_EINVAL])) /\
  (e_index e0 <= r_last (sl_log x) + 1 -> last_index (e0 :: es') <= li_index (g_applied s) -> append_entries c (e0 :: es') s = Some (s, [GDone c 0])) /\
  (e_index e0 <= r_last (sl_log x) + 1 -> li_index (g_applied s) < last_index (e0 :: es') ->
   exists m rest, e0 :: es' = m ++ rest /\ (forall e, In e m -> r_term (sl_log x) (e_index e) = e_term e) /\
     match rest with e1 :: _ => r_term (sl_log x) (e_index e1) <> e_term e1 /\ e_index e1 <= r_last (sl_log x) + 1 | [] => True end /\
     (forall s' o, append_entries c (e0 :: es') s = Some (s', o) -> o = [GAccepted c rest] /\
        match rest with e1 :: _ => e_index e1 <= r_last (sl_log x) -> li_index (g_applied s) < e_index e1 | [] => True end) /\
     ((1 < r_first (sl_log x) -> 0 < li_index (sl_snap x)) -> append_entries c (e0 :: es') s = None ->
        match rest with e1 :: _ => e_index e1 <= r_last (sl_log x) /\ e_index e1 <= li_index (g_applied s) | [] => False end)).
Proof.
  intros E x s c e0 es' G Lg H0. destruct Lg as [Lr [_ Lc]]. destruct (Z.eqb_spec (e_index e0) 0) as [|_]; [lia|]. destruct Lc as [Lc [Lf Lp]].
  apply (proj1 (consec_contig _ _)) in Lc. assert (Gd := i_good _ _ _ G). assert (Gc := good_contig _ Gd).
  assert (Happ : append_entries c (e0 :: es') s =
     match check_and_resolve_conflict (e0 :: es') s with
     | None => None
     | Some (CRefuse code) => Some (s, [GDone c code])
     | Some (CGo s1 es1) => match cm_add_all (g_cm s1) es1 with None => None | Some m => Some (push (KAppend c es1 (e0 :: es')) (set_cm m (set_mem (g_mem s1 ++ es1) s1)), [GAccepted c es1]) end
     end).
  { unfold append_entries. rewrite (i_err _ _ _ G). destruct (Z.eqb_spec (e_index e0) 0); [lia|]. auto. }
  assert (Hchk : check_and_resolve_conflict (e0 :: es') s =
     if r_last (sl_log x) + 1 <? e_index e0 then Some (CRefuse G_EINVAL) else if last_index (e0 :: es') <=? li_index (g_applied s) then Some (CRefuse 0)
     else if e_index e0 =? r_last (sl_log x) + 1 then Some (CGo (set_last (last_index (e0 :: es')) s) (e0 :: es'))
     else match skip_matching s (e0 :: es') with
        | None => None
        | Some [] => Some (CGo s [])
        | Some (e1 :: r) =>
            match (if e_index e1 <=? r_last (sl_log x) then unsafe_truncate_suffix (e_index e1 - 1) s else Some s) with
            | None => None
            | Some s1 => Some (CGo (set_last (last_index (e0 :: es')) s1) (e1 :: r))
            end
        end).
  { unfold check_and_resolve_conflict. destruct (Z.eqb_spec (e_index e0) 0); [lia|]. rewrite (i_last _ _ _ G). auto. }
  rewrite Happ. rewrite Hchk. clear Happ Hchk.
  split. { intros H. destruct (Z.ltb_spec (r_last (sl_log x) + 1) (e_index e0)); auto. lia. }
  split. { intros H1 H2. destruct (Z.ltb_spec (r_last (sl_log x) + 1) (e_index e0)); [lia|]. destruct (Z.leb_spec (last_index (e0 :: es')) (li_index (g_applied s))); auto. lia. }
  intros H1 H2. destruct (Z.ltb_spec (r_last (sl_log x) + 1) (e_index e0)); [lia|]. destruct (Z.leb_spec (last_index (e0 :: es')) (li_index (g_applied s))); [lia|].
  assert (Hcm : forall k m es1, contig k es1 -> k >= r_first (sl_log x) -> (forall z, In z (cm_confs m) -> ce_index z < k) -> cm_add_all m es1 <> None).
  { intros k m es1 Ck _ Hz. eapply cm_add_total; eauto. }
  assert (Hcf : forall z, In z (cm_confs (g_cm s)) -> ce_index z <= r_last (sl_log x)).
  { intros z Hz. destruct (i_cm _ _ _ G) as [K _]. rewrite K in Hz. apply cconf_in in Hz. destruct Hz as [e [He ->]].
    apply (contig_in _ _ _ Gc) in He. unfold r_last. lia. }
  destruct (Z.eqb_spec (e_index e0) (r_last (sl_log x) + 1)) as [Q|Q].
  - exists [], (e0 :: es'). split; auto. split; [intros e []|].
    assert (r_term (sl_log x) (e_index e0) = 0).
    { unfold r_term. destruct (r_get _ _) eqn:Z; auto. apply r_get_bound in Z. lia. }
    assert (1 <= e_term e0) by (destruct Lr; auto). split; [split; lia|]. cbn [g_cm set_last].
    destruct (cm_add_all (g_cm s) (e0 :: es')) eqn:CA.
    + split; [|intros _ X; discriminate]. intros s' o X. injection X as <- <-. split; auto. intros. lia.
    + exfalso. revert CA. eapply cm_add_total; eauto. intros z Hz. specialize (Hcf _ Hz). lia.
  - destruct (skip_matching s (e0 :: es')) as [rest|] eqn:SK; [|exfalso; revert SK; eapply skip_total; eauto].
    destruct (skip_spec _ _ _ _ _ _ G Lc Lf SK) as [m [M1 [M2 M3]]]. exists m, rest. split; auto. split; auto.
    destruct rest as [|e1 rest].
    + split; auto. cbn [cm_add_all]. split; [|intros _ X; discriminate]. intros s' o X. injection X as <- <-. auto.
    + assert (Cr : contig (e_index e0) (m ++ e1 :: rest)) by (rewrite <- M1; auto). apply contig_app in Cr. destruct Cr as [Cm Cr].
      assert (I1 : e_index e1 = e_index e0 + zlen m) by (destruct Cr; auto).
      assert (Hle : e_index e1 <= r_last (sl_log x) + 1).
      { destruct m as [|a m0]. { injection M1 as -> ->. lia. }
        destruct (exists_last (l := a :: m0)) as [q [z Qz]]; [congruence|]. rewrite Qz in *.
        apply contig_app in Cm. destruct Cm as [_ [Cz _]].
        assert (T : r_term (sl_log x) (e_index z) = e_term z) by (apply M2; apply in_or_app; right; left; auto).
        assert (1 <= e_term z).
        { apply (rising_in _ _ _ Lr). rewrite M1. apply in_or_app. left. apply in_or_app. right. left. auto. }
        unfold r_term in T. destruct (r_get _ (e_index z)) eqn:Z; [|lia]. apply r_get_bound in Z. zl. lia. }
      split; [split; auto|].
      destruct (Z.leb_spec (e_index e1) (r_last (sl_log x))) as [C|C].
      * assert (Hr : r_first (sl_log x) - 1 <= e_index e1 - 1 <= r_last (sl_log x)) by (pose proof (zlen_nonneg m); lia).
        destruct (unsafe_truncate_suffix (e_index e1 - 1) s) as [s1|] eqn:U.
        -- assert (Ha : li_index (g_applied s) < e_index e1).
           { unfold unsafe_truncate_suffix in U. destruct (Z.ltb_spec (e_index e1 - 1) (li_index (g_applied s))); [discriminate|lia]. }
           cbn [g_cm set_last]. destruct (cm_add_all (g_cm s1) (e1 :: rest)) eqn:CA.
           ++ split; [|intros _ X; discriminate]. intros s' o X. injection X as <- <-. auto.
           ++ exfalso. revert CA. eapply (cm_add_total _ (e_index e1)); [rewrite I1; auto|]. intros z Hz.
              unfold unsafe_truncate_suffix in U. destruct (_ <? _); [discriminate|]. destruct (unsafe_get_term _ _); [|discriminate]. destruct (_ && _); [discriminate|].
              injection U as <-. cbn [g_cm push set_cm] in Hz. destruct (i_cm _ _ _ G) as [K _].
              assert (K1 := cm_trunc_sfx (g_cm s) _ _ (e_index e1 - 1) Gc K).
              cbn [set_last set_mem g_cm] in Hz. rewrite K1 in Hz. apply cconf_in in Hz. destruct Hz as [e [He ->]].
              apply (contig_in _ (r_first (sl_log x))) in He; [|apply contig_firstn; auto]. unfold zlen in He. rewrite firstn_length in He.
              pose proof (zlen_nonneg m). lia.
        -- split; [intros ? ? X; discriminate|]. intros Hs _. split; auto.
           destruct (Z_lt_le_dec (e_index e1 - 1) (li_index (g_applied s))); [lia|]. exfalso. revert U. eapply trunc_term_pos; eauto.
      * cbn [g_cm set_last]. destruct (cm_add_all (g_cm s) (e1 :: rest)) eqn:CA.
        -- split; [|intros _ X; discriminate]. intros s' o X. injection X as <- <-. split; auto. lia.
        -- exfalso. revert CA. eapply (cm_add_total _ (e_index e1)); [rewrite I1; auto|]. intros z Hz. specialize (Hcf _ Hz). lia.
Qed.
