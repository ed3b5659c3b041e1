(** Lemmas for LogManager, part 10: the position just before the log, the snapshot's configuration. *)
From Verif Require Import Base BaseLemmas LogEntry LogRef LogRefProofs ConfMgr ConfMgrSpec ConfMgrProofs BallotBox LogMgr LogMgrSpec LogMgrProofs LogMgrProofs2 LogMgrProofs3 LogMgrProofs4 LogMgrProofs5 LogMgrProofs6 LogMgrProofs7.

Ltac dmh H :=
  match type of H with
  | context[match ?x with _ => _ end] => let E := fresh "E" in destruct x eqn:E
  end.
Lemma cm_add_snap : forall m e m', cm_add m e = Some m' -> cm_snap m' = cm_snap m.
Proof. intros m e m' H. unfold cm_add in H. repeat dmh H; try discriminate; injection H as <-; auto. Qed.
Lemma cm_add_all_snap : forall es m m', cm_add_all m es = Some m' -> cm_snap m' = cm_snap m.
Proof.
  induction es as [|e es IH]; intros m m' H; cbn in H; [injection H as <-; auto|].
  destruct (is_conf e); auto. destruct (cm_add m (conf_entry e)) eqn:A; [|discriminate].
  rewrite (IH _ _ H). eapply cm_add_snap; eauto.
Qed.
Definition vs (s : lmgr) := (g_virt s, cm_snap (g_cm s)).
Lemma trunc_sfx_vs : forall k s s', unsafe_truncate_suffix k s = Some s' -> vs s' = vs s.
Proof. intros k s s' H. unfold unsafe_truncate_suffix in H. repeat dmh H; try discriminate; injection H as <-; auto. Qed.
Lemma check_vs : forall es s s1 es1, check_and_resolve_conflict es s = Some (CGo s1 es1) -> vs s1 = vs s.
Proof.
  intros es s s1 es1 H. unfold check_and_resolve_conflict in H.
  repeat dmh H; try discriminate; injection H as <- <-; auto.
  destruct (_ <=? g_last s) in E6; [apply trunc_sfx_vs in E6; exact E6|injection E6 as <-; reflexivity].
Qed.
Lemma append_vs : forall c es s s' o, append_entries c es s = Some (s', o) -> vs s' = vs s.
Proof.
  intros c es s s' o H. unfold append_entries in H. destruct (g_err s); [injection H as <- <-; auto|].
  destruct (check_and_resolve_conflict es s) as [[code|s1 es1]|] eqn:C; [injection H as <- <-; auto| |discriminate].
  apply check_vs in C. destruct (cm_add_all _ _) as [m|] eqn:A; [|discriminate]. apply cm_add_all_snap in A. injection H as <- <-.
  unfold vs in *. cbn. rewrite A. injection C as -> ->. auto.
Qed.
Lemma step_vs : forall mb s e s' o, gstep mb s e = Some (s', o) ->
  match e with VSnapshot _ _ _ _ => False | VClearBuffered => False | _ => True end -> vs s' = vs s.
Proof.
  intros mb s e s' o H K. destruct e; try contradiction; cbn [gstep] in H.
  - eapply append_vs; eauto.
  - injection H as <- <-. unfold set_applied_id. destruct (id_ltb _ _); auto.
  - unfold noout, clear_memory in H. destruct (nth_error _ _); [|discriminate]. destruct (mem_clear _ _ _). injection H as <- <-. auto.
  - injection H as H. unfold last_log_id_flush in H. destruct (_ =? _); injection H as <- <-; auto.
  - unfold get_entry1 in H. repeat dmh H; try discriminate; injection H as <- <-; auto.
  - unfold get_term1 in H. repeat dmh H; try discriminate; injection H as <- <-; auto.
  - unfold read_storage in H. repeat dmh H; try discriminate; injection H as <- <-; auto.
  - unfold disk_begin in H. repeat dmh H; try discriminate; injection H as <- <-; auto.
  - unfold disk_take in H. repeat dmh H; try discriminate; injection H as <- <-; auto.
  - unfold disk_flush in H. destruct (g_run s) as [[lid [|x b]]|]; try discriminate.
    unfold flush in H. destruct (if g_err s then _ else _) as [st done]. injection H as <- <-. auto.
  - unfold disk_end in H. repeat dmh H; try discriminate; injection H as <- <-; auto.
Qed.

Lemma put_first : forall r es, r_first (put_entries r es) = r_first r.
Proof. intros r [|e es]; auto. Qed.

Definition noted (h : list (gev * list gout)) (id : logid) : Prop :=
  exists cf old o, In (VSnapshot (li_index id) (li_term id) cf old, o) h.
Lemma noted_snoc : forall h x id, noted h id -> noted (h ++ [x]) id.
Proof. intros h x id (cf & old & o & H). exists cf, old, o. apply in_or_app. auto. Qed.
Record VI (r : rlog) (h : list (gev * list gout)) (s : lmgr) : Prop := mkVI {
  w_virt : r_first (sl_log (spec_run r h)) = r_first r \/
           (li_index (g_virt s) = r_first (sl_log (spec_run r h)) - 1 /\ 1 <= li_index (g_virt s) /\ noted h (g_virt s));
  w_snap : sl_snap (spec_run r h) = mkId 0 0 \/ noted h (sl_snap (spec_run r h));
  w_conf : cm_snap (g_cm s) = snap_conf h }.
Lemma snap_conf_snoc : forall h x, snap_conf (h ++ [x]) =
  match fst x with VSnapshot i t cf old => if i <=? ce_index (snap_conf h) then snap_conf h else mkCE (mkId i t) cf old | _ => snap_conf h end.
Proof. intros. unfold snap_conf. rewrite fold_left_app. auto. Qed.

Lemma VI_run : forall mb r cm h s, good_run mb r cm h s -> VI r h s.
Proof.
  intros mb r cm h. induction h as [|[e o] h IH] using rev_ind; intros s' R'.
  - destruct R' as [[Gd [C1 C2]] [R _]]. inversion R as [Q|h0 s0 e0 s1 o0 R0 S Q]; [|destruct h0; discriminate].
    constructor; cbn; auto.
  - destruct (good_run_prefix _ _ _ _ _ _ _ R') as [s [R [S Lg]]]. assert (G := run_GI _ _ _ _ _ R).
    specialize (IH s R). destruct IH as [V1 V2 V3].
    assert (Hpos : 0 <= li_index (sl_snap (spec_run r h))) by (destruct (i_sn _ _ _ G) as [_ [_ W]]; lia).
    assert (Hsn : ce_index (snap_conf h) = li_index (sl_snap (spec_run r h))).
    { rewrite <- V3. unfold ce_index. rewrite (proj2 (i_cm _ _ _ G)). auto. }
    assert (Dflt : match e with VSnapshot _ _ _ _ => False | VClearBuffered => False | _ => True end -> VI r (h ++ [(e, o)]) s').
    { intros K. assert (X := step_vs _ _ _ _ _ S K). injection X as X1 X2.
      assert (Y : r_first (sl_log (spec_run r (h ++ [(e, o)]))) = r_first (sl_log (spec_run r h)) /\ sl_snap (spec_run r (h ++ [(e, o)])) = sl_snap (spec_run r h)).
      { rewrite spec_run_snoc. unfold spec_step. cbn [fst]. destruct e; try contradiction; cbn [sl_log sl_snap]; rewrite ?put_first; auto. }
      destruct Y as [Y1 Y2]. constructor; rewrite ?Y1, ?Y2, ?X1, ?X2.
      - destruct V1 as [V1|[V1 [V1a V1b]]]; auto. right. split; auto. split; auto. apply noted_snoc; auto.
      - destruct V2 as [V2|V2]; auto. right. apply noted_snoc; auto.
      - rewrite V3, snap_conf_snoc. cbn [fst]. destruct e; try contradiction; auto. }
    destruct e; try (apply Dflt; exact I); clear Dflt; cbn [gstep] in S; unfold noout in S.
    + assert (Hn : noted (h ++ [(VSnapshot idx term conf old, o)]) (mkId idx term)).
      { exists conf, old, o. apply in_or_app. right. left. auto. }
      destruct (set_snapshot idx term conf old s) as [s1|] eqn:SS; [|discriminate]. injection S as -> <-.
      unfold set_snapshot in SS. rewrite (i_snap _ _ _ G) in SS.
      assert (Same : idx <=? li_index (sl_snap (spec_run r h)) = true -> VI r (h ++ [(VSnapshot idx term conf old, [])]) s').
      { intros K. rewrite K in SS. injection SS as <-. constructor; rewrite ?spec_run_snoc, ?snap_conf_snoc; unfold spec_step; cbn [fst]; rewrite ?Hsn, K; auto.
        - destruct V1 as [V1|[V1 [V1a V1b]]]; auto. right. split; auto. split; auto. apply noted_snoc; auto.
        - destruct V2 as [V2|V2]; auto. right. apply noted_snoc; auto. }
      destruct (idx <=? li_index (sl_snap (spec_run r h))) eqn:LE; [auto|]. clear Same. assert (LE' := LE). apply Z.leb_gt in LE'.
      destruct (cm_set_snapshot _ _) as [m|] eqn:CS; [|discriminate]. apply cm_set_snapshot_spec in CS.
      destruct (unsafe_get_term s idx) as [t|] eqn:UT; [|discriminate].
      assert (GI' : t = r_term (sl_log (spec_run r h)) idx).
      { destruct Lg as [L1 [L2 _]]. apply Z.leb_gt in LE.
        destruct (Z.eq_dec idx (r_first (sl_log (spec_run r h)) - 1)) as [Q|Q].
        - unfold unsafe_get_term in UT. rewrite (i_snap _ _ _ G) in UT. destruct (i_virt _ _ _ G) as [W1 [W2 _]].
          destruct (Z.eqb_spec idx 0). { lia. }
          destruct (Z.eqb_spec idx (li_index (g_virt s))); [lia|]. destruct (Z.eqb_spec idx (li_index (sl_snap (spec_run r h)))); [lia|].
          rewrite (i_first _ _ _ G) in UT. destruct (Z.ltb_spec idx (r_first (sl_log (spec_run r h)))); [|lia]. rewrite orb_true_r in UT. injection UT as <-.
          symmetry. apply r_term_0; [apply G|]. apply r_get_none. lia.
        - assert (X := GI_term _ _ _ idx G). rewrite X in UT by lia. congruence. }
      assert (C1 : cm_snap m = mkCE (mkId idx term) conf old) by (rewrite CS; auto).
      assert (Hc : snap_conf (h ++ [(VSnapshot idx term conf old, [])]) = mkCE (mkId idx term) conf old).
      { rewrite snap_conf_snoc. cbn [fst]. rewrite Hsn, LE. auto. }
      assert (Hs : sl_snap (spec_run r (h ++ [(VSnapshot idx term conf old, [])])) = mkId idx term).
      { rewrite spec_run_snoc. unfold spec_step. cbn [fst]. rewrite LE. auto. }
      assert (Hl : sl_log (spec_run r (h ++ [(VSnapshot idx term conf old, [])])) =
                   match r_get (sl_log (spec_run r h)) idx with
                   | None => cut_prefix (sl_log (spec_run r h)) (idx + 1)
                   | Some e => if e_term e =? term
                               then if 0 <? li_index (sl_snap (spec_run r h)) then cut_prefix (sl_log (spec_run r h)) (li_index (sl_snap (spec_run r h)) + 1) else sl_log (spec_run r h)
                               else mkR (idx + 1) []
                   end).
      { rewrite spec_run_snoc. unfold spec_step. cbn [fst]. rewrite LE. auto. }
      destruct (Z.eqb_spec t 0) as [T0|T0].
      { unfold truncate_prefix in SS. cbn [set_virt g_first] in SS. destruct (_ <? _); [discriminate|]. injection SS as <-.
        rewrite GI' in T0. apply r_term_0 in T0; [|apply G]. rewrite T0 in Hl.
        constructor; rewrite ?Hs, ?Hl, ?Hc; auto. right. cbn. split; [lia|split; [lia|auto]]. }
      destruct (r_get (sl_log (spec_run r h)) idx) as [e|] eqn:R1; [|destruct T0; rewrite GI'; apply r_term_0; [apply G|auto]].
      assert (Te : t = e_term e) by (rewrite GI'; unfold r_term; rewrite R1; auto). rewrite <- Te in Hl.
      destruct (t =? term).
      * destruct (Z.ltb_spec 0 (li_index (sl_snap (spec_run r h)))).
        -- unfold truncate_prefix in SS. cbn [set_virt g_first] in SS. destruct (_ <? _); [discriminate|]. injection SS as <-.
           constructor; rewrite ?Hs, ?Hl, ?Hc; auto. right. cbn. split; [lia|split; [lia|]]. apply noted_snoc.
           destruct V2 as [V2|V2]; auto. rewrite V2 in *. cbn in *. lia.
        -- injection SS as <-. constructor; rewrite ?Hs, ?Hl, ?Hc; auto. cbn.
           destruct V1 as [V1|[V1 [V1a V1b]]]; auto. right. split; auto. split; auto. apply noted_snoc; auto.
      * injection SS as <-. constructor; rewrite ?Hs, ?Hl, ?Hc; auto. right. cbn. split; [lia|split; [lia|auto]].
    + destruct (clear_bufferred s) as [s1|] eqn:SS; [|discriminate]. injection S as -> <-.
      unfold clear_bufferred in SS. rewrite (i_snap _ _ _ G) in SS.
      assert (V2' : sl_snap (spec_run r h) = mkId 0 0 \/ noted (h ++ [(VClearBuffered, [])]) (sl_snap (spec_run r h))) by (destruct V2; auto using noted_snoc).
      destruct (Z.eqb_spec (li_index (sl_snap (spec_run r h))) 0) as [Q|Q]; cbn [negb] in SS.
      * injection SS as <-. constructor; rewrite ?spec_run_snoc, ?snap_conf_snoc; unfold spec_step; cbn [fst]; destruct (Z.eqb_spec (li_index (sl_snap (spec_run r h))) 0); try lia; auto.
        destruct V1 as [V1|[V1 [V1a V1b]]]; auto. right. split; auto. split; auto. apply noted_snoc; auto.
      * unfold truncate_prefix in SS. cbn [set_virt g_first] in SS. destruct (_ <? _); [discriminate|]. injection SS as <-.
        constructor; rewrite ?spec_run_snoc, ?snap_conf_snoc; unfold spec_step; cbn [fst]; destruct (Z.eqb_spec (li_index (sl_snap (spec_run r h))) 0); try lia; auto.
        right. cbn. split; [lia|split; [lia|]]. destruct V2' as [V2'|V2']; auto. rewrite V2' in Q. cbn in Q. lia.
Qed.
