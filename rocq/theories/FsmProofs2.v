From Verif Require Import Base BaseLemmas BallotBox Fsm FsmSpec FsmProofs.

Lemma progress_upto : forall lg n a, progress lg a (flat_map (visible lg) (upto a n)) (a + Z.of_nat n).
Proof.
  induction n as [|n IH]; intros a; cbn [upto flat_map].
  - replace (a + Z.of_nat 0) with a by lia. constructor.
  - apply prog_entry. replace (a + Z.of_nat (S n)) with (a + 1 + Z.of_nat n) by lia. apply IH.
Qed.
Lemma progress_trans : forall lg a t1 b t2 c, progress lg a t1 b -> progress lg b t2 c -> progress lg a (t1 ++ t2) c.
Proof.
  intros lg a t1 b t2 c H. revert t2 c. induction H; intros t2 c K; cbn; auto.
  - rewrite <- app_assoc. apply prog_entry. auto.
  - rewrite <- app_assoc. apply prog_snapshot; auto.
Qed.
Lemma progress_le : forall lg a t b, progress lg a t b -> a <= b.
Proof. induction 1; lia. Qed.

Lemma split_app : forall {A} (p q o1 : list A) x o2, p ++ q = o1 ++ x :: o2 ->
  (exists o', p = o1 ++ x :: o' /\ o2 = o' ++ q) \/ (exists o', o1 = p ++ o' /\ q = o' ++ x :: o2).
Proof.
  induction p as [|y p IH]; intros q o1 x o2 H; cbn in H.
  - right. exists o1. auto.
  - destruct o1 as [|z o1]; cbn in H; inversion H; subst.
    + left. exists p. auto.
    + destruct (IH _ _ _ _ H2) as [[o' [E1 E2]]|[o' [E1 E2]]]; subst; [left|right]; exists o'; auto.
Qed.

(** No snapshot save is ever issued by the apply loop. *)
Definition nosave (o : list fout) : Prop := forall c m, ~ In (FSave c m) o.
Lemma nosave_app : forall a b, nosave a -> nosave b -> nosave (a ++ b).
Proof. intros a b A B c m H. apply in_app_or in H. destruct H; [eapply A|eapply B]; eauto. Qed.
Lemma nosave_run_done : forall d st, nosave (run_done d st).
Proof. intros [c|] st c' m; cbn; intros H; intuition discriminate. Qed.
Lemma nosave_shown : forall cls f ci it, nosave (shown cls f ci it).
Proof. intros cls f ci it c m. unfold shown. destruct (i_entry it); [destruct (it_valid ci it)|]; cbn; intuition discriminate. Qed.
Lemma nosave_nexts : forall lm cls f ci n it it' o, user_nexts lm cls f ci n it = (it', o) -> nosave o.
Proof.
  induction n as [|n IH]; intros it it' o H; cbn in H.
  - inversion H; subst. intros ? ? [].
  - destruct (it_valid ci it); [|inversion H; subst; intros ? ? []].
    destruct (user_nexts lm cls f ci n (it_next lm ci it)) as [it2 o2] eqn:E. inversion H; subst.
    apply nosave_app; [apply nosave_shown|eauto].
Qed.
Lemma nosave_loop : forall lm cls f ci fuel ss it it' o,
  apply_loop lm cls f ci fuel ss it = Some (it', o) -> nosave o.
Proof.
  induction fuel as [|fuel IH]; intros ss it it' o H; cbn in H; [discriminate|].
  destruct (it_good ci it); [|inversion H; subst; intros ? ? []].
  destruct (i_entry it) as [e|]; [|discriminate].
  destruct (negb (is_data (e_type e))).
  - destruct (apply_loop lm cls f ci fuel ss (it_next lm ci it)) as [[it2 o2]|] eqn:E; [|discriminate].
    inversion H; subst. apply nosave_app; [|apply nosave_app; [apply nosave_run_done|eauto]].
    destruct (e_type e), (e_old e); intros c m; cbn; intuition discriminate.
  - unfold on_apply in H. destruct (user_nexts lm cls f ci (fst (hd (O, None) ss)) it) as [it1 o1] eqn:E1.
    assert (N1 : nosave (shown cls f ci it ++ o1)) by (apply nosave_app; [apply nosave_shown|eapply nosave_nexts; eauto]).
    destruct (snd (hd (O, None) ss)) as [r|].
    + destruct (apply_loop lm cls f ci fuel (tl ss) (user_next lm ci (rollback it1 r))) as [[it2 o2]|] eqn:E; [|discriminate].
      inversion H; subst. apply nosave_app; [apply nosave_app; auto|eauto].
      intros c m; cbn; intuition discriminate.
    + destruct (apply_loop lm cls f ci fuel (tl ss) (user_next lm ci it1)) as [[it2 o2]|] eqn:E; [|discriminate].
      inversion H; subst. apply nosave_app; eauto.
Qed.
Lemma nosave_rest : forall cls f n i st, nosave (rest_from cls f n i st).
Proof. induction n; intros; cbn; [intros ? ? []|]. apply nosave_app; [apply nosave_run_done|auto]. Qed.

(** Everything about one do_committed that really runs. *)
Lemma do_committed_spec : forall lg w st ci q cls f,
  (forall i, e_index (lg i) = i) -> (forall i e, v_log w i = Some e -> e = lg i) ->
  fs_err st = None -> fs_last st < ci -> pop_closure_until (v_cq w) ci = Some (q, cls, f) ->
  exists st' o n k,
    do_committed w st ci = Some (st', o) /\ nosave o /\
    fs_last st' = ci /\ fs_lterm st' = v_term w (k - 1) /\ fs_n st' = fs_n st /\
    fs_last st + Z.of_nat n <= ci /\
    sm_calls o = flat_map (visible lg) (upto (fs_last st) n) /\
    handed o = flat_map (hd_of lg cls f) (upto (fs_last st) n) /\
    ran_ok o = flat_map (ok_of lg cls f) (upto (fs_last st) n) /\
    (exists o', o = o' ++ [FApplied (mkId (k - 1) (v_term w (k - 1)))]) /\
    match fs_err st' with
    | None => k = ci + 1 /\ fs_last st + Z.of_nat n = ci /\ ran_failed o = []
    | Some e => e <> 0 /\ In (FOnError e) o /\
        ran_failed o = flat_map (fl_of cls f e) (upto (Z.max k f - 1) (Z.to_nat (ci - Z.max k f + 1))) /\
        (rollbacks_legal o -> fs_last st + 1 <= k <= fs_last st + Z.of_nat n + 1 /\
           forall i, k <= i <= fs_last st + Z.of_nat n -> e_type (lg i) = T_DATA)
    end.
Proof.
  intros lg w st ci q cls f Hidx Hlm He Hlt Hp.
  unfold do_committed. rewrite He. destruct (Z.leb_spec ci (fs_last st)); [lia|]. rewrite Hp.
  destruct (it_next_It lg (v_log w) ci Hlm (mkIter (fs_last st) None None) eq_refl) as [HI HC]; [cbn; lia|].
  cbn in HC. unfold it_init. set (it0 := it_next (v_log w) ci (mkIter (fs_last st) None None)) in *.
  destruct (apply_loop_spec lg (v_log w) cls f ci Hidx Hlm (S (Z.to_nat (ci - fs_last st))) (v_ss w) it0 HI)
    as [it' [o [E [n [Cv [Bd M]]]]]]; [lia|].
  rewrite E. pose proof (nosave_loop _ _ _ _ _ _ _ _ _ E) as NS.
  rewrite HC in *. replace (fs_last st + 1 - 1) with (fs_last st) in * by lia.
  destruct Cv as [C1 [C2 [C3 C4]]].
  destruct (i_err it') as [e|] eqn:Ee.
  - unfold set_error. rewrite He. cbn [fs_last fs_lterm fs_err fs_n].
    destruct M as [M1 M2].
    eexists; eexists; exists n, (i_cur it'). split; [reflexivity|].
    unfold run_the_rest.
    destruct (rest_from_spec cls f (Z.to_nat (ci - Z.max (i_cur it') f + 1)) (Z.max (i_cur it') f) e M1) as [R1 [R2 [R3 R4]]].
    pose proof (nosave_rest cls f (Z.to_nat (ci - Z.max (i_cur it') f + 1)) (Z.max (i_cur it') f) e) as NR.
    cbn [fs_last fs_lterm fs_err fs_n app].
    rewrite !sm_calls_app, !handed_app, !ran_ok_app, !ran_failed_app.
    cbn [sm_calls handed ran_ok ran_failed]. rewrite !sm_calls_app, !handed_app, !ran_ok_app, !ran_failed_app.
    cbn [sm_calls handed ran_ok ran_failed].
    rewrite R1, R2, R3, R4, C1, C2, C3, C4. cbn [app]. rewrite !app_nil_r.
    split.
    { apply nosave_app; auto. intros c m [X|X]; [discriminate|]. apply in_app_or in X.
      destruct X as [X|X]; [eapply NR; eauto|]. cbn in X; intuition discriminate. }
    split; [reflexivity|]. split; [reflexivity|]. split; [reflexivity|]. split; [lia|].
    split; [reflexivity|]. split; [reflexivity|]. split; [reflexivity|].
    split; [eexists (o ++ FOnError e :: _); rewrite <- app_assoc; reflexivity|].
    split; [auto|]. split; [apply in_or_app; right; cbn; auto|]. split; [reflexivity|].
    intros L. apply legal_app in L. destruct L as [L _]. destruct (M2 L) as [M3 M4].
    split; [lia|]. intros i Hi. apply M4. lia.
  - destruct M as [M1 M2].
    eexists; eexists; exists n, (i_cur it'). split; [reflexivity|].
    cbn [fs_last fs_lterm fs_err fs_n app]. rewrite He.
    rewrite !sm_calls_app, !handed_app, !ran_ok_app, !ran_failed_app.
    cbn [sm_calls handed ran_ok ran_failed]. rewrite C1, C2, C3, C4, !app_nil_r.
    split; [apply nosave_app; auto; intros c m; cbn; intuition discriminate|].
    split; [reflexivity|]. split; [reflexivity|]. split; [reflexivity|]. split; [lia|].
    split; [reflexivity|]. split; [reflexivity|]. split; [reflexivity|].
    split; [exists o; auto|]. split; [auto|]. split; auto.
Qed.

Section World.
Variable lg : Z -> entry.
Variable W : nat -> env.
Variable batch : Z.
Hypothesis HW : world_ok lg W.

Definition SaveOk (a : Z) (o : list fout) : Prop :=
  forall o1 c m o2, o = o1 ++ FSave c m :: o2 ->
  exists n, progress lg a (sm_calls o1) (sm_index m) /\ sm_term m = e_term (lg (sm_index m)) /\
    let ce := match cm_get (v_cm (W n)) (sm_index m) with Some ce => ce | None => ce_empty end in
    sm_peers m = ce_conf ce /\ sm_old m = ce_old ce.

(** What one stretch of execution from [st] to [st'] with outputs [o] guarantees. *)
Definition Good (st : fstate) (o : list fout) (st' : fstate) : Prop :=
  SaveOk (fs_last st) o /\
  (exists tr b, progress lg (fs_last st) tr b /\
    (sm_calls o = tr \/ exists m, sm_calls o = tr ++ [SLoad m] /\ b <= sm_index m) /\
    (fs_err st' = None -> sm_calls o = tr /\ b = fs_last st' /\ last_ok lg st')).

Lemma good_refl : forall st, last_ok lg st -> Good st [] st.
Proof.
  intros st L. split.
  - intros o1 c m o2 H. destruct o1; discriminate.
  - exists [], (fs_last st). split; [constructor|]. split; auto.
Qed.

Lemma good_trans : forall st o1 st1 o2 st2,
  fs_err st1 = None -> Good st o1 st1 -> Good st1 o2 st2 -> Good st (o1 ++ o2) st2.
Proof.
  intros st o1 st1 o2 st2 He [S1 [t1 [b1 [P1 [C1 N1]]]]] [S2 [t2 [b2 [P2 [C2 N2]]]]].
  destruct (N1 He) as [E1 [E2 E3]]. subst b1. split.
  - intros p c m q H. destruct (split_app _ _ _ _ _ H) as [[o' [A B]]|[o' [A B]]].
    + destruct (S1 _ _ _ _ A) as [n K]. exists n. auto.
    + destruct (S2 _ _ _ _ B) as [n [K1 K2]]. exists n. subst p. rewrite sm_calls_app, E1.
      split; auto. eapply progress_trans; eauto.
  - exists (t1 ++ t2), b2. split; [eapply progress_trans; eauto|]. rewrite sm_calls_app, E1.
    split.
    + destruct C2 as [->|[m [-> C2]]]; auto. right. exists m. rewrite app_assoc. auto.
    + intros H. destruct (N2 H) as [-> [A B]]. auto.
Qed.

Lemma do_committed_good : forall n st ci st' o,
  fs_err st = None -> last_ok lg st -> do_committed (W n) st ci = Some (st', o) ->
  Good st o st' /\ (fs_err st' = None -> ci <= fs_last st').
Proof.
  intros n st ci st' o He HL H. destruct HW as [W1 [W2 [W3 [W4 W5]]]].
  destruct (Z_le_gt_dec ci (fs_last st)) as [Hc|Hc].
  { unfold do_committed in H. rewrite He in H. destruct (Z.leb_spec ci (fs_last st)); [|lia].
    inversion H; subst. split; [apply good_refl; auto|auto]. }
  destruct (pop_closure_until (v_cq (W n)) ci) as [[[q cls] f]|] eqn:Ep.
  2:{ unfold do_committed in H. rewrite He, Ep in H. destruct (Z.leb_spec ci (fs_last st)); [lia|]. discriminate. }
  destruct (do_committed_spec lg (W n) st ci q cls f W1 (W3 n) He ltac:(lia) Ep)
    as [st2 [o2 [m [k [E [NS [F1 [F2 [F3 [Bd [C1 [C2 [C3 [C4 M]]]]]]]]]]]]]].
  rewrite E in H. inversion H; subst st2 o2. split; [split|].
  - intros o1 c mm o2 Ho. exfalso. apply (NS c mm). rewrite Ho. apply in_or_app. right; cbn; auto.
  - exists (flat_map (visible lg) (upto (fs_last st) m)), (fs_last st + Z.of_nat m).
    split; [apply progress_upto|]. split; auto. intros Hn. rewrite Hn in M. destruct M as [M1 [M2 M3]].
    split; auto. split; [congruence|]. unfold last_ok. rewrite F2, F1, W4. f_equal. f_equal. lia.
  - intros Hn. lia.
Qed.

Lemma set_error_some : forall st e, fs_err (fst (set_error st e)) <> None.
Proof. intros st e. unfold set_error. destruct (fs_err st) eqn:E; cbn; congruence. Qed.

Lemma do_other_good : forall n st t st' o,
  fs_err st = None -> last_ok lg st -> do_other (W n) st t = (st', o) -> (forall i, t <> TCommitted i) ->
  Good st o st'.
Proof.
  intros n st t st' o He HL H Ht. destruct HW as [W1 [W2 [W3 [W4 W5]]]].
  assert (Triv : forall o', sm_calls o' = [] -> nosave o' -> Good st o' st).
  { intros o' E NS. split.
    - intros o1 c m o2 Ho. exfalso. apply (NS c m). rewrite Ho. apply in_or_app. right; cbn; auto.
    - exists [], (fs_last st). split; [constructor|]. rewrite E. auto. }
  assert (Err : forall e o', sm_calls o' = [] -> nosave o' -> Good st (o' ++ snd (set_error st e)) (fst (set_error st e))).
  { intros e o' E NS. unfold set_error. rewrite He. cbn. split.
    - intros o1 c m o2 Ho. exfalso. apply (NS c m).
      assert (X : In (FSave c m) (o' ++ [FOnError e])) by (rewrite Ho; apply in_or_app; right; cbn; auto).
      apply in_app_or in X. destruct X as [X|[X|[]]]; auto. discriminate.
    - exists [], (fs_last st). split; [constructor|]. rewrite sm_calls_app, E. cbn. split; auto. }
  assert (NR : forall c x, nosave [FRun c x]) by (intros c x c' m [X|[]]; discriminate).
  destruct t; cbn [do_other] in H.
  - exfalso. eapply Ht; eauto.
  - unfold pass_by in H. rewrite He in H. unfold do_snapshot_save in H.
    destruct (v_writer (W n)); inversion H; subst.
    + split.
      * intros o1 c' m o2 Ho. destruct o1 as [|x [|]]; cbn in Ho; inversion Ho; subst; try discriminate.
        exists n. cbn [sm_index sm_term sm_calls sm_peers sm_old]. split; [constructor|]. split; auto.
      * exists [], (fs_last st'). split; [constructor|]. cbn. auto.
    + apply Triv; auto.
  - unfold pass_by in H. rewrite He in H. unfold do_snapshot_load in H.
    destruct (v_reader (W n)) as [[ret m]|] eqn:Er; [|inversion H; subst; apply Triv; auto].
    destruct (negb (ret =? 0)).
    { destruct (ret =? EIO).
      - pose proof (Err EIO [FRun c ret] eq_refl (NR _ _)) as G.
        destruct (set_error st EIO) as [s2 o2]. inversion H; subst. exact G.
      - inversion H; subst. apply Triv; auto. }
    destruct (id_gtb (mkId (fs_last st) (fs_lterm st)) (mkId (sm_index m) (sm_term m))) eqn:Eg.
    { inversion H; subst. apply Triv; auto. }
    assert (Hle : fs_last st <= sm_index m).
    { unfold id_gtb in Eg. cbn in Eg. unfold last_ok in HL. rewrite (W5 _ _ _ Er), HL in Eg.
      destruct (Z_le_gt_dec (fs_last st) (sm_index m)); auto. exfalso.
      pose proof (W2 (sm_index m) (fs_last st) ltac:(lia)).
      destruct (Z.eqb_spec (e_term (lg (fs_last st))) (e_term (lg (sm_index m)))).
      - destruct (Z.ltb_spec (sm_index m) (fs_last st)); [discriminate|lia].
      - destruct (Z.ltb_spec (e_term (lg (sm_index m))) (e_term (lg (fs_last st)))); [discriminate|lia]. }
    destruct (negb (v_load (W n) =? 0)).
    { unfold set_error in H. rewrite He in H. inversion H; subst. split.
      - intros o1 c' m' o2 Ho. destruct o1 as [|x [|y [|z [|]]]]; cbn in Ho; inversion Ho.
      - exists [], (fs_last st). split; [constructor|]. cbn. split; [|discriminate].
        right. exists m. auto. }
    inversion H; subst. cbn [fs_last fs_err]. split.
    + intros o1 c' m' o2 Ho. exfalso.
      assert (X : In (FSave c' m') (FLoad m :: match sm_old m with [] => [FConf (sm_peers m) (sm_index m)] | _ => [] end ++ [FRun c 0]))
        by (rewrite Ho; apply in_or_app; right; cbn; auto).
      destruct (sm_old m); cbn in X; intuition discriminate.
    + exists (SLoad m :: match sm_old m with [] => [SConf (sm_peers m) (sm_index m)] | _ => [] end ++ []), (sm_index m).
      split; [apply prog_snapshot; [auto|constructor]|].
      assert (Es : sm_calls (FLoad m :: match sm_old m with [] => [FConf (sm_peers m) (sm_index m)] | _ => [] end ++ [FRun c 0])
        = SLoad m :: match sm_old m with [] => [SConf (sm_peers m) (sm_index m)] | _ => [] end ++ []).
      { cbn. destruct (sm_old m); reflexivity. }
      rewrite Es. split; auto. intros _. split; auto. split; auto. unfold last_ok; cbn.
      rewrite (W5 _ _ _ Er). auto.
  - inversion H; subst. apply Triv; auto. intros c m [X|[]]; discriminate.
  - inversion H; subst. apply Triv; auto. intros c m [X|[]]; discriminate.
  - inversion H; subst. apply Triv; auto. intros c m [X|[]]; discriminate.
  - inversion H; subst. apply Triv; auto. intros c m [X|[]]; discriminate.
  - pose proof (Err e [] eq_refl ltac:(intros c m [])) as G. rewrite H in G. exact G.
Qed.
End World.

(** After an error. *)
Lemma err_committed : forall w st ci e, fs_err st = Some e -> do_committed w st ci = Some (st, []).
Proof. intros w st ci e H. unfold do_committed. rewrite H. auto. Qed.
Lemma err_other : forall w st t e, fs_err st = Some e ->
  fst (do_other w st t) = st /\ existsb touches_sm (snd (do_other w st t)) = false.
Proof.
  intros w st t e H. destruct t; cbn [do_other]; auto; unfold pass_by, set_error; rewrite H; auto.
Qed.
Lemma err_flush : forall W st m e, fs_err st = Some e ->
  exists n, flush W st m = Some (mkFs (fs_last st) (fs_lterm st) (fs_err st) n, []).
Proof.
  intros W st m e H. unfold flush. destruct (0 <=? m).
  - erewrite err_committed; [|cbn; eauto]. exists (S (fs_n st)). reflexivity.
  - exists (fs_n st). destruct st; auto.
Qed.
Lemma err_run : forall W b ts st m c e, fs_err st = Some e ->
  exists n o, run W b ts st m c = Some (mkFs (fs_last st) (fs_lterm st) (fs_err st) n, o) /\
    existsb touches_sm o = false.
Proof.
  induction ts as [|t ts IH]; intros st m c e He.
  - cbn [run]. destruct (err_flush W st m e He) as [n E]. rewrite E. eauto.
  - destruct (err_flush W st m e He) as [n E].
    assert (D : forall x, t = x -> (forall i, x <> TCommitted i) -> exists n o,
       match flush W st m with
       | None => None
       | Some (st1, o1) =>
          let cnt1 := if 0 <=? m then 0 else c in
          let maxc1 := if 0 <=? m then -1 else m in
          let '(st2, o2) := do_other (W (fs_n st1)) (fs_tick st1) x in
          match run W b ts st2 maxc1 cnt1 with
          | None => None
          | Some (st3, o3) => Some (st3, o1 ++ o2 ++ o3)
          end
       end = Some (mkFs (fs_last st) (fs_lterm st) (fs_err st) n, o) /\ existsb touches_sm o = false).
    { intros x _ _. rewrite E. cbv zeta. cbn [fs_n].
      set (s1 := fs_tick _). destruct (err_other (W n) s1 x e) as [A B]; [unfold s1; cbn; auto|].
      destruct (do_other (W n) s1 x) as [s2 o2]. cbn in A, B. subst s2.
      destruct (IH s1 (if 0 <=? m then -1 else m) (if 0 <=? m then 0 else c) e) as [n2 [o3 [R1 R2]]]; [unfold s1; cbn; auto|].
      rewrite R1. exists n2, ([] ++ o2 ++ o3). split; auto. cbn [app]. rewrite existsb_app, B, R2. auto. }
    destruct t; try (apply D; [reflexivity|intros; discriminate]).
    cbn [run]. destruct (c <? b).
    + destruct (m <? i); eauto.
    + rewrite E. cbv zeta.
      set (s1 := mkFs (fs_last st) (fs_lterm st) (fs_err st) n).
      assert (X : forall mm cc, exists n2 o2, run W b ts s1 mm cc = Some (mkFs (fs_last st) (fs_lterm st) (fs_err st) n2, o2) /\ existsb touches_sm o2 = false).
      { intros mm cc. destruct (IH s1 mm cc e) as [n2 [o2 [R1 R2]]]; [unfold s1; cbn; auto|]. eauto. }
      destruct ((if 0 <=? m then -1 else m) <? i).
      * destruct (X i ((if 0 <=? m then 0 else c) + 1)) as [n2 [o2 [R1 R2]]]. rewrite R1. eauto.
      * destruct (X (if 0 <=? m then -1 else m) (if 0 <=? m then 0 else c)) as [n2 [o2 [R1 R2]]]. rewrite R1. eauto.
Qed.

Lemma no_touch_calls : forall o, existsb touches_sm o = false -> sm_calls o = [] /\ nosave o.
Proof.
  induction o as [|x o IH]; cbn [existsb]; intros H; [split; [auto|intros ? ? []]|].
  apply orb_false_iff in H. destruct H as [H1 H2]. destruct (IH H2) as [A B]. split.
  - destruct x; cbn in *; auto; discriminate.
  - intros c m [->|X]; [discriminate|eapply B; eauto].
Qed.

Lemma err_batches : forall W batch bs st e, fs_err st = Some e ->
  exists n o, run_batches W batch bs st = Some (mkFs (fs_last st) (fs_lterm st) (fs_err st) n, o) /\
    existsb touches_sm o = false.
Proof.
  induction bs as [|ts bs IH]; intros st e He.
  - exists (fs_n st), []. destruct st; auto.
  - cbn [run_batches]. unfold run_batch. destruct (err_run W batch ts st (-1) 0 e He) as [n [o [R1 R2]]].
    rewrite R1. destruct (IH (mkFs (fs_last st) (fs_lterm st) (fs_err st) n) e He) as [n2 [o2 [S1 S2]]].
    rewrite S1. exists n2, (o ++ o2). split; auto. rewrite existsb_app, R2, S2. auto.
Qed.

Section World2.
Variable lg : Z -> entry.
Variable W : nat -> env.
Variable batch : Z.
Hypothesis HW : world_ok lg W.
Notation Good := (Good lg W).

Lemma good_err : forall st o1 st1 o2 st2, fs_err st1 <> None -> fs_err st2 <> None -> Good st o1 st1 ->
  existsb touches_sm o2 = false -> Good st (o1 ++ o2) st2.
Proof.
  intros st o1 st1 o2 st2 He He2 [S1 [t1 [b1 [P1 [C1 N1]]]]] Hn.
  destruct (no_touch_calls o2 Hn) as [A B]. split.
  - intros p c m q H. destruct (split_app _ _ _ _ _ H) as [[o' [X Y]]|[o' [X Y]]].
    + eapply S1; eauto.
    + exfalso. apply (B c m). rewrite Y. apply in_or_app; right; cbn; auto.
  - exists t1, b1. rewrite sm_calls_app, A, app_nil_r. split; auto. split; auto. congruence.
Qed.

Lemma good_tick : forall st o st', Good (fs_tick st) o st' -> Good st o st'.
Proof. intros st o st' H. exact H. Qed.

Lemma flush_good : forall st m st' o, fs_err st = None -> last_ok lg st -> 0 <= fs_last st ->
  flush W st m = Some (st', o) -> Good st o st' /\ (fs_err st' = None -> m <= fs_last st').
Proof.
  intros st m st' o He HL H0 H. unfold flush in H. destruct (Z.leb_spec 0 m).
  - destruct (do_committed_good lg W HW (fs_n st) (fs_tick st) m st' o He HL H) as [A B]. split; auto.
  - inversion H; subst. split; [apply good_refl; auto|lia].
Qed.

Lemma good_le : forall st o st', Good st o st' -> fs_err st' = None -> fs_last st <= fs_last st' /\ last_ok lg st'.
Proof.
  intros st o st' [_ [t [b [P [_ N]]]]] H. destruct (N H) as [_ [-> L]]. split; auto. eapply progress_le; eauto.
Qed.

Lemma good_run_err : forall st o1 st1 ts m c st2 o2, fs_err st1 <> None -> Good st o1 st1 ->
  run W batch ts st1 m c = Some (st2, o2) -> Good st (o1 ++ o2) st2 /\ fs_err st2 <> None.
Proof.
  intros st o1 st1 ts m c st2 o2 He G H. destruct (fs_err st1) as [e|] eqn:E; [|congruence].
  destruct (err_run W batch ts st1 m c e E) as [n [o [R1 R2]]]. rewrite R1 in H. inversion H; subst.
  assert (X : fs_err (mkFs (fs_last st1) (fs_lterm st1) (fs_err st1) n) <> None) by (cbn; congruence).
  split; auto. eapply good_err; eauto.
Qed.

Definition Covered (ts : list task) (m : Z) (st' : fstate) : Prop :=
  fs_err st' = None -> m <= fs_last st' /\ forall i, In (TCommitted i) ts -> i <= fs_last st'.

Lemma run_good : forall ts st m c st' o, fs_err st = None -> last_ok lg st -> 0 <= fs_last st ->
  run W batch ts st m c = Some (st', o) -> Good st o st' /\ Covered ts m st'.
Proof.
  induction ts as [|t ts IH]; intros st m c st' o He HL H0 H.
  { cbn in H. destruct (flush_good st m st' o He HL H0 H) as [A B]. split; auto.
    intros X. split; auto. intros i []. }
  assert (D : (forall i, t <> TCommitted i) ->
     match flush W st m with
       | None => None
       | Some (st1, o1) =>
          let cnt1 := if 0 <=? m then 0 else c in
          let maxc1 := if 0 <=? m then -1 else m in
          let '(st2, o2) := do_other (W (fs_n st1)) (fs_tick st1) t in
          match run W batch ts st2 maxc1 cnt1 with
          | None => None
          | Some (st3, o3) => Some (st3, o1 ++ o2 ++ o3)
          end
       end = Some (st', o) -> Good st o st' /\ Covered (t :: ts) m st').
  { intros Ht H'. clear H. destruct (flush W st m) as [[st1 o1]|] eqn:Ef; [|discriminate]. cbv zeta in H'.
    destruct (flush_good _ _ _ _ He HL H0 Ef) as [G1 V1].
    destruct (do_other (W (fs_n st1)) (fs_tick st1) t) as [st2 o2] eqn:Eo.
    destruct (run W batch ts st2 (if 0 <=? m then -1 else m) (if 0 <=? m then 0 else c)) as [[st3 o3]|] eqn:Er; [|discriminate].
    inversion H'; subst st3 o.
    destruct (fs_err st1) as [e|] eqn:E1.
    - destruct (err_other (W (fs_n st1)) (fs_tick st1) t e E1) as [A B]. rewrite Eo in A, B. cbn in A, B. subst st2.
      assert (G2 : Good st (o1 ++ o2) (fs_tick st1)) by (eapply good_err; eauto; cbn; congruence).
      rewrite app_assoc. destruct (fun h => good_run_err _ _ _ _ _ _ _ _ h G2 Er) as [X Y]; [cbn; congruence|].
      split; auto. intros Z0. congruence.
    - destruct (good_le _ _ _ G1 E1) as [Le1 L1].
      assert (G2 : Good st1 o2 st2) by (apply good_tick; eapply do_other_good; eauto).
      assert (G12 : Good st (o1 ++ o2) st2) by (eapply good_trans; eauto).
      rewrite app_assoc.
      destruct (fs_err st2) as [e|] eqn:E2.
      + destruct (fun h => good_run_err _ _ _ _ _ _ _ _ h G12 Er) as [X Y]; [cbn; congruence|]. split; auto. intros Z0; congruence.
      + destruct (good_le _ _ _ G2 E2) as [Le2 L2].
        destruct (IH _ _ _ _ _ E2 L2 ltac:(lia) Er) as [G3 V3].
        split; [eapply good_trans; eauto|]. intros X. destruct (V3 X) as [V4 V5].
        destruct (good_le _ _ _ G3 X). split; [specialize (V1 eq_refl); lia|].
        intros i [->|Hi]; auto. exfalso; eapply Ht; eauto. }
  destruct t; try (apply D; [intros; discriminate|exact H]).
  clear D. cbn [run] in H. destruct (c <? batch).
  - destruct (Z.ltb_spec m i).
    + destruct (IH _ _ _ _ _ He HL H0 H) as [A B]. split; auto. intros X. destruct (B X) as [B1 B2].
      split; [lia|]. intros j [Hj|Hj]; [inversion Hj; subst; auto|auto].
    + destruct (IH _ _ _ _ _ He HL H0 H) as [A B]. split; auto. intros X. destruct (B X) as [B1 B2].
      split; [lia|]. intros j [Hj|Hj]; [inversion Hj; subst; lia|auto].
  - destruct (flush W st m) as [[st1 o1]|] eqn:Ef; [|discriminate]. cbv zeta in H.
    destruct (flush_good _ _ _ _ He HL H0 Ef) as [G1 V1].
    assert (X : exists mm cc o2, run W batch ts st1 mm cc = Some (st', o2) /\ o = o1 ++ o2 /\ (fs_err st' = None -> mm <= fs_last st' -> fs_last st1 <= fs_last st' -> i <= fs_last st')).
    { destruct (Z.ltb_spec (if 0 <=? m then -1 else m) i).
      - destruct (run W batch ts st1 i _) as [[s2 o2]|] eqn:Er; [|discriminate]. inversion H; subst.
        eexists; eexists; eexists; split; [exact Er|]. auto.
      - destruct (run W batch ts st1 _ _) as [[s2 o2]|] eqn:Er; [|discriminate]. inversion H; subst.
        eexists; eexists; eexists; split; [exact Er|]. split; auto. intros; lia. }
    destruct X as [mm [cc [o2 [Er [-> X]]]]].
    destruct (fs_err st1) as [e|] eqn:E1.
    + destruct (fun h => good_run_err _ _ _ _ _ _ _ _ h G1 Er) as [A B]; [cbn; congruence|]. split; auto. intros Z0; congruence.
    + destruct (good_le _ _ _ G1 E1) as [Le1 L1].
      destruct (IH _ _ _ _ _ E1 L1 ltac:(lia) Er) as [G3 V3].
      split; [eapply good_trans; eauto|]. intros Y. destruct (V3 Y) as [V4 V5].
      destruct (good_le _ _ _ G3 Y). split; [specialize (V1 eq_refl); lia|].
      intros j [Hj|Hj]; [inversion Hj; subst; auto|auto].
Qed.

Lemma run_batches_good : forall bs st st' o, fs_err st = None -> last_ok lg st -> 0 <= fs_last st ->
  run_batches W batch bs st = Some (st', o) ->
  Good st o st' /\ (fs_err st' = None -> forall ts i, In ts bs -> In (TCommitted i) ts -> i <= fs_last st').
Proof.
  induction bs as [|ts bs IH]; intros st st' o He HL H0 H; cbn in H.
  - inversion H; subst. split; [apply good_refl; auto|]. intros _ ts i [].
  - unfold run_batch in H. destruct (run W batch ts st (-1) 0) as [[st1 o1]|] eqn:E1; [|discriminate].
    destruct (run_batches W batch bs st1) as [[st2 o2]|] eqn:E2; [|discriminate]. inversion H; subst.
    destruct (run_good _ _ _ _ _ _ He HL H0 E1) as [G1 V1].
    destruct (fs_err st1) as [e|] eqn:Ee.
    + destruct (err_batches W batch bs st1 e Ee) as [n2 [oo [S1 S2]]]. rewrite S1 in E2. inversion E2; subst.
      split; [|cbn; congruence]. eapply good_err; eauto; cbn; congruence.
    + destruct (good_le _ _ _ G1 Ee) as [Le1 L1].
      destruct (IH _ _ _ Ee L1 ltac:(lia) E2) as [G2 V2]. split; [eapply good_trans; eauto|].
      intros X ts' i [<-|Ht] Hi; [|eauto].
      destruct (V1 Ee) as [_ V3]. specialize (V3 i Hi). destruct (good_le _ _ _ G2 X). lia.
Qed.
End World2.


Lemma closure_at_queued : forall q ci q' cls f i,
  pop_closure_until q ci = Some (q', cls, f) -> i <= ci -> closure_at cls f i = queued q i.
Proof.
  intros q ci q' cls f i H Hi. unfold pop_closure_until in H. unfold closure_at, queued.
  destruct (cq_q q) as [|x l] eqn:Eq.
  - inversion H; subst. destruct (Z.ltb_spec i (ci + 1)); [|lia]. rewrite znth_nil. destruct (i <? _); auto.
  - destruct (Z.ltb_spec ci (cq_first q)).
    + inversion H; subst. destruct (Z.ltb_spec i (ci + 1)); [|lia]. destruct (Z.ltb_spec i (cq_first q')); [auto|lia].
    + destruct (Z.ltb_spec (cq_first q + zlen (x :: l) - 1) ci); [discriminate|].
      inversion H; subst. destruct (Z.ltb_spec i (cq_first q)); auto.
      rewrite znth_firstn by lia. auto.
Qed.
Lemma queued_first : forall q ci q' cls f i,
  pop_closure_until q ci = Some (q', cls, f) -> i <= ci -> i < f -> queued q i = None.
Proof.
  intros. erewrite <- closure_at_queued by eauto. unfold closure_at. destruct (Z.ltb_spec i f); [auto|lia].
Qed.

Lemma flat_map_ext_in : forall {A B} (f g : A -> list B) l, (forall x, In x l -> f x = g x) -> flat_map f l = flat_map g l.
Proof. induction l as [|x l IH]; cbn; intros H; auto. rewrite H, IH; auto. Qed.
Lemma flat_map_nil : forall {A B} (f : A -> list B) l, (forall x, In x l -> f x = []) -> flat_map f l = [].
Proof. induction l as [|x l IH]; cbn; intros H; auto. rewrite H, IH; auto. Qed.
Lemma map_flat_map : forall {A B C} (h : B -> C) (f : A -> list B) l,
  map h (flat_map f l) = flat_map (fun x => map h (f x)) l.
Proof. induction l as [|x l IH]; cbn; auto. rewrite map_app, IH. auto. Qed.

Lemma failed_apply : forall lg w st ci st' o,
  (forall i, e_index (lg i) = i) -> (forall i e, v_log w i = Some e -> e = lg i) ->
  fs_err st = None -> fs_last st < ci -> do_committed w st ci = Some (st', o) -> rollbacks_legal o ->
  exists n k,
    fs_last st + Z.of_nat n <= ci /\ fs_last st + 1 <= k <= fs_last st + Z.of_nat n + 1 /\
    (forall i, k <= i <= fs_last st + Z.of_nat n -> e_type (lg i) = T_DATA) /\
    sm_calls o = flat_map (visible lg) (upto (fs_last st) n) /\
    handed o = data_closures lg (v_cq w) (upto (fs_last st) n) /\
    ran_ok o = other_closures lg (v_cq w) (upto (fs_last st) n) /\
    (exists o', o = o' ++ [FApplied (mkId (k - 1) (v_term w (k - 1)))]) /\
    match fs_err st' with
    | None => k = ci + 1 /\ ran_failed o = []
    | Some e => e <> 0 /\
        ran_failed o = map (fun c => (c, e)) (all_closures (v_cq w) (upto (k - 1) (Z.to_nat (ci - k + 1))))
    end.
Proof.
  intros lg w st ci st' o Hidx Hlm He Hlt H L.
  destruct (pop_closure_until (v_cq w) ci) as [[[q cls] f]|] eqn:Ep.
  2:{ unfold do_committed in H. rewrite He, Ep in H. destruct (Z.leb_spec ci (fs_last st)); [lia|discriminate]. }
  destruct (do_committed_spec lg w st ci q cls f Hidx Hlm He Hlt Ep)
    as [st2 [o2 [n [k [E [NS [F1 [F2 [F3 [Bd [C1 [C2 [C3 [C4 M]]]]]]]]]]]]]].
  rewrite E in H. inversion H; subst st2 o2. exists n, k.
  assert (Hq : forall i, In i (upto (fs_last st) n) -> closure_at cls f i = queued (v_cq w) i).
  { intros i Hi. apply In_upto in Hi. eapply closure_at_queued; eauto. lia. }
  assert (D1 : handed o = data_closures lg (v_cq w) (upto (fs_last st) n)).
  { rewrite C2. apply flat_map_ext_in. intros i Hi. unfold hd_of. rewrite Hq; auto. }
  assert (D2 : ran_ok o = other_closures lg (v_cq w) (upto (fs_last st) n)).
  { rewrite C3. apply flat_map_ext_in. intros i Hi. unfold ok_of. rewrite Hq; auto.
    destruct (e_type (lg i)); cbn; auto. }
  split; auto.
  destruct (fs_err st') as [e|] eqn:Ee.
  - destruct M as [M1 [M2 [M3 M4]]]. destruct (M4 L) as [K1 K2].
    split; auto. split; auto. split; auto. split; auto. split; auto. split; auto. split; auto.
    rewrite M3. unfold all_closures. rewrite map_flat_map.
    set (a := Z.max k f).
    destruct (Z_le_gt_dec a (ci + 1)) as [Ha|Ha].
    + replace (Z.to_nat (ci - k + 1)) with (Z.to_nat (a - k) + Z.to_nat (ci - a + 1))%nat by lia.
      rewrite upto_app, flat_map_app, (flat_map_nil _ (upto (k - 1) (Z.to_nat (a - k)))).
      * cbn [app]. replace (k - 1 + Z.of_nat (Z.to_nat (a - k))) with (a - 1) by lia.
        apply flat_map_ext_in. intros i Hi. apply In_upto in Hi. unfold fl_of.
        rewrite (closure_at_queued _ _ _ _ _ i Ep) by lia. destruct (queued (v_cq w) i); auto.
      * intros i Hi. apply In_upto in Hi. rewrite (queued_first _ _ _ _ _ i Ep); auto; lia.
    + replace (Z.to_nat (ci - a + 1)) with O by lia. cbn [upto flat_map]. symmetry. apply flat_map_nil.
      intros i Hi. apply In_upto in Hi. rewrite (queued_first _ _ _ _ _ i Ep); auto; lia.
  - destruct M as [M1 [M2 M3]].
    split; [lia|]. split; [intros; lia|]. split; auto.
Qed.

Lemma commit_abort_pop : forall lg w st ci,
  (forall i, e_index (lg i) = i) -> (forall i e, v_log w i = Some e -> e = lg i) ->
  do_committed w st ci = None -> pop_closure_until (v_cq w) ci = None.
Proof.
  intros lg w st ci Hidx Hlm H.
  destruct (fs_err st) as [e|] eqn:He.
  { erewrite err_committed in H by eauto. discriminate. }
  destruct (Z_le_gt_dec ci (fs_last st)).
  { unfold do_committed in H. rewrite He in H. destruct (Z.leb_spec ci (fs_last st)); [discriminate|lia]. }
  destruct (pop_closure_until (v_cq w) ci) as [[[q cls] f]|] eqn:Ep; auto.
  destruct (do_committed_spec lg w st ci q cls f Hidx Hlm He ltac:(lia) Ep) as [? [? [? [? [E _]]]]]. congruence.
Qed.

Lemma runs_in_order : forall lg W batch bs st st' o,
  world_ok lg W -> fs_err st = None -> last_ok lg st -> 0 <= fs_last st ->
  run_batches W batch bs st = Some (st', o) ->
  exists tr b, progress lg (fs_last st) tr b /\
    (sm_calls o = tr \/ exists m, sm_calls o = tr ++ [SLoad m] /\ b <= sm_index m) /\
    (fs_err st' = None -> sm_calls o = tr /\ b = fs_last st' /\
       forall ts i, In ts bs -> In (TCommitted i) ts -> i <= b).
Proof.
  intros lg W batch bs st st' o HW He HL H0 H.
  destruct (run_batches_good lg W batch HW bs st st' o He HL H0 H) as [[_ [tr [b [P [C N]]]]] V].
  exists tr, b. split; auto. split; auto. intros X. destruct (N X) as [A [-> B]]. split; auto. split; auto. intros ts i. apply (V X ts i).
Qed.

Lemma saves_ok : forall lg W batch bs st st' o o1 c m o2,
  world_ok lg W -> fs_err st = None -> last_ok lg st -> 0 <= fs_last st ->
  run_batches W batch bs st = Some (st', o) -> o = o1 ++ FSave c m :: o2 ->
  progress lg (fs_last st) (sm_calls o1) (sm_index m) /\ sm_term m = e_term (lg (sm_index m)) /\
  exists n, let ce := match cm_get (v_cm (W n)) (sm_index m) with Some ce => ce | None => ce_empty end in
    sm_peers m = ce_conf ce /\ sm_old m = ce_old ce.
Proof.
  intros lg W batch bs st st' o o1 c m o2 HW He HL H0 H Ho.
  destruct (run_batches_good lg W batch HW bs st st' o He HL H0 H) as [[S _] _].
  destruct (S _ _ _ _ Ho) as [n [A [B C]]]. split; auto. split; auto. exists n. auto.
Qed.

Lemma stale_load : forall lg W batch st c m,
  world_ok lg W -> fs_err st = None -> last_ok lg st ->
  v_reader (W (fs_n st)) = Some (0, m) -> sm_index m < fs_last st ->
  run_batch W batch [TLoad c] st = Some (fs_tick st, [FRun c ESTALE]).
Proof.
  intros lg W batch st c m HW He HL Hr Hlt. destruct HW as [W1 [W2 [W3 [W4 W5]]]].
  unfold run_batch. cbn [run]. unfold flush. cbn [Z.leb Z.compare].
  cbn [do_other]. unfold pass_by. cbn [fs_tick fs_err]. rewrite He. unfold do_snapshot_load. rewrite Hr.
  cbn [fs_tick fs_last fs_lterm Z.eqb negb].
  assert (G : id_gtb (mkId (fs_last st) (fs_lterm st)) (mkId (sm_index m) (sm_term m)) = true).
  { unfold id_gtb; cbn. unfold last_ok in HL. rewrite (W5 _ _ _ Hr), HL.
    pose proof (W2 (sm_index m) (fs_last st) ltac:(lia)).
    destruct (Z.eqb_spec (e_term (lg (fs_last st))) (e_term (lg (sm_index m)))).
    - apply Z.ltb_lt; auto.
    - apply Z.ltb_lt; lia. }
  rewrite G. cbn [run app]. reflexivity.
Qed.

(** Without snapshot loads the calls are those of a contiguous range. *)
Fixpoint no_load (l : list smcall) : Prop :=
  match l with [] => True | SLoad _ :: _ => False | _ :: l' => no_load l' end.
Lemma progress_no_load : forall lg a tr b, progress lg a tr b -> no_load tr ->
  tr = flat_map (visible lg) (upto a (Z.to_nat (b - a))).
Proof.
  induction 1 as [a|a calls b P IH|a m calls b Hle P IH]; intros N.
  - replace (a - a) with 0 by lia. reflexivity.
  - pose proof (progress_le _ _ _ _ P). replace (Z.to_nat (b - a)) with (S (Z.to_nat (b - (a + 1)))) by lia.
    cbn [upto flat_map]. f_equal. apply IH. clear - N. unfold visible in N.
    destruct (e_type (lg (a + 1))); auto. destruct (e_old (lg (a + 1))); auto.
  - destruct N.
Qed.
Lemma no_load_app : forall a b, no_load a -> no_load b -> no_load (a ++ b).
Proof. induction a as [|x a IH]; cbn; auto. destruct x; auto. Qed.
Lemma visible_no_load : forall lg l, no_load (flat_map (visible lg) l).
Proof.
  induction l as [|i l IH]; cbn; auto. apply no_load_app; auto.
  unfold visible. destruct (e_type (lg i)); cbn; auto. destruct (e_old (lg i)); cbn; auto.
Qed.

Definition is_conf (x : smcall) : bool := match x with SConf _ _ => true | _ => false end.
Lemma conf_only : forall lg l, filter is_conf (flat_map (visible lg) l) = flat_map (stable_conf lg) l.
Proof.
  induction l as [|i l IH]; cbn [flat_map]; auto. rewrite filter_app, IH. f_equal.
  unfold visible, stable_conf. destruct (e_type (lg i)); auto. destruct (e_old (lg i)); auto.
Qed.
Lemma filter_is_conf : forall o, filter is_conf (sm_calls o) = conf_calls o.
Proof. induction o as [|x o IH]; cbn; auto. destruct x; cbn; rewrite ?IH; auto. Qed.
Lemma sm_calls_no_load : forall o, (forall m, ~ In (FLoad m) o) -> no_load (sm_calls o).
Proof.
  induction o as [|x o IH]; cbn; intros H; auto.
  destruct x; cbn; try (apply IH; intros m' X; apply (H m'); auto).
  apply (H m). auto.
Qed.

Lemma conf_calls_ok : forall lg W batch bs st st' o,
  world_ok lg W -> fs_err st = None -> last_ok lg st -> 0 <= fs_last st ->
  run_batches W batch bs st = Some (st', o) -> (forall m, ~ In (FLoad m) o) ->
  exists n, sm_calls o = flat_map (visible lg) (upto (fs_last st) n) /\ conf_calls o = flat_map (stable_conf lg) (upto (fs_last st) n) /\ (fs_err st' = None -> fs_last st + Z.of_nat n = fs_last st').
Proof.
  intros lg W batch bs st st' o HW He HL H0 H NL.
  destruct (runs_in_order lg W batch bs st st' o HW He HL H0 H) as [tr [b [P [C N]]]].
  pose proof (progress_le _ _ _ _ P).
  apply sm_calls_no_load in NL.
  destruct C as [C|[m [C _]]].
  2:{ exfalso. rewrite C in NL. clear - NL. induction tr as [|x tr IH]; cbn in NL; auto. destruct x; auto. }
  exists (Z.to_nat (b - fs_last st)). rewrite <- filter_is_conf. rewrite C in *.
  rewrite (progress_no_load _ _ _ _ P NL). rewrite conf_only. split; auto. split; auto.
  intros X. destruct (N X) as [_ [-> _]]. lia.
Qed.

(** * on_error is called exactly once, when the error is recorded *)
Lemma reported_app : forall a b, reported (a ++ b) = reported a ++ reported b.
Proof. intros. unfold reported. apply flat_map_app. Qed.
Lemma reported_run_done : forall d st, reported (run_done d st) = [].
Proof. intros [c|] st; reflexivity. Qed.
Lemma reported_shown : forall cls f ci it, reported (shown cls f ci it) = [].
Proof. intros. unfold shown. destruct (i_entry it); auto. destruct (it_valid ci it); reflexivity. Qed.
Lemma reported_nexts : forall lm cls f ci n it it' o, user_nexts lm cls f ci n it = (it', o) -> reported o = [].
Proof.
  induction n as [|n IH]; intros it it' o H; cbn in H; [injection H as <- <-; auto|].
  destruct (it_valid ci it); [|injection H as <- <-; auto].
  destruct (user_nexts lm cls f ci n (it_next lm ci it)) as [it2 o2] eqn:E. injection H as <- <-.
  rewrite reported_app, reported_shown, (IH _ _ _ E). reflexivity.
Qed.
Lemma reported_loop : forall lm cls f ci fuel ss it it' o,
  apply_loop lm cls f ci fuel ss it = Some (it', o) -> reported o = [].
Proof.
  induction fuel as [|fuel IH]; intros ss it it' o H; cbn [apply_loop] in H; [discriminate|].
  destruct (it_good ci it); [|injection H as <- <-; reflexivity].
  destruct (i_entry it) as [e|]; [|discriminate].
  destruct (negb (is_data (e_type e))).
  - destruct (apply_loop lm cls f ci fuel ss (it_next lm ci it)) as [[it1 o1]|] eqn:E; [|discriminate].
    injection H as <- <-. rewrite !reported_app, reported_run_done, (IH _ _ _ _ E), app_nil_r.
    destruct (e_type e); auto. destruct (e_old e); auto.
  - destruct (on_apply lm cls f ci (hd (0%nat, None) ss) it) as [it1 o1] eqn:E1.
    destruct (apply_loop lm cls f ci fuel (tl ss) (user_next lm ci it1)) as [[it2 o2]|] eqn:E; [|discriminate].
    injection H as <- <-. rewrite reported_app, (IH _ _ _ _ E), app_nil_r.
    unfold on_apply in E1. destruct (user_nexts lm cls f ci (fst (hd (0%nat, None) ss)) it) as [i3 o3] eqn:E3.
    pose proof (reported_nexts _ _ _ _ _ _ _ _ E3) as R.
    destruct (snd (hd (0%nat, None) ss)); injection E1 as <- <-; rewrite ?reported_app, reported_shown, R; reflexivity.
Qed.
Lemma reported_rest : forall cls f n i st, reported (rest_from cls f n i st) = [].
Proof. induction n as [|n IH]; intros; cbn [rest_from]; auto. rewrite reported_app, reported_run_done, IH. reflexivity. Qed.

Definition newly (a b : option ferr) : list ferr :=
  match a, b with None, Some e => [e] | _, _ => [] end.
Definition keeps (a b : option ferr) : Prop := a = None \/ b = a.
Lemma newly_trans : forall a b c, keeps a b -> keeps b c -> newly a b ++ newly b c = newly a c /\ keeps a c.
Proof. intros [a|] [b|] [c|] [H|H] [K|K]; cbn; try discriminate; unfold keeps; auto; try (inversion H; inversion K; subst; auto). Qed.
Lemma newly_self : forall a, newly a a = [].
Proof. intros [a|]; auto. Qed.
Lemma keeps_self : forall a, keeps a a.
Proof. intros; right; auto. Qed.

Lemma set_error_rep : forall st e st' o, set_error st e = (st', o) ->
  reported o = newly (fs_err st) (fs_err st') /\ keeps (fs_err st) (fs_err st').
Proof.
  intros st e st' o H. unfold set_error in H. destruct (fs_err st) eqn:E; injection H as <- <-; rewrite ?E; cbn; unfold keeps; auto.
Qed.

Lemma committed_rep : forall w st ci st' o, do_committed w st ci = Some (st', o) ->
  reported o = newly (fs_err st) (fs_err st') /\ keeps (fs_err st) (fs_err st').
Proof.
  intros w st ci st' o H. unfold do_committed in H. destruct (fs_err st) as [e|] eqn:Ee.
  { injection H as <- <-. rewrite Ee. cbn. split; auto using keeps_self. }
  destruct (ci <=? fs_last st). { injection H as <- <-. rewrite Ee. split; auto using keeps_self. }
  destruct (pop_closure_until (v_cq w) ci) as [[[q cls] f]|]; [|discriminate].
  destruct (apply_loop _ cls f ci _ _ _) as [[it o1]|] eqn:El; [|discriminate].
  pose proof (reported_loop _ _ _ _ _ _ _ _ _ El) as R.
  destruct (i_err it) as [e|].
  - destruct (set_error st e) as [s oe] eqn:Es. injection H as <- <-.
    destruct (set_error_rep _ _ _ _ Es) as [S1 S2]. cbn [fs_err]. rewrite Ee in *.
    split; auto. rewrite !reported_app, R, S1. unfold run_the_rest. rewrite reported_rest. cbn. rewrite app_nil_r. rewrite app_nil_r. auto.
  - injection H as <- <-. cbn [fs_err]. rewrite Ee. rewrite !reported_app, R. split; auto. left; auto.
Qed.

Lemma other_rep : forall w st t st' o, do_other w st t = (st', o) ->
  reported o = newly (fs_err st) (fs_err st') /\ keeps (fs_err st) (fs_err st').
Proof.
  intros w st t st' o H. destruct t; cbn [do_other] in H;
    try (injection H as <- <-; rewrite newly_self; split; auto using keeps_self).
  - unfold pass_by in H. destruct (fs_err st) eqn:Ee.
    { injection H as <- <-. rewrite Ee. split; auto using keeps_self. }
    unfold do_snapshot_save in H. destruct (v_writer w); injection H as <- <-; rewrite Ee; split; auto using keeps_self.
  - unfold pass_by in H. destruct (fs_err st) eqn:Ee.
    { injection H as <- <-. rewrite Ee. split; auto using keeps_self. }
    unfold do_snapshot_load in H. destruct (v_reader w) as [[ret m]|].
    2:{ injection H as <- <-. rewrite Ee. split; auto using keeps_self. }
    destruct (negb (ret =? 0)).
    { destruct (ret =? EIO).
      - destruct (set_error st EIO) as [s o1] eqn:Es. injection H as <- <-.
        destruct (set_error_rep _ _ _ _ Es) as [S1 S2]. rewrite Ee in *. split; auto.
      - injection H as <- <-. rewrite Ee. split; auto using keeps_self. }
    destruct (id_gtb _ _). { injection H as <- <-. rewrite Ee. split; auto using keeps_self. }
    destruct (negb (v_load w =? 0)).
    + destruct (set_error st (v_load w)) as [s o1] eqn:Es. injection H as <- <-.
      destruct (set_error_rep _ _ _ _ Es) as [S1 S2]. rewrite Ee in *. split; auto.
    + injection H as <- <-. cbn [fs_err]. rewrite Ee. split; [|left; auto].
      change (reported (FLoad m :: ?x)) with (reported x). destruct (sm_old m); reflexivity.
  - apply (set_error_rep _ _ _ _ H).
Qed.

Lemma flush_rep : forall W st m st' o, flush W st m = Some (st', o) ->
  reported o = newly (fs_err st) (fs_err st') /\ keeps (fs_err st) (fs_err st').
Proof.
  intros W st m st' o H. unfold flush in H. destruct (0 <=? m).
  - apply (committed_rep _ _ _ _ _ H).
  - injection H as <- <-. rewrite newly_self. split; auto using keeps_self.
Qed.

Lemma run_rep : forall W b ts st m c st' o, run W b ts st m c = Some (st', o) ->
  reported o = newly (fs_err st) (fs_err st') /\ keeps (fs_err st) (fs_err st').
Proof.
  induction ts as [|t ts IH]; intros st m c st' o H; [apply (flush_rep _ _ _ _ _ H)|].
  assert (Hoth : forall st1 o1 t0 m1 c1, flush W st m = Some (st1, o1) ->
    (let '(st2, o2) := do_other (W (fs_n st1)) (fs_tick st1) t0 in
     match run W b ts st2 m1 c1 with None => None | Some (st3, o3) => Some (st3, o1 ++ o2 ++ o3) end) = Some (st', o) ->
    reported o = newly (fs_err st) (fs_err st') /\ keeps (fs_err st) (fs_err st')).
  { intros st1 o1 t0 m1 c1 F K. destruct (do_other _ _ t0) as [st2 o2] eqn:Eo.
    destruct (run W b ts st2 m1 c1) as [[st3 o3]|] eqn:Er; [|discriminate]. injection K as <- <-.
    destruct (flush_rep _ _ _ _ _ F) as [A1 A2]. destruct (other_rep _ _ _ _ _ Eo) as [B1 B2].
    destruct (IH _ _ _ _ _ Er) as [C1 C2]. rewrite !reported_app, A1, B1, C1.
    change (fs_err (fs_tick st1)) with (fs_err st1) in *.
    destruct (newly_trans _ _ _ B2 C2) as [D1 D2]. rewrite D1. apply (newly_trans _ _ _ A2 D2). }
  cbn [run] in H. destruct t.
  2-8: destruct (flush W st m) as [[st1 o1]|] eqn:F; [|discriminate]; match type of H with context[do_other _ _ ?t] => exact (Hoth st1 o1 t _ _ eq_refl H) end.
  destruct (c <? b).
  - destruct (m <? i); apply (IH _ _ _ _ _ H).
  - destruct (flush W st m) as [[st1 o1]|] eqn:F; [|discriminate].
    destruct (flush_rep _ _ _ _ _ F) as [A1 A2].
    assert (R : forall m1 c1, match run W b ts st1 m1 c1 with None => None | Some (st2, o2) => Some (st2, o1 ++ o2) end = Some (st', o) ->
      reported o = newly (fs_err st) (fs_err st') /\ keeps (fs_err st) (fs_err st')).
    { intros m1 c1 K. destruct (run W b ts st1 m1 c1) as [[st2 o2]|] eqn:Er; [|discriminate]. injection K as <- <-.
      destruct (IH _ _ _ _ _ Er) as [C1 C2]. rewrite reported_app, A1, C1. apply (newly_trans _ _ _ A2 C2). }
    destruct ((if 0 <=? m then -1 else m) <? i); apply (R _ _ H).
Qed.

Lemma batches_rep : forall W b bs st st' o, run_batches W b bs st = Some (st', o) ->
  reported o = newly (fs_err st) (fs_err st') /\ keeps (fs_err st) (fs_err st').
Proof.
  induction bs as [|ts bs IH]; intros st st' o H; cbn [run_batches] in H.
  - injection H as <- <-. rewrite newly_self. split; auto using keeps_self.
  - destruct (run_batch W b ts st) as [[st1 o1]|] eqn:E1; [|discriminate].
    destruct (run_batches W b bs st1) as [[st2 o2]|] eqn:E2; [|discriminate]. injection H as <- <-.
    destruct (run_rep _ _ _ _ _ _ _ _ E1) as [A1 A2]. destruct (IH _ _ _ E2) as [B1 B2].
    rewrite reported_app, A1, B1. apply (newly_trans _ _ _ A2 B2).
Qed.
