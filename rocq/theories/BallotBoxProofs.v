From Verif Require Import Base BaseLemmas Ballot QuorumSpec BallotProofs BallotBox BallotBoxSpec.
From Coq Require Import Permutation.

Lemma run_app : forall e1 st e2,
  run st (e1 ++ e2) =
  match run st e1 with
  | Some (s1, o1) => match run s1 e2 with Some (s2, o2) => Some (s2, o1 ++ o2) | None => None end
  | None => None
  end.
Proof.
  induction e1 as [|e e1 IH]; intros; cbn.
  - destruct (run st e2) as [[? ?]|]; auto.
  - destruct (step st e) as [[s o]|]; auto. rewrite IH.
    destruct (run s e1) as [[s1 o1]|]; auto.
    destruct (run s1 e2) as [[s2 o2]|]; auto. rewrite app_assoc; auto.
Qed.

Lemma run_snoc : forall evs st e s' o',
  run st (evs ++ [e]) = Some (s', o') ->
  exists s o o1, run st evs = Some (s, o) /\ step s e = Some (s', o1) /\ o' = o ++ o1.
Proof.
  intros. rewrite run_app in H. destruct (run st evs) as [[s o]|]; try discriminate.
  cbn in H. destruct (step s e) as [[s1 o1]|] eqn:E; try discriminate.
  inversion H; subst. exists s, o, o1. rewrite E, app_nil_r. auto.
Qed.

(** *** The commit loop *)
Lemma commit_loop_spec : forall q idx start last p h c q' c',
  0 < idx ->
  commit_loop q idx start last p h c = (q', c') ->
  zlen q' = zlen q /\
  (forall k b, znth q k = Some b ->
     exists b', znth q' k = Some b' /\
       ((start <= idx + k <= last /\ (exists h', b' = fst (grant b p h')) /\
         (granted b' = true -> idx + k <= c'))
        \/ (~ (start <= idx + k <= last) /\ b' = b))) /\
  (c' = c \/
    (idx <= c' < idx + zlen q /\ start <= c' <= last /\
     exists b', znth q' (c' - idx) = Some b' /\ granted b' = true)) /\
  (c < idx -> c <= c').
Proof.
  induction q as [|b q IH]; intros idx start last p h c q' c' Hidx H; cbn in H.
  - inversion H; subst. split; auto. split; [|split; auto; lia].
    intros k b' Hk. rewrite znth_nil in Hk. discriminate.
  - destruct ((start <=? idx) && (idx <=? last)) eqn:Er.
    + apply andb_true_iff in Er. destruct Er as [Er1 Er2]. apply Z.leb_le in Er1, Er2.
      destruct (grant b p h) as [b1 h1] eqn:Eg.
      destruct (commit_loop q (idx+1) start last p h1 (if granted b1 then idx else c))
        as [q'' c''] eqn:El. inversion H; subst q' c'; clear H.
      apply IH in El; try lia. destruct El as [L1 [L2 [L3 L4]]].
      assert (Hc4 : granted b1 = true -> idx <= c'').
      { intros Hg. rewrite Hg in L4. apply L4. lia. }
      rewrite !zlen_cons. split; [lia|]. split; [|split].
      * intros k b0 Hk. pose proof (znth_some_bound _ _ _ Hk).
        destruct (Z.eq_dec k 0).
        -- subst k. rewrite znth_cons_0 in *. inversion Hk; subst b0. exists b1. split; auto.
           left. replace (idx + 0) with idx by lia. split; [lia|]. split.
           exists h. rewrite Eg. auto. auto.
        -- rewrite znth_cons_pos in * by lia. apply L2 in Hk. destruct Hk as [b' [Hb' Hd]].
           exists b'. split; auto. replace (idx + 1 + (k - 1)) with (idx + k) in Hd by lia.
           exact Hd.
      * destruct L3 as [L3|[L3 [L3' [b' [Hb Hg]]]]].
        -- destruct (granted b1) eqn:Eg1.
           ++ right. subst c''. pose proof (zlen_nonneg q). split; [lia|]. split; [lia|].
              exists b1. replace (idx - idx) with 0 by lia. auto.
           ++ left; auto.
        -- right. split; [lia|]. split; [lia|]. exists b'.
           rewrite znth_cons_pos by lia. replace (c'' - idx - 1) with (c'' - (idx + 1)) by lia. auto.
      * intros Hc. destruct (granted b1) eqn:Eg1; auto.
        -- specialize (Hc4 eq_refl). lia.
        -- apply L4. lia.
    + apply andb_false_iff in Er. rewrite !Z.leb_gt in Er.
      destruct (commit_loop q (idx+1) start last p h c) as [q'' c''] eqn:El.
      inversion H; subst q' c'; clear H.
      apply IH in El; try lia. destruct El as [L1 [L2 [L3 L4]]].
      rewrite !zlen_cons. split; [lia|]. split; [|split].
      * intros k b0 Hk. pose proof (znth_some_bound _ _ _ Hk).
        destruct (Z.eq_dec k 0).
        -- subst k. rewrite znth_cons_0 in *. inversion Hk; subst b0. exists b. split; auto.
           right. split; [lia|auto].
        -- rewrite znth_cons_pos in * by lia. apply L2 in Hk. destruct Hk as [b' [Hb' Hd]].
           exists b'. split; auto. replace (idx + 1 + (k - 1)) with (idx + k) in Hd by lia.
           exact Hd.
      * destruct L3 as [L3|[L3 [L3' [b' [Hb Hg]]]]]; auto.
        right. split; [lia|]. split; [lia|]. exists b'.
        rewrite znth_cons_pos by lia. replace (c'' - idx - 1) with (c'' - (idx + 1)) by lia. auto.
      * intros; apply L4; lia.
Qed.

(** *** Structural invariant *)
Definition Inv0 (st : box) : Prop :=
  0 <= lc st /\ (pend st = 0 \/ lc st < pend st) /\
  (pend st = 0 -> bq st = [] /\ cq_q (cq st) = []) /\
  (pend st <> 0 -> cq_first (cq st) + zlen (cq_q (cq st)) = next_index st).

Lemma inv0_init : Inv0 box_init.
Proof. unfold Inv0, next_index, box_init; cbn. intuition lia. Qed.

Lemma commit_at_cases : forall st f l p st' r o,
  Inv0 st -> commit_at st f l p = (st', r, o) ->
  (st' = st /\ o = None /\ (r = 0 -> l < pend st)) \/
  (0 < pend st /\ pend st <= l < next_index st /\ r = 0 /\
   exists q c, commit_loop (bq st) (pend st) (Z.max (pend st) f) l p no_hint 0 = (q, c) /\
     ((c = 0 /\ o = None /\ st' = mkBox (lc st) (pend st) q (cq st)) \/
      (c <> 0 /\ o = Some c /\
       st' = mkBox c (c + 1) (skipn (Z.to_nat (c - pend st + 1)) q) (cq st)))).
Proof.
  intros st f l p st' r o [I1 [I2 [I3 I4]]] H. unfold commit_at in H.
  destruct (Z.eqb_spec (pend st) 0). { inversion H; subst. left. unfold EINVAL; intuition lia. }
  destruct (Z.ltb_spec l (pend st)). { inversion H; subst. left. intuition lia. }
  destruct (Z.leb_spec (pend st + zlen (bq st)) l). { inversion H; subst. left. unfold ERANGE; intuition lia. }
  right. unfold next_index. split; [lia|]. split; [lia|].
  destruct (commit_loop (bq st) (pend st) (Z.max (pend st) f) l p no_hint 0) as [q c] eqn:E.
  destruct (Z.eqb_spec c 0); inversion H; subst st' r o; (split; [reflexivity|]); exists q, c; split; auto.
Qed.

Lemma skipn_len_pend : forall {A} (q : list A) p c, 0 < p -> p <= c < p + zlen q ->
  zlen (skipn (Z.to_nat (c - p + 1)) q) = p + zlen q - (c + 1).
Proof. intros. rewrite zlen_skipn. lia. Qed.

Lemma inv0_step : forall st e st' o, Inv0 st -> step st e = Some (st', o) -> Inv0 st'.
Proof.
  intros st e st' o HI H. destruct e; cbn in H.
  - destruct (commit_at st first last p) as [[s r] oc] eqn:E. inversion H; subst; clear H.
    apply commit_at_cases in E; auto. destruct E as [[-> _]|[Hp [Hl [Hr [q [c [El Hc]]]]]]]; auto.
    destruct HI as [I1 [I2 [I3 I4]]].
    apply commit_loop_spec in El; auto. destruct El as [L1 [L2 [L3 L4]]].
    unfold next_index in *.
    destruct Hc as [[-> [-> ->]]|[Hc [-> ->]]]; unfold Inv0, next_index; cbn.
    + rewrite L1. intuition lia.
    + destruct L3 as [L3|[L3 _]]; try lia.
      rewrite skipn_len_pend by lia. rewrite L1. split; [lia|]. split; [lia|].
      split; [intros; lia|]. intros. specialize (I4 ltac:(lia)). lia.
  - inversion H; subst. destruct HI as [I1 [I2 [I3 I4]]]. unfold Inv0; cbn. intuition lia.
  - unfold reset_pending_index in H. destruct HI as [I1 [I2 [I3 I4]]].
    destruct (bq st) eqn:Eb; try discriminate. destruct (cq_q (cq st)) eqn:Ec; try discriminate.
    destruct ((pend st =? 0) && (lc st <? n)) eqn:E; try discriminate. cbn in H. inversion H; subst.
    apply andb_true_iff in E. destruct E as [E1 E2]. apply Z.eqb_eq in E1. apply Z.ltb_lt in E2.
    unfold Inv0, next_index; cbn. intuition lia.
  - unfold append_pending_task in H. destruct HI as [I1 [I2 [I3 I4]]].
    destruct (Z.ltb_spec 0 (pend st)); try discriminate. cbn in H. inversion H; subst.
    unfold Inv0, next_index in *; cbn. zl. intuition lia.
  - unfold set_last_committed_index in H.
    destruct (negb (pend st =? 0) || _) eqn:E.
    + destruct (i <? pend st); inversion H; subst; auto.
    + destruct (i <? lc st). inversion H; subst; auto.
      destruct (Z.ltb_spec (lc st) i); inversion H; subst; auto.
      apply orb_false_iff in E. destruct E as [E _]. apply negb_false_iff, Z.eqb_eq in E.
      destruct HI as [I1 [I2 [I3 I4]]]. unfold Inv0, next_index in *; cbn. intuition lia.
  - unfold pop_closure_until in H. destruct (cq_q (cq st)) as [|x xs] eqn:Eq.
    + inversion H; subst. destruct st; auto.
    + destruct (Z.ltb_spec i (cq_first (cq st))). inversion H; subst. destruct st; auto.
      rewrite <- Eq in H.
      destruct (Z.ltb_spec (cq_first (cq st) + zlen (cq_q (cq st)) - 1) i); try discriminate.
      inversion H; subst; clear H.
      destruct HI as [I1 [I2 [I3 I4]]]. unfold Inv0, next_index in *; cbn.
      split; auto. split; auto. split.
      * intros Hp. destruct (I3 Hp) as [_ I3']. congruence.
      * intros Hp. specialize (I4 Hp). rewrite zlen_skipn. lia.
Qed.

Lemma inv0_run : forall evs st st' o, Inv0 st -> run st evs = Some (st', o) -> Inv0 st'.
Proof.
  induction evs; cbn; intros. inversion H0; subst; auto.
  destruct (step st a) as [[s o1]|] eqn:E; try discriminate.
  destruct (run s evs) as [[s2 o2]|] eqn:E2; try discriminate. inversion H0; subst.
  eapply IHevs; [|eauto]. eapply inv0_step; eauto.
Qed.

(** *** Monotone commit *)
Lemma commits_app : forall a b, commits (a ++ b) = commits a ++ commits b.
Proof. induction a as [|[]]; intros; cbn; f_equal; auto. Qed.

Lemma commits_map_failed : forall l, commits (map OFailed l) = [].
Proof. induction l; auto. Qed.

Lemma commits_map_popped : forall (l : list (Z * closure)),
  commits (map (fun x => OPopped (fst x) (snd x)) l) = [].
Proof. induction l; auto. Qed.

Lemma step_commits : forall st e st' o, Inv0 st -> step st e = Some (st', o) ->
  lc st <= lc st' /\
  (commits o = [] \/ (commits o = [lc st'] /\ lc st < lc st')).
Proof.
  intros st e st' o HI H. destruct e; cbn in H.
  - destruct (commit_at st first last p) as [[s r] oc] eqn:E. inversion H; subst; clear H.
    apply commit_at_cases in E; auto. destruct E as [[-> [-> _]]|[Hp [Hl [Hr [q [c [El Hc]]]]]]].
    { cbn; split; auto; lia. }
    destruct HI as [I1 [I2 [I3 I4]]].
    apply commit_loop_spec in El; auto. destruct El as [L1 [L2 [L3 L4]]].
    destruct Hc as [[-> [-> ->]]|[Hc [-> ->]]]; cbn.
    + split; auto; lia.
    + destruct L3 as [L3|[L3 _]]; try lia. split; [lia|]. right; split; auto; lia.
  - inversion H; subst; cbn. rewrite commits_map_failed. split; auto; lia.
  - destruct (reset_pending_index st n) eqn:E; try discriminate. cbn in H; inversion H; subst.
    unfold reset_pending_index in E.
    destruct (bq st); try discriminate. destruct (cq_q (cq st)); try discriminate.
    destruct (_ && _); inversion E; subst; cbn. split; auto; lia.
  - unfold append_pending_task in H. destruct (0 <? pend st); try discriminate.
    cbn in H; inversion H; subst; cbn. split; auto; lia.
  - unfold set_last_committed_index in H.
    destruct (negb (pend st =? 0) || _).
    + destruct (i <? pend st); inversion H; subst; cbn; split; auto; lia.
    + destruct (Z.ltb_spec i (lc st)). inversion H; subst; cbn; split; auto; lia.
      destruct (Z.ltb_spec (lc st) i); inversion H; subst; cbn; split; auto; lia.
  - destruct (pop_closure_until (cq st) i) as [[[c l] f]|]; try discriminate.
    inversion H; subst; cbn. rewrite commits_map_popped. split; auto; lia.
Qed.

Lemma increasing_snoc : forall l x, increasing l -> (forall y, In y l -> y < x) -> increasing (l ++ [x]).
Proof.
  induction l as [|a l IH]; cbn; intros; auto.
  destruct H as [H1 H2]. split; [|apply IH; auto].
  destruct l; cbn; auto.
Qed.

Lemma run_commits : forall evs st o,
  run box_init evs = Some (st, o) ->
  increasing (commits o) /\ (forall i, In i (commits o) -> i <= lc st).
Proof.
  induction evs as [|e evs IH] using rev_ind; intros st o H.
  - cbn in H. inversion H; subst. cbn. tauto.
  - apply run_snoc in H. destruct H as [s [o1 [o2 [H1 [H2 ->]]]]].
    destruct (IH _ _ H1) as [J1 J2].
    assert (HI : Inv0 s) by (eapply inv0_run; eauto; apply inv0_init).
    destruct (step_commits _ _ _ _ HI H2) as [K1 K2]. rewrite commits_app.
    destruct K2 as [->|[-> K3]].
    + rewrite app_nil_r. split; auto. intros i Hi. apply J2 in Hi. lia.
    + split. apply increasing_snoc; auto. intros y Hy. apply J2 in Hy. lia.
      intros i Hi. apply in_app_or in Hi. destruct Hi as [Hi|[<-|[]]]; try lia.
      apply J2 in Hi. lia.
Qed.

(** *** Tracking one pending index *)
Definition no_clear (evs : list event) : Prop := ~ In EClear evs.

Definition acks_ev (i : Z) (st : box) (e : event) : list peer :=
  match e with
  | ECommit f l p =>
      if (f <=? i) && (i <=? l) && (snd (fst (commit_at st f l p)) =? 0) then [p] else []
  | _ => []
  end.

Lemma accepted_ackers_cons : forall i st e evs st' o,
  step st e = Some (st', o) ->
  accepted_ackers i st (e :: evs) = acks_ev i st e ++ accepted_ackers i st' evs.
Proof.
  intros. cbn [accepted_ackers]. rewrite H. destruct e; cbn; auto.
  destruct (_ && _); auto.
Qed.

Lemma accepted_ackers_snoc : forall evs i st e st' o,
  run st evs = Some (st', o) ->
  accepted_ackers i st (evs ++ [e]) = accepted_ackers i st evs ++ acks_ev i st' e.
Proof.
  induction evs as [|e0 evs IH]; intros i st e st' o H.
  - cbn in H. inversion H; subst. cbn [app]. cbn [accepted_ackers].
    destruct e; cbn; try (destruct (step st' _) as [[? ?]|]; reflexivity);
    try (destruct (commit_at st' first last p) as [[? ?] ?] eqn:E; cbn;
         destruct (_ && _); reflexivity); auto;
    repeat match goal with |- context [match ?x with _ => _ end] => destruct x end; auto.
  - cbn [run] in H. destruct (step st e0) as [[s1 o1]|] eqn:E; try discriminate.
    destruct (run s1 evs) as [[s2 o2]|] eqn:E2; try discriminate. inversion H; subst.
    rewrite <- app_comm_cons.
    rewrite (accepted_ackers_cons i st e0 (evs ++ [e]) s1 o1 E).
    rewrite (accepted_ackers_cons i st e0 evs s1 o1 E).
    rewrite (IH _ _ _ _ _ E2). rewrite app_assoc. auto.
Qed.

Definition pending_ok (i : Z) (conf : list peer) (old : option (list peer)) (acks : list peer) (st : box) : Prop :=
  pend st <> 0 /\ pend st <= i < next_index st /\
  exists b, znth (bq st) (i - pend st) = Some b /\ ballot_ok conf old acks b /\ granted b = false.

Lemma znth_skipn_pend : forall {A} (q : list A) p c i, p <= c -> c < i ->
  znth (skipn (Z.to_nat (c - p + 1)) q) (i - (c + 1)) = znth q (i - p).
Proof. intros. rewrite znth_skipn by lia. f_equal. lia. Qed.

Lemma step_tracks : forall st e st' o i conf old acks,
  Inv0 st -> wf_jconf (conf, old) -> e <> EClear ->
  step st e = Some (st', o) ->
  pending_ok i conf old acks st ->
  (i <= lc st' \/ pending_ok i conf old (acks_ev i st e ++ acks) st') /\
  (In i (commits o) -> quorum conf old (acks_ev i st e ++ acks)).
Proof.
  intros st e st' o i conf old acks HI Hwf Hne H [Hp [Hi [b [Hb [Hok Hng]]]]].
  destruct e; cbn in H; try congruence.
  - destruct (commit_at st first last p) as [[s r] oc] eqn:E. inversion H; subst; clear H.
    pose proof E as E0.
    apply commit_at_cases in E; auto. destruct E as [[-> [-> Hr]]|[Hpp [Hl [Hr [q [c [El Hc]]]]]]].
    { cbn. rewrite E0. cbn. split; [|tauto]. right.
      destruct ((first <=? i) && (i <=? last)) eqn:Ec; cbn.
      - destruct (Z.eqb_spec r 0); cbn.
        + apply andb_true_iff in Ec. rewrite !Z.leb_le in Ec. specialize (Hr e). lia.
        + repeat split; auto; try lia. eauto.
      - repeat split; auto; try lia. eauto. }
    destruct HI as [I1 [I2 [I3 I4]]].
    apply commit_loop_spec in El; auto. destruct El as [L1 [L2 [L3 L4]]].
    unfold next_index in *.
    pose proof (L2 _ _ Hb) as [b' [Hb' Hd]].
    replace (pend st + (i - pend st)) with i in Hd by lia.
    cbn [acks_ev]. rewrite E0. cbn [fst snd]. rewrite Hr, Z.eqb_refl, andb_true_r.
    assert (Hok' : ballot_ok conf old ((if (first <=? i) && (i <=? last) then [p] else []) ++ acks) b').
    { destruct Hd as [[Hd [[h' ->] _]]|[Hd ->]].
      - replace ((first <=? i) && (i <=? last)) with true
          by (symmetry; apply andb_true_iff; rewrite !Z.leb_le; lia).
        cbn. apply grant_ok; auto.
      - replace ((first <=? i) && (i <=? last)) with false; auto.
        symmetry; apply andb_false_iff; rewrite !Z.leb_gt. lia. }
    assert (Hg' : granted b' = true -> i <= c).
    { intros Hg. destruct Hd as [[Hd [_ Hd2]]|[Hd ->]]; [auto|congruence]. }
    destruct Hc as [[-> [-> ->]]|[Hc [-> ->]]]; cbn.
    + split; [|tauto]. right. unfold pending_ok, next_index; cbn. rewrite L1.
      repeat split; try lia. exists b'. split; auto. split; auto.
      destruct (granted b'); auto. specialize (Hg' eq_refl). lia.
    + destruct L3 as [L3|[L3 [L3' [bc [Hbc Hgc]]]]]; try lia.
      split.
      * destruct (Z_le_gt_dec i c); auto. right.
        unfold pending_ok, next_index; cbn. rewrite skipn_len_pend, L1 by lia.
        split; [lia|]. split; [lia|]. exists b'. split.
        { rewrite znth_skipn_pend by lia. auto. }
        split; auto. destruct (granted b'); auto. specialize (Hg' eq_refl). lia.
      * intros [->|[]]. rewrite Hbc in Hb'. inversion Hb'; subst.
        eapply ballot_ok_granted; eauto.
  - exfalso. unfold reset_pending_index in H.
    destruct (bq st) eqn:Eb; try discriminate. rewrite znth_nil in Hb. discriminate.
  - unfold append_pending_task in H. destruct (0 <? pend st); try discriminate.
    cbn in H; inversion H; subst; cbn. split; [|tauto]. right.
    unfold pending_ok, next_index in *; cbn. rewrite zlen_app.
    pose proof (zlen_nonneg [ballot_init conf0 old0]).
    split; auto. split; [lia|]. exists b. split; auto.
    rewrite znth_app1 by lia. auto.
  - unfold set_last_committed_index in H.
    destruct (negb (pend st =? 0) || _) eqn:E.
    + destruct (i0 <? pend st); inversion H; subst; cbn. split; [|tauto]. right.
      split; auto. split; auto. eauto.
    + apply orb_false_iff in E. destruct E as [E _]. apply negb_false_iff, Z.eqb_eq in E. contradiction.
  - destruct (pop_closure_until (cq st) i0) as [[[c l] f]|]; try discriminate.
    inversion H; subst; cbn. rewrite commits_map_popped. split; [|cbn; tauto]. right.
    unfold pending_ok, next_index in *; cbn. split; auto. split; auto. eauto.
Qed.

(** A freshly appended index is tracked with no acks. *)
Lemma append_tracks : forall st conf old c st' o,
  Inv0 st -> step st (EAppend conf old c) = Some (st', o) ->
  pending_ok (next_index st) conf old [] st' /\ wf_jconf (conf, old) = wf_jconf (conf, old).
Proof.
  intros st conf old c st' o HI H. split; auto. cbn in H. unfold append_pending_task in H.
  destruct (Z.ltb_spec 0 (pend st)); try discriminate. cbn in H; inversion H; subst.
  unfold pending_ok, next_index; cbn. zl.
  pose proof (zlen_nonneg (bq st)).
  split; [lia|]. split; [lia|]. exists (ballot_init conf old). split.
  - rewrite znth_app2 by lia. replace (pend st + zlen (bq st) - pend st - zlen (bq st)) with 0 by lia.
    auto.
  - split. apply ballot_ok_init.
    unfold granted, ballot_init, quorum_of. pose proof (zlen_nonneg conf).
    pose proof (Z.div_pos (zlen conf) 2).
    destruct old; cbn; apply andb_false_iff; left; apply Z.leb_gt; lia.
Qed.

(** History invariant: each pending index was appended by some call, and its
    ballot has counted exactly the accepted acknowledgements since then. *)
Definition hist_ok (evs : list event) (st : box) (i : Z) : Prop :=
  exists pre conf old c post s o s1 o1 acks,
    evs = pre ++ EAppend conf old c :: post /\ no_clear post /\
    run box_init pre = Some (s, o) /\ next_index s = i /\
    step s (EAppend conf old c) = Some (s1, o1) /\
    wf_jconf (conf, old) /\
    (forall p, In p acks <-> In p (accepted_ackers i s1 post)) /\
    pending_ok i conf old acks st.

Lemma pending_after : forall st e st' o, Inv0 st -> e <> EClear ->
  step st e = Some (st', o) ->
  forall i, pend st' <> 0 -> pend st' <= i < next_index st' ->
  (pend st <> 0 /\ pend st <= i < next_index st) \/
  (exists conf old c, e = EAppend conf old c /\ i = next_index st).
Proof.
  intros st e st' o HI Hne H i Hp Hi. destruct e; cbn in H; try congruence.
  - destruct (commit_at st first last p) as [[s r] oc] eqn:E. inversion H; subst; clear H.
    apply commit_at_cases in E; auto. destruct E as [[-> _]|[Hpp [Hl [Hr [q [c [El Hc]]]]]]]; auto.
    destruct HI as [I1 [I2 [I3 I4]]].
    apply commit_loop_spec in El; auto. destruct El as [L1 [L2 [L3 L4]]].
    unfold next_index in *. left.
    destruct Hc as [[-> [-> ->]]|[Hc [-> ->]]]; cbn in *.
    + rewrite L1 in Hi. lia.
    + destruct L3 as [L3|[L3 _]]; try lia. rewrite skipn_len_pend, L1 in Hi by lia. lia.
  - unfold reset_pending_index in H.
    destruct (bq st) eqn:Eb; try discriminate. destruct (cq_q (cq st)) eqn:Ec; try discriminate.
    destruct (_ && _); try discriminate. inversion H; subst. unfold next_index in Hi; cbn in *.
    zl; lia.
  - unfold append_pending_task in H. destruct (Z.ltb_spec 0 (pend st)); try discriminate.
    cbn in H; inversion H; subst. unfold next_index in *; cbn in *.
    zl.
    destruct (Z.eq_dec i (pend st + zlen (bq st))); [right; eauto|left; lia].
  - unfold set_last_committed_index in H.
    destruct (negb (pend st =? 0) || _).
    + destruct (i0 <? pend st); inversion H; subst; auto.
    + destruct (i0 <? lc st). inversion H; subst; auto.
      destruct (lc st <? i0); inversion H; subst; auto.
  - destruct (pop_closure_until (cq st) i0) as [[[c l] f]|]; try discriminate.
    inversion H; subst. auto.
Qed.

Lemma acks_ev_append : forall i st conf old c, acks_ev i st (EAppend conf old c) = [].
Proof. reflexivity. Qed.

Lemma hist_run : forall evs st o,
  Forall wf_event evs -> run box_init evs = Some (st, o) ->
  forall i, pend st <> 0 -> pend st <= i < next_index st -> hist_ok evs st i.
Proof.
  induction evs as [|e evs IH] using rev_ind; intros st o Hwf H i Hp Hi.
  - cbn in H; inversion H; subst. cbn in Hp. congruence.
  - pose proof H as Hrun.
    apply run_snoc in H. destruct H as [s [o1 [o2 [H1 [H2 ->]]]]].
    apply Forall_app in Hwf. destruct Hwf as [Hwf He]. inversion He; subst; clear He H4.
    assert (HI : Inv0 s) by (eapply inv0_run; eauto; apply inv0_init).
    destruct (list_eq_dec Z.eq_dec [] []) as [_|n]; [|congruence].
    assert (Hclr : e = EClear \/ e <> EClear) by (destruct e; auto; right; discriminate).
    destruct Hclr as [->|Hne].
    { cbn in H2. inversion H2; subst; cbn in Hp. congruence. }
    destruct (pending_after _ _ _ _ HI Hne H2 i Hp Hi) as [[Hp0 Hi0]|[conf [old [c [-> ->]]]]].
    + destruct (IH _ _ Hwf H1 i Hp0 Hi0) as
        [pre [conf [old [c [post [s0 [o0 [s1 [os1 [acks [E1 [E2 [E3 [E4 [E5 [E6 [E7 E8]]]]]]]]]]]]]]]]].
      destruct (step_tracks _ _ _ _ i conf old acks HI E6 Hne H2 E8) as [[Hlc|Hpo] _].
      { assert (HI' : Inv0 st) by (eapply inv0_step; eauto).
        destruct HI' as [_ [I2 _]]. lia. }
      exists pre, conf, old, c, (post ++ [e]), s0, o0, s1, os1, (acks_ev i s e ++ acks).
      split. { rewrite E1. rewrite <- app_assoc. auto. }
      split. { unfold no_clear in *. rewrite in_app_iff. cbn. intuition congruence. }
      repeat (split; auto).
      * intros Hin.
        assert (Hr1 : exists of1, run s1 post = Some (s, of1)).
        { rewrite E1 in H1. rewrite run_app, E3 in H1. cbn [run] in H1.
          cbn [step] in E5, H1. rewrite E5 in H1.
          destruct (run s1 post) as [[sx ox]|]; try discriminate. inversion H1; subst. eauto. }
        destruct Hr1 as [of1 Hr1]. rewrite (accepted_ackers_snoc _ i _ e _ _ Hr1).
        rewrite in_app_iff in *. rewrite <- E7. tauto.
      * intros Hin.
        assert (Hr1 : exists of1, run s1 post = Some (s, of1)).
        { rewrite E1 in H1. rewrite run_app, E3 in H1. cbn [run] in H1.
          cbn [step] in E5, H1. rewrite E5 in H1.
          destruct (run s1 post) as [[sx ox]|]; try discriminate. inversion H1; subst. eauto. }
        destruct Hr1 as [of1 Hr1]. rewrite (accepted_ackers_snoc _ i _ e _ _ Hr1) in Hin.
        rewrite in_app_iff in *. rewrite E7. tauto.
    + destruct (append_tracks _ _ _ _ _ _ HI H2) as [Hpo _].
      exists evs, conf, old, c, [], s, o1, st, o2, [].
      split; [reflexivity|]. split; [intros []|]. split; [auto|]. split; [auto|]. split; [auto|]. split; [exact H3|]. split; [cbn; tauto|auto].
Qed.

Lemma accepted_incl : forall evs i st p, In p (accepted_ackers i st evs) -> In p (ackers i evs).
Proof.
  induction evs as [|e evs IH]; cbn; intros; auto.
  destruct e; cbn in *.
  1:{ destruct (commit_at st first last p0) as [[s r] oc] eqn:E. cbn in H.
      destruct ((first <=? i) && (i <=? last)); cbn in H.
      - destruct (r =? 0); cbn in H.
        + destruct H; cbn; auto. right; eauto.
        + right; eauto.
      - eauto. }
  all: repeat match type of H with
       | context [match ?x with _ => _ end] => destruct x
       end; eauto; try contradiction.
Qed.

(** C03 soundness. *)
Lemma commit_needs_quorum : forall evs first last p st o st' i,
  Forall wf_event evs ->
  run box_init evs = Some (st, o) ->
  step st (ECommit first last p) = Some (st', [OCommitted i]) ->
  exists conf old c post,
    proposed_at evs i conf old c post /\ ~ In EClear post /\
    quorum conf old (ackers i (post ++ [ECommit first last p])).
Proof.
  intros evs f l p st o st' i Hwf Hrun Hstep.
  assert (HI : Inv0 st) by (eapply inv0_run; eauto; apply inv0_init).
  assert (Hrange : pend st <> 0 /\ pend st <= i < next_index st).
  { cbn in Hstep. destruct (commit_at st f l p) as [[s r] oc] eqn:E.
    destruct oc; inversion Hstep; subst; clear Hstep.
    apply commit_at_cases in E; auto. destruct E as [[_ [E _]]|[Hpp [Hl [Hr [q [c [El Hc]]]]]]]; try discriminate.
    apply commit_loop_spec in El; auto. destruct El as [L1 [L2 [L3 L4]]].
    destruct Hc as [[_ [Hc _]]|[Hc [Hc2 _]]]; try discriminate. inversion Hc2; subst.
    destruct L3 as [L3|[L3 _]]; try lia. unfold next_index. lia. }
  destruct Hrange as [Hp Hi].
  destruct (hist_run _ _ _ Hwf Hrun i Hp Hi) as
    [pre [conf [old [c [post [s0 [o0 [s1 [os1 [acks [E1 [E2 [E3 [E4 [E5 [E6 [E7 E8]]]]]]]]]]]]]]]]].
  exists conf, old, c, post. split; [|split; [exact E2|]].
  - exists pre, s0, o0. auto.
  - assert (Hne : ECommit f l p <> EClear) by discriminate.
    destruct (step_tracks _ _ _ _ i conf old acks HI E6 Hne Hstep E8) as [_ Hq].
    specialize (Hq (or_introl eq_refl)).
    assert (Hsub : forall x, In x (acks_ev i st (ECommit f l p) ++ acks) ->
                   In x (ackers i (post ++ [ECommit f l p]))).
    { intros x Hx.
      assert (Happ : forall es a, ackers i (es ++ [a]) = ackers i es ++ ackers i [a]).
      { induction es as [|e0 es IHes]; intros; [reflexivity|].
        rewrite <- app_comm_cons. destruct e0; cbn [ackers]; try apply IHes.
        destruct (_ && _); rewrite IHes; reflexivity. }
      rewrite Happ, in_app_iff. apply in_app_or in Hx. destruct Hx as [Hx|Hx].
      - right. cbn in *. destruct ((f <=? i) && (i <=? l)); cbn in *; auto.
        destruct (_ =? 0); cbn in *; tauto.
      - left. apply E7 in Hx. eapply accepted_incl; eauto. }
    destruct Hq as [Q1 Q2]. split.
    + eapply majority_mono; eauto.
    + destruct old; auto. eapply majority_mono; eauto.
Qed.

(** C03 completeness: a proposal acknowledged by a quorum is committed. *)
Lemma track_run : forall post s1 s2 o i conf old acks,
  Forall wf_event post -> wf_jconf (conf, old) -> ~ In EClear post -> Inv0 s1 ->
  run s1 post = Some (s2, o) ->
  (i <= lc s1 \/ pending_ok i conf old acks s1) ->
  i <= lc s2 \/ exists acks', pending_ok i conf old acks' s2 /\
                (forall p, In p acks' <-> In p acks \/ In p (accepted_ackers i s1 post)).
Proof.
  induction post as [|e post IH]; intros s1 s2 o i conf old acks Hwf Hc Hn HI Hrun H.
  - cbn in Hrun. inversion Hrun; subst. destruct H; auto. right. exists acks. cbn. intuition.
  - cbn [run] in Hrun. destruct (step s1 e) as [[sm om]|] eqn:E; try discriminate.
    destruct (run sm post) as [[sx ox]|] eqn:E2; try discriminate. inversion Hrun; subst.
    inversion Hwf; subst.
    assert (HIm : Inv0 sm) by (eapply inv0_step; eauto).
    assert (Hne : e <> EClear) by (intros ->; apply Hn; cbn; auto).
    assert (Hn' : ~ In EClear post) by (intros X; apply Hn; cbn; auto).
    destruct H as [H|H].
    + left. destruct (step_commits _ _ _ _ HI E) as [Hmono _].
      assert (Hle : i <= lc sm) by lia.
      destruct (IH sm s2 ox i conf old acks H3 Hc Hn' HIm E2 (or_introl Hle)) as [|]; auto.
      destruct H0 as [a' [[Ha1 [Ha2 _]] _]].
      assert (HI2 : Inv0 s2) by (eapply inv0_run; eauto).
      assert (Hm2 : lc sm <= lc s2).
      { clear - HIm E2. revert sm ox HIm E2. induction post; cbn; intros.
        inversion E2; subst; lia.
        destruct (step sm a) as [[sa oa]|] eqn:Ea; try discriminate.
        destruct (run sa post) as [[sb ob]|] eqn:Eb; try discriminate. inversion E2; subst.
        destruct (step_commits _ _ _ _ HIm Ea). assert (Inv0 sa) by (eapply inv0_step; eauto).
        specialize (IHpost _ _ H1 Eb). lia. }
      lia.
    + destruct (step_tracks _ _ _ _ i conf old acks HI Hc Hne E H) as [Hd _].
      destruct (IH sm s2 ox i conf old _ H3 Hc Hn' HIm E2 Hd) as [|[a' [Ha1 Ha2]]]; auto.
      right. exists a'. split; auto. intros p. rewrite Ha2.
      rewrite (accepted_ackers_cons i s1 e post sm om E). rewrite !in_app_iff. tauto.
Qed.

Lemma quorum_commits : forall pre conf old c post s o s1 o1 s2 o2,
  Forall wf_event (pre ++ EAppend conf old c :: post) ->
  run box_init pre = Some (s, o) ->
  step s (EAppend conf old c) = Some (s1, o1) ->
  run s1 post = Some (s2, o2) ->
  ~ In EClear post ->
  quorum conf old (accepted_ackers (next_index s) s1 post) ->
  next_index s <= lc s2.
Proof.
  intros pre conf old c post s o s1 o1 s2 o2 Hwf H1 H2 H3 Hn Hq.
  apply Forall_app in Hwf. destruct Hwf as [_ Hwf]. inversion Hwf; subst.
  assert (HI : Inv0 s) by (eapply inv0_run; eauto; apply inv0_init).
  assert (HI1 : Inv0 s1) by (eapply inv0_step; eauto).
  destruct (append_tracks _ _ _ _ _ _ HI H2) as [Hpo _].
  destruct (track_run post s1 s2 o2 (next_index s) conf old [] H5 H4 Hn HI1 H3 (or_intror Hpo))
    as [|[a' [[_ [_ [b [_ [Hok Hg]]]]] Ha2]]]; auto.
  exfalso. assert (quorum conf old a').
  { eapply quorum_ext; [|eauto]. intros p; rewrite Ha2; cbn; tauto. }
  apply (ballot_ok_granted conf old a' b Hok) in H. congruence.
Qed.

(** *** Closures: C04 *)
Lemma somes_app : forall {A} (a b : list (option A)), somes (a ++ b) = somes a ++ somes b.
Proof. induction a as [|[]]; intros; cbn; f_equal; auto. Qed.

Lemma finished_app : forall a b, finished (a ++ b) = finished a ++ finished b.
Proof. induction a as [|[]]; intros; cbn; f_equal; auto. Qed.

Lemma proposed_app : forall a b, proposed (a ++ b) = proposed a ++ proposed b.
Proof.
  induction a as [|e a IH]; intros; cbn; auto.
  destruct e; auto. destruct c; cbn; f_equal; auto.
Qed.

Lemma finished_failed : forall l, finished (map OFailed l) = l.
Proof. induction l; cbn; f_equal; auto. Qed.

Lemma finished_popped : forall l f,
  finished (map (fun x => OPopped (fst x) (snd x)) (number f l)) = somes l.
Proof. induction l as [|[]]; intros; cbn; f_equal; auto. Qed.

Lemma step_closures : forall st e st' o,
  Inv0 st -> step st e = Some (st', o) ->
  Permutation (proposed [e] ++ waiting st) (finished o ++ waiting st').
Proof.
  intros st e st' o HI H. unfold waiting. destruct e; cbn in H.
  - destruct (commit_at st first last p) as [[s r] oc] eqn:E. inversion H; subst; clear H.
    apply commit_at_cases in E; auto.
    destruct E as [[-> [-> _]]|[_ [_ [_ [q [c [_ [[_ [-> ->]]|[_ [-> ->]]]]]]]]]]; cbn; auto.
  - inversion H; subst; cbn. rewrite finished_failed, app_nil_r. auto.
  - unfold reset_pending_index in H.
    destruct (bq st); try discriminate. destruct (cq_q (cq st)); try discriminate.
    destruct (_ && _); inversion H; subst; cbn. auto.
  - unfold append_pending_task in H. destruct (0 <? pend st); try discriminate.
    cbn in H; inversion H; subst; cbn. rewrite somes_app. destruct c; cbn; [|rewrite app_nil_r; auto].
    apply Permutation_cons_append.
  - unfold set_last_committed_index in H.
    destruct (negb (pend st =? 0) || _).
    + destruct (i <? pend st); inversion H; subst; cbn; auto.
    + destruct (i <? lc st). inversion H; subst; cbn; auto.
      destruct (lc st <? i); inversion H; subst; cbn; auto.
  - unfold pop_closure_until in H. destruct (cq_q (cq st)) as [|x xs] eqn:Eq.
    + inversion H; subst. cbn. rewrite Eq. auto.
    + destruct (i <? cq_first (cq st)). inversion H; subst; cbn. rewrite Eq; auto.
      rewrite <- Eq in *. destruct (_ <? i); try discriminate. inversion H; subst; clear H.
      rewrite finished_popped. cbn. rewrite <- somes_app, firstn_skipn. auto.
Qed.

Lemma closures_conserved : forall evs st o,
  run box_init evs = Some (st, o) -> Permutation (proposed evs) (finished o ++ waiting st).
Proof.
  induction evs as [|e evs IH] using rev_ind; intros st o H.
  - cbn in H; inversion H; subst. cbn. auto.
  - apply run_snoc in H. destruct H as [s [o1 [o2 [H1 [H2 ->]]]]].
    assert (HI : Inv0 s) by (eapply inv0_run; eauto; apply inv0_init).
    pose proof (step_closures _ _ _ _ HI H2) as Hs.
    rewrite proposed_app, finished_app, <- app_assoc.
    transitivity ((finished o1 ++ waiting s) ++ proposed [e]).
    { apply Permutation_app_tail. apply IH; auto. }
    rewrite <- app_assoc. apply Permutation_app_head.
    etransitivity; [|exact Hs]. apply Permutation_app_comm.
Qed.

(** Positions: a waiting closure at distance k was proposed at log cq_first + k. *)
Definition cq_ok (evs : list event) (st : box) : Prop :=
  forall k c, znth (cq_q (cq st)) k = Some (Some c) ->
    exists conf old post, proposed_at evs (cq_first (cq st) + k) conf old (Some c) post.

Lemma proposed_at_snoc : forall evs e i conf old c post,
  proposed_at evs i conf old c post -> proposed_at (evs ++ [e]) i conf old c (post ++ [e]).
Proof.
  intros evs e i conf old c post [pre [s [o [-> [H1 H2]]]]].
  exists pre, s, o. rewrite <- app_assoc. auto.
Qed.

Lemma number_In : forall l f i c, In (i, c) (number f l) -> znth l (i - f) = Some (Some c) /\ f <= i < f + zlen l.
Proof.
  induction l as [|[x|] l IH]; intros f i c H; cbn in H; [destruct H| |].
  - rewrite zlen_cons. pose proof (zlen_nonneg l). destruct H as [H|H].
    + inversion H; subst. replace (i - i) with 0 by lia. split; auto; lia.
    + apply IH in H. destruct H as [H1 H2]. rewrite znth_cons_pos by lia.
      replace (i - f - 1) with (i - (f + 1)) by lia. split; auto; lia.
  - rewrite zlen_cons. pose proof (zlen_nonneg l).
    apply IH in H. destruct H as [H1 H2]. rewrite znth_cons_pos by lia.
    replace (i - f - 1) with (i - (f + 1)) by lia. split; auto; lia.
Qed.

Lemma in_popped_number : forall l i c,
  In (OPopped i c) (map (fun x : Z * closure => OPopped (fst x) (snd x)) l) -> In (i, c) l.
Proof.
  intros l i c H. apply in_map_iff in H. destruct H as [[a b] [E H]].
  cbn in E. inversion E; subst. auto.
Qed.

Lemma cq_run : forall evs st o,
  run box_init evs = Some (st, o) ->
  cq_ok evs st /\
  (forall i c, In (OPopped i c) o -> exists conf old post, proposed_at evs i conf old (Some c) post).
Proof.
  induction evs as [|e evs IH] using rev_ind; intros st o H.
  - cbn in H; inversion H; subst. split; [|cbn; tauto].
    intros k c Hk. cbn in Hk. rewrite znth_nil in Hk. discriminate.
  - apply run_snoc in H. destruct H as [s [o1 [o2 [H1 [H2 ->]]]]].
    assert (HI : Inv0 s) by (eapply inv0_run; eauto; apply inv0_init).
    destruct (IH _ _ H1) as [C1 C2].
    assert (Hold : forall i c, In (OPopped i c) o1 ->
       exists conf old post, proposed_at (evs ++ [e]) i conf old (Some c) post).
    { intros i c Hi. apply C2 in Hi. destruct Hi as [a [b [d Hi]]].
      do 3 eexists. apply proposed_at_snoc. eauto. }
    assert (Hkeep : cq st = cq s -> cq_ok (evs ++ [e]) st).
    { intros E k c Hk. rewrite E in *. apply C1 in Hk. destruct Hk as [a [b [d Hi]]].
      do 3 eexists. apply proposed_at_snoc. eauto. }
    destruct e; cbn in H2.
    + destruct (commit_at s first last p) as [[sx r] oc] eqn:E. inversion H2; subst; clear H2.
      apply commit_at_cases in E; auto.
      assert (cq st = cq s) by
        (destruct E as [[-> [-> _]]|[_ [_ [_ [q [c [_ [[_ [-> ->]]|[_ [-> ->]]]]]]]]]]; auto).
      split; auto. intros i c Hi. apply in_app_or in Hi. destruct Hi as [Hi|Hi]; auto.
      destruct oc; cbn in Hi; intuition discriminate.
    + inversion H2; subst. split.
      * intros k c Hk. cbn in Hk. rewrite znth_nil in Hk. discriminate.
      * intros i c Hi. apply in_app_or in Hi. destruct Hi as [Hi|Hi]; auto.
        apply in_map_iff in Hi. destruct Hi as [? [? _]]. discriminate.
    + unfold reset_pending_index in H2.
      destruct (bq s); try discriminate. destruct (cq_q (cq s)); try discriminate.
      destruct (_ && _); inversion H2; subst. rewrite app_nil_r. split; auto.
      intros k c Hk. cbn in Hk. rewrite znth_nil in Hk. discriminate.
    + unfold append_pending_task in H2. destruct (Z.ltb_spec 0 (pend s)); try discriminate.
      cbn in H2; inversion H2; subst. rewrite app_nil_r. split; auto.
      intros k c0 Hk. cbn in *.
      destruct (Z_lt_ge_dec k (zlen (cq_q (cq s)))).
      * rewrite znth_app1 in Hk by lia. apply C1 in Hk. destruct Hk as [a [b [d Hi]]].
        do 3 eexists. apply proposed_at_snoc. eauto.
      * rewrite znth_app2 in Hk by lia. pose proof (znth_some_bound _ _ _ Hk) as Hb.
        zl. assert (k = zlen (cq_q (cq s))) by lia. subst k.
        replace (zlen (cq_q (cq s)) - zlen (cq_q (cq s))) with 0 in Hk by lia.
        rewrite znth_cons_0 in Hk. inversion Hk; subst.
        exists conf, old, []. exists evs, s, o1. split; auto. split; auto.
        destruct HI as [_ [_ [_ I4]]]. specialize (I4 ltac:(lia)). lia.
    + unfold set_last_committed_index in H2.
      assert (cq st = cq s /\ forall i c, ~ In (OPopped i c) o2).
      { destruct (negb (pend s =? 0) || _).
        - destruct (i <? pend s); inversion H2; subst; cbn; intuition.
        - destruct (i <? lc s). inversion H2; subst; cbn; intuition.
          destruct (lc s <? i); inversion H2; subst; cbn; intuition discriminate. }
      destruct H as [Ha Hb]. split; auto.
      intros j c Hi. apply in_app_or in Hi. destruct Hi as [Hi|Hi]; auto. exfalso; eapply Hb; eauto.
    + unfold pop_closure_until in H2. destruct (cq_q (cq s)) as [|x xs] eqn:Eq.
      * inversion H2; subst; cbn. rewrite app_nil_r. split; auto.
      * destruct (Z.ltb_spec i (cq_first (cq s))).
        { inversion H2; subst; cbn. rewrite app_nil_r. split; auto. }
        rewrite <- Eq in *. destruct (Z.ltb_spec (cq_first (cq s) + zlen (cq_q (cq s)) - 1) i); try discriminate.
        inversion H2; subst; clear H2. split.
        -- intros k c Hk. cbn in *. pose proof (znth_some_bound _ _ _ Hk).
           rewrite znth_skipn in Hk by lia. apply C1 in Hk.
           destruct Hk as [a [b [d Hi]]]. exists a, b, (d ++ [EPop i]).
           apply proposed_at_snoc.
           replace (i + 1 + k) with (cq_first (cq s) + (k + Z.of_nat (Z.to_nat (i - cq_first (cq s) + 1)))) by lia.
           auto.
        -- intros j c Hi. apply in_app_or in Hi. destruct Hi as [Hi|Hi]; auto.
           apply in_popped_number in Hi. apply number_In in Hi. destruct Hi as [Hi Hr].
           rewrite zlen_firstn in Hr.
           rewrite znth_firstn in Hi by lia. apply C1 in Hi. destruct Hi as [a [b [d Hi]]].
           exists a, b, (d ++ [EPop i]). apply proposed_at_snoc.
           replace (cq_first (cq s) + (j - cq_first (cq s))) with j in Hi by lia. auto.
Qed.

(** Popping reported indexes never trips the CHECK. *)
Lemma pop_no_abort : forall evs st o i,
  run box_init evs = Some (st, o) -> i <= lc st ->
  exists st' o', step st (EPop i) = Some (st', o').
Proof.
  intros evs st o i H Hi.
  assert (HI : Inv0 st) by (eapply inv0_run; eauto; apply inv0_init).
  destruct HI as [I1 [I2 [I3 I4]]].
  cbn. unfold pop_closure_until. destruct (cq_q (cq st)) as [|x xs] eqn:Eq; eauto.
  destruct (i <? cq_first (cq st)); eauto. rewrite <- Eq in *.
  destruct (Z.ltb_spec (cq_first (cq st) + zlen (cq_q (cq st)) - 1) i); eauto.
  exfalso. assert (pend st <> 0).
  { intros Hp. destruct (I3 Hp) as [_ X]. congruence. }
  specialize (I4 H1). unfold next_index in I4. pose proof (zlen_nonneg (bq st)). lia.
Qed.

(** Who fails, who delivers. *)
Lemma failed_only_by_clear : forall st e st' o c,
  step st e = Some (st', o) -> In (OFailed c) o -> e = EClear.
Proof.
  intros st e st' o c H Hin. destruct e; auto; cbn in H; exfalso.
  - destruct (commit_at st first last p) as [[s r] oc]. inversion H; subst.
    destruct oc; cbn in Hin; intuition discriminate.
  - destruct (reset_pending_index st n); inversion H; subst; auto.
  - destruct (append_pending_task st conf old c0); inversion H; subst; auto.
  - destruct (set_last_committed_index st i) as [[[s r] oc]|]; inversion H; subst.
    destruct oc; cbn in Hin; intuition discriminate.
  - destruct (pop_closure_until (cq st) i) as [[[q l] f]|]; inversion H; subst.
    apply in_map_iff in Hin. destruct Hin as [? [? _]]; discriminate.
Qed.

Lemma popped_only_by_pop : forall st e st' o i c,
  step st e = Some (st', o) -> In (OPopped i c) o -> exists j, e = EPop j /\ i <= j.
Proof.
  intros st e st' o i c H Hin. destruct e; cbn in H.
  - destruct (commit_at st first last p) as [[s r] oc]. inversion H; subst.
    destruct oc; cbn in Hin; intuition discriminate.
  - inversion H; subst. apply in_map_iff in Hin. destruct Hin as [? [? _]]; discriminate.
  - destruct (reset_pending_index st n); inversion H; subst; destruct Hin.
  - destruct (append_pending_task st conf old c0); inversion H; subst; destruct Hin.
  - destruct (set_last_committed_index st i0) as [[[s r] oc]|]; inversion H; subst.
    destruct oc; cbn in Hin; intuition discriminate.
  - exists i0. split; auto. unfold pop_closure_until in H.
    destruct (cq_q (cq st)) as [|x xs] eqn:Eq. inversion H; subst; destruct Hin.
    destruct (Z.ltb_spec i0 (cq_first (cq st))). inversion H; subst; destruct Hin.
    rewrite <- Eq in *.
    destruct (_ <? i0); inversion H; subst. apply in_popped_number, number_In in Hin.
    destruct Hin as [_ Hin]. rewrite zlen_firstn in Hin. lia.
Qed.
