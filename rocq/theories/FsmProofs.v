From Verif Require Import Base BaseLemmas BallotBox Fsm FsmSpec.

Lemma sm_calls_app : forall a b, sm_calls (a ++ b) = sm_calls a ++ sm_calls b.
Proof. induction a as [|x a IH]; intros; cbn; auto. destruct x; cbn; rewrite ?IH; auto. Qed.
Lemma handed_app : forall a b, handed (a ++ b) = handed a ++ handed b.
Proof. induction a as [|x a IH]; intros; cbn; auto. destruct x; cbn; rewrite ?IH; auto. destruct done; cbn; rewrite ?IH; auto. Qed.
Lemma ran_ok_app : forall a b, ran_ok (a ++ b) = ran_ok a ++ ran_ok b.
Proof. induction a as [|x a IH]; intros; cbn [ran_ok app]; auto. destruct x; rewrite ?IH; auto. destruct (st =? 0); rewrite ?IH; auto. Qed.
Lemma ran_failed_app : forall a b, ran_failed (a ++ b) = ran_failed a ++ ran_failed b.
Proof. induction a as [|x a IH]; intros; cbn [ran_failed app]; auto. destruct x; rewrite ?IH; auto. destruct (st =? 0); rewrite ?IH; auto. Qed.

Lemma upto_app : forall n m a, upto a (n + m) = upto a n ++ upto (a + Z.of_nat n) m.
Proof.
  induction n as [|n IH]; intros m a; cbn [upto Nat.add app].
  - f_equal; lia.
  - rewrite IH. do 3 f_equal. lia.
Qed.
Lemma In_upto : forall n a i, In i (upto a n) <-> a < i <= a + Z.of_nat n.
Proof.
  induction n as [|n IH]; intros a i; cbn [upto].
  - cbn. lia.
  - cbn [In]. rewrite IH. lia.
Qed.

Section Loop.
Variable lg : Z -> entry.
Variable lm : Z -> option entry.
Variable cls : list (option closure).
Variable first : Z.
Variable ci : Z.
Hypothesis Hidx : forall i, e_index (lg i) = i.
Hypothesis Hlm : forall i e, lm i = Some e -> e = lg i.

Notation clo := (closure_at cls first).
Definition hd_of (i : Z) : list (Z * closure) :=
  match e_type (lg i), clo i with T_DATA, Some c => [(i, c)] | _, _ => [] end.
Definition ok_of (i : Z) : list closure :=
  if is_data (e_type (lg i)) then [] else match clo i with Some c => [c] | None => [] end.
Definition fl_of (st : Z) (i : Z) : list (closure * Z) :=
  match clo i with Some c => [(c, st)] | None => [] end.

(** A state the iterator can be in before an error is reported by the user. *)
Definition It (it : iter) : Prop :=
  (i_cur it <= ci /\ i_entry it = Some (lg (i_cur it)) /\ i_err it = None) \/
  (i_cur it = ci + 1 /\ i_entry it = None /\ i_err it = None) \/
  (i_cur it <= ci /\ i_entry it = None /\ i_err it = Some (-1)).

Lemma it_next_It : forall it, i_err it = None -> i_cur it <= ci ->
  It (it_next lm ci it) /\ i_cur (it_next lm ci it) = i_cur it + 1.
Proof.
  intros it He Hc. unfold it_next. destruct (Z.leb_spec (i_cur it) ci); [|lia].
  destruct (Z.leb_spec (i_cur it + 1) ci).
  - destruct (lm (i_cur it + 1)) as [e|] eqn:E; cbn; split; auto.
    + left. cbn. rewrite (Hlm _ _ E). auto.
    + right; right. cbn. auto.
  - cbn. split; auto. right; left. cbn. repeat split; auto. lia.
Qed.

Lemma It_good : forall it, It it -> it_good ci it = true ->
  i_cur it <= ci /\ i_entry it = Some (lg (i_cur it)) /\ i_err it = None.
Proof.
  unfold it_good, it_has_error. intros it [H|[[H1 [H2 H3]]|[H1 [H2 H3]]]] G; auto.
  - rewrite H1 in G. destruct (Z.leb_spec (ci + 1) ci); [lia|]. discriminate.
  - rewrite H3 in G. rewrite andb_false_r in G. discriminate.
Qed.
Lemma It_not_good : forall it, It it -> it_good ci it = false ->
  (i_cur it = ci + 1 /\ i_err it = None) \/ (i_cur it <= ci /\ i_err it = Some (-1)).
Proof.
  unfold it_good, it_has_error. intros it [[H1 [H2 H3]]|[[H1 [H2 H3]]|[H1 [H2 H3]]]] G; auto.
  rewrite H3 in G. destruct (Z.leb_spec (i_cur it) ci); [discriminate|lia].
Qed.

Lemma is_data_spec : forall t, is_data t = true <-> t = T_DATA.
Proof. destruct t; cbn; split; congruence. Qed.
Lemma It_valid : forall it, It it -> it_valid ci it = true ->
  i_cur it <= ci /\ i_entry it = Some (lg (i_cur it)) /\ i_err it = None /\ e_type (lg (i_cur it)) = T_DATA.
Proof.
  intros it H V. unfold it_valid in V. apply andb_true_iff in V. destruct V as [G V].
  destruct (It_good it H G) as [A [B C]]. rewrite B in V. apply is_data_spec in V. auto.
Qed.

(** The projections of a list of outputs that shows/handles exactly the indexes [U]. *)
Definition covers (o : list fout) (U : list Z) : Prop :=
  sm_calls o = flat_map (visible lg) U /\ handed o = flat_map hd_of U /\
  ran_ok o = flat_map ok_of U /\ ran_failed o = [].

Lemma covers_nil : covers [] [].
Proof. repeat split. Qed.
Lemma covers_app : forall o1 o2 U1 U2, covers o1 U1 -> covers o2 U2 -> covers (o1 ++ o2) (U1 ++ U2).
Proof.
  intros o1 o2 U1 U2 [A1 [A2 [A3 A4]]] [B1 [B2 [B3 B4]]]. unfold covers.
  rewrite sm_calls_app, handed_app, ran_ok_app, ran_failed_app, !flat_map_app.
  rewrite A1, A2, A3, A4, B1, B2, B3, B4. auto.
Qed.

Lemma shown_covers : forall it, It it -> it_valid ci it = true -> covers (shown cls first ci it) [i_cur it] /\ zlen (shown cls first ci it) = 1.
Proof.
  intros it H V. destruct (It_valid it H V) as [A [B [C D]]].
  unfold shown. rewrite B, V. split; [|reflexivity].
  unfold covers, visible, hd_of, ok_of. cbn. rewrite D. cbn.
  destruct (clo (i_cur it)); auto.
Qed.

Lemma user_nexts_spec : forall n it, It it -> it_valid ci it = true ->
  exists m it1 o, user_nexts lm cls first ci n it = (it1, o) /\ It it1 /\
    covers o (upto (i_cur it) m) /\ zlen o = Z.of_nat m /\
    (forall i, i_cur it <= i <= i_cur it + Z.of_nat m -> e_type (lg i) = T_DATA) /\
    i_cur it + Z.of_nat m <= ci /\
    ((it_valid ci it1 = true /\ i_cur it1 = i_cur it + Z.of_nat m) \/
     (it_valid ci it1 = false /\ i_cur it1 = i_cur it + Z.of_nat m + 1)).
Proof.
  induction n as [|n IH]; intros it H V; cbn [user_nexts].
  - exists O, it, []. destruct (It_valid it H V) as [A [B [C D]]].
    split; auto. split; auto. split; [apply covers_nil|]. split; auto. split.
    + intros i Hi. replace i with (i_cur it) by lia. auto.
    + split; [lia|]. left. split; auto. lia.
  - rewrite V. destruct (It_valid it H V) as [A [B [C D]]].
    destruct (it_next_It it C A) as [H1 K1].
    set (it1 := it_next lm ci it) in *.
    destruct (it_valid ci it1) eqn:V1.
    + destruct (IH it1 H1 V1) as [m [it2 [o [E [H2 [Cv [L [Dt [Bd Cs]]]]]]]]].
      rewrite E. exists (S m), it2, (shown cls first ci it1 ++ o).
      destruct (shown_covers it1 H1 V1) as [S1 S2].
      split; auto. split; auto. split.
      { change (upto (i_cur it) (S m)) with ([i_cur it + 1] ++ upto (i_cur it + 1) m).
        rewrite <- K1. apply covers_app; auto. }
      split; [zl; lia|]. split.
      { intros i Hi. destruct (Z.eq_dec i (i_cur it)) as [->|]; auto. apply Dt. lia. }
      split; [lia|]. destruct Cs as [[X Y]|[X Y]]; [left|right]; split; auto; lia.
    + assert (E : user_nexts lm cls first ci n it1 = (it1, [])).
      { destruct n; cbn; auto. rewrite V1. auto. }
      rewrite E. exists O, it1, (shown cls first ci it1 ++ []).
      assert (Hs : shown cls first ci it1 = []).
      { unfold shown. rewrite V1. destruct (i_entry it1); auto. }
      rewrite Hs. split; auto. split; auto. split; [apply covers_nil|]. split; auto. split.
      { intros i Hi. replace i with (i_cur it) by lia. auto. }
      split; [lia|]. right. split; auto. lia.
Qed.

Definition legal (o : list fout) := rollbacks_legal o.
Lemma legal_app : forall a b, rollbacks_legal (a ++ b) -> rollbacks_legal a /\ rollbacks_legal b.
Proof. unfold rollbacks_legal. intros a b H. split; intros n k Hn; apply H; apply in_or_app; auto. Qed.

Definition Post (it it' : iter) (o : list fout) : Prop :=
  exists n, covers o (upto (i_cur it - 1) n) /\ i_cur it - 1 + Z.of_nat n <= ci /\
    match i_err it' with
    | None => i_cur it' = ci + 1 /\ i_cur it - 1 + Z.of_nat n = ci
    | Some e => e <> 0 /\ (rollbacks_legal o ->
        i_cur it <= i_cur it' <= i_cur it + Z.of_nat n /\
        forall i, i_cur it' <= i < i_cur it + Z.of_nat n -> e_type (lg i) = T_DATA)
    end.

Lemma apply_loop_spec : forall fuel ss it, It it -> ci - i_cur it + 1 < Z.of_nat fuel ->
  exists it' o, apply_loop lm cls first ci fuel ss it = Some (it', o) /\ Post it it' o.
Proof.
  induction fuel as [|fuel IH]; intros ss it H Hf.
  { destruct H as [[? _]|[[? _]|[? _]]]; lia. }
  cbn [apply_loop]. destruct (it_good ci it) eqn:G.
  2:{ exists it, []. split; auto. exists O. split; [apply covers_nil|].
      destruct (It_not_good it H G) as [[A B]|[A B]]; rewrite B; split; try lia.
      split; [lia|]. intros _. split; [lia|]. intros; lia. }
  destruct (It_good it H G) as [A [B C]]. rewrite B.
  destruct (it_next_It it C A) as [H1 K1].
  destruct (is_data (e_type (lg (i_cur it)))) eqn:Dt; cbn [negb].
  2:{ destruct (IH ss (it_next lm ci it) H1) as [it' [o [E P]]]; [lia|].
      rewrite E. eexists; eexists; split; [reflexivity|].
      destruct P as [n [Cv [Bd M]]]. exists (S n).
      split.
      { change (upto (i_cur it - 1) (S n)) with ([i_cur it - 1 + 1] ++ upto (i_cur it - 1 + 1) n).
        rewrite app_assoc. apply covers_app.
        2:{ replace (i_cur it - 1 + 1) with (i_cur (it_next lm ci it) - 1) by lia. auto. }
        replace (i_cur it - 1 + 1) with (i_cur it) by lia.
        unfold covers, visible, hd_of, ok_of. rewrite sm_calls_app, handed_app, ran_ok_app, ran_failed_app.
        cbn [flat_map]. rewrite Dt, Hidx, !app_nil_r. unfold run_done.
        destruct (e_type (lg (i_cur it))) eqn:T; try discriminate Dt;
          destruct (clo (i_cur it)); destruct (e_old (lg (i_cur it))); cbn; rewrite ?app_nil_r; auto. }
      split; [lia|].
      destruct (i_err it').
      - destruct M as [M1 M2]. split; auto. intros L.
        assert (L2 : rollbacks_legal o).
        { intros x k Hx. apply L. apply in_or_app. right. apply in_or_app. auto. }
        destruct (M2 L2) as [M3 M4]. split; [lia|]. intros i Hi. apply M4. lia.
      - destruct M as [M1 M2]. split; lia. }
  apply is_data_spec in Dt.
  assert (V : it_valid ci it = true) by (unfold it_valid; rewrite G, B, Dt; reflexivity).
  unfold on_apply. destruct (hd (O, None) ss) as [k mr] eqn:Es. cbn [fst snd].
  destruct (user_nexts_spec k it H V) as [m [it1 [o [E [I1 [Cv [L [DD [Bd Cs]]]]]]]]].
  rewrite E. destruct (shown_covers it H V) as [S1 S2].
  assert (C1 : covers (shown cls first ci it ++ o) (upto (i_cur it - 1) (S m))).
  { change (upto (i_cur it - 1) (S m)) with ([i_cur it - 1 + 1] ++ upto (i_cur it - 1 + 1) m).
    replace (i_cur it - 1 + 1) with (i_cur it) by lia. apply covers_app; auto. }
  assert (Cn : forall mx, (mx = true -> mx = true) -> True) by auto. clear Cn.
  (* the case without rollback, also used for ntail = 0 *)
  assert (NR : forall os, covers os [] -> (forall n k, In (FRollback n k) os -> n = 0) ->
     exists it' o', match apply_loop lm cls first ci fuel (tl ss) (user_next lm ci it1) with
        Some (it', o0) => Some (it', ((shown cls first ci it ++ o) ++ os) ++ o0) | None => None end = Some (it', o') /\ Post it it' o').
  { intros os Cos Hos.
    assert (I2 : It (user_next lm ci it1) /\ i_cur (user_next lm ci it1) = i_cur it + Z.of_nat m + 1).
    { unfold user_next. destruct Cs as [[X Y]|[X Y]]; rewrite X.
      - destruct (It_valid it1 I1 X) as [A1 [B1 [C2 D1]]]. destruct (it_next_It it1 C2 A1). split; auto. lia.
      - auto. }
    destruct I2 as [I2 K2].
    destruct (IH (tl ss) _ I2) as [it' [o2 [E2 P]]]; [lia|]. rewrite E2.
    eexists; eexists; split; [reflexivity|].
    destruct P as [n [Cv2 [Bd2 M]]]. exists (S m + n)%nat.
    split.
    { rewrite upto_app. apply covers_app.
      - rewrite <- (app_nil_r (upto _ _)). apply covers_app; auto.
      - replace (i_cur it - 1 + Z.of_nat (S m)) with (i_cur (user_next lm ci it1) - 1) by lia. auto. }
    split; [lia|].
    destruct (i_err it').
    - destruct M as [M1 M2]. split; auto. intros LL.
      apply legal_app in LL. destruct LL as [_ LL].
      destruct (M2 LL) as [M3 M4]. split; [lia|]. intros i Hi. apply M4. lia.
    - destruct M as [M1 M2]. split; lia. }
  destruct mr as [r|].
  - unfold rollback. destruct (Z.eqb_spec r 0) as [->|Hr].
    + apply (NR [FRollback 0 (zlen (shown cls first ci it ++ o))]).
      * unfold covers; cbn; auto.
      * cbn. intros n k0 [X|[]]. inversion X; auto.
    + set (itr := mkIter _ None (Some ESTATEMACHINE)).
      assert (Un : user_next lm ci itr = itr).
      { unfold user_next, it_valid, it_good, it_has_error, itr. cbn. rewrite andb_false_r. auto. }
      rewrite Un.
      assert (Lp : apply_loop lm cls first ci fuel (tl ss) itr = Some (itr, [])).
      { destruct fuel; [lia|]. cbn [apply_loop]. unfold it_good, it_has_error, itr. cbn [i_err negb].
        rewrite andb_false_r. auto. }
      rewrite Lp. eexists; eexists; split; [reflexivity|].
      exists (S m). rewrite app_nil_r. split.
      { rewrite <- (app_nil_r (upto _ _)). apply covers_app; auto. unfold covers; cbn; auto. }
      split; [lia|]. unfold itr; cbn [i_err i_cur].
      split; [unfold ESTATEMACHINE; lia|].
      intros LL. assert (Hn : 1 <= r <= zlen (shown cls first ci it ++ o)).
      { apply LL. apply in_or_app. right. cbn. auto. }
      rewrite zlen_app in Hn.
      assert (Hc : (if match i_entry it1 with Some e => is_data (e_type e) | None => false end
               then i_cur it1 - (r - 1) else i_cur it1 - r) = i_cur it + Z.of_nat m + 1 - r).
      { destruct Cs as [[X Y]|[X Y]].
        - destruct (It_valid it1 I1 X) as [A1 [B1 [C2 D1]]]. rewrite B1, D1. cbn. lia.
        - destruct I1 as [[A1 [B1 C2]]|[[A1 [B1 C2]]|[A1 [B1 C2]]]]; rewrite B1; try lia.
          destruct (is_data (e_type (lg (i_cur it1)))) eqn:Dt1; [|lia].
          exfalso. unfold it_valid, it_good, it_has_error in X. rewrite B1, C2, Dt1 in X.
          destruct (Z.leb_spec (i_cur it1) ci); [discriminate|lia]. }
      rewrite Hc. split; [lia|]. intros i Hi. apply DD. lia.
  - destruct (NR []) as [it' [o' [E2 P]]]; [apply covers_nil|intros ? ? []|].
    exists it', o'. rewrite app_nil_r in E2. auto.
Qed.

Lemma rest_from_spec : forall n i st, st <> 0 ->
  ran_failed (rest_from cls first n i st) = flat_map (fl_of st) (upto (i - 1) n) /\
  sm_calls (rest_from cls first n i st) = [] /\ handed (rest_from cls first n i st) = [] /\
  ran_ok (rest_from cls first n i st) = [].
Proof.
  induction n as [|n IH]; intros i st Hs; [repeat split|].
  cbn [rest_from upto flat_map]. destruct (IH (i + 1) st Hs) as [A [B [C D]]].
  rewrite sm_calls_app, handed_app, ran_ok_app, ran_failed_app, A, B, C, D.
  replace (i - 1 + 1) with i by lia. replace (i + 1 - 1) with i by lia.
  unfold fl_of, run_done. destruct (clo i); cbn [ran_failed ran_ok sm_calls handed app]; auto.
  destruct (Z.eqb_spec st 0); [contradiction|]. auto.
Qed.
End Loop.
