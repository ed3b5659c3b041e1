From Verif Require Import Base BaseLemmas LogEntry BallotBox BallotBoxProofs Ballot Apply ApplySpec.

Lemma with_box_box : forall b s, a_box (with_box b s) = b. Proof. reflexivity. Qed.
Lemma number_from_len : forall es i, zlen (number_from i es) = zlen es.
Proof. induction es; intros; cbn; auto. rewrite !zlen_cons, IHes. reflexivity. Qed.
Lemma entries_for_len : forall ts i t, zlen (entries_for i t ts) = zlen ts.
Proof. induction ts; intros; cbn; auto. rewrite !zlen_cons, IHts. reflexivity. Qed.
Lemma somes_app : forall (A : Type) (l m : list (option A)), somes (l ++ m) = somes l ++ somes m.
Proof. induction l as [|[x|] l IH]; intros; cbn; auto. rewrite IH. reflexivity. Qed.
Lemma znth_entries_for : forall ts i t k e, znth (entries_for i t ts) k = Some e ->
  exists x, znth ts k = Some x /\ e = mkEntry (mkId (i + k) t) T_DATA (t_data x) None None.
Proof.
  induction ts as [|x ts IH]; intros i t k e H; cbn [entries_for] in H.
  - rewrite znth_nil in H. discriminate.
  - pose proof (znth_some_bound _ _ _ H) as B. destruct (Z.eq_dec k 0) as [->|Hk].
    + rewrite znth_cons_0 in H. inversion H. exists x. split; auto. rewrite Z.add_0_r. reflexivity.
    + rewrite znth_cons_pos in H by lia. rewrite znth_cons_pos by lia. apply IH in H. destruct H as [y [H1 ->]]. exists y. split; auto.
      f_equal. f_equal. lia.
Qed.
Lemma accepted_In : forall t ts x, In x (accepted t ts) -> In x ts /\ expects t x.
Proof.
  induction ts as [|y ts IH]; intros x H; cbn in H; [destruct H|].
  destruct ((t_exp y =? -1) || (t_exp y =? t)) eqn:E.
  - destruct H as [<-|H]; [|apply IH in H; split; [right|]; tauto]. split; [left; auto|]. apply orb_true_iff in E.
    destruct E as [E|E]; apply Z.eqb_eq in E; [left|right]; auto.
  - apply IH in H. split; [right|]; tauto.
Qed.

(** The loop of apply, solved. *)
Lemma apply_loop_eq : forall ts s s' es f, apply_loop ts s = Some (s', es, f) ->
  let acc := accepted (a_term s) ts in
  s' = with_box (a_box s') s /\
  lc (a_box s') = lc (a_box s) /\ pend (a_box s') = pend (a_box s) /\
  bq (a_box s') = bq (a_box s) ++ map (fun _ => ballot_init (a_conf s) (a_old s)) acc /\
  cq_first (cq (a_box s')) = cq_first (cq (a_box s)) /\
  cq_q (cq (a_box s')) = cq_q (cq (a_box s)) ++ map t_done acc /\
  (forall i, number_from i es = entries_for i (a_term s) acc) /\
  f = map (fun c => (c, EPERM)) (somes (map t_done (refused (a_term s) ts))).
Proof.
  induction ts as [|t ts IH]; intros s s' es f H; cbn [apply_loop] in H.
  - injection H as <- <- <-. cbn. rewrite !app_nil_r. repeat split; auto. destruct s; reflexivity.
  - unfold wrong_term in H. cbn [accepted refused]. rewrite <- negb_orb in H.
    destruct ((t_exp t =? -1) || (t_exp t =? a_term s)) eqn:E; cbn [negb] in H.
    + unfold append_pending_task in H. destruct (0 <? pend (a_box s)); [|discriminate].
      match type of H with context [apply_loop ts ?x] => destruct (apply_loop ts x) as [[[s1 es1] f1]|] eqn:E1; [|discriminate] end.
      injection H as <- <- <-. apply IH in E1. cbn [with_box a_box lc pend bq cq cq_first cq_q a_term a_conf a_old] in E1.
      destruct E1 as [H1 [H2 [H3 [H4 [H5 [H6 [H7 H8]]]]]]].
      split; [rewrite H1 at 1; reflexivity|]. split; [exact H2|]. split; [exact H3|].
      split; [rewrite H4, <- app_assoc; reflexivity|]. split; [exact H5|]. split; [rewrite H6, <- app_assoc; reflexivity|].
      split; [|exact H8]. intros i. cbn. rewrite H7. reflexivity.
    + destruct (apply_loop ts s) as [[[s1 es1] f1]|] eqn:E1; [|discriminate]. injection H as <- <- <-. apply IH in E1.
      destruct E1 as [H1 [H2 [H3 [H4 [H5 [H6 [H7 H8]]]]]]]. repeat (split; [assumption|]). rewrite H8. cbn. destruct (t_done t); reflexivity.
Qed.
Lemma apply_loop_total : forall ts s, 0 < pend (a_box s) -> apply_loop ts s <> None.
Proof.
  induction ts as [|t ts IH]; intros s H; cbn [apply_loop]; [discriminate|]. destruct (wrong_term t s).
  - destruct (apply_loop ts s) as [[[? ?] ?]|] eqn:E; [discriminate|]. exfalso. eapply IH; eauto.
  - unfold append_pending_task. destruct (Z.ltb_spec 0 (pend (a_box s))); [|lia].
    match goal with |- context [apply_loop ts ?x] => destruct (apply_loop ts x) as [[[? ?] ?]|] eqn:E; [discriminate|]; exfalso; eapply (IH x); eauto end.
Qed.

Lemma can_apply_dec : forall s, (negb (match a_role s with RLeader => true | _ => false end) || (a_ro s || a_mro s)) = false <-> can_apply s.
Proof.
  intros s. unfold can_apply. rewrite !orb_false_iff, negb_false_iff. split.
  - intros [H [H1 H2]]. destruct (a_role s); try discriminate. auto.
  - intros [-> [H1 H2]]. auto.
Qed.
Lemma apply_batch_can : forall ts s s' f, can_apply s -> apply_batch ts s = Some (s', f) ->
  let acc := accepted (a_term s) ts in
  s' = with_log (a_log s') (with_box (a_box s') s) /\
  a_log s' = (if a_err s then a_log s else a_log s ++ entries_for (a_last s + 1) (a_term s) acc) /\
  lc (a_box s') = lc (a_box s) /\ pend (a_box s') = pend (a_box s) /\
  bq (a_box s') = bq (a_box s) ++ map (fun _ => ballot_init (a_conf s) (a_old s)) acc /\
  cq_first (cq (a_box s')) = cq_first (cq (a_box s)) /\
  cq_q (cq (a_box s')) = cq_q (cq (a_box s)) ++ map t_done acc /\
  f = map (fun c => (c, EPERM)) (somes (map t_done (refused (a_term s) ts))).
Proof.
  intros ts s s' f Hc H. unfold apply_batch in H. apply can_apply_dec in Hc. rewrite Hc in H.
  destruct (apply_loop ts s) as [[[s1 es] f1]|] eqn:E; [|discriminate]. injection H as <- <-.
  apply apply_loop_eq in E. destruct E as [H1 [H2 [H3 [H4 [H5 [H6 [H7 H8]]]]]]].
  assert (Es : a_err s1 = a_err s /\ a_log s1 = a_log s /\ a_last s1 = a_last s) by (rewrite H1; auto). destruct Es as [Es [El Ea]].
  unfold lm_append. rewrite Es. destruct (a_err s).
  - split; [rewrite El; rewrite H1 at 1; destruct s; reflexivity|]. split; [exact El|]. auto 10.
  - cbn [with_log a_box a_log]. rewrite El, Ea, H7. split; [rewrite H1 at 1; reflexivity|]. split; [reflexivity|]. auto 10.
Qed.
Lemma apply_batch_cannot : forall ts s s' f, ~ can_apply s -> apply_batch ts s = Some (s', f) ->
  s' = s /\ f = map (fun c => (c, match a_role s with RLeader => EREADONLY | RTransferring => EBUSY | RNone => EPERM end)) (somes (map t_done ts)).
Proof.
  intros ts s s' f Hc H. unfold apply_batch in H.
  destruct (negb (match a_role s with RLeader => true | _ => false end) || (a_ro s || a_mro s)) eqn:E.
  - injection H as <- <-. auto.
  - apply can_apply_dec in E. contradiction.
Qed.
Lemma can_apply_lem : forall s, can_apply s \/ ~ can_apply s.
Proof.
  intros s. destruct (negb (match a_role s with RLeader => true | _ => false end) || (a_ro s || a_mro s)) eqn:E.
  - right. intros K. apply can_apply_dec in K. congruence.
  - left. apply can_apply_dec. exact E.
Qed.

(** * The invariant *)
Record ainv (s : astate) (es : list aev) : Prop := mkInv {
  i_base : 0 <= a_base s;
  i_queue : forall x, In x (a_queue s) -> In x (submitted es);
  i_off : a_role s = RNone -> bq (a_box s) = [] /\ cq_q (cq (a_box s)) = [] /\ pend (a_box s) = 0;
  i_on : a_role s <> RNone -> 0 < pend (a_box s) /\ a_last s < cq_first (cq (a_box s)) + zlen (cq_q (cq (a_box s))) /\
         (a_err s = false -> cq_first (cq (a_box s)) + zlen (cq_q (cq (a_box s))) = a_last s + 1);
  i_right : forall k c e, znth (cq_q (cq (a_box s))) k = Some (Some c) ->
         entry_at s (cq_first (cq (a_box s)) + k) = Some e -> right_entry es (a_term s) (cq_first (cq (a_box s)) + k) c e }.

Lemma right_more : forall es es' t i c e, right_entry es t i c e -> right_entry (es ++ es') t i c e.
Proof.
  intros es es' t i c e [H1 [H2 H3]]. split; auto. split; auto. destruct H3 as [[x [H3 H4]]|[n [o [H3 H4]]]].
  - left. exists x. split; auto. unfold submitted. rewrite flat_map_app. apply in_or_app; auto.
  - right. exists n, o. split; auto. apply in_or_app; auto.
Qed.
Lemma sub_more : forall es es' x, In x (submitted es) -> In x (submitted (es ++ es')).
Proof. intros. unfold submitted. rewrite flat_map_app. apply in_or_app; auto. Qed.
Lemma ainv_more : forall s es es', ainv s es -> ainv s (es ++ es').
Proof.
  intros s es es' [H1 H2 H3 H4 H5]. split; auto.
  - intros. apply sub_more; auto.
  - intros. apply right_more; auto.
Qed.

(** Appending to box and log together. *)
Lemma ainv_append : forall s es b l cs n, ainv s es -> a_role s <> RNone ->
  pend b = pend (a_box s) -> cq_first (cq b) = cq_first (cq (a_box s)) -> cq_q (cq b) = cq_q (cq (a_box s)) ++ cs ->
  zlen n = zlen cs -> l = (if a_err s then a_log s else a_log s ++ n) ->
  (forall k c e, znth cs k = Some (Some c) -> znth n k = Some e -> right_entry es (a_term s) (a_last s + 1 + k) c e) ->
  ainv (with_log l (with_box b s)) es.
Proof.
  intros s es b l cs n [H1 H2 H3 H4 H5] Hr Hp Hf Hq Hn Hl HR. destruct (H4 Hr) as [A1 [A2 A3]].
  pose proof (zlen_nonneg cs).
  split; cbn [with_log with_box a_base a_queue a_role a_box a_err a_term]; auto.
  - intros K. contradiction.
  - intros _. unfold a_last in *. cbn [with_log with_box a_base a_log]. rewrite Hp, Hf, Hq, zlen_app. split; [exact A1|]. subst l.
    destruct (a_err s); [split; [lia|discriminate]|]. rewrite zlen_app. specialize (A3 eq_refl). split; intros; lia.
  - intros k c e Hk He. rewrite Hf, Hq in *. pose proof (znth_some_bound _ _ _ Hk) as B. rewrite zlen_app in B.
    unfold entry_at in He, H5. cbn [with_log with_box a_base a_log] in He.
    destruct (Z_lt_ge_dec k (zlen (cq_q (cq (a_box s))))) as [Lt|Ge].
    + rewrite znth_app1 in Hk by lia. eapply H5; [exact Hk|]. subst l. destruct (a_err s); [exact He|].
      rewrite znth_app1 in He; [exact He|]. specialize (A3 eq_refl). unfold a_last in A3. lia.
    + rewrite znth_app2 in Hk by lia. subst l. destruct (a_err s).
      * apply znth_some_bound in He. unfold a_last in A2. lia.
      * specialize (A3 eq_refl). unfold a_last in A3. rewrite znth_app2 in He by lia.
        match type of Hk with znth _ ?y = _ => set (k' := y) in * end.
        replace (cq_first (cq (a_box s)) + k) with (a_last s + 1 + k') by (unfold a_last; lia). eapply HR; [exact Hk|].
        match type of He with znth _ ?y = _ => replace k' with y by lia end. exact He.
Qed.

Lemma pend_pos : forall b f l p b' r x, 0 < pend b -> commit_at b f l p = (b', r, x) -> 0 < pend b' /\ cq b' = cq b.
Proof.
  intros b f l p b' r x Hp H. unfold commit_at in H. destruct (_ =? 0); [injection H as <- _ _; auto|].
  destruct (_ <? _); [injection H as <- _ _; auto|]. destruct (_ <=? _); [injection H as <- _ _; auto|].
  destruct (commit_loop _ _ _ _ _ _ _) as [q c] eqn:E. apply commit_loop_spec in E; [|exact Hp].
  destruct (Z.eqb_spec c 0); injection H as <- _ _; cbn; [auto|]. split; auto. destruct E as [_ [_ [[E|E] _]]]; lia.
Qed.
Lemma commit_off : forall b f l p, pend b = 0 -> commit_at b f l p = (b, EINVAL, None).
Proof. intros b f l p H. unfold commit_at. rewrite H. reflexivity. Qed.

Lemma pop_inv : forall c i c' popped first, pop_closure_until c i = Some (c', popped, first) ->
  cq_first c' + zlen (cq_q c') = cq_first c + zlen (cq_q c) /\ cq_q c = popped ++ cq_q c' /\
  (popped <> [] -> first = cq_first c) /\
  (forall k x, znth (cq_q c') k = Some x -> znth (cq_q c) (cq_first c' + k - cq_first c) = Some x).
Proof.
  intros c i c' popped first H. unfold pop_closure_until in H. destruct (cq_q c) as [|q0 q] eqn:Eq.
  - injection H as <- <- <-. rewrite Eq. repeat split; auto; try congruence. intros k x Hk. rewrite znth_nil in Hk. discriminate.
  - rewrite <- Eq in *. destruct (Z.ltb_spec i (cq_first c)) as [L|L].
    + injection H as <- <- <-. repeat split; auto; try congruence. intros k x Hk. replace (cq_first c + k - cq_first c) with k by lia. exact Hk.
    + destruct (Z.ltb_spec (cq_first c + zlen (cq_q c) - 1) i) as [L2|L2]; [discriminate|]. injection H as <- <- <-. cbn [cq_first cq_q].
      split; [rewrite zlen_skipn; lia|]. split; [symmetry; apply firstn_skipn|]. split; [auto|].
      intros k x Hk. pose proof (znth_some_bound _ _ _ Hk). rewrite znth_skipn in Hk by lia. rewrite <- Hk. f_equal. lia.
Qed.

Lemma apply_batch_inv : forall ts s es s' f, ainv s es -> (forall x, In x ts -> In x (submitted es)) ->
  apply_batch ts s = Some (s', f) -> ainv s' es.
Proof.
  intros ts s es s' f I Hts H. destruct (can_apply_lem s) as [Hc|Hc].
  - destruct (apply_batch_can _ _ _ _ Hc H) as [H1 [H2 [H3 [H4 [H5 [H6 [H7 H8]]]]]]]. rewrite H1.
    eapply ainv_append with (cs := map t_done (accepted (a_term s) ts)) (n := entries_for (a_last s + 1) (a_term s) (accepted (a_term s) ts)); auto.
    + destruct Hc as [-> _]. discriminate.
    + rewrite entries_for_len, zlen_map. reflexivity.
    + intros k c e Hk He. apply znth_entries_for in He. destruct He as [x [Hx ->]].
      assert (Hd : t_done x = Some c).
      { clear -Hk Hx. unfold znth in *. destruct (k <? 0); [discriminate|]. rewrite nth_error_map, Hx in Hk. injection Hk as Hk. exact Hk. }
      apply znth_In in Hx. apply accepted_In in Hx. destruct Hx as [Hx He].
      split; [reflexivity|]. split; [reflexivity|]. left. exists x. auto.
  - destruct (apply_batch_cannot _ _ _ _ Hc H) as [-> _]. exact I.
Qed.

Lemma astep_inv : forall s es e s' o, ainv s es -> astep s e = Some (s', o) -> ainv s' (es ++ [e]).
Proof.
  intros s es e s' o I0 H. pose proof (ainv_more _ _ [e] I0) as I.
  destruct e; cbn [astep] in H.
  - unfold submit in H. destruct (a_stopped s); [destruct (t_done t); [|discriminate]; injection H as <- _; exact I|]. injection H as <- _.
    destruct I as [H1 H2 H3 H4 H5]. split; auto. cbn. intros x Hx. apply in_app_or in Hx. destruct Hx as [Hx|[<-|[]]]; auto.
    unfold submitted. rewrite flat_map_app. apply in_or_app. right. left. reflexivity.
  - unfold exec_batch in H. match type of H with context [apply_batch ?a ?b] => destruct (apply_batch a b) as [[s1 f]|] eqn:E; [|discriminate] end. injection H as <- _.
    eapply apply_batch_inv; [| |exact E].
    + destruct I as [H1 H2 H3 H4 H5]. split; auto. cbn. intros x Hx. apply H2. rewrite <- (firstn_skipn k). apply in_or_app. auto.
    + intros x Hx. apply (i_queue _ _ I). rewrite <- (firstn_skipn k). apply in_or_app. auto.
  - unfold apply_conf in H. destruct (leading (a_role s)) eqn:EL; [|discriminate]. unfold append_pending_task in H.
    destruct (0 <? pend (a_box s)); [|discriminate]. injection H as <- _.
    set (b := mkBox _ _ _ _). set (x := mkEntry _ _ _ _ _).
    assert (E : lm_append [x] (with_box b s) = with_log (if a_err s then a_log s else a_log s ++ number_from (a_last s + 1) [x]) (with_box b s)).
    { unfold lm_append. cbn [with_box a_err]. destruct (a_err s); [destruct s|]; reflexivity. }
    rewrite E. eapply ainv_append with (cs := [Some c]) (n := number_from (a_last s + 1) [x]); auto.
    + destruct (a_role s); discriminate.
    + intros k c0 e Hk He. pose proof (znth_some_bound _ _ _ Hk) as B. cbn in B. assert (k = 0) by (unfold zlen in B; cbn in B; lia). subst k.
      rewrite znth_cons_0 in Hk. cbn [number_from] in He. rewrite znth_cons_0 in He. inversion Hk; inversion He; subst c0 e. rewrite Z.add_0_r.
      split; [reflexivity|]. split; [reflexivity|]. right. exists new, old. split; [apply in_or_app; right; left; reflexivity|auto].
  - destruct (leading (a_role s)) eqn:EL; [discriminate|]. unfold reset_pending_index in H.
    destruct (bq (a_box s)) eqn:Eb; [|discriminate]. destruct (cq_q (cq (a_box s))) eqn:Ec; [|discriminate].
    destruct (_ && _); [|discriminate]. injection H as <- _. destruct I as [H1 H2 H3 H4 H5].
    split; cbn [a_role a_base a_queue a_box a_err pend cq cq_q cq_first bq]; auto.
    + discriminate.
    + intros _. unfold a_last in *. cbn [a_base a_log]. pose proof (zlen_nonneg (a_log s)). change (zlen (@nil (option closure))) with 0. repeat split; lia.
    + intros k c e Hk. rewrite znth_nil in Hk. discriminate.
  - destruct (leading (a_role s)) eqn:EL.
    + cbn [clear_pending_tasks cq_clear] in H. injection H as <- _. destruct I as [H1 H2 H3 H4 H5]. split; cbn; auto; try congruence.
      intros k c e Hk. rewrite znth_nil in Hk. discriminate.
    + injection H as <- _. assert (R : a_role s = RNone) by (destruct (a_role s); [discriminate|discriminate|reflexivity]).
      destruct I as [H1 H2 H3 H4 H5]. destruct (H3 R) as [K1 [K2 K3]]. split; cbn; auto; try congruence.
      intros k c e Hk. rewrite K2, znth_nil in Hk. discriminate.
  - injection H as <- _. destruct (a_role s) eqn:R; auto. destruct I as [H1 H2 H3 H4 H5]. split; cbn; auto; try discriminate. intros _. apply H4. congruence.
  - injection H as <- _. destruct (a_role s) eqn:R; auto. destruct I as [H1 H2 H3 H4 H5]. split; cbn; auto; try discriminate. intros _. apply H4. congruence.
  - injection H as <- _. destruct I as [H1 H2 H3 H4 H5]. split; auto.
  - injection H as <- _. destruct I as [H1 H2 H3 H4 H5]. split; auto.
  - destruct (leading (a_role s)) eqn:EL; cbn [orb] in H; [discriminate|]. destruct (Z.ltb_spec base 0); [discriminate|]. injection H as <- _.
    assert (R : a_role s = RNone) by (destruct (a_role s); [discriminate|discriminate|reflexivity]).
    destruct I as [H1 H2 H3 H4 H5]. destruct (H3 R) as [K1 [K2 K3]]. split; cbn; auto; try congruence.
    intros k c e Hk. rewrite K2, znth_nil in Hk. discriminate.
  - injection H as <- _. destruct I as [H1 H2 H3 H4 H5].
    assert (EL : zlen (firstn k (a_log s)) + zlen (skipn k (a_log s)) = zlen (a_log s)) by (rewrite <- zlen_app, firstn_skipn; reflexivity).
    pose proof (zlen_nonneg (firstn k (a_log s))).
    split; cbn [a_role a_base a_queue a_box a_err a_term]; auto; try lia.
    + unfold a_last in *. cbn [a_base a_log]. intros R. destruct (H4 R) as [K1 [K2 K3]]. split; [exact K1|]. split; [lia|]. intros Er. specialize (K3 Er). lia.
    + intros j c e Hj He. eapply H5; [exact Hj|]. unfold entry_at in *. cbn [a_base a_log] in He.
      pose proof (znth_some_bound _ _ _ He) as B. rewrite znth_skipn in He by lia. rewrite <- He. f_equal. rewrite zlen_firstn in *. rewrite zlen_skipn in B. lia.
  - injection H as <- _. destruct I as [H1 H2 H3 H4 H5]. split; auto. cbn. intros R. destruct (H4 R) as [K1 [K2 K3]]. split; [exact K1|]. split; [exact K2|discriminate].
  - injection H as <- _. destruct I as [H1 H2 H3 H4 H5]. split; auto.
  - destruct (commit_at (a_box s) first last p) as [[b r] x] eqn:E. injection H as <- _. destruct I as [H1 H2 H3 H4 H5].
    destruct (a_role s) eqn:R.
    1,2: destruct (H4 ltac:(congruence)) as [K1 K2]; destruct (pend_pos _ _ _ _ _ _ _ K1 E) as [K3 K4];
      split; cbn [with_box a_role a_base a_queue a_box a_err a_term]; auto; rewrite ?K4; auto; intros; congruence.
    destruct (H3 eq_refl) as [K1 [K2 K3]]. rewrite commit_off in E by exact K3. injection E as <- <- <-.
    split; cbn [with_box a_role a_base a_queue a_box a_err a_term]; auto.
  - destruct (pop_closure_until (cq (a_box s)) i) as [[[c popped] first]|] eqn:E; [|discriminate]. injection H as <- _.
    destruct (pop_inv _ _ _ _ _ E) as [P1 [P2 [P3 P4]]]. destruct I as [H1 H2 H3 H4 H5].
    split; cbn [with_box a_role a_base a_queue a_box a_err a_term bq pend cq]; auto.
    + intros R. destruct (H3 R) as [K1 [K2 K3]]. split; auto. split; auto. rewrite K2 in P2. symmetry in P2. apply app_eq_nil in P2. tauto.
    + intros R. destruct (H4 R) as [K1 K2]. split; auto. rewrite P1. exact K2.
    + intros k c0 e Hk He. apply P4 in Hk.
      assert (X : cq_first c + k = cq_first (cq (a_box s)) + (cq_first c + k - cq_first (cq (a_box s)))) by lia.
      rewrite X in He |- *. eapply H5; [exact Hk|exact He].
Qed.
Lemma alife_inv : forall s es os, alife s es os -> ainv s es.
Proof.
  intros s es os H. induction H.
  - split; cbn; auto; try lia; try congruence. intros k c e Hk. rewrite znth_nil in Hk. discriminate.
  - eapply astep_inv; eauto.
Qed.

Lemma handed_entry : forall s es os i s' o j c e, alife s es os -> astep s (APop i) = Some (s', o) ->
  In (AHanded j c) o -> entry_at s j = Some e -> right_entry es (a_term s) j c e.
Proof.
  intros s es os i s' o j c e L H Hin He. cbn [astep] in H.
  destruct (pop_closure_until (cq (a_box s)) i) as [[[c0 popped] first]|] eqn:E; [|discriminate]. injection H as <- <-.
  apply in_map_iff in Hin. destruct Hin as [[i1 c1] [Heq Hin]]. cbn [fst snd] in Heq. injection Heq as -> ->.
  apply number_In in Hin. destruct Hin as [Hn Hb]. destruct (pop_inv _ _ _ _ _ E) as [P1 [P2 [P3 P4]]].
  assert (Ef : first = cq_first (cq (a_box s))). { apply P3. intros ->. rewrite znth_nil in Hn. discriminate. }
  replace j with (cq_first (cq (a_box s)) + (j - first)) by lia.
  eapply (i_right _ _ (alife_inv _ _ _ L)).
  - rewrite P2. rewrite znth_app1; [exact Hn|lia].
  - replace (cq_first (cq (a_box s)) + (j - first)) with j by lia. exact He.
Qed.

(** * Accounting *)
Lemma ended_fails : forall f, ended (fails f) = map fst f.
Proof. intros f. unfold ended, fails. rewrite map_map. apply map_ext. reflexivity. Qed.
Lemma map_fst_code : forall (k : Z) (l : list closure), map fst (map (fun c => (c, k)) l) = l.
Proof. intros. rewrite map_map. cbn. apply map_id. Qed.
Lemma ended_popped : forall l f, ended (map (fun x => AHanded (fst x) (snd x)) (number f l)) = somes l.
Proof. unfold ended. induction l as [|[x|] l IH]; intros f; cbn; auto. rewrite IH. reflexivity. Qed.
Lemma split_done : forall t ts, Permutation (somes (map t_done ts)) (somes (map t_done (accepted t ts)) ++ somes (map t_done (refused t ts))).
Proof.
  induction ts as [|x ts IH]; cbn; auto. destruct (_ || _); cbn; destruct (t_done x) as [c|]; auto.
  - cbn. constructor. exact IH.
  - apply Permutation_cons_app. exact IH.
Qed.
Lemma apply_batch_count : forall ts s s' f, apply_batch ts s = Some (s', f) ->
  queued s' = queued s /\ Permutation (somes (map t_done ts) ++ registered s) (map fst f ++ registered s').
Proof.
  intros ts s s' f H. destruct (can_apply_lem s) as [Hc|Hc].
  - destruct (apply_batch_can _ _ _ _ Hc H) as [H1 [H2 [H3 [H4 [H5 [H6 [H7 H8]]]]]]]. split; [rewrite H1; reflexivity|].
    unfold registered. rewrite H7, H8, map_fst_code, somes_app. rewrite (split_done (a_term s) ts).
    rewrite <- app_assoc. rewrite (app_assoc (somes (map t_done (refused _ _)))). rewrite Permutation_app_comm, <- !app_assoc. reflexivity.
  - destruct (apply_batch_cannot _ _ _ _ Hc H) as [-> ->]. rewrite map_fst_code. auto.
Qed.
Lemma perm_cnt : forall (l m : list closure), (forall c, count_occ Z.eq_dec l c = count_occ Z.eq_dec m c) -> Permutation l m.
Proof. intros. apply (Permutation_count_occ Z.eq_dec). exact H. Qed.
Lemma alife_count : forall s es os, alife s es os -> Permutation (given es) (queued s ++ ended os ++ registered s).
Proof.
  intros s es os H. induction H; [reflexivity|].
  assert (G : forall (a b : list closure), (forall c, count_occ Z.eq_dec a c = count_occ Z.eq_dec b c) <-> Permutation a b).
  { intros a b. symmetry. apply (Permutation_count_occ Z.eq_dec). }
  unfold given. rewrite flat_map_app. fold (given es). unfold ended. rewrite map_app. fold (ended os). fold (ended o). cbn [flat_map]. rewrite app_nil_r.
  (* what one step does to the three places *)
  assert (S : Permutation (match e with ASubmit t => match t_done t with Some c => [c] | None => [] end | AConfChange _ _ c => [c] | _ => [] end ++ queued s ++ registered s)
                          (queued s' ++ ended o ++ registered s')).
  { clear IHalife. pose proof (alife_inv _ _ _ H) as I. destruct e; cbn [astep] in H0; cbn [app].
    - unfold submit in H0. destruct (a_stopped s).
      + destruct (t_done t); [|discriminate]. injection H0 as <- <-. cbn. apply Permutation_cons_app. reflexivity.
      + injection H0 as <- <-. unfold queued, registered. cbn. rewrite map_app, somes_app. cbn. destruct (t_done t); cbn.
        * rewrite <- app_assoc. apply Permutation_cons_app. reflexivity.
        * rewrite app_nil_r. reflexivity.
    - unfold exec_batch in H0. match type of H0 with context [apply_batch ?a ?b] => destruct (apply_batch a b) as [[s1 f]|] eqn:E; [|discriminate] end. injection H0 as <- <-.
      apply apply_batch_count in E. destruct E as [E1 E2]. rewrite E1, ended_fails. rewrite <- E2. unfold queued, registered. cbn [with_queue a_queue a_box].
      rewrite <- (firstn_skipn k (a_queue s)) at 1. rewrite map_app, somes_app, <- !app_assoc. apply Permutation_app_swap_app.
    - unfold apply_conf in H0. destruct (leading _); [|discriminate]. unfold append_pending_task in H0. destruct (0 <? _); [|discriminate]. injection H0 as <- <-.
      unfold lm_append. cbn [with_box a_err]. destruct (a_err s); unfold queued, registered; cbn; rewrite somes_app; cbn; rewrite app_assoc; apply Permutation_cons_append.
    - destruct (leading _); [discriminate|]. unfold reset_pending_index in H0. destruct (bq _); [|discriminate]. destruct (cq_q (cq (a_box s))) eqn:Ec; [|discriminate].
      destruct (_ && _); [|discriminate]. injection H0 as <- <-. unfold queued, registered. cbn. rewrite Ec. reflexivity.
    - destruct (leading _).
      + cbn [clear_pending_tasks cq_clear] in H0. injection H0 as <- <-. unfold queued, registered, ended. cbn. rewrite map_map, map_id, app_nil_r. reflexivity.
      + injection H0 as <- <-. reflexivity.
    - injection H0 as <- <-. destruct (a_role s); reflexivity.
    - injection H0 as <- <-. destruct (a_role s); reflexivity.
    - injection H0 as <- <-. reflexivity.
    - injection H0 as <- <-. reflexivity.
    - destruct (_ || _); [discriminate|]. injection H0 as <- <-. reflexivity.
    - injection H0 as <- <-. reflexivity.
    - injection H0 as <- <-. reflexivity.
    - injection H0 as <- <-. reflexivity.
    - destruct (commit_at (a_box s) first last p) as [[b r] x] eqn:E. injection H0 as <- <-. unfold queued, registered. cbn.
      assert (K : cq b = cq (a_box s)).
      { destruct (a_role s) eqn:R; [apply (pend_pos _ _ _ _ _ _ _ (proj1 (i_on _ _ I ltac:(congruence))) E)|apply (pend_pos _ _ _ _ _ _ _ (proj1 (i_on _ _ I ltac:(congruence))) E)|].
        rewrite commit_off in E by (apply (i_off _ _ I R)). injection E as <- <- <-. reflexivity. }
      rewrite K. reflexivity.
    - destruct (pop_closure_until _ _) as [[[c popped] first]|] eqn:E; [|discriminate]. injection H0 as <- <-. destruct (pop_inv _ _ _ _ _ E) as [_ [P2 _]].
      rewrite ended_popped. unfold queued, registered. cbn. rewrite P2, somes_app. reflexivity. }
  apply G. intros c. rewrite <- G in S. rewrite <- G in IHalife. specialize (S c). specialize (IHalife c).
  rewrite !count_occ_app in *. unfold closure in *. lia.
Qed.

Lemma apply_total : forall s es os ts, alife s es os -> apply_batch ts s <> None.
Proof.
  intros s es os ts L. unfold apply_batch.
  destruct (negb (match a_role s with RLeader => true | _ => false end) || (a_ro s || a_mro s)) eqn:E; [discriminate|].
  apply can_apply_dec in E. destruct E as [R _]. pose proof (apply_loop_total ts s (proj1 (i_on _ _ (alife_inv _ _ _ L) ltac:(congruence)))) as K.
  destruct (apply_loop ts s) as [[[? ?] ?]|]; [discriminate|congruence].
Qed.
