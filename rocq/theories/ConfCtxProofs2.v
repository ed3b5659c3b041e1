From Verif Require Import Base BaseLemmas QuorumSpec BallotBox ConfCtx ConfCtxSpec ConfCtxProofs.

Lemma Some_enabled : forall s e x, xstep s e = Some x -> enabled s e.
Proof.
  intros s e x H. destruct e; cbn [enabled]; auto.
  - destruct done; auto. intros [R [St E]]. cbn in H. unfold register in H. rewrite R, St, E in H. discriminate.
  - intros E. cbn in H. unfold caughtup in H. rewrite E in H. discriminate.
  - intros E. cbn in H. unfold conf_done in H. rewrite E in H. discriminate.
Qed.
Lemma xstep_good : forall s e s' o, xinv s -> xstep s e = Some (s', o) -> good' e s s' o.
Proof.
  intros s e s' o I H. destruct (xstep_ok s e I (Some_enabled _ _ _ H)) as [s1 [o1 [H1 H2]]]. rewrite H in H1. injection H1 as <- <-. exact H2.
Qed.
Lemma xinit_inv : forall self, xinv (xinit self).
Proof.
  intros self. split; [|intros K; discriminate K]. split; cbn; auto; try discriminate; try tauto; try congruence.
  split; constructor.
Qed.
Lemma xlife_inv : forall self s h os, xlife self s h os -> xinv s.
Proof. intros self s h os L. induction L; [apply xinit_inv|]. apply (xstep_good _ _ _ _ IHL) in H. apply H. Qed.

(** * Closures *)
Definition pend (s : xstate) : list closure := match cx_done s with Some c => [c] | None => [] end.
Definition quiet0 (o : list xout) : Prop := forall c, ~ In (XRun c 0) o.
Definition fin (s s' : xstate) (o : list xout) : Prop :=
  (cx_done s' = cx_done s /\ cx_new s' = cx_new s /\ answered o = [] /\ quiet0 o) \/
  (cx_done s' = None /\ answered o = pend s /\
   (quiet0 o \/ (cx_stage s = SStable /\ x_conf s' = x_conf s /\ cx_stage s' = SNone))).

Lemma answered_run : forall c k, answered (run_done c k) = match c with Some c => [c] | None => [] end.
Proof. intros [c|] k; reflexivity. Qed.
Lemma answered_app : forall a b, answered (a ++ b) = answered a ++ answered b.
Proof. intros. apply flat_map_app. Qed.
Lemma quiet0_run : forall c k, k <> 0 -> quiet0 (run_done c k).
Proof. intros [c|] k H d; cbn; [intros [K|[]]; injection K; congruence|auto]. Qed.

Lemma reset_fin : forall st s s' o, (cx_stage s = SNone -> cx_done s = None) -> (st = Some 0 -> cx_stage s = SStable) -> reset st s = (s', o) ->
  cx_done s' = None /\ answered o = pend s /\ x_conf s' = x_conf s /\ x_term s' = x_term s /\ x_cd s' = x_cd s /\ cx_stage s' = SNone /\
  (quiet0 o \/ cx_stage s = SStable).
Proof.
  intros st s s' o Hn H0 H. unfold reset in H. destruct (cx_stage s) eqn:E.
  - injection H as <- <-. rewrite E. unfold pend. rewrite (Hn eq_refl). repeat split; auto. left. intros c [].
  - injection H as <- <-. rewrite answered_run. repeat split; auto. left. apply quiet0_run. destruct st as [c|]; [|discriminate]. intros ->. specialize (H0 eq_refl). discriminate.
  - injection H as <- <-. rewrite answered_run. repeat split; auto. left. apply quiet0_run. destruct st as [c|]; [|discriminate]. intros ->. specialize (H0 eq_refl). discriminate.
  - injection H as <- <-. rewrite answered_run. repeat split; auto.
Qed.
Lemma sd_fin : forall t s s' o, (cx_stage s = SNone -> cx_done s = None) -> step_down t s = (s', o) ->
  cx_done s' = None /\ answered o = pend s /\ quiet0 o /\ x_conf s' = x_conf s /\ x_cd s' = x_cd s /\ x_term s' = Z.max (x_term s) t /\ cx_stage s' = SNone.
Proof.
  intros t s s' o Hn H. unfold step_down in H. match type of H with (let '(_, _) := reset None ?x in _) = _ => set (s0 := x) in H end.
  destruct (reset None s0) as [s1 o1] eqn:E. injection H as <- <-.
  assert (Q : quiet0 o1). { unfold reset in E. destruct (cx_stage s0); injection E as <- <-; try (apply quiet0_run; discriminate). intros c []. }
  destruct (reset_fin None s0 s1 o1 Hn ltac:(discriminate) E) as [H1 [H2 [H3 [H4 [H5 [H6 _]]]]]].
  cbn [cx_done x_conf x_cd x_term cx_stage]. change (pend s) with (pend s0). rewrite H4. auto 10.
Qed.
Lemma apply_fin : forall new old s s' o, apply_conf new old s = Some (s', o) -> cx_done s' = cx_done s /\ cx_new s' = cx_new s /\ answered o = [] /\ quiet0 o.
Proof.
  intros new old s s' o H. unfold apply_conf in H. destruct (cx_stage s); try discriminate; injection H as <- <-; repeat split; auto; intros c [K|[]]; discriminate.
Qed.
Lemma next_fin : forall s s' o, (cx_stage s = SNone -> cx_done s = None) -> next_stage s = Some (s', o) -> fin s s' o.
Proof.
  intros s s' o Hn H. unfold next_stage in H. destruct (cx_stage s) eqn:E; [discriminate| | |].
  - destruct (1 <? cx_n s); apply apply_fin in H; left; exact H.
  - apply apply_fin in H. left. exact H.
  - right. destruct (reset (Some 0) s) as [s1 o1] eqn:E1.
    destruct (reset_fin (Some 0) s s1 o1 ltac:(rewrite E; discriminate) ltac:(auto) E1) as [H1 [H2 [H3 [H4 [H5 [H6 H7]]]]]].
    destruct (negb (memb (x_self s) (cx_new s))).
    + destruct (step_down (x_term s1) s1) as [s2 o2] eqn:E2. injection H as <- <-. destruct (sd_fin _ _ _ _ (fun _ => H1) E2) as [K1 [K2 [K3 [K4 [K5 [K6 K7]]]]]].
      split; auto. split; [rewrite answered_app, H2, K2; unfold pend at 2; rewrite H1; apply app_nil_r|]. right. repeat split; congruence || lia.
    + injection H as <- <-. auto 10.
Qed.
Lemma ctx_fin : forall v p b s s' o, (cx_stage s = SNone -> cx_done s = None) -> ctx_caughtup v p b s = Some (s', o) -> fin s s' o /\ (cx_stage s <> SStable -> quiet0 o).
Proof.
  intros v p b s s' o Hn H. unfold ctx_caughtup in H.
  assert (Triv : fin s s [] /\ (cx_stage s <> SStable -> quiet0 [])). { split; [left; repeat split; auto; intros c []|intros _ c []]. }
  destruct (negb (v =? cx_ver s)); [injection H as <- <-; exact Triv|].
  destruct (cx_stage s) eqn:E; try discriminate. destruct b.
  - cbv zeta in H. match type of H with match cx_add ?x with _ => _ end = _ => set (s1 := x) in H end.
    destruct (cx_add s1).
    + apply next_fin in H; [|exact Hn]. assert (X : cx_stage s1 = SCatchingUp) by reflexivity. destruct H as [H|[H1 [H2 [H3|[H3 _]]]]]; [| |congruence].
      * split; [left; exact H|intros _; apply H].
      * split; [right; split; [exact H1|split; [exact H2|left; exact H3]]|auto].
    + injection H as <- <-. split; [left; repeat split; auto; intros c []|intros _ c []].
  - injection H as H. destruct (reset_fin (Some ECATCHUP) s s' o ltac:(rewrite E; discriminate) ltac:(discriminate) H) as [H1 [H2 [H3 [H4 [H5 [H6 [H7|H7]]]]]]]; [|congruence].
    split; [right; split; [exact H1|split; [exact H2|left; exact H7]]|auto].
Qed.
Lemma adding_fin : forall ps fail s s' o, cx_stage s = SCatchingUp -> start_adding ps fail s = Some (s', o) -> fin s s' o /\ quiet0 o.
Proof.
  induction ps as [|p ps IH]; intros fail s s' o E H; cbn [start_adding] in H.
  - injection H as <- <-. split; [left; repeat split; auto; intros c []|intros c []].
  - destruct (negb (memb p (x_repl s)) && fail p).
    + apply ctx_fin in H; [|rewrite E; discriminate]. destruct H as [H1 H2]. split; auto. apply H2. rewrite E. discriminate.
    + match type of H with start_adding _ _ ?x = _ => set (s1 := x) in H end. apply (IH fail s1) in H; [|exact E].
      destruct H as [[H|[H1 [H2 H3]]] Q]; (split; [|exact Q]); [left; exact H|right]. split; [exact H1|]. split; [exact H2|]. left; exact Q.
Qed.

(** Where the pending closure comes from. *)
Definition prov (h : list (xstate * xev)) (s : xstate) : Prop :=
  forall c, cx_done s = Some c -> exists s0 r f, In (s0, XReq r (Some c) f) h /\ cx_new s = target (fst (x_conf s0)) r.
Definition asked1 (e : xev) : list closure := match e with XReq _ (Some c) _ => [c] | _ => [] end.
Definition accounted (s : xstate) (e : xev) (s' : xstate) (o : list xout) : Prop :=
  Permutation (pend s ++ asked1 e) (answered o ++ pend s') /\
  (forall c, cx_done s' = Some c -> (cx_done s = Some c /\ cx_new s' = cx_new s) \/ exists r f, e = XReq r (Some c) f /\ cx_new s' = target (fst (x_conf s)) r) /\
  (forall c, In (XRun c 0) o ->
     (cx_done s = Some c /\ cx_stage s = SStable /\ x_conf s' = x_conf s /\ cx_stage s' = SNone) \/
     (exists r f, e = XReq r (Some c) f /\ s' = s /\ x_role s = RLeader /\ cx_stage s = SNone /\ conf_equals (fst (x_conf s)) (target (fst (x_conf s)) r) = true)).

Lemma answered_one : forall o c, In (XRun c 0) o -> In c (answered o).
Proof. intros o c H. unfold answered. apply in_flat_map. exists (XRun c 0). split; auto. left; auto. Qed.

(** The state [s0] met by the event and the state [s] it works on share the pending closure. *)
Lemma fin_accounted : forall s0 s e s' o, asked1 e = [] -> cx_done s = cx_done s0 -> cx_new s = cx_new s0 -> cx_stage s = cx_stage s0 -> x_conf s = x_conf s0 ->
  fin s s' o -> accounted s0 e s' o.
Proof.
  intros s0 s e s' o E H1 H2 H3 H4 F. unfold accounted. rewrite E, app_nil_r. unfold pend. rewrite <- H1. destruct F as [[F1 [F2 [F3 F4]]]|[F1 [F2 F3]]].
  - rewrite F1, F3. split; [apply Permutation_refl|]. split; [intros c K; left; split; congruence|]. intros c K. exfalso. exact (F4 c K).
  - rewrite F1, F2. cbn [app]. rewrite app_nil_r. split; [apply Permutation_refl|]. split; [intros c K; discriminate|]. intros c K. destruct F3 as [F3|[F3 [F4 F5]]]; [exfalso; exact (F3 c K)|].
    left. apply answered_one in K. rewrite F2 in K. unfold pend in K. destruct (cx_done s) as [d|]; [|destruct K]. destruct K as [->|[]]. rewrite <- H3, <- H4. auto.
Qed.
Lemma accounted_id : forall s e, asked1 e = [] -> accounted s e s [].
Proof. intros s e E. apply (fin_accounted s s); auto. left. repeat split; auto. intros c []. Qed.

Lemma sd_accounted : forall s e t c s' o, asked1 e = [] -> (cx_stage s = SNone -> cx_done s = None) -> step_down t (set_conf c s) = (s', o) -> accounted s e s' o.
Proof.
  intros s e t c s' o E Hn H. destruct (sd_fin t (set_conf c s) _ _ Hn H) as [H1 [H2 [H3 _]]]. unfold accounted. rewrite E, app_nil_r, H2. unfold pend at 3. rewrite H1, app_nil_r.
  change (pend (set_conf c s)) with (pend s). split; [apply Permutation_refl|]. split; [discriminate|]. intros d K. exfalso. exact (H3 d K).
Qed.

Lemma xstep_accounted : forall s e s' o, xcore s -> xstep s e = Some (s', o) -> accounted s e s' o.
Proof.
  intros s e s' o C H. pose proof (k_none _ C) as Hn. destruct e; cbn [xstep] in H.
  - assert (Deny : forall code, code <> 0 -> accounted s (XReq r done fail) s (run_done done code)).
    { intros code Hc. unfold accounted. cbn [asked1]. rewrite answered_run. split; [destruct done; apply Permutation_app_comm|]. split; [intros c K; left; auto|].
      intros c K. exfalso. exact (quiet0_run done code Hc c K). }
    unfold register in H. destruct (x_role s) eqn:R.
    + destruct (cx_stage s) eqn:St; try (injection H as <- <-; apply Deny; discriminate).
      destruct (conf_equals (fst (x_conf s)) (target (fst (x_conf s)) r)) eqn:E.
      * destruct done as [c|]; [|discriminate]. injection H as <- <-. unfold accounted. cbn [asked1]. split; [apply Permutation_app_comm|].
        split; [intros d K; left; auto|]. intros d [K|[]]. injection K as ->. right. exists r, fail. auto.
      * unfold start in H. rewrite St, (Hn eq_refl) in H.
        match type of H with context [next_stage ?x] => set (s1 := x) in H end.
        assert (F : fin s1 s' o /\ quiet0 o).
        { change (match diff (target (fst (x_conf s)) r) (fst (x_conf s)) with [] => next_stage s1 | _ => start_adding (diff (target (fst (x_conf s)) r) (fst (x_conf s))) fail s1 end = Some (s', o)) in H.
          destruct (diff (target (fst (x_conf s)) r) (fst (x_conf s))) as [|x l] eqn:Ed.
          - apply next_fin in H; [|discriminate]. split; auto. destruct H as [H|[_ [_ [H|[H _]]]]]; [apply H|exact H|discriminate H].
          - apply adding_fin in H; [exact H|reflexivity]. }
        destruct F as [F Q]. unfold accounted. assert (P0 : pend s = []) by (unfold pend; rewrite (Hn eq_refl); reflexivity). rewrite P0. cbn [app].
        split; [|split; [|intros c K; exfalso; exact (Q c K)]].
        -- assert (P1 : pend s1 = asked1 (XReq r done fail)) by (unfold pend; change (cx_done s1) with done; destruct done; reflexivity).
           rewrite <- P1. destruct F as [[F1 [F2 [F3 F4]]]|[F1 [F2 F3]]].
           ++ rewrite F3. unfold pend. rewrite F1. apply Permutation_refl.
           ++ rewrite F2. unfold pend at 3. rewrite F1, app_nil_r. apply Permutation_refl.
        -- intros c K. right. exists r, fail. destruct F as [[F1 [F2 [F3 F4]]]|[F1 [F2 F3]]]; [|congruence].
           rewrite F1 in K. change (cx_done s1) with done in K. subst done. rewrite F2. split; reflexivity.
    + injection H as <- <-. apply Deny. discriminate.
    + injection H as <- <-. apply Deny. discriminate.
  - unfold caughtup in H. destruct (nth_error (x_wait s) k) as [[[p t] v]|]; [|discriminate]. cbv zeta in H. fold (drop_wait k s) in H. set (s1 := drop_wait k s) in H.
    assert (Id : accounted s (XCaught k c) s1 []). { apply (fin_accounted s s1); auto. left. repeat split; auto. intros d []. }
    assert (A : forall b, ctx_caughtup v p b s1 = Some (s', o) -> accounted s (XCaught k c) s' o).
    { intros b K. apply ctx_fin in K; [|exact Hn]. apply (fin_accounted s s1); auto. apply K. }
    destruct (x_role s1); try (injection H as <- <-; exact Id). destruct (negb (t =? x_term s1)); [injection H as <- <-; exact Id|].
    destruct c; [exact (A _ H)| |exact (A _ H)]. destruct (memb p (x_repl s1)); [|exact (A _ H)].
    injection H as <- <-. eapply fin_accounted; [reflexivity| | | | |]; [| | | |left; repeat split; auto; intros d []]; reflexivity.
  - unfold conf_done in H. destruct (nth_error (x_cd s) k); [|discriminate]. cbv zeta in H. match type of H with context [next_stage ?x] => set (s1 := x) in H end.
    destruct (_ || _).
    + injection H as <- <-. apply (fin_accounted s s1); auto. left. repeat split; auto. intros d [].
    + apply next_fin in H; [|exact Hn]. apply (fin_accounted s s1); auto.
  - destruct (leading (x_role s) || (t <=? x_term s)) eqn:Le; [injection H as <- <-; apply accounted_id; reflexivity|].
    unfold become_leader, flush in H. cbn [cx_stage] in H. destruct (cx_stage s) eqn:St; try discriminate.
    match type of H with context [match ?m with None => (SStable, _) | Some _ => _ end] => destruct m end; apply apply_fin in H; cbn [cx_done cx_new] in H; destruct H as [H1 [H2 [H3 H4]]].
    all: unfold accounted; rewrite H3; unfold pend; rewrite H1, (Hn eq_refl); split; [apply Permutation_refl|]; split; [intros c K; discriminate|intros c K; exfalso; exact (H4 c K)].
  - injection H as H. rewrite <- (set_conf_id s) in H. eapply sd_accounted; eauto.
  - injection H as <- <-. apply (fin_accounted s s); auto. left. destruct (x_role s), (cx_stage s); repeat split; auto; intros d [].
  - injection H as <- <-. apply (fin_accounted s s); auto. left. destruct (x_role s), (cx_stage s); repeat split; auto; intros d [].
  - injection H as H. unfold reset_peers in H. destruct (to_set l); [injection H as <- <-; apply accounted_id; reflexivity|]. destruct (fst (x_conf s)).
    + eapply sd_accounted; eauto.
    + destruct (_ && _); [injection H as <- <-; apply accounted_id; reflexivity|]. destruct (conf_equals _ _); [injection H as <- <-; apply accounted_id; reflexivity|].
      eapply sd_accounted; eauto.
  - injection H as <- <-. destruct (x_role s); try (apply accounted_id; reflexivity).
    apply (fin_accounted s s); auto. left. repeat split; auto. intros d [].
Qed.

(** * Whole lives *)
Lemma asked_snoc : forall h s e, asked (h ++ [(s, e)]) = asked h ++ asked1 e.
Proof. intros. unfold asked. rewrite flat_map_app. cbn. rewrite app_nil_r. reflexivity. Qed.
Lemma xlife_closures : forall self s h os, xlife self s h os -> Permutation (asked h) (answered os ++ pend s).
Proof.
  intros self s h os L. induction L; [constructor|]. destruct (xstep_accounted _ _ _ _ (proj1 (xlife_inv _ _ _ _ L)) H) as [P _].
  rewrite asked_snoc, answered_app. rewrite <- app_assoc, <- P, app_assoc. apply Permutation_app_tail. exact IHL.
Qed.
Lemma xlife_prov : forall self s h os, xlife self s h os -> prov h s.
Proof.
  intros self s h os L. induction L; [intros c K; discriminate|]. destruct (xstep_accounted _ _ _ _ (proj1 (xlife_inv _ _ _ _ L)) H) as [_ [P _]].
  intros c K. destruct (P c K) as [[P1 P2]|[r [f [-> P2]]]].
  - destruct (IHL c P1) as [s0 [r [f [H1 H2]]]]. exists s0, r, f. split; [apply in_or_app; auto|congruence].
  - exists s, r, f. split; [apply in_or_app; right; left; auto|exact P2].
Qed.

Lemma target_wanted : forall r cur p, In p (target cur r) <-> wanted r cur p.
Proof.
  intros r cur p. destruct r; cbn [target wanted]; [apply add_p_In|apply rem_p_In|apply nodup_In].
Qed.

(** What a code 0 means. *)
Lemma xstep_success : forall self s h os e s' o c, xlife self s h os -> xstep s e = Some (s', o) -> In (XRun c 0) o ->
  exists s0 r f, In (s0, XReq r (Some c) f) (h ++ [(s, e)]) /\ snd (x_conf s') = None /\
    (forall p, In p (fst (x_conf s')) <-> wanted r (fst (x_conf s0)) p) /\ (leading (x_role s') = true -> unreported (x_term s') s' = O).
Proof.
  intros self s h os e s' o c L H K. pose proof (xlife_inv _ _ _ _ L) as I. destruct (xstep_accounted _ _ _ _ (proj1 I) H) as [_ [_ A]].
  pose proof (xstep_good _ _ _ _ I H) as [[C' D'] _]. destruct I as [C D].
  destruct (A c K) as [[A1 [A2 [A3 A4]]]|[r [f [-> [-> [A1 [A2 A3]]]]]]].
  - destruct (xlife_prov _ _ _ _ L c A1) as [s0 [r [f [P1 P2]]]]. exists s0, r, f. split; [apply in_or_app; auto|].
    assert (R : x_role s <> RNone). { intros R. destruct (k_off _ C R). congruence. }
    pose proof (k_stage _ C R) as E. rewrite A2 in E. destruct E as [E _]. rewrite A3, E. split; auto. split; [intros p; cbn [fst]; rewrite P2; apply target_wanted|].
    intros Le. rewrite D' by exact Le. rewrite A4. reflexivity.
  - exists s, r, f. split; [apply in_or_app; right; left; auto|]. assert (R : x_role s <> RNone) by (rewrite A1; discriminate). pose proof (k_stage _ C R) as E. rewrite A2 in E. split; [exact E|].
    split; [|intros Le; rewrite D by exact Le; rewrite A2; reflexivity]. intros p. rewrite <- target_wanted. apply conf_equals_spec. exact A3.
Qed.

(** Nothing happens when a request is denied. *)
Lemma denied : forall s r done f, (x_role s <> RLeader \/ cx_stage s <> SNone) ->
  xstep s (XReq r done f) = Some (s, match done with Some c => [XRun c (match x_role s with RNone => EPERM | _ => EBUSY end)] | None => [] end).
Proof.
  intros s r done f H. cbn. unfold register. destruct (x_role s); [|destruct done; reflexivity|destruct done; reflexivity].
  destruct (cx_stage s); [destruct H; congruence|destruct done; reflexivity|destruct done; reflexivity|destruct done; reflexivity].
Qed.

(** The leader's configuration is the last one it logged in its term. *)
Definition lastlog (s : xstate) (os : list xout) : Prop :=
  leading (x_role s) = true -> exists pre n old post, os = pre ++ XLogged (x_term s) n old :: post /\ logged post = [] /\ x_conf s = norm n old.

Lemma apply_log : forall new old s s' o, apply_conf new old s = Some (s', o) -> o = [XLogged (x_term s) new old] /\ x_term s' = x_term s /\ x_role s' = x_role s.
Proof. intros new old s s' o H. unfold apply_conf in H. destruct (cx_stage s); try discriminate; injection H as <- <-; auto. Qed.
(** While it leads, the term stays and every entry has it. *)
Definition keeps (s s' : xstate) (o : list xout) : Prop :=
  leading (x_role s') = true -> leading (x_role s) = true /\ x_term s' = x_term s /\ forall t n old, In (XLogged t n old) o -> t = x_term s'.
Lemma sd_role : forall t s s' o, step_down t s = (s', o) -> x_role s' = RNone.
Proof. intros t s s' o H. unfold step_down in H. destruct (reset None _). injection H as <- <-. reflexivity. Qed.
Lemma reset_keeps : forall st s s' o, reset st s = (s', o) -> keeps s s' o.
Proof.
  intros st s s' o H. unfold reset in H. destruct (cx_stage s); injection H as <- <-; intros L; split; auto; split; auto; intros t n old K; [destruct K| | |]; unfold run_done in K; destruct (cx_done s); cbn in K; intuition discriminate.
Qed.
Lemma apply_keeps : forall new old s s' o, apply_conf new old s = Some (s', o) -> keeps s s' o.
Proof.
  intros new old s s' o H. apply apply_log in H. destruct H as [-> [H1 H2]]. intros L. rewrite H2 in L. split; auto. split; auto. intros t n old0 [K|[]]. injection K as <- _ _. auto.
Qed.
Lemma next_keeps : forall s s' o, next_stage s = Some (s', o) -> keeps s s' o.
Proof.
  intros s s' o H. unfold next_stage in H. destruct (cx_stage s); [discriminate| | |].
  - destruct (1 <? cx_n s); apply apply_keeps in H; exact H.
  - apply apply_keeps in H; exact H.
  - destruct (reset (Some 0) s) as [s1 o1] eqn:E. destruct (negb _).
    + destruct (step_down (x_term s1) s1) as [s2 o2] eqn:E2. injection H as <- <-. apply sd_role in E2. intros L. rewrite E2 in L. discriminate.
    + injection H as <- <-. apply reset_keeps in E. exact E.
Qed.
Lemma ctx_keeps : forall v p b s s' o, ctx_caughtup v p b s = Some (s', o) -> keeps s s' o.
Proof.
  intros v p b s s' o H. unfold ctx_caughtup in H. assert (T : keeps s s []) by (intros L; repeat split; auto; intros t n old []).
  destruct (negb _); [injection H as <- <-; exact T|]. destruct (cx_stage s); try discriminate. destruct b.
  - cbv zeta in H. match type of H with match ?x with _ => _ end = _ => destruct x end; [apply next_keeps in H; exact H|injection H as <- <-; exact T].
  - injection H as H. apply reset_keeps in H. exact H.
Qed.
Lemma adding_keeps : forall ps f s s' o, start_adding ps f s = Some (s', o) -> keeps s s' o.
Proof.
  induction ps as [|p ps IH]; intros f s s' o H; cbn [start_adding] in H.
  - injection H as <- <-. intros L; repeat split; auto; intros t n old [].
  - destruct (_ && _); [apply ctx_keeps in H; exact H|]. apply IH in H. exact H.
Qed.
Lemma step_keeps : forall s e s' o, xstep s e = Some (s', o) -> (forall t f, e <> XElected t f) -> keeps s s' o.
Proof.
  intros s e s' o H Ne. assert (T : keeps s s []) by (intros L; repeat split; auto; intros t n old []).
  assert (Dn : forall d c, keeps s s (run_done d c)) by (intros [d|] c L; repeat split; auto; intros t n old K; [destruct K as [K|[]]; discriminate|destruct K]).
  destruct e; cbn [xstep] in H.
  - unfold register in H. destruct (x_role s) eqn:R; try (injection H as <- <-; apply Dn). destruct (cx_stage s) eqn:St; try (injection H as <- <-; apply Dn).
    destruct (conf_equals _ _); [destruct done; [|discriminate]; injection H as <- <-; apply (Dn (Some c) 0)|].
    unfold start in H. rewrite St in H. destruct (cx_done s); [discriminate|]. match type of H with context [next_stage ?x] => set (s1 := x) in H end.
    assert (K : keeps s1 s' o) by (destruct (diff _ _); [apply next_keeps in H|apply adding_keeps in H]; exact H). exact K.
  - unfold caughtup in H. destruct (nth_error (x_wait s) k) as [[[p t] v]|]; [|discriminate]. cbv zeta in H. match type of H with match x_role ?x with _ => _ end = _ => set (s1 := x) in H end.
    assert (T1 : keeps s s1 []) by exact T.
    assert (A : forall b, ctx_caughtup v p b s1 = Some (s', o) -> keeps s s' o) by (intros b K; apply ctx_keeps in K; exact K).
    destruct (x_role s1) eqn:R; try (injection H as <- <-; exact T1). destruct (negb _); [injection H as <- <-; exact T1|].
    destruct c; [exact (A _ H)| |exact (A _ H)]. destruct (memb p (x_repl s1)); [|exact (A _ H)]. injection H as <- <-. intros _. change (x_role s1) with (x_role s) in R. rewrite R. repeat split; auto. intros t0 n old [].
  - unfold conf_done in H. destruct (nth_error (x_cd s) k); [|discriminate]. cbv zeta in H. destruct (_ || _); [injection H as <- <-; exact T|]. apply next_keeps in H. exact H.
  - exfalso. apply (Ne t fail). reflexivity.
  - injection H as H. apply sd_role in H. intros L. rewrite H in L. discriminate.
  - injection H as <- <-. intros L. destruct (x_role s) eqn:R, (cx_stage s); try (rewrite R in L); try discriminate L; repeat split; auto; intros t n old [].
  - injection H as <- <-. intros L. destruct (x_role s) eqn:R, (cx_stage s); try (rewrite R in L); try discriminate L; repeat split; auto; intros t n old [].
  - injection H as H. unfold reset_peers in H. destruct (to_set l); [injection H as <- <-; exact T|]. destruct (fst (x_conf s)).
    + apply sd_role in H. intros L. rewrite H in L. discriminate.
    + destruct (_ && _); [injection H as <- <-; exact T|]. destruct (conf_equals _ _); [injection H as <- <-; exact T|]. apply sd_role in H. intros L. rewrite H in L. discriminate.
  - injection H as <- <-. intros L. destruct (x_role s) eqn:R; repeat split; auto; try (intros t n old []). change (x_role (set_conf (norm (to_set (fst c)) (option_map to_set (snd c))) s)) with (x_role s) in L. rewrite R in L. discriminate.
Qed.
Lemma logged_nil_or : forall o, (logged o = []) \/ exists n old r, logged o = (n, old) :: r.
Proof. intros o. destruct (logged o) as [|[n old] r]; eauto. Qed.
Lemma logged_split : forall o n old, logged o = [(n, old)] -> exists a t b, o = a ++ XLogged t n old :: b /\ logged b = [].
Proof.
  induction o as [|x o IH]; intros n old H; [discriminate|]. destruct x as [t n0 old0|c k].
  - cbn in H. injection H as <- <- H. exists [], t, o. auto.
  - cbn in H. destruct (IH n old H) as [a [t [b [-> E]]]]. exists (XRun c k :: a), t, b. auto.
Qed.
Lemma xlife_lastlog : forall self s h os, xlife self s h os -> lastlog s os.
Proof.
  intros self s h os L. induction L; [intros K; discriminate|]. pose proof (xstep_good _ _ _ _ (xlife_inv _ _ _ _ L) H) as [_ [_ A]].
  assert (New : forall n old t a b, o = a ++ XLogged t n old :: b -> logged b = [] -> t = x_term s' -> x_conf s' = norm n old -> lastlog s' (os ++ o)).
  { intros n old t a b -> E Et Ec _. subst t. exists (os ++ a), n, old, b. rewrite <- app_assoc. auto. }
  destruct (by_hand e) eqn:Eb.
  - assert (Ne : forall t f, e <> XElected t f) by (intros t f ->; discriminate). pose proof (step_keeps _ _ _ _ H Ne) as K. intros Le. destruct (K Le) as [Le0 [Et _]]. destruct (IHL Le0) as [pre [n [old [post [E1 [E2 E3]]]]]].
    exists pre, n, old, (post ++ o). rewrite Et, E1, <- app_assoc. split; auto. rewrite logged_app, E2, A. split; auto.
    destruct e; try discriminate; cbn [xstep] in H; injection H as H.
    + unfold reset_peers in H. destruct (to_set l); [injection H as <- <-; exact E3|]. destruct (fst (x_conf s)); [apply sd_role in H; rewrite H in Le; discriminate|].
      destruct (_ && _); [injection H as <- <-; exact E3|]. destruct (conf_equals _ _); [injection H as <- <-; exact E3|]. apply sd_role in H; rewrite H in Le; discriminate.
    + destruct (x_role s); [subst s'; exact E3|subst s'; exact E3|discriminate Le0].
  - unfold after in A. destruct (logged_nil_or o) as [E|[n [old [r E]]]]; rewrite E in A.
    + intros Le. destruct e as [| | |t f| | | | |]; try discriminate Eb; try (match type of H with xstep _ ?e = _ => destruct (step_keeps _ _ _ _ H ltac:(intros; discriminate) Le) as [Le0 [Et _]] end;
        destruct (IHL Le0) as [pre [n [old [post [E1 [E2 E3]]]]]]; exists pre, n, old, (post ++ o); rewrite Et, E1, <- app_assoc, logged_app, E2, E, A; auto).
      cbn [xstep] in H. destruct (_ || _).
      * injection H as <- <-. rewrite app_nil_r. apply IHL. exact Le.
      * unfold become_leader, flush in H. cbn [cx_stage] in H. destruct (cx_stage s); try discriminate. destruct (match snd _ with Some _ => _ | None => _ end) as [st old0] in H.
        apply apply_log in H. destruct H as [-> _]. discriminate E.
    + destruct r; [|destruct A]. destruct (logged_split _ _ _ E) as [a [t [b [Eo Eb']]]]. intros Le. refine (New n old t a b Eo Eb' _ A Le).
      destruct e as [| | |t0 f| | | | |]; try discriminate Eb; try (match type of H with xstep _ ?e = _ => destruct (step_keeps _ _ _ _ H ltac:(intros; discriminate) Le) as [_ [_ Et]] end; apply (Et t n old); rewrite Eo; apply in_or_app; right; left; auto).
      cbn [xstep] in H. destruct (_ || _).
      * injection H as <- <-. destruct a; discriminate Eo.
      * unfold become_leader, flush in H. cbn [cx_stage] in H. destruct (cx_stage s); try discriminate. destruct (match snd _ with Some _ => _ | None => _ end) as [st old0] in H.
        apply apply_log in H. destruct H as [E' [Et _]]. rewrite E' in Eo. destruct a as [|x [|y a]]; try discriminate. injection Eo as <- _ _ _. rewrite Et. reflexivity.
Qed.

(** * Replicators *)
Definition touched (s : xstate) (p : peer) : Prop := In p (members (x_conf s)) \/ (cx_stage s <> SNone /\ (In p (cx_new s) \/ In p (cx_old s))).
Definition covers (f : peer -> bool) (s : xstate) : Prop := forall p, touched s p -> p <> x_self s -> f p = false -> In p (x_repl s).
Definition within (s : xstate) : Prop := forall p, In p (x_repl s) -> p = x_self s \/ touched s p.
Definition rinv (f : peer -> bool) (s : xstate) : Prop := leading (x_role s) = true -> covers f s /\ within s.

Lemma stop_In : forall self keep drop r p, In p (stop_repl self keep drop r) <-> In p r /\ (In p drop -> In p keep \/ p = self).
Proof.
  intros self keep drop r p. unfold stop_repl. rewrite filter_In, negb_true_iff. split; intros [H1 H2]; split; auto.
  - intros K. apply memb_In in K. rewrite K in H2. cbn [andb] in H2. destruct (memb p keep) eqn:E; [left; apply memb_In; auto|]. cbn in H2. destruct (Z.eqb_spec p self); auto. discriminate.
  - destruct (memb p drop) eqn:E; auto. apply memb_In in E. destruct (H2 E) as [K| ->]; cbn; [apply memb_In in K; rewrite K; reflexivity|]. rewrite Z.eqb_refl. apply andb_false_r.
Qed.

Lemma reset0_rinv : forall f s s' o, x_conf s = (cx_new s, None) -> cx_stage s <> SNone -> reset (Some 0) s = (s', o) -> rinv f s -> rinv f s'.
Proof.
  intros f s s' o E St H I L. unfold reset in H. destruct (cx_stage s) eqn:Es; [congruence| | |]; injection H as <- <-; destruct (I L) as [C W]; unfold covers, within, touched, members in *; rewrite E, Es in *; cbn [x_conf fst snd cx_stage x_self x_repl cx_new cx_old] in *; rewrite ?E in *; cbn [fst snd] in *; rewrite app_nil_r in *.
  all: split; [intros p [Hp|[Hp _]] Hs Hf; [|congruence]; apply stop_In; split; auto|].
  all: intros p Hp; apply stop_In in Hp; destruct Hp as [Hp Hd]; destruct (W p Hp) as [->|[Hw|[_ [Hw|Hw]]]]; auto; destruct (Hd Hw); auto.
Qed.
Lemma resetF_rinv : forall f s s' o, x_conf s = (cx_old s, None) -> cx_stage s <> SNone -> reset (Some ECATCHUP) s = (s', o) ->
  (leading (x_role s) = true -> (forall p, In p (cx_old s) -> p <> x_self s -> f p = false -> In p (x_repl s)) /\ within s) -> rinv f s'.
Proof.
  intros f s s' o E St H I L. unfold reset in H. destruct (cx_stage s) eqn:Es; [congruence| | |]; injection H as <- <-; destruct (I L) as [C W]; unfold covers, within, touched, members in *; rewrite E, Es in *; cbn [x_conf fst snd cx_stage x_self x_repl cx_new cx_old] in *; rewrite ?E in *; cbn [fst snd] in *; rewrite app_nil_r in *.
  all: split; [intros p [Hp|[Hp _]] Hs Hf; [|congruence]; apply stop_In; split; auto|].
  all: intros p Hp; apply stop_In in Hp; destruct Hp as [Hp Hd]; destruct (W p Hp) as [->|[Hw|[_ [Hw|Hw]]]]; auto; destruct (Hd Hw); auto.
Qed.
Lemma sd_rinv : forall f t s s' o, step_down t s = (s', o) -> rinv f s'.
Proof. intros f t s s' o H L. apply sd_role in H. rewrite H in L. discriminate. Qed.

(** Logging: the members of the entry are those of the change. *)
Lemma apply_rinv : forall f new old s s' o, apply_conf new old s = Some (s', o) -> new = cx_new s -> (old = None \/ old = Some (cx_old s)) ->
  (leading (x_role s) = true -> (forall p, In p (cx_new s) \/ In p (cx_old s) -> p <> x_self s -> f p = false -> In p (x_repl s)) /\ (forall p, In p (x_repl s) -> p = x_self s \/ In p (cx_new s) \/ In p (cx_old s))) -> rinv f s'.
Proof.
  intros f new old s s' o H En Eo I L. unfold apply_conf in H. destruct (cx_stage s) eqn:Es; try discriminate; injection H as <- <-; destruct (I L) as [C W]; subst new; unfold covers, within, touched, members; cbn [x_conf x_repl x_self cx_stage cx_new cx_old]; rewrite norm_fst.
  all: split; [|intros p Hp; destruct (W p Hp) as [->|K]; auto; right; right; split; [rewrite ?Es; discriminate|exact K]].
  all: intros p Hp; apply C; destruct Hp as [Hp|[_ Hp]]; auto; apply in_app_or in Hp; destruct Hp as [Hp|Hp]; auto; destruct Eo as [-> | ->]; cbn in Hp; [destruct Hp|destruct (cx_old s); cbn in Hp; auto].
Qed.
Lemma next_rinv : forall f s s' o, xcore s -> x_role s <> RNone -> next_stage s = Some (s', o) -> rinv f s -> rinv f s'.
Proof.
  intros f s s' o C R H I. pose proof (k_stage _ C R) as K.
  assert (A : forall st, cx_stage s <> SNone -> leading (x_role (set_stage st s)) = true ->
     (forall p, In p (cx_new (set_stage st s)) \/ In p (cx_old (set_stage st s)) -> p <> x_self (set_stage st s) -> f p = false -> In p (x_repl (set_stage st s))) /\
     (forall p, In p (members (x_conf s)) -> In p (cx_new s) \/ In p (cx_old s)) -> (forall p, In p (x_repl (set_stage st s)) -> p = x_self (set_stage st s) \/ In p (cx_new (set_stage st s)) \/ In p (cx_old (set_stage st s)))).
  { intros st Hs L [_ Hm] p Hp. destruct (I L) as [_ W]. destruct (W p Hp) as [->|[Hw|[_ Hw]]]; auto. }
  assert (B : cx_stage s <> SNone -> leading (x_role s) = true -> forall p, In p (cx_new s) \/ In p (cx_old s) -> p <> x_self s -> f p = false -> In p (x_repl s)).
  { intros Hs L p Hp. destruct (I L) as [Cv _]. apply Cv. right. auto. }
  unfold next_stage in H. destruct (cx_stage s) eqn:Es; [discriminate| | |].
  - assert (Hm : forall p, In p (members (x_conf s)) -> In p (cx_new s) \/ In p (cx_old s)). { intros p Hp. unfold members in Hp. destruct K as [K1 [K2 _]]. rewrite K1, <- K2, app_nil_r in Hp. auto. }
    destruct (1 <? cx_n s).
    + eapply (apply_rinv f _ _ _ _ _ H); auto. intros L. assert (X : SCatchingUp <> SNone) by discriminate. split; [exact (B X L)|]. apply (A SJoint X L). split; [exact (B X L)|exact Hm].
    + eapply (apply_rinv f _ _ _ _ _ H); auto. intros L. assert (X : SCatchingUp <> SNone) by discriminate. split; [exact (B X L)|]. apply (A SStable X L). split; [exact (B X L)|exact Hm].
  - assert (Hm : forall p, In p (members (x_conf s)) -> In p (cx_new s) \/ In p (cx_old s)). { intros p Hp. unfold members in Hp. destruct K as [K1 _]. rewrite K1 in Hp. apply in_app_or in Hp. destruct Hp as [Hp|Hp]; auto. destruct (cx_old s); cbn in Hp; auto. }
    eapply (apply_rinv f _ _ _ _ _ H); auto. intros L. assert (X : SJoint <> SNone) by discriminate. split; [exact (B X L)|]. apply (A SStable X L). split; [exact (B X L)|exact Hm].
  - destruct (reset (Some 0) s) as [s1 o1] eqn:E1. destruct (negb _).
    + destruct (step_down (x_term s1) s1) as [s2 o2] eqn:E2. injection H as <- <-. apply (sd_rinv f _ _ _ _ E2).
    + injection H as <- <-. apply (reset0_rinv f _ _ _ (proj1 K) ltac:(rewrite Es; discriminate) E1 I).
Qed.
(** A catch-up report, for a state whose replicators cover at least the old members. *)
Lemma fail_rinv : forall f v p s s' o, xcore s -> x_role s <> RNone -> ctx_caughtup v p false s = Some (s', o) ->
  (cx_stage s = SCatchingUp -> v = cx_ver s -> leading (x_role s) = true -> (forall p, In p (cx_old s) -> p <> x_self s -> f p = false -> In p (x_repl s)) /\ within s) ->
  (v <> cx_ver s -> rinv f s) -> rinv f s'.
Proof.
  intros f v p s s' o C R H I1 I2. unfold ctx_caughtup in H. destruct (Z.eqb_spec v (cx_ver s)) as [Ev|Nv]; cbn [negb] in H; [|injection H as <- <-; auto].
  pose proof (k_stage _ C R) as K. destruct (cx_stage s) eqn:Es; try discriminate. injection H as H. destruct K as [K1 [K2 _]].
  apply (resetF_rinv f s s' o); auto; [rewrite K2, <- K1; apply surjective_pairing|rewrite Es; discriminate].
Qed.
Lemma rinv_core : forall f s, xcore s -> x_role s <> RNone -> cx_stage s = SCatchingUp -> rinv f s ->
  leading (x_role s) = true -> (forall p, In p (cx_old s) -> p <> x_self s -> f p = false -> In p (x_repl s)) /\ within s.
Proof. intros f s C R St I L. destruct (I L) as [Cv W]. split; auto. intros p Hp. apply Cv. right. rewrite St. split; [discriminate|auto]. Qed.
Lemma ctx_rinv : forall f v p b s s' o, xcore s -> x_role s <> RNone -> In p (cx_add s) \/ v <> cx_ver s \/ b = false -> (cx_add s = [] \/ True) ->
  (forall q, In q (cur_waits s) -> q <> p) \/ b = false \/ v <> cx_ver s ->
  ctx_caughtup v p b s = Some (s', o) -> rinv f s -> rinv f s'.
Proof.
  intros f v p b s s' o C R Hin _ Hw H I. destruct b.
  - unfold ctx_caughtup in H. destruct (Z.eqb_spec v (cx_ver s)) as [Ev|Nv]; cbn [negb] in H; [|injection H as <- <-; auto].
    destruct (cx_stage s) eqn:Es; try discriminate. cbv zeta in H. match type of H with context [next_stage ?x] => set (s1 := x) in H end.
    destruct Hw as [Hw|[Hw|Hw]]; try congruence.
    assert (C1 : xcore s1).
    { destruct C as [H1 H2 H3 H4 H5 H6 H7 H8 H9]. rewrite Es in *. split; [exact H1|intros K; exact (False_ind _ (R K))|intros K; exact (H3 K)|intros K; discriminate K|exact H5|exact H6|exact H7|intros K; exfalso; apply K; reflexivity|].
      intros _. destruct (H9 eq_refl) as [N Q]. split; [exact N|]. intros q Hq. change (In q (rem_p p (cx_add s))). apply rem_p_In. split; auto. }
    assert (I1 : rinv f s1). { intros L. destruct (I L) as [Cv W]. unfold covers, within, touched in *. rewrite Es in *. split; auto. }
    destruct (cx_add s1); [apply (next_rinv f s1 s' o C1 R H I1)|injection H as <- <-; exact I1].
  - apply (fail_rinv f v p s s' o C R H); auto. intros St _ L. apply rinv_core; auto.
Qed.
Lemma adding_rinv : forall f ps fail s s' o, xcore s -> x_role s = RLeader -> cx_stage s = SCatchingUp -> x_conf s = (cx_old s, None) ->
  NoDup ps -> (forall p, In p ps -> In p (cx_add s) /\ ~ In p (cur_waits s)) -> (forall p, In p ps -> In p (cx_new s)) ->
  (forall p, In p (cx_old s) -> p <> x_self s -> f p = false -> In p (x_repl s)) -> within s ->
  (forall p, In p (cx_new s) -> p <> x_self s -> f p = false -> In p (x_repl s) \/ In p ps) ->
  start_adding ps fail s = Some (s', o) -> rinv f s'.
Proof.
  intros f. induction ps as [|p ps IH]; intros fail s s' o C R St Ec ND Hp Hnw Ho W Hn H; cbn [start_adding] in H.
  - injection H as <- <-. intros L. split; auto. intros p [Hm|[_ [Hm|Hm]]] Hs Hf; auto.
    + unfold members in Hm. rewrite Ec in Hm. cbn [fst snd] in Hm. rewrite app_nil_r in Hm. auto.
    + destruct (Hn p Hm Hs Hf) as [K|[]]; auto.
  - destruct (negb (memb p (x_repl s)) && fail p).
    + apply (fail_rinv f _ _ s s' o C) in H; auto; [rewrite R; discriminate|]. intros Hv. congruence.
    + inversion ND as [|? ? Hni ND']; subst. match type of H with start_adding _ _ ?x = _ => set (s1 := x) in H end.
      assert (CW : cur_waits s1 = cur_waits s ++ [p]) by (apply (cur_waits_snoc s s1 p (x_term s)); reflexivity).
      destruct (Hp p (or_introl eq_refl)) as [Ha Hw].
      refine (IH fail s1 s' o _ R St Ec ND' _ _ _ _ _ H).
      * destruct C as [H1 H2 H3 H4 H5 H6 H7 H8 H9]. split; [exact H1|intros K; change (x_role s1) with (x_role s) in K; congruence|exact H3|exact H4|exact H5|exact H6| | |].
        -- intros q t v K. change (x_wait s1) with (x_wait s ++ [(p, x_term s, cx_ver s)]) in K. change (cx_ver s1) with (cx_ver s). change (x_term s1) with (x_term s).
           apply in_app_or in K. destruct K as [K|[K|[]]]; [exact (H7 _ _ _ K)|]. injection K as <- <- <-. lia.
        -- intros K. exfalso. apply K. exact St.
        -- intros _. rewrite CW. change (cx_add s1) with (cx_add s). destruct (H9 St) as [H10 H11]. split; [apply NoDup_app_snoc; auto|].
           intros q K. apply in_app_or in K. destruct K as [K|[<-|[]]]; auto.
      * intros q Hq. destruct (Hp q (or_intror Hq)) as [Haq Hwq]. split; [exact Haq|]. rewrite CW. intros K. apply in_app_or in K. destruct K as [K|[<-|[]]]; auto.
      * intros q Hq. apply Hnw. right; auto.
      * intros q H1 H2 H3. change (In q (add_p p (x_repl s))). apply add_p_In. right. apply Ho; auto.
      * intros q Hq. change (In q (add_p p (x_repl s))) in Hq. apply add_p_In in Hq. destruct Hq as [->|Hq]; [right; right; split; [change (cx_stage s1) with (cx_stage s); rewrite St; discriminate|left; apply Hnw; left; auto]|exact (W q Hq)].
      * intros q H1 H2 H3. change (In q (add_p p (x_repl s)) \/ In q ps). destruct (Hn q H1 H2 H3) as [K|[<-|K]]; auto; left; apply add_p_In; auto.
Qed.

Lemma rinv_ext : forall f s s', x_role s' = x_role s -> x_conf s' = x_conf s -> cx_stage s' = cx_stage s -> cx_new s' = cx_new s -> cx_old s' = cx_old s -> x_self s' = x_self s -> x_repl s' = x_repl s -> rinv f s -> rinv f s'.
Proof. intros f s s' E1 E2 E3 E4 E5 E6 E7 I. unfold rinv, covers, within, touched in *. rewrite E1, E2, E3, E4, E5, E6, E7. exact I. Qed.

Lemma step_rinv : forall f s e s' o, xinv s -> (forall t g, e <> XElected t g) -> xstep s e = Some (s', o) -> rinv f s -> rinv f s'.
Proof.
  intros f s e s' o [C D] Ne H I. destruct e; cbn [xstep] in H.
  - unfold register in H. destruct (x_role s) eqn:R; try (injection H as <- <-; exact I). destruct (cx_stage s) eqn:St; try (injection H as <- <-; exact I).
    destruct (conf_equals _ _) eqn:Eq; [destruct done; [|discriminate]; injection H as <- <-; exact I|].
    unfold start in H. rewrite St, (k_none _ C St) in H. match type of H with context [next_stage ?x] => set (s1 := x) in H end.
    assert (RN : x_role s <> RNone) by (rewrite R; discriminate). pose proof (k_stage _ C RN) as Sn. rewrite St in Sn.
    assert (W : cur_waits s = []) by (apply (k_cur _ C); rewrite St; discriminate). assert (L : leading (x_role s) = true) by (rewrite R; reflexivity). destruct (I L) as [Cv Wi].
    set (new := target (fst (x_conf s)) r) in *. pose proof (k_conf _ C) as [ND0 _]. pose proof (target_NoDup r _ ND0) as ND. fold new in ND.
    assert (C1 : xcore s1).
    { destruct C as [H1 H2 H3 H4 H5 H6 H7 H8 H9]. split; [exact H1|intros K; change (x_role s1) with (x_role s) in K; congruence|intros K; change (x_role s1) with (x_role s) in K; congruence|intros K; discriminate K| |exact H6|exact H7| |].
      - intros _. refine (conj Sn (conj eq_refl (conj ND (conj eq_refl _)))). intros K. apply conf_equals_spec in K. change (conf_equals (fst (x_conf s)) new = true) in K. congruence.
      - intros K. exfalso. apply K. reflexivity.
      - intros _. change (cur_waits s1) with (cur_waits s). rewrite W. split; [constructor|intros p []]. }
    assert (Wi1 : within s1). { intros p Hp. destruct (Wi p Hp) as [->|[Hm|[Hm _]]]; [left; auto|right; left; exact Hm|congruence]. }
    assert (Ho : forall p, In p (cx_old s1) -> p <> x_self s1 -> f p = false -> In p (x_repl s1)). { intros p Hp. apply Cv. left. unfold members. apply in_or_app. left. exact Hp. }
    change (match diff new (fst (x_conf s)) with [] => next_stage s1 | _ => start_adding (diff new (fst (x_conf s))) fail s1 end = Some (s', o)) in H.
    assert (Hn : forall p, In p new -> p <> x_self s -> f p = false -> In p (x_repl s) \/ In p (diff new (fst (x_conf s)))).
    { intros p Hp Hs Hf. destruct (in_dec Z.eq_dec p (fst (x_conf s))) as [K|K]; [left; apply Ho; auto|right; apply diff_In; auto]. }
    destruct (diff new (fst (x_conf s))) as [|x l] eqn:Ed.
    + apply (next_rinv f s1 s' o C1 RN H). intros _. split; auto. intros p [Hm|[_ [Hm|Hm]]] Hs Hf; [apply Cv; auto; left; exact Hm| |apply Ho; auto].
      destruct (Hn p Hm Hs Hf) as [K|[]]. exact K.
    + refine (adding_rinv f (x :: l) fail s1 s' o C1 R eq_refl _ _ _ _ Ho Wi1 Hn H).
      * change (x_conf s = (fst (x_conf s), None)). rewrite <- Sn. apply surjective_pairing.
      * rewrite <- Ed. apply diff_NoDup. exact ND.
      * intros p Hp. split; [exact Hp|]. change (cur_waits s1) with (cur_waits s). rewrite W. auto.
      * intros p Hp. rewrite <- Ed in Hp. apply diff_In in Hp. apply Hp.
  - unfold caughtup in H. destruct (nth_error (x_wait s) k) as [[[p t] v]|] eqn:En; [|discriminate]. cbv zeta in H. fold (drop_wait k s) in H. destruct (drop_wait_ok k p t v s C En) as [C1 Hv]. set (s1 := drop_wait k s) in *.
    assert (I1 : rinv f s1) by exact I. destruct (x_role s1) eqn:R; try (injection H as <- <-; exact I1). destruct (negb _); [injection H as <- <-; exact I1|].
    assert (RN : x_role s1 <> RNone) by (rewrite R; discriminate).
    assert (A : forall b, ctx_caughtup v p b s1 = Some (s', o) -> rinv f s').
    { intros b K. destruct (Z.eq_dec v (cx_ver s1)) as [Ev|Nv].
      - destruct (Hv Ev) as [_ [Hin [Hnw _]]]. apply (ctx_rinv f v p b s1 s' o); auto. left. intros q Hq ->. exact (Hnw Hq).
      - apply (ctx_rinv f v p b s1 s' o); auto. }
    destruct c; [exact (A _ H)| |exact (A _ H)]. destruct (memb p (x_repl s1)); [|exact (A _ H)]. injection H as <- <-. apply (rinv_ext f s1); auto.
  - unfold conf_done in H. destruct (nth_error (x_cd s) k) as [t|] eqn:En; [|discriminate]. cbv zeta in H. match type of H with context [next_stage ?x] => set (s1 := x) in H end. assert (I1 : rinv f s1) by exact I.
    destruct (leading (x_role s1)) eqn:L; cbn [negb orb] in H; [|injection H as <- <-; exact I1]. destruct (negb _); [injection H as <- <-; exact I1|].
    destruct (nth_remove _ _ _ _ En) as [a [b [E1 E2]]].
    apply (next_rinv f s1 s' o); auto; [|intros K; rewrite K in L; discriminate].
    destruct C as [H1 H2 H3 H4 H5 H6 H7 H8 H9]. split; [exact H1|exact H2|exact H3|exact H4|exact H5| |exact H7|exact H8|exact H9]. intros t0 K. apply H6. change (x_cd s1) with (remove_nth k (x_cd s)) in K. rewrite E2 in K. rewrite E1. apply in_app_or in K. apply in_or_app. destruct K; [left|right; right]; auto.
  - exfalso. apply (Ne t fail). reflexivity.
  - injection H as H. apply (sd_rinv f _ _ _ _ H).
  - injection H as <- <-. destruct (x_role s) eqn:R; [|exact I|exact I]. destruct (cx_stage s) eqn:St; try exact I.
    intros _. destruct (I ltac:(rewrite R; reflexivity)) as [Cv Wi]. unfold covers, within, touched in *. rewrite St in *. split; auto.
  - injection H as <- <-. destruct (x_role s) eqn:R; [exact I| |exact I].
    intros _. destruct (I ltac:(rewrite R; reflexivity)) as [Cv Wi]. split; auto.
  - injection H as H. unfold reset_peers in H. destruct (to_set l); [injection H as <- <-; exact I|]. destruct (fst (x_conf s)); [apply (sd_rinv f _ _ _ _ H)|].
    destruct (_ && _); [injection H as <- <-; exact I|]. destruct (conf_equals _ _); [injection H as <- <-; exact I|]. apply (sd_rinv f _ _ _ _ H).
  - injection H as <- <-. destruct (x_role s) eqn:R; [exact I|exact I|]. intros L. change (x_role (set_conf (norm (to_set (fst c)) (option_map to_set (snd c))) s)) with (x_role s) in L. rewrite R in L. discriminate.
Qed.

Lemma elected_rinv : forall t f s s' o, become_leader t f s = Some (s', o) -> rinv f s'.
Proof.
  intros t f s s' o H. unfold become_leader, flush in H. cbn [cx_stage] in H. destruct (cx_stage s); try discriminate. cbn [x_conf] in H.
  assert (F : forall ps p, In p (filter (fun p => negb (p =? x_self s) && negb (f p)) ps) <-> In p ps /\ p <> x_self s /\ f p = false).
  { intros ps p. rewrite filter_In, andb_true_iff, !negb_true_iff, Z.eqb_neq. reflexivity. }
  destruct (snd (x_conf s)) as [o0|] eqn:Es.
  - apply (apply_rinv f) in H; auto. intros _. cbn [cx_new cx_old x_self x_repl]. split.
    + intros p Hp Hs Hf. apply F. split; auto. apply in_or_app. exact Hp.
    + intros p Hp. apply F in Hp. destruct Hp as [Hp _]. apply in_app_or in Hp. auto.
  - apply (apply_rinv f) in H; auto. intros _. cbn [cx_new cx_old x_self x_repl]. split.
    + intros p Hp Hs Hf. apply F. split; auto. rewrite app_nil_r. destruct Hp; auto.
    + intros p Hp. apply F in Hp. destruct Hp as [Hp _]. rewrite app_nil_r in Hp. auto.
Qed.

(** The replicators of a leader, [f] being the peers whose replicator could not be started when it was elected. *)
Lemma xlife_repl : forall self s h os, xlife self s h os -> leading (x_role s) = true ->
  exists s0 f, In (s0, XElected (x_term s) f) h /\ rinv f s.
Proof.
  intros self s h os L. induction L; [discriminate|]. intros Le. pose proof (xlife_inv _ _ _ _ L) as I.
  assert (X : (forall t g, e <> XElected t g) -> exists s0 f, In (s0, XElected (x_term s') f) (h ++ [(s, e)]) /\ rinv f s').
  { intros Ne. destruct (step_keeps _ _ _ _ H Ne Le) as [Le0 [Et _]]. destruct (IHL Le0) as [s0 [f [H1 H2]]]. exists s0, f. rewrite Et. split; [apply in_or_app; auto|]. apply (step_rinv f s e s' o); auto. }
  destruct e as [| | |t f| | | | |]; try (apply X; intros; discriminate).
  cbn [xstep] in H. destruct (leading (x_role s) || (t <=? x_term s)) eqn:E.
  - injection H as <- <-. destruct (IHL Le) as [s0 [g [H1 H2]]]. exists s0, g. split; auto. apply in_or_app; auto.
  - exists s, f. split; [|apply (elected_rinv _ _ _ _ _ H)]. apply in_or_app. right. left. f_equal. f_equal.
    unfold become_leader, flush in H. cbn [cx_stage] in H. destruct (cx_stage s); try discriminate. destruct (match snd _ with Some _ => _ | None => _ end) as [st old0] in H.
    apply apply_log in H. destruct H as [_ [H _]]. rewrite H. reflexivity.
Qed.
