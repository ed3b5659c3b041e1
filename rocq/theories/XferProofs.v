(** Moving the leadership: invariant and step lemma. *)
From Coq Require Import Permutation.
From Verif Require Import Base Xfer XferSpec.

Lemma pending_app a b x : pending (a ++ b) x = pending b (pending a x).
Proof. revert x. induction a as [|c a IH]; intros x; cbn; auto. destruct c; apply IH. Qed.
Lemma led_app a b x : led (a ++ b) x = led b (led a x).
Proof. revert x. induction a as [|c a IH]; intros x; cbn; auto. destruct c; apply IH. Qed.
Lemma acked_app p a b x : acked p (a ++ b) x = acked p b (acked p a x).
Proof. revert x. induction a as [|c a IH]; intros x; cbn; auto. destruct c; apply IH. Qed.

(** The map. *)
Lemma rfind_in p m r : rfind p m = Some r -> In (p, r) m.
Proof.
  unfold rfind. match goal with |- context [find ?f m] => destruct (find f m) as [[k v]|] eqn:E end; [|discriminate]. intros [= <-]. apply find_some in E. destruct E as [E1 E2].
  cbn in *. apply Z.eqb_eq in E2. subst. auto.
Qed.
Lemma in_rfind p m r : NoDup (map fst m) -> In (p, r) m -> rfind p m = Some r.
Proof.
  intros N H. unfold rfind. induction m as [|[k v] m IH]; [destruct H|]. cbn in *. inversion N as [|? ? N1 N2]; subst.
  destruct (k =? p) eqn:E.
  - apply Z.eqb_eq in E. subst. destruct H as [[= <-]|H]; auto. exfalso. apply N1. change p with (fst (p, r)). apply in_map; auto.
  - apply Z.eqb_neq in E. destruct H as [[= -> ->]|H]; [congruence|]. apply IH; auto.
Qed.
Lemma rset_keys p r m : map fst (rset p r m) = map fst m.
Proof.
  unfold rset. rewrite map_map. apply map_ext. intros [k v]. cbn. destruct (k =? p) eqn:E; auto. apply Z.eqb_eq in E. auto.
Qed.
Lemma rset_in p r m k v : In (k, v) (rset p r m) -> (k = p /\ v = r) \/ (k <> p /\ In (k, v) m).
Proof.
  unfold rset. intros H. apply in_map_iff in H. destruct H as ([k' v'] & E & H). cbn in E. destruct (k' =? p) eqn:Z1.
  - injection E as <- <-. auto.
  - apply Z.eqb_neq in Z1. injection E as <- <-. auto.
Qed.
Lemma rdel_in p m k v : In (k, v) (rdel p m) -> In (k, v) m.
Proof. unfold rdel. intros H. apply filter_In in H. tauto. Qed.
Lemma rdel_keys p m : NoDup (map fst m) -> NoDup (map fst (rdel p m)).
Proof.
  unfold rdel. induction m as [|[k v] m IH]; cbn; intros N; [constructor|]. inversion N as [|? ? N1 N2]; subst.
  destruct (negb (k =? p)); cbn; auto. constructor; auto. intros H. apply N1. apply in_map_iff in H. destruct H as ([k' v'] & E & H).
  cbn in E. subst. apply filter_In in H. change k with (fst (k, v')). apply in_map; tauto.
Qed.

(** Each call that may be made, given what came before it. *)
Definition tok (h : list tout) (c : tout) : Prop :=
  match c with
  | OTimeoutNow p t false => exists i, pending h None = Some (p, i) /\ i < acked p h 0 /\ t = led h 0
  | _ => True
  end.
Fixpoint toks (h o : list tout) : Prop := match o with [] => True | c :: o' => tok h c /\ toks (h ++ [c]) o' end.

Record XI (h : list tout) (s : tnode) : Prop := mkXI {
  x_keys : NoDup (map fst (t_reps s));
  x_last : 0 <= t_last s /\ (t_role s <> TOther -> 1 <= t_last s);
  x_led : t_role s <> TOther -> led h 0 = t_term s;
  x_other : t_role s = TOther -> t_reps s = [];
  x_ack : forall p r, In (p, r) (t_reps s) -> q_succ r = true -> q_ack r <= acked p h 0;
  x_tni : forall p r, In (p, r) (t_reps s) -> q_tni r <> 0 ->
            t_role s = TTransferring /\ q_tni r = t_last s /\ pending h None = Some (p, t_last s);
  x_old : forall t p, In (t, p) (t_timers s) -> t <= t_term s;
  x_lead : t_role s = TLeader -> forall p, ~ In (t_term s, p) (t_timers s);
  x_tr : t_role s = TTransferring -> exists p0, In (t_term s, p0) (t_timers s) /\
           (forall q, In (t_term s, q) (t_timers s) -> q = p0) /\
           (forall p r, In (p, r) (t_reps s) -> q_tni r <> 0 -> p = p0) }.

Lemma init_XI : XI [] tinit.
Proof.
  constructor; cbn; auto; try (intros; tauto); try (intros; discriminate); try (split; [lia|]; congruence). constructor.
Qed.

Lemma scan_some wit conf l : forall mx b p, scan wit conf l mx b = Some p ->
  b = Some p \/ exists r, In (p, r) l /\ In p conf /\ wit p = false /\ errs_of r = 0 /\ mx < next_of r.
Proof.
  induction l as [|[k r] l IH]; intros mx b p H; cbn in H; auto.
  destruct (existsb (Z.eqb k) conf && (errs_of r =? 0) && (mx <? next_of r) && negb (wit k)) eqn:E.
  - apply andb_true_iff in E. destruct E as [E E4]. apply andb_true_iff in E. destruct E as [E E3]. apply andb_true_iff in E. destruct E as [E1 E2].
    apply existsb_exists in E1. destruct E1 as (x & X1 & X2). apply Z.eqb_eq in X2. subst x. apply Z.eqb_eq in E2. apply Z.ltb_lt in E3. apply negb_true_iff in E4.
    destruct (IH _ _ _ H) as [X|(r' & X)].
    + injection X as <-. right. exists r. split; [left; auto|]. auto.
    + right. exists r'. destruct X as (Y1 & Y2 & Y3 & Y4 & Y5). split; [right; auto|]. repeat (split; auto). lia.
  - destruct (IH _ _ _ H) as [X|(r' & X)]; auto. right. exists r'. destruct X as (Y1 & Y). split; [right; auto|auto].
Qed.

Lemma NoDup_app_single {A} (l : list A) x : NoDup l -> ~ In x l -> NoDup (l ++ [x]).
Proof.
  intros N H. induction l as [|y l IH]; cbn; [constructor; auto; constructor|]. inversion N; subst. constructor.
  - intros X. apply in_app_iff in X. destruct X as [X|[X|[]]]; [auto|]. subst. apply H. left; auto.
  - apply IH; auto. intros X. apply H. right; auto.
Qed.

(** One replicator changes. *)
Lemma rset_XI h o s p r r' : XI h s -> rfind p (t_reps s) = Some r ->
  led (h ++ o) 0 = led h 0 -> (forall q, acked q h 0 <= acked q (h ++ o) 0) ->
  (pending (h ++ o) None = pending h None \/ (q_tni r' = 0 /\ exists i, pending h None = Some (p, i))) ->
  (q_succ r' = true -> q_ack r' <= acked p (h ++ o) 0) -> (q_tni r' <> 0 -> q_tni r' = q_tni r) ->
  XI (h ++ o) (set_reps (rset p r' (t_reps s)) s).
Proof.
  intros [K L LD OT AK TN OL LE TR] F HL HA HP HS HT. pose proof (rfind_in _ _ _ F) as Fi.
  assert (T0 : forall q v, In (q, v) (rset p r' (t_reps s)) -> q_tni v <> 0 -> exists v', In (q, v') (t_reps s) /\ q_tni v' = q_tni v /\ q_tni v' <> 0).
  { intros q v Hi Hn. apply rset_in in Hi. destruct Hi as [[-> ->]|[N Hi]]; [|eauto]. exists r. specialize (HT Hn). repeat split; auto; congruence. }
  constructor; cbn [t_role t_term t_busy t_conf t_last t_reps t_timers set_reps]; auto.
  - rewrite rset_keys; auto.
  - intros X. rewrite HL; auto.
  - intros X. specialize (OT X). rewrite OT in Fi. destruct Fi.
  - intros q v Hi Hs. apply rset_in in Hi. destruct Hi as [[-> ->]|[N Hi]]; [auto|]. specialize (AK q v Hi Hs). specialize (HA q). lia.
  - intros q v Hi Hn. destruct (T0 q v Hi Hn) as (v' & I1 & I2 & I3). destruct (TN q v' I1 I3) as (R & X & Y).
    split; auto. split; [congruence|]. destruct HP as [->|[Z1 (i & Z2)]]; auto.
    exfalso. apply rset_in in Hi. destruct Hi as [[-> ->]|[N Hi]]; [congruence|]. rewrite Z2 in Y. injection Y as Y1 Y2. congruence.
  - intros X. destruct (TR X) as (p0 & A & B & C). exists p0. split; auto. split; auto. intros q v Hi Hn.
    destruct (T0 q v Hi Hn) as (v' & I1 & I2 & I3). eauto.
Qed.

(** Nothing but outputs that do not matter. *)
Lemma quiet_XI h o s : XI h s -> (forall c, In c o -> exists p rc, c = OTransfer p rc) -> XI (h ++ o) s /\ toks h o.
Proof.
  intros [K L LD OT AK TN OL LE TR] Q.
  assert (E1 : forall x, pending o x = x /\ led o 0 = 0 /\ True). { intros x. induction o as [|c o IH]; auto. destruct (Q c) as (p & rc & ->); [left; auto|]. apply IH. intros c Hc. apply Q. right; auto. }
  assert (E2 : forall x, led o x = x). { clear E1. intros x. induction o as [|c o IH]; auto. destruct (Q c) as (p & rc & ->); [left; auto|]. apply IH. intros c Hc. apply Q. right; auto. }
  assert (E3 : forall p x, acked p o x = x). { clear E1. intros p x. induction o as [|c o IH]; auto. destruct (Q c) as (q & rc & ->); [left; auto|]. apply IH; [intros c Hc; apply Q; right; auto|]. intros y. apply (E2 y). }
  split.
  - constructor; auto; try (intros; rewrite ?led_app, ?acked_app, ?pending_app, ?E2, ?E3; auto; fail).
    + intros p r Hi Hn. rewrite pending_app. destruct (E1 (pending h None)) as [-> _]. auto.
  - clear - Q. revert h. induction o as [|c o IH]; intros h; cbn; auto. destruct (Q c) as (p & rc & ->); [left; auto|]. split; [exact Logic.I|]. apply IH. intros c Hc. apply Q. right; auto.
Qed.
Lemma quiet1 h s p rc : XI h s -> XI (h ++ [OTransfer p rc]) s /\ toks h [OTransfer p rc].
Proof. intros I. apply quiet_XI; auto. intros c [<-|[]]. eauto. Qed.

Lemma existsb_mem p l : existsb (Z.eqb p) l = true <-> In p l.
Proof.
  rewrite existsb_exists. split; [intros (x & H & E); apply Z.eqb_eq in E; congruence|intros H; exists p; split; auto; apply Z.eqb_refl].
Qed.

(** A transfer starts. *)
Lemma transfer_XI self p ok api h s s' o : XI h s -> t_role s = TLeader -> t_busy s = false ->
  transfer_to self p ok api s = (s', o) -> XI (h ++ o) s' /\ toks h o.
Proof.
  intros I RL _ H. unfold transfer_to in H.
  destruct (p =? self); [injection H as <- <-; apply quiet1; auto|].
  destruct (negb (existsb (Z.eqb p) (t_conf s))); [injection H as <- <-; apply quiet1; auto|].
  destruct (rfind p (t_reps s)) as [r|] eqn:F; [|injection H as <- <-; apply quiet1; auto].
  destruct (0 <? errs_of r); [injection H as <- <-; apply quiet1; auto|].
  destruct (q_dead r) eqn:D; [injection H as <- <-; apply quiet1; auto|].
  pose proof I as [K L LD OT AK TN OL LE TR].
  assert (TZ : forall q v, In (q, v) (t_reps s) -> q_tni v = 0).
  { intros q v Hi. destruct (Z.eq_dec (q_tni v) 0); auto. destruct (TN q v Hi n) as (X & _). congruence. }
  assert (L1 : 1 <= t_last s) by (apply L; congruence). pose proof (rfind_in _ _ _ F) as Fi.
  unfold rtransfer in H. destruct (q_succ r && (t_last s <? q_ack r)) eqn:S.
  - apply andb_true_iff in S. destruct S as [S1 S2]. apply Z.ltb_lt in S2. injection H as <- <-. specialize (AK p r Fi S1).
    assert (T0 : forall q v, In (q, v) (rset p (set_tni 0 r) (t_reps s)) -> q_tni v = 0).
    { intros q v Hi. apply rset_in in Hi. destruct Hi as [[-> ->]|[N Hi]]; eauto. }
    split.
    + constructor; cbn [t_role t_term t_busy t_conf t_last t_reps t_timers set_reps set_trole set_tmr]; auto; try (intros; discriminate).
      * rewrite rset_keys; auto.
      * split; [tauto|auto].
      * intros _. rewrite led_app. cbn. apply LD. congruence.
      * intros q v Hi Hs. rewrite acked_app. cbn. apply rset_in in Hi. destruct Hi as [[-> ->]|[N Hi]]; [exact AK|apply (x_ack _ _ I); auto].
      * intros q v Hi Hn. specialize (T0 q v Hi). congruence.
      * intros t q Hi. apply in_app_iff in Hi. destruct Hi as [Hi|[[= <- <-]|[]]]; [eauto|lia].
      * intros _. exists p. split; [apply in_app_iff; right; left; auto|]. split.
        -- intros q Hi. apply in_app_iff in Hi. destruct Hi as [Hi|[[= <-]|[]]]; auto. exfalso. eapply LE; eauto.
        -- intros q v Hi Hn. specialize (T0 q v Hi). congruence.
    + cbn. split; auto. split; auto. exists (t_last s). rewrite !pending_app, acked_app, led_app. cbn. split; auto. split; [lia|]. symmetry. apply LD. congruence.
  - injection H as <- <-.
    assert (T0 : forall q v, In (q, v) (rset p (set_tni (t_last s) r) (t_reps s)) -> q_tni v <> 0 -> q = p /\ q_tni v = t_last s).
    { intros q v Hi Hn. apply rset_in in Hi. destruct Hi as [[-> ->]|[N Hi]]; auto. specialize (TZ q v Hi). congruence. }
    split; [|cbn; auto].
    constructor; cbn [t_role t_term t_busy t_conf t_last t_reps t_timers set_reps set_trole set_tmr]; auto; try (intros; discriminate).
    + rewrite rset_keys; auto.
    + split; [tauto|auto].
    + intros _. rewrite led_app. cbn. apply LD. congruence.
    + intros q v Hi Hs. rewrite acked_app. cbn. apply rset_in in Hi. destruct Hi as [[-> ->]|[N Hi]]; [cbn in Hs; change (q_ack (set_tni (t_last s) r)) with (q_ack r); apply (AK p r); auto|auto].
    + intros q v Hi Hn. destruct (T0 q v Hi Hn) as [-> E]. split; auto. split; auto. rewrite pending_app. reflexivity.
    + intros t q Hi. apply in_app_iff in Hi. destruct Hi as [Hi|[[= <- <-]|[]]]; [eauto|lia].
    + intros _. exists p. split; [apply in_app_iff; right; left; auto|]. split.
      * intros q Hi. apply in_app_iff in Hi. destruct Hi as [Hi|[[= <-]|[]]]; auto. exfalso. eapply LE; eauto.
      * intros q v Hi Hn. apply (T0 q v Hi Hn).
Qed.

(** Nothing happens at all. *)
Lemma same_XI h s : XI h s -> XI (h ++ []) s /\ toks h [].
Proof. intros I. rewrite app_nil_r. split; auto. exact Logic.I. Qed.

Lemma stepped_XI h s t o : XI h s -> (o = [] \/ exists p, o = [OTimeoutNow p (t_term s) true]) ->
  XI (h ++ (o ++ [OStepped])) (mkTN TOther (Z.max t (t_term s)) false (t_conf s) (t_last s) [] (t_timers s)) /\ toks h (o ++ [OStepped]).
Proof.
  intros [K L LD OT AK TN OL LE TR] Ho. split.
  - constructor; cbn [t_role t_term t_busy t_conf t_last t_reps t_timers]; auto; try (intros; discriminate); try (intros; tauto); try (intros ? ? []).
    + constructor.
    + intros x p Hi. specialize (OL x p Hi). lia.
  - destruct Ho as [->|(p & ->)]; cbn; auto.
Qed.

Lemma step_XI self wit h s e s' o : XI h s -> tstep self wit s e = Some (s', o) -> XI (h ++ o) s' /\ toks h o.
Proof.
  intros I H. pose proof I as [K L LD OT AK TN OL LE TR]. destruct e; cbn [tstep] in H.
  - (* transfer to a peer *)
    destruct (t_role s) eqn:R; [|injection H as <- <-; apply quiet1; auto|injection H as <- <-; apply quiet1; auto].
    destruct (t_busy s) eqn:B; [injection H as <- <-; apply quiet1; auto|]. injection H as H. eapply transfer_XI; eauto.
  - destruct (t_role s) eqn:R; [|injection H as <- <-; apply quiet1; auto|injection H as <- <-; apply quiet1; auto].
    destruct (t_busy s) eqn:B; [injection H as <- <-; apply quiet1; auto|].
    destruct (in_order order (t_reps s)); [|discriminate]. destruct (scan wit (t_conf s) l 0 None); [|injection H as <- <-; apply quiet1; auto].
    injection H as H. eapply transfer_XI; eauto.
  - (* the timer *)
    destruct (existsb (fun x => (fst x =? t) && (snd x =? p)) (t_timers s)) eqn:X; [|discriminate]. apply existsb_exists in X. destruct X as ([t0 p0] & X1 & X2). cbn in X2.
    apply andb_true_iff in X2. destruct X2 as [X2 X3]. apply Z.eqb_eq in X2, X3. subst t0 p0.
    set (s0 := set_tmr (filter (fun x => negb ((fst x =? t) && (snd x =? p))) (t_timers s)) s) in *.
    assert (TI : forall x q, In (x, q) (t_timers s0) -> In (x, q) (t_timers s) /\ (x <> t \/ q <> p)).
    { intros x q Hi. unfold s0 in Hi. cbn in Hi. apply filter_In in Hi. destruct Hi as [H1 H2]. split; auto. cbn in H2. apply negb_true_iff, andb_false_iff in H2.
      destruct H2 as [H2|H2]; apply Z.eqb_neq in H2; auto. }
    destruct (t =? t_term s) eqn:T1.
    + apply Z.eqb_eq in T1. subst t.
      set (s1 := match rfind p (t_reps s0) with Some r => set_reps (rset p (set_tni 0 r) (t_reps s0)) s0 | None => s0 end) in *.
      assert (P1 : t_role s1 = t_role s /\ t_term s1 = t_term s /\ t_last s1 = t_last s /\ t_timers s1 = t_timers s0 /\ map fst (t_reps s1) = map fst (t_reps s)).
      { unfold s1. destruct (rfind p (t_reps s0)); cbn [t_role t_term t_last t_timers t_reps set_reps]; rewrite ?rset_keys; repeat split; reflexivity. }
      destruct P1 as (P1 & P2 & P3 & P4 & P5).
      assert (P6 : forall q v, In (q, v) (t_reps s1) -> exists v', In (q, v') (t_reps s) /\ q_succ v' = q_succ v /\ q_ack v' = q_ack v /\ (q_tni v <> 0 -> q_tni v' = q_tni v /\ q <> p)).
      { intros q v Hi. unfold s1 in Hi. change (t_reps s0) with (t_reps s) in Hi. destruct (rfind p (t_reps s)) as [r|] eqn:F.
        - cbn in Hi. apply rset_in in Hi. destruct Hi as [[-> ->]|[N Hi]].
          + exists r. split; [apply rfind_in; auto|]. cbn. repeat split; auto; congruence.
          + exists v. auto.
        - exists v. repeat split; auto. intros ->. pose proof (in_rfind p (t_reps s) v K Hi). congruence. }
      clearbody s1. destruct (t_role s1) eqn:R1.
      * (* leader: impossible *) exfalso. eapply LE; eauto.
      * (* transferring: resume *)
        assert (R : t_role s = TTransferring) by congruence. destruct (TR R) as (p0 & A & B & C). assert (p = p0) by (apply B; auto). subst p0.
        injection H as <- <-. split; [|cbn; auto].
        assert (T0 : forall q v, In (q, v) (t_reps s1) -> q_tni v = 0).
        { intros q v Hi. destruct (Z.eq_dec (q_tni v) 0); auto. destruct (P6 q v Hi) as (v' & V1 & V2 & V3 & V4). destruct (V4 n) as [V5 V6].
          exfalso. apply V6. apply (C q v'); auto. congruence. }
        constructor; cbn [t_role t_term t_busy t_conf t_last t_reps t_timers set_trole]; rewrite ?P2, ?P3, ?P4, ?P5; auto; try (intros; discriminate).
        -- split; [tauto|]. intros _. apply L. congruence.
        -- intros _. rewrite led_app. cbn. apply LD. congruence.
        -- intros q v Hi Hs. rewrite acked_app. cbn. destruct (P6 q v Hi) as (v' & V1 & V2 & V3 & V4). rewrite <- V3. apply AK; auto. congruence.
        -- intros q v Hi Hn. specialize (T0 q v Hi). congruence.
        -- intros x q Hi. apply TI in Hi. destruct Hi. eauto.
        -- intros _ q Hi. apply TI in Hi. destruct Hi as [H1 H2]. specialize (B q H1). destruct H2; congruence.
      * (* stepped down *)
        injection H as <- <-. rewrite app_nil_r. split; [|exact Logic.I].
        assert (R : t_role s = TOther) by congruence. specialize (OT R). 
        assert (E0 : t_reps s1 = []) by (destruct (t_reps s1) as [|[q v] m]; auto; destruct (P6 q v) as (v' & V1 & _); [left; auto|]; rewrite OT in V1; destruct V1).
        constructor; rewrite ?E0, ?R1, ?P2, ?P3, ?P4; auto; try (intros; discriminate); try (intros; tauto); try (intros ? ? []).
        -- constructor.
        -- intros x q Hi. apply TI in Hi. destruct Hi. eauto.
    + apply Z.eqb_neq in T1. injection H as <- <-. rewrite app_nil_r. split; [|exact Logic.I].
      constructor; cbn [t_role t_term t_busy t_conf t_last t_reps s0 set_tmr]; auto.
      * intros x q Hi. apply TI in Hi. destruct Hi. eauto.
      * intros R q Hi. apply TI in Hi. destruct Hi as [H1 _]. eapply LE; eauto.
      * intros R. destruct (TR R) as (p0 & A & B & C). exists p0. split; [|split; auto].
        -- unfold s0. cbn. apply filter_In. split; auto. cbn. apply negb_true_iff, andb_false_iff. left. apply Z.eqb_neq. auto.
        -- intros q Hi. apply TI in Hi. destruct Hi as [H1 _]. auto.
  - (* success *)
    destruct (rfind p (t_reps s)) as [r|] eqn:F; [|discriminate]. destruct (q_dead r) eqn:D; [discriminate|]. pose proof (rfind_in _ _ _ F) as Fi.
    assert (AA : forall o', (o' = [] \/ o' = [OTimeoutNow p (t_term s) false]) -> (forall q, acked q h 0 <= acked q (h ++ OAck p a :: o') 0) /\ a <= acked p (h ++ OAck p a :: o') 0).
    { intros o' Ho. assert (Z1 : forall q x, acked q o' x = x) by (intros q x; destruct Ho as [->| ->]; reflexivity). split.
      - intros q. rewrite acked_app. cbn [acked]. rewrite Z1. destruct (p =? q); lia.
      - rewrite acked_app. cbn [acked]. rewrite Z1, Z.eqb_refl. lia. }
    destruct ((0 <? q_tni r) && (q_tni r <? a)) eqn:Z1; injection H as <- <-.
    + apply andb_true_iff in Z1. destruct Z1 as [Z1 Z2]. apply Z.ltb_lt in Z1, Z2. destruct (AA [OTimeoutNow p (t_term s) false]) as [A1 A2]; [auto|].
      destruct (TN p r Fi) as (T1 & T2 & T3); [lia|]. split.
      * apply rset_XI with r; auto; cbn [q_tni q_succ q_ack]; auto.
        -- rewrite led_app. reflexivity.
        -- right. split; auto. eauto.
        -- congruence.
      * cbn. split; auto. split; auto. exists (t_last s). rewrite pending_app, acked_app, led_app. cbn. rewrite Z.eqb_refl. split; auto. split; [lia|]. symmetry. apply LD. congruence.
    + destruct (AA []) as [A1 A2]; [auto|]. split; [|cbn; auto]. apply rset_XI with r; auto; cbn [q_tni q_succ q_ack]; auto.
      * rewrite led_app. reflexivity.
      * left. rewrite pending_app. reflexivity.
  - destruct (rfind p (t_reps s)) as [r|] eqn:F; [|discriminate]. destruct (q_dead r || (q_ack r <? a)) eqn:D; [discriminate|].
    apply orb_false_iff in D. destruct D as [D1 D2]. apply Z.ltb_ge in D2.
    injection H as <- <-. split; [|exact Logic.I]. apply rset_XI with r; auto; cbn [q_tni q_succ q_ack]; rewrite ?app_nil_r; auto; try lia.
    intros Hs. specialize (AK p r (rfind_in _ _ _ F) Hs). lia.
  - destruct (rfind p (t_reps s)) as [r|] eqn:F; [|discriminate]. destruct (q_dead r) eqn:D; [discriminate|].
    injection H as <- <-. split; [|exact Logic.I]. apply rset_XI with r; auto; cbn [q_tni q_succ q_ack]; rewrite ?app_nil_r; auto; try lia.
    intros Hs. exact (AK p r (rfind_in _ _ _ F) Hs).
  - destruct (rfind p (t_reps s)) as [r|] eqn:F; [|discriminate].
    injection H as <- <-. split; [|exact Logic.I]. apply rset_XI with r; auto; cbn [q_tni q_succ q_ack]; rewrite ?app_nil_r; auto; try lia.
    intros Hs. exact (AK p r (rfind_in _ _ _ F) Hs).
  - injection H as <- <-. apply (stepped_XI h s t []); auto.
  - destruct (in_order order (t_reps s)); [|discriminate]. injection H as <- <-. apply stepped_XI; auto.
    destruct (scan _ _ _ _ _); auto. destruct (rfind p (t_reps s)) as [r|]; auto. destruct (q_dead r); eauto.
  - destruct (t_role s) eqn:R; try discriminate. destruct (t_term s <? t) eqn:T1; [|discriminate]. apply Z.ltb_lt in T1. injection H as <- <-. split; [|cbn; auto].
    constructor; cbn [t_role t_term t_busy t_conf t_last t_reps t_timers]; auto; try (intros; discriminate).
    + rewrite map_map. cbn. rewrite map_id. apply NoDup_filter, NoDup_nodup.
    + split; [lia|]. intros _. lia.
    + intros _. rewrite led_app. reflexivity.
    + intros q v Hi Hs. apply in_map_iff in Hi. destruct Hi as (x & [= <- <-] & _). discriminate.
    + intros q v Hi Hn. apply in_map_iff in Hi. destruct Hi as (x & [= <- <-] & _). cbn in Hn. congruence.
    + intros x q Hi. specialize (OL x q Hi). lia.
    + intros _ q Hi. specialize (OL t q Hi). lia.
  - destruct (t_role s) eqn:R; try discriminate. destruct (0 <=? n) eqn:Z1; [|discriminate]. apply Z.leb_le in Z1. injection H as <- <-. rewrite app_nil_r. split; [|exact Logic.I].
    specialize (OT eq_refl). constructor; cbn [t_role t_term t_busy t_conf t_last t_reps t_timers]; rewrite ?R, ?OT in *; auto; try (intros; discriminate); try (intros; tauto).
    intros ? ? [].
  - destruct (t_role s) eqn:R; injection H as <- <-; try (apply same_XI; exact I). split; [|cbn; auto].
    assert (TZ : forall q v, In (q, v) (t_reps s) -> q_tni v = 0).
    { intros q v Hi. destruct (Z.eq_dec (q_tni v) 0); auto. destruct (TN q v Hi n) as (X & _). discriminate. }
    constructor; cbn [t_role t_term t_busy t_conf t_last t_reps t_timers]; rewrite ?R; auto; try (intros; discriminate).
    + split; [lia|]. intros _. lia.
    + intros _. rewrite led_app. cbn. apply LD. discriminate.
    + intros q v Hi Hs. rewrite acked_app. cbn. auto.
    + intros q v Hi Hn. specialize (TZ q v Hi). congruence.
  - destruct (t_role s) eqn:R; injection H as <- <-; try (apply same_XI; exact I). split; [|cbn; auto].
    assert (TZ : forall q v, In (q, v) (t_reps s) -> q_tni v = 0).
    { intros q v Hi. destruct (Z.eq_dec (q_tni v) 0); auto. destruct (TN q v Hi n) as (X & _). discriminate. }
    constructor; cbn [t_role t_term t_busy t_conf t_last t_reps t_timers]; rewrite ?R; auto; try (intros; discriminate).
    + split; [lia|]. intros _. lia.
    + intros _. rewrite led_app. cbn. apply LD. discriminate.
    + intros q v Hi Hs. rewrite acked_app. cbn. auto.
    + intros q v Hi Hn. specialize (TZ q v Hi). congruence.
  - destruct (t_role s) eqn:R; injection H as <- <-; try (apply same_XI; exact I). rewrite app_nil_r. split; [|exact Logic.I].
    constructor; cbn [t_role t_term t_busy t_conf t_last t_reps t_timers]; rewrite ?R; auto; try (intros; discriminate).
  - destruct (t_role s) eqn:R; try (injection H as <- <-; apply same_XI; auto; fail).
    destruct (rfind p (t_reps s)) as [r|] eqn:F; injection H as <- <-; [apply same_XI; auto|]. rewrite app_nil_r. split; [|exact Logic.I].
    constructor; cbn [t_role t_term t_busy t_conf t_last t_reps t_timers set_reps]; rewrite ?R; auto; try (intros; discriminate).
    + rewrite map_app. cbn. apply NoDup_app_single; auto. intros Hi. apply in_map_iff in Hi. destruct Hi as ([q v] & E & Hi). cbn in E. subst q.
      pose proof (in_rfind _ _ _ K Hi). congruence.
    + intros q v Hi Hs. apply in_app_iff in Hi. destruct Hi as [Hi|[[= <- <-]|[]]]; [auto|discriminate].
    + intros q v Hi Hn. apply in_app_iff in Hi. destruct Hi as [Hi|[[= <- <-]|[]]]; [|cbn in Hn; congruence]. destruct (TN q v Hi Hn) as (X & _). discriminate.
  - injection H as <- <-. rewrite app_nil_r. split; [|exact Logic.I].
    constructor; cbn [t_role t_term t_busy t_conf t_last t_reps t_timers set_reps]; auto.
    + apply rdel_keys; auto.
    + intros R. rewrite OT; auto.
    + intros q v Hi Hs. apply rdel_in in Hi. auto.
    + intros q v Hi Hn. apply rdel_in in Hi. auto.
    + intros R. destruct (TR R) as (p0 & A & B & C). exists p0. split; auto. split; auto. intros q v Hi Hn. apply rdel_in in Hi. eauto.
Qed.

Lemma toks_split h o : toks h o -> forall o1 c o2, o = o1 ++ c :: o2 -> tok (h ++ o1) c.
Proof.
  revert h. induction o as [|x o IH]; intros h H o1 c o2 E; [destruct o1; discriminate|].
  destruct H as [H1 H2]. destruct o1 as [|y o1]; cbn in E; injection E as <- E.
  - rewrite app_nil_r; auto.
  - specialize (IH _ H2 o1 c o2 E). rewrite <- app_assoc in IH. exact IH.
Qed.

Lemma run_XI self wit es : forall h s s' o, XI h s -> trun self wit s es = Some (s', o) ->
  XI (h ++ o) s' /\ forall o1 c o2, o = o1 ++ c :: o2 -> tok (h ++ o1) c.
Proof.
  induction es as [|e es IH]; intros h s s' o I H; cbn in H.
  - injection H as <- <-. rewrite app_nil_r. split; auto. intros o1 c o2 E. destruct o1; discriminate.
  - destruct (tstep self wit s e) as [[s1 p1]|] eqn:E1; [|discriminate]. destruct (trun self wit s1 es) as [[s2 p2]|] eqn:E2; [|discriminate].
    injection H as <- <-. destruct (step_XI self wit h s e s1 p1 I E1) as [I1 C1]. destruct (IH _ _ _ _ I1 E2) as [I2 C2].
    rewrite app_assoc. split; auto. intros o1 c o2 E.
    assert (X : (exists l, p1 = o1 ++ c :: l) \/ exists l, o1 = p1 ++ l /\ p2 = l ++ c :: o2).
    { clear - E. revert o1 E. induction p1 as [|x p1 IH]; intros o1 E; cbn in *; [right; exists o1; auto|].
      destruct o1 as [|y o1]; cbn in E; injection E as -> E; [left; exists p1; auto|]. destruct (IH o1 E) as [(l & ->)|(l & -> & Q)]; [left; exists l; auto|right; exists l; auto]. }
    destruct X as [(l & X)|(l & X & Y)].
    + eapply toks_split; eauto.
    + subst o1. specialize (C2 l c o2 Y). rewrite app_assoc. auto.
Qed.
Lemma init_run self wit es s h : trun self wit tinit es = Some (s, h) -> XI h s /\ forall h1 c h2, h = h1 ++ c :: h2 -> tok h1 c.
Proof. intros H. exact (run_XI self wit es [] tinit s h init_XI H). Qed.


(** The choice of a candidate. *)
Lemma remove_perm p l : forall l', NoDup (map fst l) -> remove_kv p l = Some l' ->
  exists r, In (p, r) l /\ (forall k v, In (k, v) l <-> (k = p /\ v = r) \/ In (k, v) l') /\ NoDup (map fst l') /\ ~ In p (map fst l').
Proof.
  induction l as [|[k v] l IH]; intros l' N H; cbn in H; [discriminate|]. cbn in N. apply NoDup_cons_iff in N. destruct N as [N1 N2].
  destruct (k =? p) eqn:E.
  - apply Z.eqb_eq in E. subst k. injection H as <-. exists v. split; [left; auto|]. split; [|split; auto].
    intros k' v'. cbn. split; [intros [[= <- <-]|X]; auto|intros [[-> ->]|X]; auto].
  - apply Z.eqb_neq in E. destruct (remove_kv p l) as [l1|]; [|discriminate]. injection H as <-. destruct (IH l1 N2 eq_refl) as (r & A & B & C & D).
    exists r. split; [right; auto|]. split; [|split].
    + intros k' v'. cbn. rewrite B. tauto.
    + cbn. constructor; auto. intros X. apply N1. apply in_map_iff in X. destruct X as ([k' v'] & X1 & X2). cbn in X1. subst k'.
      change k with (fst (k, v')). apply in_map. apply B. auto.
    + cbn. intros [X|X]; [congruence|auto].
Qed.

Lemma in_order_same ps : forall l l', NoDup (map fst l) -> in_order ps l = Some l' -> forall k v, In (k, v) l' <-> In (k, v) l.
Proof.
  induction ps as [|p ps IH]; intros l l' N H k v; cbn in H.
  - destruct l; [injection H as <-; tauto|discriminate].
  - destruct (rfind p l) as [r|] eqn:F; [|discriminate]. destruct (remove_kv p l) as [l1|] eqn:R; [|discriminate].
    destruct (in_order ps l1) as [l2|] eqn:O; [|discriminate]. injection H as <-.
    destruct (remove_perm p l l1 N R) as (r' & A & B & C & D). assert (r' = r) by (pose proof (in_rfind _ _ _ N A); congruence). subst r'.
    cbn. rewrite (IH l1 l2 C O k v), B. split; [intros [[= <- <-]|X]; auto|intros [[-> ->]|X]; auto].
Qed.

Definition able (wit : peer -> bool) (conf : list peer) (l : list (peer * trep)) (p : peer) (a : Z) : Prop :=
  exists r, In (p, r) l /\ In p conf /\ wit p = false /\ errs_of r = 0 /\ next_of r = a.

Lemma scan_best wit conf l : forall mx b p, scan wit conf l mx b = Some p ->
  (b = Some p /\ forall q a, able wit conf l q a -> a <= mx) \/
  (exists a, able wit conf l p a /\ mx < a /\ forall q c, able wit conf l q c -> c <= a).
Proof.
  induction l as [|[k r] l IH]; intros mx b p H; cbn in H.
  - left. split; auto. intros q a (r & [] & _).
  - destruct (existsb (Z.eqb k) conf && (errs_of r =? 0) && (mx <? next_of r) && negb (wit k)) eqn:E.
    + apply andb_true_iff in E. destruct E as [E E4]. apply andb_true_iff in E. destruct E as [E E3]. apply andb_true_iff in E. destruct E as [E1 E2].
      apply existsb_mem in E1. apply Z.eqb_eq in E2. apply Z.ltb_lt in E3. apply negb_true_iff in E4. right.
      destruct (IH _ _ _ H) as [[X Y]|(a & (r' & A1 & A2) & B & C)].
      * injection X as ->. exists (next_of r). split; [exists r; split; [left; auto|auto]|]. split; auto.
        intros q c (r2 & [[= <- <-]|I2] & J); [lia|]. apply (Y q). exists r2. auto.
      * exists a. split; [exists r'; split; [right; auto|auto]|]. split; [lia|].
        intros q c (r2 & [[= <- <-]|I2] & J); [lia|]. apply (C q). exists r2. auto.
    + assert (X : forall a, able wit conf [(k, r)] k a -> a <= mx).
      { intros a (r0 & [[= ->]|[]] & J1 & J2 & J3 & J4). rewrite J2, J3 in E. apply existsb_mem in J1. rewrite J1 in E. cbn in E.
        rewrite andb_true_r in E. apply Z.ltb_ge in E. lia. }
      destruct (IH _ _ _ H) as [[Y Z0]|(a & (r' & A1 & A2) & B & C)].
      * left. split; auto. intros q a (r2 & [[= <- <-]|I2] & J); [apply X; exists r; split; [left; auto|auto]|]. apply (Z0 q). exists r2. auto.
      * right. exists a. split; [exists r'; split; [right; auto|auto]|]. split; auto.
        intros q c (r2 & [[= <- <-]|I2] & J); [|apply (C q); exists r2; auto]. assert (c <= mx) by (apply X; exists r; split; [left; auto|auto]). lia.
Qed.

Lemma scan_none wit conf l : forall mx b, scan wit conf l mx b = None -> b = None /\ forall q a, able wit conf l q a -> a <= mx.
Proof.
  induction l as [|[k r] l IH]; intros mx b H; cbn in H.
  - split; auto. intros q a (r & [] & _).
  - destruct (existsb (Z.eqb k) conf && (errs_of r =? 0) && (mx <? next_of r) && negb (wit k)) eqn:E.
    + destruct (IH _ _ H). discriminate.
    + destruct (IH _ _ H) as [X Y]. split; auto. intros q a (r2 & [[= <- <-]|I2] & J1 & J2 & J3 & J4); [|apply (Y q); exists r2; auto].
      rewrite J2, J3 in E. apply existsb_mem in J1. rewrite J1 in E. cbn in E. rewrite andb_true_r in E. apply Z.ltb_ge in E. lia.
Qed.

Lemma able_eligible wit s l p a : (forall k v, In (k, v) l <-> In (k, v) (t_reps s)) -> 0 < a -> (able wit (t_conf s) l p a <-> eligible wit s p a).
Proof.
  intros E Ha. unfold able, eligible. split.
  - intros (r & A & B & C & D & F). split; auto. split; auto. exists r. unfold errs_of in D. unfold next_of in F. destruct (q_dead r); [lia|].
    destruct (q_succ r); [|lia]. rewrite <- E. auto 8.
  - intros (B & C & r & A & D & F & G & J & K). exists r. rewrite E. unfold errs_of, next_of. rewrite D, F. auto.
Qed.

Lemma pick_best wit s order l p : NoDup (map fst (t_reps s)) -> in_order order (t_reps s) = Some l -> scan wit (t_conf s) l 0 None = Some p -> best wit s p.
Proof.
  intros N O H. pose proof (in_order_same _ _ _ N O) as P. destruct (scan_best _ _ _ _ _ _ H) as [[X _]|(a & A & B & C)]; [discriminate|].
  exists a. split; [apply (able_eligible wit s l p a P B); auto|]. intros q b Q. apply (C q). apply (able_eligible wit s l q b P); auto. destruct Q as (_ & _ & r & Q). tauto.
Qed.
Lemma pick_none wit s order l : NoDup (map fst (t_reps s)) -> in_order order (t_reps s) = Some l -> scan wit (t_conf s) l 0 None = None -> forall p a, ~ eligible wit s p a.
Proof.
  intros N O H p a Q. pose proof (in_order_same _ _ _ N O) as P. destruct (scan_none _ _ _ _ _ H) as [_ Y].
  assert (0 < a) by (destruct Q as (_ & _ & r & Q); tauto). apply (able_eligible wit s l p a P) in Q; auto. apply Y in Q. lia.
Qed.

Lemma moving_app a b x : moving (a ++ b) x = moving b (moving a x).
Proof. revert x. induction a as [|c a IH]; intros x; cbn; auto. destruct c; cbn; auto. Qed.

(** While the leadership is being moved nothing is appended. *)
Definition mvok (h : list tout) (c : tout) : Prop := match c with OAppended | OStarted _ _ => moving h false = false | _ => True end.
Fixpoint mvoks (h o : list tout) : Prop := match o with [] => True | c :: o' => mvok h c /\ mvoks (h ++ [c]) o' end.
Definition mvst (h : list tout) (s : tnode) : Prop := moving h false = true <-> t_role s = TTransferring.

Lemma transfer_mv self p ok api h s s' o : mvst h s -> t_role s = TLeader -> transfer_to self p ok api s = (s', o) -> mvst (h ++ o) s' /\ mvoks h o.
Proof.
  intros M R H. assert (M0 : moving h false = false) by (destruct (moving h false) eqn:E; auto; destruct M as [M _]; rewrite (M E) in R; discriminate).
  unfold transfer_to in H.
  assert (Q : forall rc, mvst (h ++ [OTransfer api rc]) s /\ mvoks h [OTransfer api rc]).
  { intros rc. split; [unfold mvst; rewrite moving_app; exact M|]. cbn; auto. }
  destruct (p =? self); [injection H as <- <-; apply Q|]. destruct (negb _); [injection H as <- <-; apply Q|].
  destruct (rfind p (t_reps s)) as [r|]; [|injection H as <- <-; apply Q]. destruct (0 <? errs_of r); [injection H as <- <-; apply Q|].
  destruct (q_dead r); [injection H as <- <-; apply Q|]. unfold rtransfer in H.
  destruct (q_succ r && (t_last s <? q_ack r)); injection H as <- <-; (split; [unfold mvst; rewrite moving_app; cbn; tauto|cbn; auto]).
Qed.

Lemma step_mv self wit h s e s' o : XI h s -> mvst h s -> tstep self wit s e = Some (s', o) -> mvst (h ++ o) s' /\ mvoks h o.
Proof.
  intros I M H.
  assert (NOOP : mvst (h ++ []) s /\ mvoks h []) by (rewrite app_nil_r; cbn; auto).
  assert (Q : forall c, (forall b, moving [c] b = b) -> mvok h c -> mvst (h ++ [c]) s /\ mvoks h [c]).
  { intros c Hc Hm. split; [unfold mvst; rewrite moving_app, Hc; exact M|]. cbn; auto. }
  assert (Q0 : forall s1, t_role s1 = t_role s -> mvst (h ++ []) s1 /\ mvoks h []).
  { intros s1 E. rewrite app_nil_r. unfold mvst. rewrite E. cbn; auto. }
  assert (M0 : t_role s <> TTransferring -> moving h false = false).
  { intros N. destruct (moving h false) eqn:E; auto. exfalso. apply N, M. auto. }
  destruct e; cbn [tstep] in H.
  - destruct (t_role s) eqn:R; [|injection H as <- <-; apply Q; cbn; auto|injection H as <- <-; apply Q; cbn; auto].
    destruct (t_busy s); [injection H as <- <-; apply Q; cbn; auto|]. injection H as H. eapply transfer_mv; eauto.
  - destruct (t_role s) eqn:R; [|injection H as <- <-; apply Q; cbn; auto|injection H as <- <-; apply Q; cbn; auto].
    destruct (t_busy s); [injection H as <- <-; apply Q; cbn; auto|]. destruct (in_order order (t_reps s)); [|discriminate].
    destruct (scan wit (t_conf s) l 0 None); [|injection H as <- <-; apply Q; cbn; auto]. injection H as H. eapply transfer_mv; eauto.
  - destruct (existsb (fun x => (fst x =? t) && (snd x =? p)) (t_timers s)) eqn:X; [|discriminate].
    set (s0 := set_tmr (filter (fun x => negb ((fst x =? t) && (snd x =? p))) (t_timers s)) s) in *.
    destruct (t =? t_term s).
    + set (s1 := match rfind p (t_reps s0) with Some r => set_reps (rset p (set_tni 0 r) (t_reps s0)) s0 | None => s0 end) in *.
      assert (R1 : t_role s1 = t_role s) by (unfold s1; destruct (rfind p (t_reps s0)); reflexivity). clearbody s1.
      destruct (t_role s1) eqn:R2; injection H as <- <-; try (apply Q0; congruence).
      split; [unfold mvst; rewrite moving_app; cbn; split; discriminate|cbn; auto].
    + injection H as <- <-. apply Q0. reflexivity.
  - destruct (rfind p (t_reps s)) as [r|]; [|discriminate]. destruct (q_dead r); [discriminate|].
    destruct (_ && _); injection H as <- <-; (split; [unfold mvst; rewrite moving_app; exact M|cbn; auto]).
  - destruct (rfind p (t_reps s)) as [r|]; [|discriminate]. destruct (_ || _); [discriminate|]. injection H as <- <-. apply Q0. reflexivity.
  - destruct (rfind p (t_reps s)) as [r|]; [|discriminate]. destruct (q_dead r); [discriminate|]. injection H as <- <-. apply Q0. reflexivity.
  - destruct (rfind p (t_reps s)) as [r|]; [|discriminate]. injection H as <- <-. apply Q0. reflexivity.
  - injection H as <- <-. split; [unfold mvst; rewrite moving_app; cbn; split; discriminate|cbn; auto].
  - destruct (in_order order (t_reps s)); [|discriminate]. destruct (scan wit (t_conf s) l 0 None) as [p|].
    + destruct (rfind p (t_reps s)) as [r|]; [destruct (q_dead r)|]; injection H as <- <-;
        (split; [unfold mvst; rewrite moving_app; cbn; split; discriminate|cbn; auto]).
    + injection H as <- <-. split; [unfold mvst; rewrite moving_app; cbn; split; discriminate|cbn; auto].
  - destruct (t_role s) eqn:R; try discriminate. destruct (t_term s <? t); [|discriminate]. injection H as <- <-.
    split; [unfold mvst; rewrite moving_app; cbn; split; discriminate|]. cbn. split; auto. split; auto. rewrite moving_app. reflexivity.
  - destruct (t_role s) eqn:R; try discriminate. destruct (0 <=? n); [|discriminate]. injection H as <- <-. apply Q0. cbn. auto.
  - destruct (t_role s) eqn:R; injection H as <- <-; try exact NOOP.
    split; [unfold mvst; rewrite moving_app; cbn [t_role moving]; unfold mvst in M; rewrite R in M; exact M|]. cbn. split; auto. apply M0. discriminate.
  - destruct (t_role s) eqn:R; injection H as <- <-; try exact NOOP.
    split; [unfold mvst; rewrite moving_app; cbn [t_role moving]; unfold mvst in M; rewrite R in M; exact M|]. cbn. split; auto. apply M0. discriminate.
  - destruct (t_role s) eqn:R; injection H as <- <-; try exact NOOP. apply Q0. reflexivity.
  - destruct (t_role s) eqn:R; try (injection H as <- <-; exact NOOP).
    destruct (rfind p (t_reps s)); injection H as <- <-; [exact NOOP|apply Q0; cbn; auto].
  - injection H as <- <-. apply Q0. reflexivity.
Qed.

Lemma mvoks_split h o : mvoks h o -> forall o1 c o2, o = o1 ++ c :: o2 -> mvok (h ++ o1) c.
Proof.
  revert h. induction o as [|x o IH]; intros h H o1 c o2 E; [destruct o1; discriminate|].
  destruct H as [H1 H2]. destruct o1 as [|y o1]; cbn in E; injection E as <- E.
  - rewrite app_nil_r; auto.
  - specialize (IH _ H2 o1 c o2 E). rewrite <- app_assoc in IH. exact IH.
Qed.

Lemma run_mv self wit es : forall h s s' o, XI h s -> mvst h s -> trun self wit s es = Some (s', o) ->
  mvst (h ++ o) s' /\ forall o1 c o2, o = o1 ++ c :: o2 -> mvok (h ++ o1) c.
Proof.
  induction es as [|e es IH]; intros h s s' o I M H; cbn in H.
  - injection H as <- <-. rewrite app_nil_r. split; auto. intros o1 c o2 E. destruct o1; discriminate.
  - destruct (tstep self wit s e) as [[s1 p1]|] eqn:E1; [|discriminate]. destruct (trun self wit s1 es) as [[s2 p2]|] eqn:E2; [|discriminate].
    injection H as <- <-. destruct (step_XI self wit h s e s1 p1 I E1) as [I1 _]. destruct (step_mv self wit h s e s1 p1 I M E1) as [M1 C1].
    destruct (IH _ _ _ _ I1 M1 E2) as [I2 C2].
    rewrite app_assoc. split; auto. intros o1 c o2 E.
    assert (X : (exists l, p1 = o1 ++ c :: l) \/ exists l, o1 = p1 ++ l /\ p2 = l ++ c :: o2).
    { clear - E. revert o1 E. induction p1 as [|x p1 IH]; intros o1 E; cbn in *; [right; exists o1; auto|].
      destruct o1 as [|y o1]; cbn in E; injection E as -> E; [left; exists p1; auto|]. destruct (IH o1 E) as [(l & ->)|(l & -> & Q)]; [left; exists l; auto|right; exists l; auto]. }
    destruct X as [(l & X)|(l & X & Y)].
    + eapply mvoks_split; eauto.
    + subst o1. specialize (C2 l c o2 Y). rewrite app_assoc. auto.
Qed.
