From Verif Require Import Base BaseLemmas LogEntry Repl ReplSpec ReplProofs.

Lemma rrun_app : forall c h1 h2 s, rrun c s (h1 ++ h2) =
  match rrun c s h1 with
  | None => None
  | Some (s1, o1) => match rrun c s1 h2 with None => None | Some (s2, o2) => Some (s2, o1 ++ o2) end
  end.
Proof.
  induction h1 as [|e h1 IH]; intros h2 s; cbn [app rrun].
  - destruct (rrun c s h2) as [[s2 o2]|]; auto.
  - destruct (rstep c s e) as [[s1 o1]|]; auto. rewrite IH.
    destruct (rrun c s1 h1) as [[s2 o2]|]; auto. destruct (rrun c s2 h2) as [[s3 o3]|]; auto. rewrite app_assoc. auto.
Qed.
Lemma rlife_snoc : forall c v0 h e, rlife c v0 (h ++ [e]) =
  match rlife c v0 h with
  | None => None
  | Some (s, o) => match rstep c s e with None => None | Some (s', o') => Some (s', o ++ o') end
  end.
Proof.
  intros. unfold rlife. destruct (rstart v0) as [s0 o0]. rewrite rrun_app. destruct (rrun c s0 h) as [[s1 o1]|]; auto.
  cbn [rrun]. destruct (rstep c s1 e) as [[s2 o2]|]; auto. rewrite app_nil_r, app_assoc. auto.
Qed.
Lemma rlife_ind : forall c v0 (P : list (revt * renv) -> rep -> list rout -> Prop),
  (forall s o, rstart v0 = (s, o) -> P [] s o) ->
  (forall h s o e s' o', P h s o -> rlife c v0 h = Some (s, o) -> rstep c s e = Some (s', o') -> P (h ++ [e]) s' (o ++ o')) ->
  forall h s o, rlife c v0 h = Some (s, o) -> P h s o.
Proof.
  intros c v0 P H0 HS h. induction h as [|e h IH] using rev_ind; intros s o H.
  - unfold rlife in H. destruct (rstart v0) as [s0 o0] eqn:E. cbn [rrun] in H. rewrite app_nil_r in H. injection H as <- <-. auto.
  - rewrite rlife_snoc in H. destruct (rlife c v0 h) as [[s1 o1]|] eqn:E; [|discriminate].
    destruct (rstep c s1 e) as [[s2 o2]|] eqn:E2; [|discriminate]. injection H as <- <-. eauto.
Qed.

(** * Calls *)
Definition key (x : Z * Z * Z) : Z := fst (fst x).
Definition SentInv (s : rep) (o : list rout) : Prop :=
  r_sent s = List.rev (reqs o) /\ Forall (fun x => key x < r_calls s) (r_sent s) /\ NoDup (map key (r_sent s)).
Lemma sends_inv : forall s s' o o', SentInv s o -> Sends s s' o' -> SentInv s' (o ++ o').
Proof.
  intros s s' o o' [A [B C]] [[D [E F]]|[p [n [D [E F]]]]]; unfold SentInv; rewrite reqs_app, D, E, F.
  - rewrite app_nil_r. auto.
  - rewrite rev_app_distr, A. cbn [List.rev app]. split; auto. rewrite <- A. split.
    + constructor; [cbn; lia|]. eapply Forall_impl; [|exact B]. cbn. intros; lia.
    + cbn [map]. constructor; auto. intros K. apply in_map_iff in K. destruct K as [x [K1 K2]].
      rewrite Forall_forall in B. specialize (B x K2). cbn [key fst] in *. lia.
Qed.
Lemma life_sent : forall c v0 h s o, rlife c v0 h = Some (s, o) -> SentInv s o.
Proof.
  intros c v0. apply (rlife_ind c v0 (fun _ s o => SentInv s o)).
  - intros s o H. unfold rstart in H. apply send_empty_sent in H.
    change o with ([] ++ o). eapply sends_inv; [|exact H]. split; [reflexivity|]. split; constructor.
  - intros h s o e s' o' I _ H. eapply sends_inv; eauto. eapply rstep_sent; eauto.
Qed.
Lemma find_call_in : forall l k p n, find_call k l = Some (p, n) -> In (k, p, n) l.
Proof.
  induction l as [|[[k0 p0] n0] l IH]; intros k p n H; cbn in H; [discriminate|].
  destruct (Z.eqb_spec k0 k) as [->|]; [injection H as -> ->; left; auto|right; auto].
Qed.
Lemma find_call_has : forall l k p n, NoDup (map key l) -> In (k, p, n) l -> find_call k l = Some (p, n).
Proof.
  induction l as [|[[k0 p0] n0] l IH]; intros k p n N H; [destruct H|]. cbn [find_call]. cbn [map] in N. inversion N; subst.
  destruct (Z.eqb_spec k0 k) as [->|Hk].
  - destruct H as [H|H]; [congruence|]. exfalso. apply H2. change (key (k, p0, n0)) with (key (k, p, n)). apply in_map. auto.
  - destruct H as [H|H]; [congruence|auto].
Qed.
Lemma sent_req : forall c v0 h s o k p n, rlife c v0 h = Some (s, o) -> find_call k (r_sent s) = Some (p, n) ->
  exists t es cm, In (OReq k p t es cm) o /\ n = zlen es.
Proof.
  intros c v0 h s o k p n H F. destruct (life_sent _ _ _ _ _ H) as [A _]. apply find_call_in in F.
  rewrite A, <- in_rev in F. apply (proj1 (reqs_in _ _ _ _)) in F. exact F.
Qed.
Lemma call_unique : forall c v0 h s o k p1 t1 es1 c1 p2 t2 es2 c2, rlife c v0 h = Some (s, o) ->
  In (OReq k p1 t1 es1 c1) o -> In (OReq k p2 t2 es2 c2) o -> p1 = p2 /\ zlen es1 = zlen es2.
Proof.
  intros c v0 h s o k p1 t1 es1 c1 p2 t2 es2 c2 H A B. destruct (life_sent _ _ _ _ _ H) as [S [_ N]].
  assert (A' : In (k, p1, zlen es1) (r_sent s)) by (rewrite S, <- in_rev; apply reqs_in; eauto).
  assert (B' : In (k, p2, zlen es2) (r_sent s)) by (rewrite S, <- in_rev; apply reqs_in; eauto).
  apply find_call_has in A', B'; auto. rewrite A' in B'. injection B' as -> ->. auto.
Qed.

(** * Where commit_at comes from *)
Definition nocommit (o : list rout) : Prop := forall a b, ~ In (OCommit a b) o.
Lemma nc_nil : nocommit []. Proof. intros a b []. Qed.
Lemma nc_app : forall x y, nocommit x -> nocommit y -> nocommit (x ++ y).
Proof. intros x y A B a b H. apply in_app_iff in H. destruct H; [eapply A|eapply B]; eauto. Qed.
Lemma nc_chk : forall n b, nocommit (chk n b).
Proof. intros n [] a b; cbn; intuition discriminate. Qed.
Lemma nc_one : forall x, (forall a b, x <> OCommit a b) -> nocommit [x].
Proof. intros x H a b [K|[]]. eapply H; eauto. Qed.
Ltac nc := repeat first [apply nc_nil | apply nc_chk | assumption | apply nc_app | (apply nc_one; discriminate)].
Lemma nc_install : forall v s s' o, install v s = (s', o) -> nocommit o.
Proof.
  intros v s s' o H. unfold install in H. destruct (v_snap v); [inj H; nc|..];
  (destruct (r_reader s); [inj H; nc|]); cbn in H; inj H; nc.
Qed.
Lemma nc_notify : forall v c b s s' o, notify v c b s = (s', o) -> nocommit o.
Proof. intros v c b s s' o H. unfold notify, run_catch in H. repeat dmh H; inj H; nc. Qed.
Lemma nc_send_empty : forall v s s' o, send_empty v s = (s', o) -> nocommit o.
Proof.
  intros v s s' o H. unfold send_empty, fill in H. destruct (_ && _); cbn [negb] in H.
  - destruct (install v s) as [s1 o1] eqn:E. inj H. apply nc_install in E. nc.
  - inj H. nc.
Qed.
Lemma nc_send_entries : forall c v s s' o, send_entries c v s = (s', o) -> nocommit o.
Proof.
  intros c v s s' o H. unfold send_entries in H. destruct (_ || _ || _); [inj H; nc|].
  unfold fill in H. destruct (_ && _); cbn [negb] in H.
  - destruct (install v (reset_next s)) as [s1 o1] eqn:E. inj H. apply nc_install in E. nc.
  - destruct (prepare _ _ _ _ _ _) as [[es ro] rc]. destruct es as [|e es].
    + destruct (_ <? _).
      * destruct (install v (reset_next (set_ro ro s))) as [s1 o1] eqn:E. inj H. apply nc_install in E. nc.
      * destruct (rc =? R_EREADONLY); inj H; nc.
    + inj H. nc.
Qed.
Lemma nc_after : forall c v s s' o, after_success c v s = (s', o) -> nocommit o.
Proof.
  intros c v s s' o H. unfold after_success, timeout_now in H.
  destruct (notify _ _ _ _) as [s1 o1] eqn:E1. apply nc_notify in E1.
  destruct ((0 <? r_tni s1) && (r_tni s1 <? min_flying s1));
    destruct (send_entries _ _ _) as [s3 o3] eqn:E3; apply nc_send_entries in E3; inj H; nc.
  change (OTimeoutNow false :: o3) with ([OTimeoutNow false] ++ o3). nc.
Qed.

Lemma commit_step : forall c s e v s' o a b, rstep c s (e, v) = Some (s', o) -> In (OCommit a b) o ->
  exists call last p n, e = EvResp call (Resp true (c_term c) last) /\ find_call call (r_sent s) = Some (p, n) /\
    0 < n /\ b = p + n /\ a = min_flying s /\ in_flight (p + 1) call (r_fly s) = true.
Proof.
  intros c s e v s' o a b H I. unfold rstep in H. destruct (r_dead s); [discriminate|]. destruct e.
  - destruct (find_call call (r_sent s)) as [[p n]|] eqn:F; [|discriminate]. injection H as H. unfold on_rpc in H.
    destruct (in_flight (p + 1) call (r_fly s)) eqn:Fl; cbn [negb] in H; [|inj H; exfalso; eapply nc_chk; eauto].
    destruct r as [|[] t last].
    + inj H. exfalso. eapply nc_chk; eauto.
    + destruct (Z.eqb_spec t (c_term c)) as [->|]; cbn [negb] in H; [|inj H; exfalso; eapply nc_chk; eauto].
      destruct (pop_acked _ _ _) as [fl sz]. destruct (after_success _ _ _) as [s1 o1] eqn:E. apply nc_after in E. inj H.
      apply in_app_iff in I. destruct I as [I|I]; [exfalso; eapply nc_chk; eauto|].
      apply in_app_iff in I. destruct I as [I|I]; [|exfalso; eapply E; eauto].
      destruct (Z.ltb_spec 0 n); [|destruct I]. destruct I as [I|[]]. injection I as <- <-.
      exists call, last, p, n. repeat split; auto.
    + exfalso. destruct (_ <? t).
      * destruct (notify _ _ _ _) as [s1 o1] eqn:E. apply nc_notify in E. inj H.
        assert (K : nocommit (chk 4 (0 <? min_flying s) ++ o1 ++ [OHigher t])) by nc. eapply K; eauto.
      * match type of H with context[send_empty v ?x] => destruct (send_empty v x) as [s1 o1] eqn:E end. apply nc_send_empty in E. inj H.
        assert (K : nocommit (chk 4 (0 <? min_flying s) ++ o1)) by nc. eapply K; eauto.
  - exfalso. destruct (drop_one i (r_snaps s)) as [l|]; [|discriminate]. injection H as H. unfold on_installed in H.
    destruct ok; cbn [negb] in H; [apply nc_after in H; eapply H; eauto|inj H; destruct I].
  - exfalso. injection H as H. unfold send_heartbeat, fill in H. destruct (_ && _); cbn [negb] in H; inj H; destruct I as [I|[]]; discriminate.
  - exfalso. injection H as H. unfold on_heartbeat in H. destruct r as [[t ro]|]; [|inj H; destruct I].
    destruct (_ <? _).
    + destruct (notify _ _ _ _) as [s1 o1] eqn:E. apply nc_notify in E. inj H. assert (K : nocommit (o1 ++ [OHigher t])) by nc. eapply K; eauto.
    + inj H. destruct (_ || _); [destruct I as [I|[]]; discriminate|destruct I].
  - exfalso. inj H. destruct I.
  - exfalso. destruct (r_fired s); [discriminate|]. injection H as H. unfold woken in H.
    destruct (_ && _); [apply nc_send_entries in H; eapply H; eauto|inj H; destruct I].
  - exfalso. destruct (r_tm1 s); [discriminate|]. inj H. destruct I.
  - exfalso. destruct (r_tm2 s); [discriminate|]. injection H as H. unfold block_over in H.
    destruct (negb _); [inj H; destruct I|]. apply nc_send_empty in H. eapply H; eauto.
  - exfalso. injection H as H. unfold wait_caught_up in H. repeat dmh H; inj H; destruct I as [I|[]] || destruct I; discriminate.
  - exfalso. injection H as H. apply nc_notify in H. eapply H; eauto.
  - exfalso. injection H as H. unfold transfer, timeout_now in H. repeat dmh H; inj H; destruct I as [I|[]] || destruct I; discriminate.
  - exfalso. inj H. destruct I.
  - exfalso. injection H as H. unfold change_readonly in H. repeat dmh H; inj H; destruct I.
  - exfalso. unfold timeout_now in H. inj H. destruct I as [I|[]]; discriminate.
  - exfalso. injection H as H. unfold on_timeout_now in H.
    destruct r as [t|]; [destruct (_ <? _)|]; try (destruct stepped; [|inj H; destruct I]);
    (destruct (notify _ _ _ _) as [s1 o1] eqn:E; apply nc_notify in E; inj H).
    + assert (K : nocommit (o1 ++ [OHigher t])) by nc. eapply K; eauto.
    + eapply E; eauto.
    + eapply E; eauto.
  - exfalso. injection H as H. apply nc_notify in H. eapply H; eauto.
  - exfalso. injection H as H. unfold stop2 in H. destruct (notify _ _ _ _) as [s1 o1] eqn:E; apply nc_notify in E; inj H. eapply E; eauto.
Qed.

Lemma ack_justified : forall c v0 h s o e v s' o' a b,
  rlife c v0 h = Some (s, o) -> rstep c s (e, v) = Some (s', o') -> In (OCommit a b) o' ->
  exists call last p t es cm, e = EvResp call (Resp true (c_term c) last) /\
    In (OReq call p t es cm) o /\ es <> [] /\ b = p + zlen es.
Proof.
  intros c v0 h s o e v s' o' a b H S I. destruct (commit_step _ _ _ _ _ _ _ _ S I) as (call & last & p & n & -> & F & N & -> & _).
  destruct (sent_req _ _ _ _ _ _ _ _ H F) as (t & es & cm & A & ->).
  exists call, last, p, t, es, cm. split; auto. split; auto. split; auto. intros ->. change (zlen (@nil entry)) with 0 in N. lia.
Qed.

(** * Requests carry the leader's log *)
Lemma prepare_spec : forall c get n i len ro es ro' rc, prepare c get n i len ro = (es, ro', rc) ->
  zlen es <= Z.of_nat n /\ forall j x, znth es j = Some x -> 0 <= j /\ exists e, get (i + j) = Some e /\ x = wire c e.
Proof.
  induction n as [|n IH]; intros i len ro es ro' rc H; cbn [prepare] in H.
  - injection H as <- <- <-. split; [reflexivity|]. intros j x K. unfold znth in K. destruct (j <? 0); [discriminate|]. destruct (Z.to_nat j); discriminate.
  - destruct (_ <=? len). { injection H as <- <- <-. split; [change (zlen (@nil entry)) with 0; lia|]. intros j x K. unfold znth in K. destruct (j <? 0); [discriminate|]. destruct (Z.to_nat j); discriminate. }
    destruct (get i) as [e|] eqn:G.
    2:{ injection H as <- <- <-. split; [change (zlen (@nil entry)) with 0; lia|]. intros j x K. unfold znth in K. destruct (j <? 0); [discriminate|]. destruct (Z.to_nat j); discriminate. }
    destruct (_ && negb match e_type e with T_CONF => true | _ => false end).
    { injection H as <- <- <-. split; [change (zlen (@nil entry)) with 0; lia|]. intros j x K. unfold znth in K. destruct (j <? 0); [discriminate|]. destruct (Z.to_nat j); discriminate. }
    destruct (prepare c get n _ _ _) as [[es1 ro1] rc1] eqn:P. injection H as <- <- <-.
    destruct (IH _ _ _ _ _ _ P) as [A B]. split.
    + unfold zlen in *. cbn [length]. lia.
    + intros j x K. unfold znth in K. destruct (Z.ltb_spec j 0); [discriminate|].
      destruct (Z.eq_dec j 0) as [->|].
      * change (Z.to_nat 0) with O in K. cbn in K. injection K as <-. split; [lia|]. exists e. rewrite Z.add_0_r. auto.
      * split; auto. replace (Z.to_nat j) with (S (Z.to_nat (j - 1))) in K by lia. cbn [nth_error] in K.
        destruct (B (j - 1) x) as [_ (e' & G' & E')].
        { unfold znth. destruct (Z.ltb_spec (j - 1) 0); [lia|auto]. }
        exists e'. split; auto. rewrite <- G'. f_equal. lia.
Qed.

Definition GoodReq (c : rcfg) (L : Z -> option entry) (x : rout) : Prop :=
  match x with
  | OReq _ p t es _ =>
      (p = 0 /\ t = 0 \/ exists e, L p = Some e /\ e_term e = t) /\
      zlen es <= c_entries c /\
      forall j x, znth es j = Some x -> 0 <= j /\ exists e, L (p + 1 + j) = Some e /\ x = wire c e
  | _ => True
  end.
Definition Goods c L (o : list rout) : Prop := Forall (GoodReq c L) o.
Lemma goods_none : forall c L o, reqs o = [] -> Goods c L o.
Proof.
  intros c L o H. apply Forall_forall. intros x Hx. destruct x; cbn; auto.
  exfalso. assert (K : In (call, prev, zlen es) (reqs o)) by (apply reqs_in; eauto). rewrite H in K. destruct K.
Qed.
Lemma goods_app : forall c L a b, Goods c L a -> Goods c L b -> Goods c L (a ++ b).
Proof. intros. apply Forall_app; auto. Qed.
Lemma fill_good : forall L v p t, reads L v -> fst (fill v p false) = Some (p, t) -> p = 0 /\ t = 0 \/ exists e, L p = Some e /\ e_term e = t.
Proof.
  intros L v p t [_ R] H. unfold fill in H. destruct (Z.eqb_spec (v_term v p) 0) as [E|E]; cbn [andb negb] in H.
  - destruct (Z.eqb_spec p 0) as [->|]; cbn [negb fst] in H; [|discriminate]. left. split; auto. congruence.
  - cbn [fst] in H. injection H as <-. right. auto.
Qed.
Lemma fill_prev : forall v p q t o, fill v p false = (Some (q, t), o) -> q = p /\ reqs o = [].
Proof.
  intros v p q t o H. unfold fill in H. destruct (_ && _); cbn [negb] in H; [discriminate|]. injection H as <- _ <-. auto.
Qed.
Lemma goods_send_empty : forall c L v s s' o, 0 <= c_entries c -> reads L v -> send_empty v s = (s', o) -> Goods c L o.
Proof.
  intros c L v s s' o Hc R H. unfold send_empty in H. destruct (fill v (r_next s - 1) false) as [[[p t]|] o0] eqn:F.
  - destruct (fill_prev _ _ _ _ _ F) as [-> F2]. injection H as _ <-.
    apply goods_app; [apply goods_none; auto|]. apply goods_app; [apply goods_none, reqs_chk|]. apply goods_app; [apply goods_none, reqs_chk|].
    constructor; [|constructor]. cbn. split; [|split].
    + apply (fill_good L v); auto. rewrite F. auto.
    + exact Hc.
    + intros j x K. unfold znth in K. destruct (j <? 0); [discriminate|]. destruct (Z.to_nat j); discriminate.
  - destruct (install v s) as [s1 o1] eqn:E. injection H as _ <-. apply goods_none. rewrite reqs_app.
    destruct (install_sent _ _ _ _ E) as [-> _]. rewrite app_nil_r. unfold fill in F. destruct (_ && _); cbn [negb] in F; [|discriminate]. injection F as <-. apply reqs_chk.
Qed.
Lemma goods_send_entries : forall c L v s s' o, 0 <= r_fsize s -> reads L v -> send_entries c v s = (s', o) -> Goods c L o.
Proof.
  intros c L v s s' o Hf R H. unfold send_entries in H. destruct (Z.leb_spec (c_entries c) (r_fsize s)) as [|Hsz]; [injection H as _ <-; constructor|].
  cbn [orb] in H. destruct (_ || _); [injection H as _ <-; constructor|].
  destruct (fill v (r_next s - 1) false) as [[[p t]|] o0] eqn:F.
  - destruct (fill_prev _ _ _ _ _ F) as [-> F2].
    destruct (prepare _ _ _ _ _ _) as [[es ro] rc] eqn:P. destruct (prepare_spec _ _ _ _ _ _ _ _ _ P) as [P1 P2]. destruct es as [|e es].
    + apply goods_none. destruct (_ <? _).
      * destruct (install v (reset_next (set_ro ro s))) as [s1 o1] eqn:E. injection H as _ <-. rewrite reqs_app, F2.
        destruct (install_sent _ _ _ _ E) as [-> _]. auto.
      * destruct (rc =? R_EREADONLY); injection H as _ <-; auto.
    + injection H as _ <-. apply goods_app; [apply goods_none; auto|]. constructor; [|constructor]. cbn. split; [|split].
      * apply (fill_good L v); auto. rewrite F. auto.
      * lia.
      * intros j x K. destruct (P2 j x K) as [J (e0 & G & X)]. split; auto. exists e0. split; auto. apply (proj1 R) in G. rewrite <- G. f_equal. lia.
  - destruct (install v (reset_next s)) as [s1 o1] eqn:E. injection H as _ <-. apply goods_none. rewrite reqs_app.
    destruct (install_sent _ _ _ _ E) as [-> _]. rewrite app_nil_r. unfold fill in F. destruct (_ && _); cbn [negb] in F; [|discriminate]. injection F as <-. apply reqs_chk.
Qed.
