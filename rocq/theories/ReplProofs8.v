From Verif Require Import Base BaseLemmas LogEntry Repl ReplSpec ReplProofs ReplProofs2 ReplProofs3 ReplProofs4 ReplProofs5 ReplProofs6 ReplProofs7.

(** * The next index stays inside the log *)
Definition NX (last : Z) (s : rep) : Prop := FZ0 s /\ r_next s <= last + 1 /\ Forall (fun i => i <= last) (r_snaps s).
Lemma nx_upd : forall last s s', r_next s' <= r_next s -> r_fsize s' = r_fsize s -> r_fly s' = r_fly s -> r_snaps s' = r_snaps s -> NX last s -> NX last s'.
Proof. intros last s s' A B C D (H1 & H2 & H3). split; [eapply fz0_upd; eauto|]. rewrite D. split; auto. lia. Qed.
Lemma nx_install : forall f last v s s' o, install v s = (s', o) -> log_ok f last v -> NX last s -> NX last s'.
Proof.
  intros f last v s s' o H K A. unfold install, block in H.
  destruct (v_snap v) eqn:V; repeat dmh H; injection H as <- _; try exact A; try (apply (nx_upd _ _ _) with (5 := A); rs; auto; lia).
  destruct A as (A1 & A2 & A3). split; [|split]; rs; auto. constructor; auto. apply (lo_snap _ _ _ K _ V).
Qed.
Lemma nx_reset : forall last s, NX last s -> NX last (reset_next s).
Proof.
  intros last s (A1 & A2 & A3). assert (F := fz0_nonneg _ A1). split; [apply fz0_reset|]. unfold reset_next. rs. split; auto. lia.
Qed.
Lemma nx_empty : forall f last v s s' o, send_empty v s = (s', o) -> log_ok f last v -> NX last s -> NX last s'.
Proof.
  intros f last v s s' o H K A. assert (F' := fz0_empty _ _ _ _ H (proj1 A)). unfold send_empty in H.
  destruct (fill v (r_next s - 1) false) as [[[p t]|] o0] eqn:F.
  - injection H as <- _. split; auto. rs. apply A.
  - destruct (install v s) as [s1 o1] eqn:E. injection H as <- _. eapply nx_install; eauto.
Qed.
Lemma nx_wait_more : forall c v last s, NX last s -> NX last (wait_more c v s).
Proof.
  intros c v last s A. unfold wait_more, lm_wait. repeat match goal with |- context[if ?b then _ else _] => destruct b end;
    (apply (nx_upd _ _ _) with (5 := A); rs; auto; lia).
Qed.
Lemma nx_entries : forall c f last v s s' o, send_entries c v s = (s', o) -> log_ok f last v -> NX last s -> NX last s'.
Proof.
  intros c f last v s s' o H K A. assert (F' := fz0_entries _ _ _ _ _ H (proj1 A)). unfold send_entries in H.
  destruct (_ || _ || _). { injection H as <- _. auto. }
  destruct (fill v (r_next s - 1) false) as [[[p t]|] o0] eqn:F.
  2:{ destruct (install v (reset_next s)) as [s1 o1] eqn:E. injection H as <- _. eapply nx_install; eauto using nx_reset. }
  destruct (prepare _ _ _ _ _ _) as [[es ro] rc] eqn:Q. assert (B : NX last (set_ro ro s)) by (apply (nx_upd _ _ _) with (5 := A); rs; auto; lia).
  destruct es as [|e es].
  - destruct (_ <? _).
    + destruct (install v (reset_next (set_ro ro s))) as [s1 o1] eqn:E. injection H as <- _. eapply nx_install; eauto using nx_reset.
    + destruct (rc =? R_EREADONLY); [|injection H as <- _; apply nx_wait_more; auto].
      destruct (_ =? 0); injection H as <- _; auto; apply (nx_upd _ _ _) with (5 := B); rs; auto; lia.
  - assert (Ne := prepare_ends _ _ _ _ _ _ _ _ _ last Q (fun j x Hx => proj2 (lo_get _ _ _ K j x Hx)) ltac:(discriminate)).
    injection H as <- _. apply nx_wait_more. destruct (wait_more_upd c v
      (set_stat APPENDING (set_ro ro (set_sent (r_calls s + 1) ((r_calls s, p, zlen (e :: es)) :: r_sent s)
         (set_fly (r_next s + zlen (e :: es)) (r_fsize s + zlen (e :: es)) (r_fly s ++ [(r_next s, zlen (e :: es), r_calls s)]) s))))) as ((_ & U1 & U2 & _) & _).
    split; [|split; rs; [lia|apply A]]. eapply fz0_upd; [symmetry; exact U1|symmetry; exact U2|exact F'].
Qed.
Lemma nx_note : forall v last code b s s' o, notify v code b s = (s', o) -> NX last s -> NX last s'.
Proof. intros v last code b s s' o H A. unfold notify, run_catch in H. repeat dmh H; injection H as <- _; try exact A; apply (nx_upd _ _ _) with (5 := A); rs; auto; lia. Qed.
Lemma nx_after : forall c f last v s s' o, after_success c v s = (s', o) -> log_ok f last v -> NX last s -> NX last s'.
Proof.
  intros c f last v s s' o H K A. unfold after_success, timeout_now in H. destruct (notify v 0 false (set_succ true s)) as [s1 o1] eqn:E1.
  apply (nx_note _ last) in E1; [|apply (nx_upd _ _ _) with (5 := A); rs; auto; lia].
  destruct ((0 <? r_tni s1) && (r_tni s1 <? min_flying s1)); destruct (send_entries _ _ _) as [s3 o3] eqn:E3; injection H as <- _; eapply nx_entries; eauto.
Qed.
Lemma drop_one_in : forall i l l', drop_one i l = Some l' -> In i l /\ incl l' l.
Proof.
  induction l as [|x l IH]; intros l' H; cbn in H; [discriminate|]. destruct (Z.eqb_spec x i) as [->|].
  - injection H as <-. split; [left; auto|apply incl_tl, incl_refl].
  - destruct (drop_one i l) as [l1|]; [|discriminate]. injection H as <-. destruct (IH _ eq_refl) as [A B]. split; [right; auto|].
    intros y [->|Y]; [left; auto|right; auto].
Qed.
Lemma nx_block : forall last s, NX last s -> NX last (block s).
Proof. intros last s A. unfold block. destruct (r_st s); auto; apply (nx_upd _ _ _) with (5 := A); rs; auto; lia. Qed.
Ltac nxu A := apply (nx_upd _ _ _) with (5 := A); rs; auto; lia.
Lemma nx_step : forall c l s e v s' o, NX l s -> log_ok (v_first v) (v_last v) v ->
  match e with EvLmWake => l <= v_last v | _ => v_last v = l end -> rstep c s (e, v) = Some (s', o) -> r_dead s' = true \/ NX (v_last v) s'.
Proof.
  intros c l s e v s' o A K Hl H. cbn [rstep] in H. destruct (r_dead s); [discriminate|].
  assert (Dn : forall code s0 s1 o1, notify v code true s0 = (s1, o1) -> r_dead (set_dead s1) = true) by reflexivity.
  destruct e as [call r|i ok| |r| |stop| | |k m t| |i| |b| |st r| |]; try (rewrite Hl in *).
  - destruct (find_call call (r_sent s)) as [[p n]|]; [|discriminate]. injection H as H. unfold on_rpc in H.
    destruct (negb (in_flight _ _ _)). { injection H as <- _. auto. }
    destruct r as [|[|] t last].
    + injection H as <- _. right. apply nx_block, nx_reset, A.
    + destruct (negb _); [injection H as <- _; right; apply nx_reset, A|].
      destruct (pop_acked (p + 1) (r_fly s) (r_fsize s)) as [fl sz] eqn:Q. destruct (after_success _ _ _) as [s1 o1] eqn:E. injection H as <- _.
      right. eapply nx_after; eauto. destruct A as ((A1 & A1') & A2 & A3). split; [|split; rs; auto]. apply (fz0_pop _ _ _ _ _ Q A1 A1').
    + destruct (c_term c <? t). { destruct (notify _ _ _ _) as [s1 o1]. injection H as <- _. auto. }
      match type of H with (let '(_, _) := send_empty v ?y in _) = _ => set (sx := y) in H end.
      destruct (send_empty v sx) as [s1 o1] eqn:E. injection H as <- _. right. eapply nx_empty; eauto.
      apply (nx_upd _ _ _) with (5 := nx_reset _ _ A); subst sx; destruct (last + 1 <? _) eqn:Q1; try (destruct (1 <? _) eqn:Q2); rs; auto; try lia.
  - destruct (drop_one i (r_snaps s)) as [l0|] eqn:D; [|discriminate]. injection H as H. right. unfold on_installed in H. rsi H.
    apply drop_one_in in D. destruct D as [D1 D2]. destruct A as (A1 & A2 & A3). rewrite Forall_forall in A3.
    assert (A3' : Forall (fun i => i <= l) l0) by (apply Forall_forall; auto).
    destruct ok; cbn [negb] in H.
    + eapply nx_after; eauto. split; [|split]; rs; auto. specialize (A3 _ D1). lia.
    + injection H as <- _. apply nx_block. split; [|split]; rs; auto.
  - injection H as H. right. unfold send_heartbeat in H. destruct (fill _ _ _) as [[[? ?]|] ?]; injection H as <- _; auto.
  - injection H as H. unfold on_heartbeat in H. destruct r as [[t ro]|]; [|injection H as <- _; auto].
    destruct (c_term c <? t); [destruct (notify _ _ _ _); injection H as <- _; auto|injection H as <- _; auto].
  - injection H as <- _. right. destruct A as (A1 & A2 & A3). split; [|split]; rs; auto; [lia|]. eapply Forall_impl; [|exact A3]. cbn. intros; lia.
  - destruct (r_fired s) as [|n]; [discriminate|]. injection H as H. right. unfold woken in H. rsi H. destruct (_ && _).
    + eapply nx_entries; eauto.
    + injection H as <- _. nxu A.
  - destruct (r_tm1 s) as [|n]; [discriminate|]. injection H as <- _. right. nxu A.
  - destruct (r_tm2 s) as [|n]; [discriminate|]. injection H as H. right. unfold block_over in H. destruct (negb _); [injection H as <- _; nxu A|].
    eapply nx_empty; eauto.
  - injection H as H. right. unfold wait_caught_up in H. repeat dmh H; injection H as <- _; auto.
  - injection H as H. right. eapply nx_note; eauto.
  - injection H as H. right. unfold transfer, timeout_now in H. destruct (_ && _); injection H as <- _; nxu A.
  - injection H as <- _. right. nxu A.
  - injection H as H. right. unfold change_readonly in H. destruct (_ || _); [injection H as <- _; auto|].
    destruct b; injection H as <- _; [nxu A|apply nx_wait_more; nxu A].
  - unfold timeout_now in H. injection H as <- _. auto.
  - injection H as H. unfold on_timeout_now in H.
    repeat dmh H; injection H as <- _; auto.
  - injection H as H. right. eapply nx_note; eauto.
  - injection H as H. unfold stop2 in H. destruct (notify _ _ _ _); injection H as <- _; auto.
Qed.
Lemma life_nx : forall c v0 h s o, log_ok (v_first v0) (v_last v0) v0 -> log_grows (v_first v0) (v_last v0) h -> rlife c v0 h = Some (s, o) ->
  r_dead s = true \/ NX (log_end v0 h) s.
Proof.
  intros c v0 h s o K G H. rewrite log_end_last. revert G. pattern h, s, o. eapply rlife_ind; [| |exact H].
  - intros s0 o0 H0 _. right. cbn [map last]. unfold rstart in H0. eapply nx_empty; eauto. split; [split; [reflexivity|constructor]|]. rs. split; [lia|constructor].
  - clear h s o H. intros h s o e s' o' IH H St G. destruct e as [e v]. destruct (log_grows_app _ _ _ _ _ G) as (G1 & f1 & l1 & G2 & -> & ->).
    cbn [log_grows] in G2. destruct G2 as (G2 & G3 & G4 & _). rewrite !map_app. cbn [map]. rewrite !last_last. cbn [snd].
    destruct IH as [D|IH]; auto. { cbn [rstep] in St. rewrite D in St. discriminate. }
    eapply nx_step; eauto.
Qed.

(** * Read-only *)
Ltac sp := repeat match goal with |- _ /\ _ => split end.
Definition is_conf (L : Z -> option entry) (j : Z) : Prop := exists e, L j = Some e /\ e_type e = T_CONF.
Definition RZ L (b : Z) (s : rep) : Prop := 0 < b <= r_ro s /\ r_next s <= r_ro s /\ FZ0 s /\ forall j, b <= j < r_ro s -> is_conf L j.
Definition OutConf (b : Z) (o : list rout) : Prop := forall k p t es cm, In (OReq k p t es cm) o -> forall j x, znth es j = Some x -> b <= p + 1 + j -> e_type x = T_CONF.
Lemma oc_none : forall b o, reqs o = [] -> OutConf b o.
Proof. intros b o H k p t es cm K. destruct (noreq_no _ k p t es cm H K). Qed.
Lemma oc_app : forall b x y, OutConf b x -> OutConf b y -> OutConf b (x ++ y).
Proof. intros b x y A B k p t es cm K. apply in_app_iff in K. destruct K; eauto. Qed.
Lemma prepare_frozen : forall c L get n b i len ro es ro' rc, prepare c get n i len ro = (es, ro', rc) -> (forall j e, get j = Some e -> L j = Some e) ->
  0 < b <= ro -> i <= ro -> (forall j, b <= j < ro -> is_conf L j) ->
  ro <= ro' /\ i + zlen es <= ro' /\ (forall j, b <= j < ro' -> is_conf L j) /\ (forall j x, znth es j = Some x -> b <= i + j -> e_type x = T_CONF).
Proof.
  induction n as [|n IH]; intros b i len ro es ro' rc H G B I C; cbn [prepare] in H.
  - injection H as <- <- <-. change (zlen (@nil entry)) with 0. sp; auto; try lia. intros j x K. unfold znth in K. destruct (j <? 0); [discriminate|]. destruct (Z.to_nat j); discriminate.
  - assert (Nil : ro <= ro /\ i + zlen (@nil entry) <= ro /\ (forall j, b <= j < ro -> is_conf L j) /\ (forall j x, znth (@nil entry) j = Some x -> b <= i + j -> e_type x = T_CONF)).
    { change (zlen (@nil entry)) with 0. sp; auto; try lia. intros j x K. unfold znth in K. destruct (j <? 0); [discriminate|]. destruct (Z.to_nat j); discriminate. }
    destruct (_ <=? len). { injection H as <- <- <-. auto. }
    destruct (get i) as [e|] eqn:Ge. 2:{ injection H as <- <- <-. auto. }
    destruct (_ && negb match e_type e with T_CONF => true | _ => false end) eqn:Fz. { injection H as <- <- <-. auto. }
    destruct (prepare c get n _ _ _) as [[es1 ro1] rc1] eqn:Q. injection H as <- <- <-.
    set (ro2 := if negb (ro =? 0) && (ro <=? i) then i + 1 else ro) in Q.
    assert (R2 : ro <= ro2 /\ i + 1 <= ro2 /\ forall j, b <= j < ro2 -> is_conf L j).
    { unfold ro2. destruct (Z.eqb_spec ro 0); [lia|]. cbn [negb andb] in *. destruct (Z.leb_spec ro i); cbn [andb] in Fz.
      - assert (i = ro) by lia. subst i. sp; try lia. intros j Hj. destruct (Z.eq_dec j ro) as [->|]; [|apply C; lia].
        exists e. split; [auto|]. destruct (e_type e); cbn in Fz; congruence.
      - sp; auto; lia. }
    destruct R2 as (R2a & R2b & R2c). destruct (IH b _ _ _ _ _ _ Q G) as (X1 & X2 & X3 & X4); auto; try lia.
    assert (Zl : zlen (wire c e :: es1) = 1 + zlen es1) by (unfold zlen; cbn [length]; lia).
    sp; auto; try lia. intros j x K Bj. unfold znth in K. destruct (Z.ltb_spec j 0); [discriminate|]. destruct (Z.eq_dec j 0) as [->|].
    + change (Z.to_nat 0) with O in K. cbn in K. injection K as <-. rewrite Z.add_0_r in Bj. destruct (X3 i) as (e' & E1 & E2); [lia|].
      apply G in Ge. rewrite Ge in E1. injection E1 as <-. unfold wire. destruct (c_strip c); auto.
    + replace (Z.to_nat j) with (S (Z.to_nat (j - 1))) in K by lia. cbn [nth_error] in K. apply (X4 (j - 1) x); [|lia].
      unfold znth. destruct (Z.ltb_spec (j - 1) 0); [lia|auto].
Qed.
Lemma rz_upd : forall L b s s', r_next s' <= r_next s -> r_fsize s' = r_fsize s -> r_fly s' = r_fly s -> r_ro s' = r_ro s -> RZ L b s -> RZ L b s'.
Proof. intros L b s s' A B C D (H1 & H2 & H3 & H4). unfold RZ. rewrite D. sp; auto; try lia. eapply fz0_upd; eauto. Qed.
Ltac rzu A := apply (rz_upd _ _ _ _) with (5 := A); rs; auto; lia.
Lemma rz_install : forall L b v s s' o, install v s = (s', o) -> RZ L b s -> RZ L b s' /\ OutConf b o.
Proof.
  intros L b v s s' o H A. split; [|apply oc_none; apply (install_sent _ _ _ _ H)]. unfold install, block in H.
  destruct (v_snap v) eqn:V; repeat dmh H; injection H as <- _; try exact A; rzu A.
Qed.
Lemma rz_reset : forall L b s, RZ L b s -> RZ L b (reset_next s).
Proof. intros L b s (A1 & A2 & A3 & A4). assert (F := fz0_nonneg _ A3). unfold RZ. unfold reset_next. rs. sp; auto; try lia. split; [reflexivity|constructor]. Qed.
Lemma fill_noreq : forall v p r o, fill v p false = (r, o) -> reqs o = [].
Proof. intros v p r o F. unfold fill in F. destruct (_ && _); cbn [negb] in F; injection F as _ <-; auto. apply reqs_chk. Qed.
Lemma rz_empty : forall L b v s s' o, send_empty v s = (s', o) -> RZ L b s -> RZ L b s' /\ OutConf b o.
Proof.
  intros L b v s s' o H A. assert (F' := fz0_empty _ _ _ _ H (proj1 (proj2 (proj2 A)))). unfold send_empty in H.
  destruct (fill v (r_next s - 1) false) as [[[p t]|] o0] eqn:F; assert (N := fill_noreq _ _ _ _ F).
  - injection H as <- <-. split.
    + destruct A as (A1 & A2 & A3 & A4). unfold RZ. rs. sp; auto; try lia.
    + repeat apply oc_app; try (apply oc_none; auto using reqs_chk; fail).
      intros k q t' es cm [K|[]] j x J. injection K as <- <- <- <- <-. unfold znth in J. destruct (j <? 0); [discriminate|]. destruct (Z.to_nat j); discriminate.
  - destruct (install v s) as [s1 o1] eqn:E. injection H as <- <-. destruct (rz_install _ _ _ _ _ _ E A). split; auto. apply oc_app; auto. apply oc_none; auto.
Qed.
Lemma rz_wait_more : forall L b c v s, RZ L b s -> RZ L b (wait_more c v s).
Proof. intros L b c v s A. unfold wait_more, lm_wait. repeat match goal with |- context[if ?b then _ else _] => destruct b end; rzu A. Qed.
Lemma rz_entries : forall L b c v s s' o, send_entries c v s = (s', o) -> reads L v -> RZ L b s -> RZ L b s' /\ OutConf b o.
Proof.
  intros L b c v s s' o H Rd A. assert (F' := fz0_entries _ _ _ _ _ H (proj1 (proj2 (proj2 A)))). unfold send_entries in H.
  destruct (_ || _ || _). { injection H as <- <-. split; auto. apply oc_none; auto. }
  destruct (fill v (r_next s - 1) false) as [[[p t]|] o0] eqn:F; assert (N := fill_noreq _ _ _ _ F).
  2:{ destruct (install v (reset_next s)) as [s1 o1] eqn:E. injection H as <- <-. destruct (rz_install L b _ _ _ _ E (rz_reset _ _ _ A)).
      split; auto. apply oc_app; auto. apply oc_none; auto. }
  destruct (prepare _ _ _ _ _ _) as [[es ro] rc] eqn:Q.
  destruct A as (A1 & A2 & A3 & A4). destruct (prepare_frozen c L _ _ b _ _ _ _ _ _ Q (proj1 Rd)) as (P1 & P2 & P3 & P4); auto.
  destruct es as [|e es].
  - change (zlen (@nil entry)) with 0 in P2. assert (B : RZ L b (set_ro ro s)) by (unfold RZ; rs; sp; auto; lia).
    destruct (_ <? _).
    + destruct (install v (reset_next (set_ro ro s))) as [s1 o1] eqn:E. injection H as <- <-. destruct (rz_install L b _ _ _ _ E (rz_reset _ _ _ B)).
      split; auto. apply oc_app; auto. apply oc_none; auto.
    + destruct (rc =? R_EREADONLY); [|injection H as <- <-; split; [apply rz_wait_more; auto|apply oc_none; auto]].
      destruct (_ =? 0); injection H as <- <-; (split; [|apply oc_none; auto]); [rzu B|auto].
  - injection H as <- <-. split.
    + apply rz_wait_more. destruct (wait_more_upd c v
      (set_stat APPENDING (set_ro ro (set_sent (r_calls s + 1) ((r_calls s, p, zlen (e :: es)) :: r_sent s)
         (set_fly (r_next s + zlen (e :: es)) (r_fsize s + zlen (e :: es)) (r_fly s ++ [(r_next s, zlen (e :: es), r_calls s)]) s))))) as ((_ & U1 & U2 & _) & _).
      unfold RZ. rs. sp; auto; try lia. eapply fz0_upd; [symmetry; exact U1|symmetry; exact U2|exact F'].
    + apply oc_app; [apply oc_none; auto|]. intros k q t' es' cm [K|[]] j x J Bj. injection K as <- <- <- <- <-. apply (P4 j x J).
      destruct (fill_prev _ _ _ _ _ F) as [-> _]. lia.
Qed.
Lemma rz_note : forall L b v code d s s' o, notify v code d s = (s', o) -> RZ L b s -> RZ L b s' /\ reqs o = [].
Proof. intros L b v code d s s' o H A. unfold notify, run_catch in H. repeat dmh H; injection H as <- <-; (split; [try exact A; rzu A|reflexivity]). Qed.
Lemma rz_after : forall L b c v s s' o, after_success c v s = (s', o) -> reads L v -> RZ L b s -> RZ L b s' /\ OutConf b o.
Proof.
  intros L b c v s s' o H Rd A. unfold after_success, timeout_now in H. destruct (notify v 0 false (set_succ true s)) as [s1 o1] eqn:E1.
  destruct (rz_note L b _ _ _ _ _ _ E1) as [B N]; [rzu A|].
  destruct ((0 <? r_tni s1) && (r_tni s1 <? min_flying s1)); destruct (send_entries _ _ _) as [s3 o3] eqn:E3; injection H as <- <-;
    destruct (rz_entries L b _ _ _ _ _ E3) as [X Y]; auto; try (rzu B);
    (split; auto; apply oc_app; [apply oc_none; auto|]; auto).
  change (OTimeoutNow false :: o3) with ([OTimeoutNow false] ++ o3). apply oc_app; auto. apply oc_none; auto.
Qed.
Lemma rz_block : forall L b s, RZ L b s -> RZ L b (block s).
Proof. intros L b s A. unfold block. destruct (r_st s); auto; rzu A. Qed.
Lemma rz_step : forall c L b s e v s' o, RZ L b s -> reads L v -> e <> EvReadonly false -> (forall i, e = EvInstalled i true -> i < b) ->
  rstep c s (e, v) = Some (s', o) -> (r_dead s' = true \/ RZ L b s') /\ OutConf b o.
Proof.
  intros c L b s e v s' o A Rd Ne Ni H. cbn [rstep] in H. destruct (r_dead s); [discriminate|].
  destruct (match e with EvStop2 => true | _ => false end) eqn:E2.
  { destruct e; try discriminate. injection H as H. unfold stop2 in H. destruct (notify _ _ _ _) as [s1 o1] eqn:E; injection H as <- <-.
    split; [left; reflexivity|]. apply oc_none. destruct (notify_note _ _ _ _ _ _ E) as [N _ _].
    destruct (reqs o1) as [|[[k p] n] l] eqn:Q; auto. assert (X : In (k, p, n) (reqs o1)) by (rewrite Q; left; auto).
    apply (proj1 (reqs_in _ _ _ _)) in X. destruct X as (t & es & cm & X & _). apply N in X. destruct X as (? & ? & X). discriminate. }
  assert (Goal' : RZ L b s' /\ OutConf b o); [|tauto].
  destruct e as [call r|i ok| |r| |stop| | |k m t| |i| |bb| |st r| |].
  - destruct (find_call call (r_sent s)) as [[p n]|]; [|discriminate]. injection H as H. unfold on_rpc in H.
    assert (N4 : OutConf b (chk 4 (0 <? min_flying s))) by (apply oc_none, reqs_chk).
    destruct (negb (in_flight _ _ _)). { injection H as <- <-. auto. }
    destruct r as [|[|] t last].
    + injection H as <- <-. split; auto. apply rz_block, rz_reset, A.
    + destruct (negb _); [injection H as <- <-; split; auto; apply rz_reset, A|].
      destruct (pop_acked (p + 1) (r_fly s) (r_fsize s)) as [fl sz] eqn:Q. destruct (after_success _ _ _) as [s1 o1] eqn:E. injection H as <- <-.
      destruct (rz_after L b _ _ _ _ _ E Rd) as [X Y].
      { destruct A as (A1 & A2 & (A3 & A3') & A4). unfold RZ. rs. sp; auto; try lia. apply (fz0_pop _ _ _ _ _ Q A3 A3'). }
      split; auto. apply oc_app; auto. apply oc_app; auto. apply oc_none. destruct (0 <? n); auto.
    + destruct (c_term c <? t).
      { destruct (notify _ _ _ _) as [s1 o1] eqn:E. injection H as <- <-. destruct (rz_note L b _ _ _ _ _ _ E (rz_reset _ _ _ A)) as [X Y].
        split; [rzu X|]. apply oc_app; auto. apply oc_app; apply oc_none; auto. }
      match type of H with (let '(_, _) := send_empty v ?y in _) = _ => set (sx := y) in H end.
      destruct (send_empty v sx) as [s1 o1] eqn:E. injection H as <- <-. destruct (rz_empty L b _ _ _ _ E) as [X Y].
      { apply (rz_upd _ _ _ _) with (5 := rz_reset _ _ _ A); subst sx; destruct (last + 1 <? _) eqn:Q1; try (destruct (1 <? _) eqn:Q2); rs; auto; try lia. }
      split; auto. apply oc_app; auto.
  - destruct (drop_one i (r_snaps s)) as [l0|] eqn:D; [|discriminate]. injection H as H. unfold on_installed in H. rsi H.
    destruct ok; cbn [negb] in H.
    + eapply rz_after; eauto. destruct A as (A1 & A2 & A3 & A4). unfold RZ. rs. specialize (Ni _ eq_refl). sp; auto; try lia.
    + injection H as <- <-. split; [|apply oc_none; auto]. apply rz_block. rzu A.
  - injection H as H. unfold send_heartbeat, fill in H. destruct (_ && _); cbn [negb] in H; injection H as <- <-; (split; auto; apply oc_none; auto).
  - injection H as H. unfold on_heartbeat in H. destruct r as [[t ro]|]; [|injection H as <- <-; split; auto; apply oc_none; auto].
    destruct (c_term c <? t).
    + destruct (notify _ _ _ _) as [s1 o1] eqn:E; injection H as <- <-. destruct (rz_note L b _ _ _ _ _ _ E A) as [X Y]. split; [rzu X|].
      apply oc_app; apply oc_none; auto.
    + injection H as <- <-. split; auto. apply oc_none. destruct (_ || _); auto.
  - injection H as <- <-. split; [rzu A|apply oc_none; auto].
  - destruct (r_fired s) as [|n]; [discriminate|]. injection H as H. unfold woken in H. rsi H. destruct (_ && _).
    + eapply rz_entries; eauto.
    + injection H as <- <-. split; [rzu A|apply oc_none; auto].
  - destruct (r_tm1 s) as [|n]; [discriminate|]. injection H as <- <-. split; [rzu A|apply oc_none; auto].
  - destruct (r_tm2 s) as [|n]; [discriminate|]. injection H as H. unfold block_over in H. destruct (negb _); [injection H as <- <-; split; [rzu A|apply oc_none; auto]|].
    eapply rz_empty; eauto.
  - injection H as H. unfold wait_caught_up in H. repeat dmh H; injection H as <- <-; (split; [try exact A; rzu A|apply oc_none; auto]).
  - injection H as H. destruct (rz_note L b _ _ _ _ _ _ H A) as [X Y]. split; auto. apply oc_none; auto.
  - injection H as H. unfold transfer, timeout_now in H. destruct (_ && _); injection H as <- <-; (split; [rzu A|apply oc_none; auto]).
  - injection H as <- <-. split; [rzu A|apply oc_none; auto].
  - injection H as H. unfold change_readonly in H. destruct bb; [|congruence].
    destruct (r_ro s =? 0) eqn:E; [apply Z.eqb_eq in E; destruct A as (A1 & _); lia|]. cbn in H. injection H as <- <-. split; auto. apply oc_none; auto.
  - unfold timeout_now in H. injection H as <- <-. split; auto. apply oc_none; auto.
  - injection H as H. unfold on_timeout_now in H.
    destruct r as [t|]; [destruct (_ <? _)|]; try (destruct st; [|injection H as <- <-; split; auto; apply oc_none; auto]);
    (destruct (notify _ _ _ _) as [s1 o1] eqn:E; injection H as <- <-; destruct (rz_note L b _ _ _ _ _ _ E A) as [X Y]; split; [rzu X|]);
    try apply oc_app; apply oc_none; auto.
  - injection H as H. destruct (rz_note L b _ _ _ _ _ _ H A) as [X Y]. split; auto. apply oc_none; auto.
  - discriminate.
Qed.
Lemma rz_run : forall c L b h s s' o, RZ L b s -> (forall e v, In (e, v) h -> reads L v /\ e <> EvReadonly false /\ forall i, e = EvInstalled i true -> i < b) ->
  rrun c s h = Some (s', o) -> OutConf b o.
Proof.
  induction h as [|[e v] h IH]; intros s s' o A E H; cbn [rrun] in H.
  - injection H as <- <-. apply oc_none; auto.
  - destruct (rstep c s (e, v)) as [[s1 o1]|] eqn:S; [|discriminate]. destruct (rrun c s1 h) as [[s2 o2]|] eqn:R; [|discriminate]. injection H as <- <-.
    destruct (E e v (or_introl eq_refl)) as (E1 & E2 & E3). destruct (rz_step _ _ _ _ _ _ _ _ A E1 E2 E3 S) as [X Y]. apply oc_app; auto.
    destruct X as [D|X]; [|eapply IH; eauto; intros; apply E; right; auto].
    destruct h as [|[e' v'] h]; cbn [rrun] in R; [injection R as <- <-; apply oc_none; auto|]. cbn [rstep] in R. rewrite D in R. discriminate.
Qed.
