From Verif Require Import Base BaseLemmas LogEntry Repl ReplSpec ReplProofs ReplProofs2 ReplProofs3 ReplProofs4 ReplProofs5 ReplProofs6.

(** * No lost wake-up *)
Definition Wt (last : Z) (s : rep) : Prop := (In (r_wait s) (r_regs s) /\ r_next s = last + 1) \/ (0 < r_fired s)%nat.
Definition P (last : Z) (s : rep) : Prop :=
  r_ro s <> 0 \/ r_fly s <> [] \/ r_snaps s <> [] \/ (0 < r_tm1 s + r_tm2 s)%nat \/ (r_cancel s = false /\ Wt last s).
Record LV0 (first last : Z) (s : rep) : Prop := mkLV {
  l_fz : FZ0 s; l_next : r_next s <= last + 1; l_snapb : Forall (fun i => i <= last) (r_snaps s);
  l_blk : r_st s = BLOCKING -> (0 < r_tm1 s)%nat;
  l_rd : (r_reader s = true /\ exists i, r_snaps s = [i]) \/ (r_reader s = false /\ r_snaps s = []);
  l_sn : r_snaps s <> [] -> r_next s < first;
  l_wt : r_wait s <> 0 -> r_cancel s = false /\ Wt last s;
  l_nw : 1 <= r_nwait s }.
Definition LV first last s := LV0 first last s /\ P last s.

Lemma lv_install : forall first last v s s' o, install v s = (s', o) -> log_ok first last v -> LV0 first last s -> r_next s < first ->
  LV first last s'.
Proof.
  intros first last v s s' o H K [A1 A2 A3 A4 A5 A6 A7 A8] N. unfold install, block in H.
  assert (Blk : forall s1, r_next s1 = r_next s -> r_fsize s1 = r_fsize s -> r_fly s1 = r_fly s -> r_snaps s1 = r_snaps s -> r_reader s1 = r_reader s ->
     r_wait s1 = r_wait s -> r_cancel s1 = r_cancel s -> r_regs s1 = r_regs s -> r_fired s1 = r_fired s -> r_nwait s1 = r_nwait s -> (0 < r_tm1 s1)%nat -> LV first last s1).
  { intros s1 B1 B2 B3 B4 B5 B6 B7 B8 B9 B10 B11. split.
    - constructor; unfold FZ0, Wt in *; rewrite ?B1, ?B2, ?B3, ?B4, ?B5, ?B6, ?B7, ?B8, ?B9, ?B10; auto.
    - right; right; right; left. lia. }
  destruct (v_snap v) eqn:V.
  - destruct (r_st s) eqn:S; injection H as <- <-; apply Blk; auto; try (rs; lia).
  - destruct (proj1 (lo_open _ _ _ K) V).
  - destruct (r_reader s) eqn:R.
    + injection H as <- <-. split; [constructor; auto; try (rewrite R; auto; fail)|]. right; right; left. destruct A5 as [(_ & i & ->)|(A5 & _)]; [discriminate|congruence].
    + injection H as <- <-. apply Blk; auto. rs. lia.
  - destruct (proj2 (lo_open _ _ _ K) V).
  - destruct (r_reader s) eqn:R.
    + injection H as <- <-. split; [constructor; auto; try (rewrite R; auto; fail)|]. right; right; left. destruct A5 as [(_ & j & ->)|(A5 & _)]; [discriminate|congruence].
    + injection H as <- <-. destruct A5 as [(A5 & _)|(_ & A5)]; [congruence|]. split.
      * constructor; unfold FZ0, Wt in *; rs; auto; try discriminate.
        -- constructor; auto. apply (lo_snap _ _ _ K i V).
        -- left. split; auto. exists i. rewrite A5. auto.
      * right; right; left. rs. discriminate.
Qed.
Lemma lv_reset : forall first last s, LV0 first last s -> LV0 first last (reset_next s).
Proof.
  intros first last s A. assert (F := fz0_nonneg _ (l_fz _ _ _ A)). destruct A as [A1 A2 A3 A4 A5 A6 A7 A8].
  constructor; unfold reset_next; rs; auto; try lia.
  - split; [reflexivity|constructor].
  - intros K. specialize (A6 K). lia.
Qed.
Lemma lv_weak : forall first last s s', LV0 first last s -> r_next s' <= r_next s -> r_fsize s' = r_fsize s -> r_fly s' = r_fly s -> r_snaps s' = r_snaps s -> r_st s' = r_st s -> r_tm1 s' = r_tm1 s ->
  r_reader s' = r_reader s -> r_wait s' = 0 -> r_nwait s' = r_nwait s -> LV0 first last s'.
Proof.
  intros first last s s' [A1 A2 A3 A4 A5 A6 A7 A8] B1 B2 B3 B4 B5 B6 B7 B8 B9.
  constructor; unfold FZ0 in *; rewrite ?B2, ?B3, ?B4, ?B5, ?B6, ?B7, ?B8, ?B9; auto; try lia; try tauto.
  intros K. specialize (A6 K). lia.
Qed.
Lemma fill_none_low : forall first last v p o, fill v p false = (None, o) -> log_ok first last v -> p <= last -> p < first - 1.
Proof.
  intros first last v p o H K L. unfold fill in H. destruct (Z.eqb_spec (v_term v p) 0) as [E|]; [|discriminate].
  destruct (Z.eqb_spec p 0); cbn [andb negb] in H; [discriminate|]. destruct (lo_term _ _ _ K p n E); lia.
Qed.
Lemma lv_empty : forall first last v s s' o, send_empty v s = (s', o) -> log_ok first last v -> LV0 first last s -> LV first last s'.
Proof.
  intros first last v s s' o H K A. assert (F' := fz0_empty _ _ _ _ H (l_fz _ _ _ A)). unfold send_empty in H.
  destruct (fill v (r_next s - 1) false) as [[[p t]|] o0] eqn:F.
  - injection H as <- _. destruct A as [A1 A2 A3 A4 A5 A6 A7 A8]. split; [|right; left; rs; destruct (r_fly s); discriminate].
    constructor; unfold Wt in *; rs; auto. discriminate.
  - destruct (install v s) as [s1 o1] eqn:E. injection H as <- _. assert (L := l_next _ _ _ A). eapply lv_install; eauto.
    assert (X := fill_none_low _ _ _ _ _ F K). lia.
Qed.
Lemma lv_wait_more : forall c first last v s, 0 < c_entries c -> 1 <= c_parallel c -> log_ok first last v -> LV0 first last s -> LV first last (wait_more c v s).
Proof.
  intros c first last v s C1 C2 K [A1 A2 A3 A4 A5 A6 A7 A8]. unfold wait_more.
  assert (Fly : c_entries c <= r_fsize s \/ c_parallel c <= zlen (r_fly s) -> r_fly s <> []).
  { intros [X|X] E; [destruct A1 as (A1 & _); rewrite E in A1; cbn in A1; lia|rewrite E in X; change (zlen (@nil (Z * Z * Z))) with 0 in X; lia]. }
  set (s1 := if (r_wait s =? 0) && (r_fsize s <? c_entries c) && (zlen (r_fly s) <? c_parallel c) then lm_wait (r_next s - 1) (v_last v) s else s).
  assert (L1 : LV first last s1).
  { unfold s1. destruct (Z.eqb_spec (r_wait s) 0) as [W|W]; cbn [andb].
    - destruct (Z.ltb_spec (r_fsize s) (c_entries c)); cbn [andb].
      + destruct (Z.ltb_spec (zlen (r_fly s)) (c_parallel c)).
        * unfold lm_wait. rewrite (lo_last _ _ _ K). destruct (Z.eqb_spec (r_next s - 1) last); cbn [negb].
          -- split; [constructor; unfold Wt, FZ0 in *; rs; auto; try lia|].
             ++ intros _. split; auto. left. split; [apply in_app_iff; right; left; auto|lia].
             ++ right; right; right; right. rs. split; auto. left. rs. split; [apply in_app_iff; right; left; auto|lia].
          -- split; [constructor; unfold Wt, FZ0 in *; rs; auto; try lia|]. right; right; right; right. rs. split; auto. right. rs. lia.
        * split; [constructor; auto|]. right; left. apply Fly. auto.
      + split; [constructor; auto|]. right; left. apply Fly. auto.
    - split; [constructor; auto|]. right; right; right; right. auto. }
  destruct (r_fsize s1 =? 0); auto. destruct L1 as ([B1 B2 B3 B4 B5 B6 B7 B8] & L1). split; [|exact L1]. constructor; unfold Wt, FZ0 in *; rs; auto. discriminate.
Qed.
Lemma prepare_ends : forall c get n i len ro es ro' rc last, prepare c get n i len ro = (es, ro', rc) -> (forall j e, get j = Some e -> j <= last) -> es <> [] -> i + zlen es <= last + 1.
Proof.
  intros c get n i len ro es ro' rc last H G N. destruct (prepare_spec _ _ _ _ _ _ _ _ _ H) as [_ B].
  assert (Z : 0 < zlen es) by (destruct es; [congruence|unfold zlen; cbn [length]; lia]).
  destruct (znth_in_bound es (zlen es - 1)) as [x X]; [lia|]. destruct (B _ _ X) as [_ (e & E & _)]. apply G in E. lia.
Qed.
Lemma prepare_first : forall c get n i len ro e es ro' rc, prepare c get n i len ro = (e :: es, ro', rc) -> exists x, get i = Some x.
Proof.
  intros c get n i len ro e es ro' rc H. destruct (prepare_spec _ _ _ _ _ _ _ _ _ H) as [_ B].
  destruct (B 0 e) as [_ (x & E & _)]; [reflexivity|]. rewrite Z.add_0_r in E. eauto.
Qed.
Lemma prepare_ro : forall c get n i len ro es ro' rc, prepare c get n i len ro = (es, ro', rc) -> (forall j e, get j = Some e -> 0 <= j) -> (rc = R_EREADONLY -> ro' <> 0) /\ (ro <> 0 -> ro' <> 0).
Proof.
  induction n as [|n IH]; intros i len ro es ro' rc H I; cbn [prepare] in H.
  - injection H as <- <- <-. split; auto. discriminate.
  - destruct (_ <=? len). { injection H as <- <- <-. split; auto. discriminate. }
    destruct (get i) as [e|] eqn:Ge. 2:{ injection H as <- <- <-. split; auto. discriminate. }
    apply I in Ge. destruct (negb (ro =? 0) && (ro <=? i)) eqn:Fz; cbn [andb] in H.
    + apply andb_true_iff in Fz. destruct Fz as [Fz _]. apply negb_true_iff, Z.eqb_neq in Fz.
      destruct (e_type e); cbn [negb] in H; try (injection H as <- <- <-; split; auto; fail).
      destruct (prepare c get n _ _ _) as [[es1 ro1] rc1] eqn:Q. injection H as <- <- <-. destruct (IH _ _ _ _ _ _ Q) as [X1 X2]; [auto|]. split; auto. intros _. apply X2. lia.
    + destruct (prepare c get n _ _ _) as [[es1 ro1] rc1] eqn:Q. injection H as <- <- <-. apply (IH _ _ _ _ _ _ Q). auto.
Qed.
Lemma lv_ro : forall first last ro s, LV0 first last s -> LV0 first last (set_ro ro s).
Proof. intros first last ro s [A1 A2 A3 A4 A5 A6 A7 A8]. constructor; unfold FZ0, Wt in *; rs; auto. Qed.
Lemma lv_entries : forall c first last v s s' o, send_entries c v s = (s', o) -> 0 < c_entries c -> 1 <= c_parallel c -> log_ok first last v ->
  LV0 first last s -> LV first last s'.
Proof.
  intros c first last v s s' o H C1 C2 K A. assert (F' := fz0_entries _ _ _ _ _ H (l_fz _ _ _ A)). unfold send_entries in H.
  assert (Hfz := fz0_nonneg _ (l_fz _ _ _ A)).
  destruct (Z.leb_spec (c_entries c) (r_fsize s)) as [G1|G1]; cbn [orb] in H.
  { injection H as <- <-. split; auto. right; left. intros E. destruct A as [(A1 & _) _ _ _ _ _ _ _]. rewrite E in A1. cbn in A1. lia. }
  destruct (Z.leb_spec (c_parallel c) (zlen (r_fly s))) as [G2|G2]; cbn [orb] in H.
  { injection H as <- <-. split; auto. right; left. intros E. rewrite E in G2. change (zlen (@nil (Z * Z * Z))) with 0 in G2. lia. }
  destruct (match r_st s with BLOCKING => true | _ => false end) eqn:G3.
  { injection H as <- <-. split; auto. right; right; right; left. assert (X := l_blk _ _ _ A). destruct (r_st s); try discriminate. specialize (X eq_refl). lia. }
  assert (Ins : forall s0 s1 o1, install v (reset_next s0) = (s1, o1) -> LV0 first last s0 -> r_next s0 < first -> LV first last s1).
  { intros s0 s1 o1 E A0 N0. eapply lv_install; eauto using lv_reset. assert (X := fz0_nonneg _ (l_fz _ _ _ A0)). unfold reset_next. rs. lia. }
  destruct (fill v (r_next s - 1) false) as [[[p t]|] o0] eqn:F.
  2:{ destruct (install v (reset_next s)) as [s1 o1] eqn:E. injection H as <- _. eapply Ins; eauto.
      assert (X := fill_none_low _ _ _ _ _ F K). assert (L := l_next _ _ _ A). lia. }
  destruct (prepare _ _ _ _ _ _) as [[es ro] rc] eqn:Q. destruct es as [|e es].
  - rsi H. rewrite (lo_first _ _ _ K) in H. destruct (Z.ltb_spec (r_next s) first).
    + destruct (install v (reset_next (set_ro ro s))) as [s1 o1] eqn:E. injection H as <- _. eapply Ins; eauto using lv_ro.
    + destruct (Z.eqb_spec rc R_EREADONLY) as [Er|Er].
      * destruct (prepare_ro _ _ _ _ _ _ _ _ _ Q) as [X _]; [intros j x Hx; apply (lo_get _ _ _ K) in Hx; assert (X := lo_range _ _ _ K); lia|]. specialize (X Er).
        assert (Y := lv_ro first last ro s A). destruct (r_fsize s =? 0); injection H as <- _.
        -- split; [|left; rs; auto]. destruct Y as [B1 B2 B3 B4 B5 B6 B7 B8]. constructor; unfold FZ0, Wt in *; rs; auto. discriminate.
        -- split; auto. left. rs. auto.
      * injection H as <- _. apply lv_wait_more; auto using lv_ro.
  - assert (Ne := prepare_ends _ _ _ _ _ _ _ _ _ last Q (fun j x Hx => proj2 (lo_get _ _ _ K j x Hx)) ltac:(discriminate)).
    destruct (prepare_first _ _ _ _ _ _ _ _ _ _ Q) as [x Hx]. apply (lo_get _ _ _ K) in Hx.
    set (n := zlen (e :: es)) in *. assert (Hn : 0 < n) by (unfold n, zlen; cbn [length]; lia).
    match type of H with (wait_more c v ?y, _) = _ => set (sx := y) in H end. injection H as <- _.
    assert (FX : FZ0 sx). { destruct (wait_more_upd c v sx) as ((_ & U1 & U2 & _) & _). apply (fz0_upd (wait_more c v sx)); auto. }
    apply lv_wait_more; auto. destruct A as [A1 A2 A3 A4 A5 A6 A7 A8].
    constructor; auto; unfold sx; rs; auto; try lia; try discriminate.
    + intros X. specialize (A6 X). lia.
    + intros X. destruct (A7 X) as (Y1 & [(Y2 & Y3)|Y2]); [lia|]. split; auto. right. exact Y2.
Qed.
Lemma lv_note : forall first last v code b s s' o, notify v code b s = (s', o) -> LV0 first last s -> LV0 first last s' /\ (P last s -> P last s') /\ r_next s' = r_next s.
Proof.
  intros first last v code b s s' o H A. unfold notify, run_catch in H.
  repeat dmh H; injection H as <- _; (split; [destruct A as [A1 A2 A3 A4 A5 A6 A7 A8]; constructor; unfold FZ0, Wt in *; rs; auto|split; auto]).
Qed.
Lemma lv_after : forall c first last v s s' o, after_success c v s = (s', o) -> 0 < c_entries c -> 1 <= c_parallel c -> log_ok first last v ->
  LV0 first last s -> LV first last s'.
Proof.
  intros c first last v s s' o H C1 C2 K A. unfold after_success, timeout_now in H.
  assert (A' : LV0 first last (set_succ true s)) by (destruct A as [A1 A2 A3 A4 A5 A6 A7 A8]; constructor; unfold FZ0, Wt in *; rs; auto).
  destruct (notify v 0 false (set_succ true s)) as [s1 o1] eqn:E1. destruct (lv_note _ _ _ _ _ _ _ _ E1 A') as (B & _ & Nx). rsi Nx.
  assert (B' : LV0 first last (set_tni 0 s1)) by (destruct B as [A1 A2 A3 A4 A5 A6 A7 A8]; constructor; unfold FZ0, Wt in *; rs; auto).
  destruct ((0 <? r_tni s1) && (r_tni s1 <? min_flying s1)); destruct (send_entries _ _ _) as [s3 o3] eqn:E3; injection H as <- _.
  - eapply lv_entries; [exact E3|auto..|exact B'].
  - eapply lv_entries; [exact E3|auto..].
Qed.

(** * Every event *)
Lemma lv_first : forall f l f' s, LV f l s -> f <= f' -> LV f' l s.
Proof. intros f l f' s ([A1 A2 A3 A4 A5 A6 A7 A8] & B) H. split; auto. constructor; auto. intros K. specialize (A6 K). lia. Qed.
Definition Like (s s' : rep) : Prop :=
  r_next s' = r_next s /\ r_fsize s' = r_fsize s /\ r_fly s' = r_fly s /\ r_snaps s' = r_snaps s /\ r_reader s' = r_reader s /\
  r_wait s' = r_wait s /\ r_cancel s' = r_cancel s /\ r_regs s' = r_regs s /\ r_fired s' = r_fired s /\ r_nwait s' = r_nwait s.
Lemma lv_like : forall f l s s', LV f l s -> Like s s' -> (r_st s' = BLOCKING -> (0 < r_tm1 s')%nat) ->
  (r_tm1 s + r_tm2 s <= r_tm1 s' + r_tm2 s')%nat -> (r_ro s <> 0 -> r_ro s' <> 0) -> LV f l s'.
Proof.
  intros f l s s' ([A1 A2 A3 A4 A5 A6 A7 A8] & B) (B1 & B2 & B3 & B4 & B5 & B6 & B7 & B8 & B9 & B10) C D E.
  split. { constructor; unfold FZ0, Wt in *; rewrite ?B1, ?B2, ?B3, ?B4, ?B5, ?B6, ?B7, ?B8, ?B9, ?B10; auto. }
  unfold P, Wt in *. rewrite ?B1, ?B2, ?B3, ?B4, ?B5, ?B6, ?B7, ?B8, ?B9, ?B10.
  destruct B as [B|[B|[B|[B|B]]]]; [auto..| |auto 6]. do 3 right. left. lia.
Qed.
Lemma lv0_like : forall f l s s', LV0 f l s -> Like s s' -> (r_st s' = BLOCKING -> (0 < r_tm1 s')%nat) -> LV0 f l s'.
Proof.
  intros f l s s' [A1 A2 A3 A4 A5 A6 A7 A8] (B1 & B2 & B3 & B4 & B5 & B6 & B7 & B8 & B9 & B10) C.
  constructor; unfold FZ0, Wt in *; rewrite ?B1, ?B2, ?B3, ?B4, ?B5, ?B6, ?B7, ?B8, ?B9, ?B10; auto.
Qed.
Ltac like := repeat split; rs; auto.
Lemma lv_block : forall f l s, LV0 f l s -> LV f l (block s).
Proof.
  intros f l s A. unfold block. destruct (r_st s) eqn:E.
  2:{ split; auto. right; right; right; left. apply (l_blk _ _ _ A) in E. lia. }
  all: (split; [apply (lv0_like _ _ s); [auto|like|rs; lia]|right; right; right; left; rs; lia]).
Qed.
Lemma drop_one_single : forall i j l, drop_one i [j] = Some l -> i = j /\ l = [].
Proof. intros i j l H. cbn in H. destruct (Z.eqb_spec j i); [injection H as <-; auto|discriminate]. Qed.
Lemma lv_step : forall c f l s e v s' o, 0 < c_entries c -> 1 <= c_parallel c -> LV f l s -> log_ok (v_first v) (v_last v) v -> f <= v_first v ->
  match e with EvLmWake => l <= v_last v | _ => v_last v = l end ->
  match e with
  | EvResp _ (Resp true t _) => t = c_term c
  | EvWoken true | EvStop1 | EvStop2 | EvTimeoutNow | EvTimeoutNowDone true _ => False
  | _ => True
  end ->
  rstep c s (e, v) = Some (s', o) -> r_dead s' = true \/ LV (v_first v) (v_last v) s'.
Proof.
  intros c f l s e v s' o C1 C2 A K Hf Hl U H. cbn [rstep] in H.
  destruct (r_dead s); [discriminate|].
  assert (A' := lv_first _ _ _ _ A Hf). destruct A' as [A0 AP].
  destruct e as [call r|i ok| |r| |stop| | |k m t| |i| |b| |st r| |].
  - (* answer *)
    rewrite Hl in *. destruct (find_call call (r_sent s)) as [[p n]|]; [|discriminate]. injection H as H. unfold on_rpc in H.
    destruct (negb (in_flight _ _ _)). { injection H as <- _. right. split; auto. }
    destruct r as [|[|] t last].
    + injection H as <- _. right. apply lv_block, lv_reset, A0.
    + subst t. rewrite Z.eqb_refl in H. cbn [negb] in H.
      destruct (pop_acked (p + 1) (r_fly s) (r_fsize s)) as [fl sz] eqn:Q.
      destruct (after_success _ _ _) as [s1 o1] eqn:E. injection H as <- _.
      right. eapply lv_after; eauto.
      destruct A0 as [[A1 A1'] A2 A3 A4 A5 A6 A7 A8]. assert (Y := fz0_pop _ _ _ _ _ Q A1 A1').
      constructor; unfold FZ0, Wt in *; rs; auto.
    + destruct (c_term c <? t).
      * destruct (notify _ _ _ _) as [s1 o1]. injection H as <- _. left. reflexivity.
      * match type of H with (let '(_, _) := send_empty v ?y in _) = _ => set (sx := y) in H end.
        destruct (send_empty v sx) as [s1 o1] eqn:E. injection H as <- _.
        right. eapply lv_empty; eauto. assert (R := lv_reset _ _ _ A0).
        apply (lv_weak _ _ _ sx R); subst sx; destruct (last + 1 <? _) eqn:Q1; try (destruct (1 <? _) eqn:Q2); rs; auto; try reflexivity; try lia;
          unfold reset_next in *; rsi Q1; rs; lia.
  - (* snapshot installed *)
    rewrite Hl in *. destruct (drop_one i (r_snaps s)) as [l0|] eqn:D; [|discriminate]. injection H as H. right. unfold on_installed in H. rsi H.
    destruct A0 as [A1 A2 A3 A4 A5 A6 A7 A8].
    destruct A5 as [(A5 & j & E)|(_ & E)]; [|rewrite E in D; discriminate]. rewrite E in *. apply drop_one_single in D. destruct D as [<- ->].
    assert (A6' : r_next s < v_first v) by (apply A6; discriminate). assert (R := lo_range _ _ _ K).
    assert (X : forall nx, nx <= l + 1 -> (nx = r_next s \/ nx = i + 1) -> LV0 (v_first v) l (set_fly nx (r_fsize s) (r_fly s) (set_reader false [] (set_reader (r_reader s) [] s)))).
    { intros nx N1 N2. constructor; unfold FZ0, Wt in *; rs; auto; try congruence.
      intros W. destruct (A7 W) as (W1 & [(W2 & W3)|W2]); [lia|auto]. }
    inversion A3 as [|? ? B1 _]; subst. destruct ok; cbn [negb] in H.
    + eapply lv_after; eauto. apply (X (i + 1)); auto. lia.
    + injection H as <- _. apply lv_block. apply (lv0_like _ _ _ _ (X (r_next s) A2 (or_introl eq_refl))); [like|rs; auto].
  - (* heartbeat timer *)
    rewrite Hl in *. injection H as H. right. unfold send_heartbeat in H. destruct (fill _ _ _) as [[[? ?]|] ?]; injection H as <- _; split; auto.
  - (* heartbeat answer *)
    rewrite Hl in *. injection H as H. unfold on_heartbeat in H. destruct r as [[t ro]|]; [|injection H as <- _; right; split; auto].
    destruct (c_term c <? t); [destruct (notify _ _ _ _); injection H as <- _; left; reflexivity|injection H as <- _; right; split; auto].
  - (* the log grows *)
    injection H as <- _. right. destruct A0 as [A1 A2 A3 A4 A5 A6 A7 A8].
    assert (W : Wt l s -> (0 < length (r_regs s) + r_fired s)%nat).
    { intros [(W & _)|W]; [destruct (r_regs s); [destruct W|cbn; lia]|lia]. }
    split.
    + constructor; unfold FZ0 in *; rs; auto; try lia.
      * eapply Forall_impl; [|exact A3]. cbn. intros; lia.
      * intros X. destruct (A7 X). split; auto. right. rs. auto.
    + unfold P in *. rs. destruct AP as [B|[B|[B|[B|[B1 B2]]]]]; auto 6. do 4 right. split; auto. right. rs. auto.
  - (* woken *)
    rewrite Hl in *. destruct (r_fired s) as [|n] eqn:Fd; [discriminate|]. injection H as H. right. unfold woken in H. destruct stop; [destruct U|]. rsi H.
    cbn [negb andb] in H. destruct (r_cancel s) eqn:Cn; cbn [negb] in H.
    + injection H as <- _. destruct A0 as [A1 A2 A3 A4 A5 A6 A7 A8]. split.
      * constructor; unfold FZ0 in *; rs; auto. intros X. destruct (A7 X). congruence.
      * unfold P in *. rs. destruct AP as [B|[B|[B|[B|[B1 B2]]]]]; auto 6. congruence.
    + eapply lv_entries; eauto. apply (lv_weak _ _ _ _ A0); rs; auto. lia.
  - (* block timer, first part *)
    rewrite Hl in *. destruct (r_tm1 s) as [|n] eqn:T1; [discriminate|]. injection H as <- _. right.
    apply (lv_like _ _ s); [split; auto|like|rs; discriminate|rs; lia|rs; auto].
  - (* block timer, second part *)
    rewrite Hl in *. destruct (r_tm2 s) as [|n] eqn:T2; [discriminate|]. injection H as H. right. unfold block_over in H. rsi H.
    assert (B : LV0 (v_first v) l (set_timers (r_tm1 s) n s)) by (apply (lv0_like _ _ s); [auto|like|rs; apply (l_blk _ _ _ A0)]).
    destruct (Z.eqb_spec (r_wait s) 0) as [W|W]; cbn [negb] in H.
    + eapply lv_empty; eauto.
    + injection H as <- _. split; auto. do 4 right. apply (l_wt _ _ _ A0 W).
  - (* catch-up *)
    rewrite Hl in *. injection H as H. right. unfold wait_caught_up in H.
    repeat dmh H; injection H as <- _; try (split; auto; fail); apply (lv_like _ _ s); try (split; auto; fail); [like|rs; apply (l_blk _ _ _ A0)|rs; lia|rs; auto].
  - rewrite Hl in *. injection H as H. right. destruct (lv_note _ _ _ _ _ _ _ _ H A0) as (X & Y & _). split; auto.
  - (* transfer *)
    rewrite Hl in *. injection H as H. right. unfold transfer, timeout_now in H. destruct (_ && _); injection H as <- _;
      (apply (lv_like _ _ s); [split; auto|like|rs; apply (l_blk _ _ _ A0)|rs; lia|rs; auto]).
  - rewrite Hl in *. injection H as <- _. right. apply (lv_like _ _ s); [split; auto|like|rs; apply (l_blk _ _ _ A0)|rs; lia|rs; auto].
  - (* read-only *)
    rewrite Hl in *. injection H as H. right. unfold change_readonly in H. destruct (_ || _); [injection H as <- _; split; auto|].
    destruct b; injection H as <- _.
    + split; [apply lv_ro; auto|]. left. rs. assert (X := lo_range _ _ _ K). lia.
    + apply lv_wait_more; auto using lv_ro.
  - destruct U.
  - (* TimeoutNow answered *)
    rewrite Hl in *. injection H as H. unfold on_timeout_now in H. destruct st; [destruct U|]. destruct r as [t|]; [|injection H as <- _; right; split; auto].
    destruct (c_term c <? t); [destruct (notify _ _ _ _); injection H as <- _; left; reflexivity|injection H as <- _; right; split; auto].
  - destruct U.
  - destruct U.
Qed.
Lemma lv_start : forall v s o, rstart v = (s, o) -> log_ok (v_first v) (v_last v) v -> LV (v_first v) (v_last v) s.
Proof.
  intros v s o H K. unfold rstart in H. eapply lv_empty; eauto. constructor; unfold FZ0; rs; auto; try discriminate; try lia; try tauto.
Qed.
Lemma log_grows_app : forall h f l e v, log_grows f l (h ++ [(e, v)]) -> log_grows f l h /\
  exists f1 l1, log_grows f1 l1 [(e, v)] /\ l1 = last (map (fun x => v_last (snd x)) h) l /\ f1 = last (map (fun x => v_first (snd x)) h) f.
Proof.
  induction h as [|[e0 v0] h IH]; intros f l e v H.
  - split; [exact I|]. exists f, l. auto.
  - cbn [app log_grows] in H. destruct H as (H1 & H2 & H3 & H4). apply IH in H4. destruct H4 as (H4 & f1 & l1 & H5 & H6 & H7).
    split; [cbn [log_grows]; auto|]. exists f1, l1. split; auto.
    assert (Lst : forall (g : revt * renv -> Z) d d', h <> [] -> last (map g h) d = last (map g h) d').
    { intros g d d' N. destruct h as [|x h']; [congruence|]. generalize x. clear. induction h'; intros; [reflexivity|]. cbn in *. auto. }
    destruct h as [|x h']; cbn [map last] in *; auto.
    split; [rewrite H6|rewrite H7]; [apply (Lst (fun x0 => v_last (snd x0)))|apply (Lst (fun x0 => v_first (snd x0)))]; discriminate.
Qed.
Lemma life_lv : forall c v0 h s o, 0 < c_entries c -> 1 <= c_parallel c -> log_ok (v_first v0) (v_last v0) v0 ->
  log_grows (v_first v0) (v_last v0) h -> undisturbed c h -> rlife c v0 h = Some (s, o) ->
  r_dead s = true \/ LV (last (map (fun x => v_first (snd x)) h) (v_first v0)) (last (map (fun x => v_last (snd x)) h) (v_last v0)) s.
Proof.
  intros c v0 h s o C1 C2 K G U H. revert G U. pattern h, s, o. eapply rlife_ind; [| |exact H].
  - intros s0 o0 H0 _ _. right. cbn. eapply lv_start; eauto.
  - clear h s o H. intros h s o e s' o' IH H St G U. destruct e as [e v]. destruct (log_grows_app _ _ _ _ _ G) as (G1 & f1 & l1 & G2 & -> & ->).
    cbn [log_grows] in G2. destruct G2 as (G2 & G3 & G4 & _).
    rewrite !map_app. cbn [map]. rewrite !last_last.
    destruct IH as [D|IH]; auto. { intros e1 v1 X. apply (U e1 v1). apply in_app_iff. auto. }
    { cbn [rstep] in St. rewrite D in St. discriminate. }
    cbn [snd]. eapply lv_step; eauto. apply (U e v). apply in_app_iff. right; left; auto.
Qed.
Lemma log_end_last : forall v0 h, log_end v0 h = last (map (fun x => v_last (snd x)) h) (v_last v0).
Proof.
  intros v0 h. unfold log_end. revert v0. induction h as [|x h IH]; intros v0; [reflexivity|]. destruct h as [|y h]; [reflexivity|].
  change (last (map snd (x :: y :: h)) v0) with (last (map snd (y :: h)) v0). rewrite IH. reflexivity.
Qed.
