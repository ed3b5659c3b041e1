From Verif Require Import Base BaseLemmas LogEntry Repl ReplSpec ReplProofs ReplProofs2 ReplProofs3 ReplProofs4 ReplProofs5.

Lemma confirmed_mono : forall c h o m h' o', confirmed c h o m -> confirmed c (h ++ h') (o ++ o') m.
Proof.
  intros c h o m h' o' [(call & last & v & p & t & es & cm & A & B & C)|(v & A)].
  - left. exists call, last, v, p, t, es, cm. split; [|split]; auto; apply in_app_iff; auto.
  - right. exists v. apply in_app_iff; auto.
Qed.
Lemma counted_mono : forall o o' i, counted o i -> counted (o ++ o') i.
Proof. intros o o' i (a & b & A & B). exists a, b. split; auto. apply in_app_iff; auto. Qed.
Lemma caught_mono : forall c h o m h' o', caught c h o m -> caught c (h ++ h') (o ++ o') m.
Proof.
  intros c h o m h' o' (k & e & v & A & B & C). exists k, e, v. split; [apply in_app_iff; auto|]. split; auto. apply confirmed_mono; auto.
Qed.
Record Hist (c : rcfg) (h : list (revt * renv)) (s : rep) (o : list rout) : Prop := mkHist {
  h_inv : r_dead s = true \/ Inv s;
  h_conf : r_succ s = true -> exists m, confirmed c h o m /\ min_flying s - 1 <= m;
  h_sent : forall call p t es cm i, In (OReq call p t es cm) o -> p < i <= p + zlen es ->
    min_flying s <= i \/ counted o i \/ exists j v, In (EvInstalled j true, v) h /\ i <= j;
  h_tni : r_tni s <> 0 -> asked h (r_tni s);
  h_catch : forall k, r_catch s = Some k -> (exists t v, In (EvCatch (k_id k) (k_margin k) t, v) h) /\
    (k_set k = true -> k_code k = 0 -> caught c h o (k_margin k)) }.

Lemma start_hist : forall c v0 s o, rstart v0 = (s, o) -> Hist c [] s o /\ nocheck o.
Proof.
  intros c v0 s o H. unfold rstart in H.
  destruct (send_empty_inv _ _ _ _ H) as (I & [K1 K2 K3 K4 K5] & Nk & Rq); [reflexivity|reflexivity|right; auto|reflexivity|].
  split; auto. constructor; auto.
  - rewrite K2. intros K. discriminate.
  - intros call p t es cm i K L. left. apply Rq in K. lia.
  - rewrite K3. intros K. destruct K. auto.
  - rewrite K4. intros k K. discriminate.
Qed.
Lemma asked_snoc : forall h e v i, asked h i -> e <> EvStopTransfer -> (forall j, e <> EvTransfer j) -> asked (h ++ [(e, v)]) i.
Proof.
  intros h e v i (h1 & v1 & h2 & -> & H) A B. exists h1, v1, (h2 ++ [(e, v)]). split; [rewrite <- app_assoc; auto|].
  intros e' v' K. apply in_app_iff in K. destruct K as [K|[K|[]]]; [eauto|]. injection K as <- <-. auto.
Qed.
Lemma asked_now : forall h v i, asked (h ++ [(EvTransfer i, v)]) i.
Proof. intros. exists h, v, []. split; auto. Qed.

Lemma succ_confirmed : forall c v0 h s o e v s' o', Hist c h s o -> rlife c v0 h = Some (s, o) -> Step c s e v s' o' ->
  r_succ s' = true -> exists m, confirmed c (h ++ [(e, v)]) (o ++ o') m /\ min_flying s' - 1 <= m.
Proof.
  intros c v0 h s o e v s' o' Hi Hl St K. destruct (st_mf _ _ _ _ _ _ St) as [(A & B)|[(call & last & p & n & -> & Sn & A & _)|(i & -> & A)]].
  - rewrite B in K. destruct (h_conf _ _ _ _ Hi K) as (m & C & D). exists m. split; [apply confirmed_mono; auto|lia].
  - destruct (life_sent _ _ _ _ _ Hl) as (R & _). rewrite R, <- in_rev in Sn. apply (proj1 (reqs_in _ _ _ _)) in Sn. destruct Sn as (t & es & cm & Sn & ->).
    exists (p + zlen es). split; [|lia]. left. exists call, last, v, p, t, es, cm. split; [apply in_app_iff; right; left; auto|]. split; auto. apply in_app_iff; auto.
  - exists i. split; [|lia]. right. exists v. apply in_app_iff; right; left; auto.
Qed.
Lemma hist_step : forall c v0 h s o e v s' o', Hist c h s o -> rlife c v0 h = Some (s, o) -> e <> EvReadonly false ->
  rstep c s (e, v) = Some (s', o') -> Step c s e v s' o' /\ Hist c (h ++ [(e, v)]) s' (o ++ o').
Proof.
  intros c v0 h s o e v s' o' Hi Hl Ne H.
  assert (I : Inv s). { destruct (h_inv _ _ _ _ Hi) as [D|I]; auto. unfold rstep in H. rewrite D in H. discriminate. }
  assert (ND := proj2 (proj2 (life_sent _ _ _ _ _ Hl))).
  assert (St := rstep_step _ _ _ _ _ _ I ND Ne H). split; auto.
  assert (Sc := succ_confirmed _ _ _ _ _ _ _ _ _ Hi Hl St).
  assert (Cg : forall m, caught_now v s' m -> caught c (h ++ [(e, v)]) (o ++ o') m).
  { intros m (A & B). destruct (Sc A) as (k & C & D). exists k, e, v. split; [apply in_app_iff; right; left; auto|]. split; auto. lia. }
  destruct St as [S1 S2 S3 S4 S5 S6 S7 S8]. constructor; auto.
  - intros call p t es cm i K L. apply in_app_iff in K. destruct K as [K|K].
    + destruct (h_sent _ _ _ _ Hi _ _ _ _ _ _ K L) as [A|[A|(j & v1 & A & B)]].
      * destruct S2 as [(B & _)|[(call1 & last1 & p1 & n1 & -> & Sn & B & D & E)|(j & -> & B)]].
        -- left. lia.
        -- destruct (Z_lt_le_dec 0 n1) as [N|N].
           ++ destruct (D N) as (F & G). destruct (Z_lt_le_dec i (p1 + n1 + 1)); [|left; lia]. right; left. exists (min_flying s), (p1 + n1). split; [apply in_app_iff; auto|lia].
           ++ left. rewrite E; auto.
        -- destruct (Z_lt_le_dec i (j + 1)); [|left; lia]. right; right. exists j, v. split; [apply in_app_iff; right; left; auto|lia].
      * right; left. apply counted_mono; auto.
      * right; right. exists j, v1. split; auto. apply in_app_iff; auto.
    + left. apply S4 in K. lia.
  - intros K. destruct S6 as [A|[->|(A & B & C)]]; [tauto|apply asked_now|]. rewrite A in *. apply asked_snoc; auto. apply (h_tni _ _ _ _ Hi); auto.
  - intros k K. destruct (S8 k K) as [A|[(t & A & B)|(kk & A & B & C & D)]].
    + destruct (h_catch _ _ _ _ Hi k A) as ((t & v1 & B) & C). split; [exists t, v1; apply in_app_iff; auto|]. intros. apply caught_mono; auto.
    + split; [exists t, v; rewrite <- A; apply in_app_iff; right; left; auto|]. congruence.
    + destruct (h_catch _ _ _ _ Hi kk A) as ((t & v1 & E) & _). rewrite B, C in E. split; [exists t, v1; apply in_app_iff; auto|]. auto.
Qed.
Lemma life_hist : forall c v0 h s o, no_readonly_off h -> rlife c v0 h = Some (s, o) -> Hist c h s o /\ nocheck o.
Proof.
  intros c v0 h s o N H. revert N. revert h s o H.
  apply (rlife_ind c v0 (fun h s o => no_readonly_off h -> Hist c h s o /\ nocheck o)).
  - intros s o H _. apply start_hist with (c := c) in H. auto.
  - intros h s o [e v] s' o' IH Hl H N.
    assert (N1 : no_readonly_off h) by (intros x K; apply (N x); apply in_app_iff; auto).
    assert (N2 : e <> EvReadonly false) by (intros ->; apply (N v); apply in_app_iff; right; left; auto).
    destruct (IH N1) as (Hi & Nk). destruct (hist_step _ _ _ _ _ _ _ _ _ Hi Hl N2 H) as (St & Hi'). split; auto. apply nk_app; auto. apply St.
Qed.

(** * The window's size, whatever happens *)
Fixpoint sumn (l : list (Z * Z * Z)) : Z := match l with [] => 0 | (_, n, _) :: l' => n + sumn l' end.
Definition FZ (s : rep) : Prop := r_dead s = true \/ (r_fsize s = sumn (r_fly s) /\ Forall (fun x => 0 <= snd (fst x)) (r_fly s)).
Definition FZ0 (s : rep) : Prop := r_fsize s = sumn (r_fly s) /\ Forall (fun x => 0 <= snd (fst x)) (r_fly s).
Lemma fz0_nonneg : forall s, FZ0 s -> 0 <= r_fsize s.
Proof. intros s (-> & H). induction (r_fly s) as [|[[a n] k] l IH]; cbn [sumn]; [lia|]. inversion H; subst. cbn [fst snd] in *. specialize (IH H3). lia. Qed.
Lemma sumn_app : forall a b, sumn (a ++ b) = sumn a + sumn b.
Proof. induction a as [|[[x n] k] a IH]; intros b; cbn [app sumn]; [lia|]. rewrite IH. lia. Qed.
Lemma fz0_upd : forall s s', r_fsize s' = r_fsize s -> r_fly s' = r_fly s -> FZ0 s -> FZ0 s'.
Proof. intros s s' A B. unfold FZ0. rewrite A, B. auto. Qed.
Lemma fz0_reset : forall s, FZ0 (reset_next s). Proof. intros. split; [reflexivity|constructor]. Qed.
Lemma fz0_empty : forall v s s' o, send_empty v s = (s', o) -> FZ0 s -> FZ0 s'.
Proof.
  intros v s s' o H (A & B). unfold send_empty in H. destruct (fill v (r_next s - 1) false) as [[[p t]|] o0].
  - injection H as <- _. split; rs.
    + rewrite sumn_app. cbn [sumn]. lia.
    + apply Forall_app. split; auto. constructor; [cbn; lia|constructor].
  - destruct (install v s) as [s1 o1] eqn:E. injection H as <- _. destruct (install_spec _ _ _ _ E) as (_ & B2 & B3 & _). apply (fz0_upd s); auto. split; auto.
Qed.
Lemma fz0_entries : forall c v s s' o, send_entries c v s = (s', o) -> FZ0 s -> FZ0 s'.
Proof.
  intros c v s s' o H F. unfold send_entries in H. destruct (_ || _ || _); [injection H as <- _; auto|].
  assert (Ins : forall s0 s1 o1, install v (reset_next s0) = (s1, o1) -> FZ0 s1).
  { intros s0 s1 o1 E. destruct (install_spec _ _ _ _ E) as (_ & B2 & B3 & _). apply (fz0_upd (reset_next s0)); auto using fz0_reset. }
  destruct (fill v (r_next s - 1) false) as [[[p t]|] o0].
  2:{ destruct (install v (reset_next s)) as [s1 o1] eqn:E. injection H as <- _. eauto. }
  destruct (prepare _ _ _ _ _ _) as [[es ro] rc]. destruct es as [|e es].
  - rsi H. destruct (_ <? v_first v).
    + destruct (install v (reset_next (set_ro ro s))) as [s1 o1] eqn:E. injection H as <- _. eauto.
    + destruct (rc =? R_EREADONLY).
      * destruct (_ =? 0); injection H as <- _; exact F.
      * injection H as <- _. destruct (wait_more_upd c v (set_ro ro s)) as ((_ & U1 & U2 & _) & _). apply (fz0_upd s); auto.
  - match type of H with (wait_more c v ?x, _) = _ => set (sx := x) in H end. injection H as <- _.
    destruct (wait_more_upd c v sx) as ((_ & U1 & U2 & _) & _). apply (fz0_upd sx); auto. destruct F as (F1 & F2). unfold sx. split; rs.
    + rewrite sumn_app. cbn [sumn]. lia.
    + apply Forall_app. split; auto. constructor; [cbn [fst snd]; unfold zlen; lia|constructor].
Qed.
Lemma fz0_after : forall c v s s' o, after_success c v s = (s', o) -> FZ0 s -> FZ0 s'.
Proof.
  intros c v s s' o H F. unfold after_success, timeout_now in H.
  destruct (notify v 0 false (set_succ true s)) as [s1 o1] eqn:E1. destruct (notify_still _ _ _ _ _ _ E1) as (((_ & U1 & U2 & _) & _) & _).
  destruct ((0 <? r_tni s1) && (r_tni s1 <? min_flying s1)); destruct (send_entries _ _ _) as [s3 o3] eqn:E3; injection H as <- _;
    (eapply fz0_entries; [exact E3|]); apply (fz0_upd s); auto.
Qed.
Lemma fz0_pop : forall first l sz fl sz', pop_acked first l sz = (fl, sz') -> sz = sumn l -> Forall (fun x => 0 <= snd (fst x)) l ->
  sz' = sumn fl /\ Forall (fun x => 0 <= snd (fst x)) fl.
Proof.
  induction l as [|[[i n] k] l IH]; intros sz fl sz' H E F; cbn [pop_acked] in H.
  - injection H as <- <-. auto.
  - destruct (i <=? first).
    + cbn [sumn] in E. inversion F; subst. eapply IH; eauto. lia.
    + injection H as <- <-. auto.
Qed.
Lemma fz_step : forall c s e v s' o, FZ s -> rstep c s (e, v) = Some (s', o) -> FZ s'.
Proof.
  intros c s e v s' o [D|F] H. { unfold rstep in H. rewrite D in H. discriminate. }
  unfold rstep in H. destruct (r_dead s); [discriminate|].
  destruct e; try (injection H as H).
  - destruct (find_call call (r_sent s)) as [[p n]|]; [|discriminate]. injection H as H. unfold on_rpc in H.
    destruct (negb _); [injection H as <- _; right; auto|]. destruct r as [|[] t last].
    + injection H as <- _. right. unfold block. destruct (r_st (reset_next s)); apply fz0_reset.
    + destruct (negb _); [injection H as <- _; right; apply fz0_reset|]. destruct (pop_acked _ _ _) as [fl sz] eqn:P.
      destruct (after_success _ _ _) as [s1 o1] eqn:E. injection H as <- _. right. eapply fz0_after; [exact E|]. destruct F as (F1 & F2). eapply fz0_pop; eauto.
    + destruct (_ <? t).
      * destruct (notify _ _ _ _) as [s1 o1]. injection H as <- _. left. auto.
      * match type of H with context[send_empty v ?x] => set (sx := x) in H; destruct (send_empty v sx) as [s1 o1] eqn:E end. injection H as <- _. right. eapply fz0_empty; [exact E|].
        unfold sx. destruct (_ <? _); [|destruct (_ <? _)]; apply fz0_reset.
  - destruct (drop_one i (r_snaps s)) as [l|]; [|discriminate]. injection H as H. unfold on_installed in H. destruct ok; cbn [negb] in H.
    + right. eapply fz0_after; [exact H|exact F].
    + injection H as <- _. right. unfold block. rs. destruct (r_st s); exact F.
  - unfold send_heartbeat, fill in H. destruct (_ && _); cbn [negb] in H; injection H as <- _; right; auto.
  - unfold on_heartbeat in H. destruct r as [[t ro]|]; [|injection H as <- _; right; auto]. destruct (_ <? _); [|injection H as <- _; right; auto].
    destruct (notify _ _ _ _) as [s1 o1]. injection H as <- _. left; auto.
  - subst. right. exact F.
  - destruct (r_fired s); [discriminate|]. injection H as H. unfold woken in H. destruct (_ && _); [|injection H as <- _; right; exact F]. right. eapply fz0_entries; [exact H|exact F].
  - destruct (r_tm1 s); [discriminate|]. injection H as <- _. right. exact F.
  - destruct (r_tm2 s); [discriminate|]. injection H as H. unfold block_over in H. destruct (negb _); [injection H as <- _; right; exact F|]. right. eapply fz0_empty; [exact H|exact F].
  - unfold wait_caught_up in H. repeat dmh H; injection H as <- _; right; exact F.
  - destruct (notify_still _ _ _ _ _ _ H) as (((_ & U1 & U2 & _) & _) & _). right. apply (fz0_upd s); auto.
  - unfold transfer, timeout_now in H. destruct (_ && _); injection H as <- _; right; exact F.
  - subst. right. exact F.
  - unfold change_readonly in H. destruct (_ || _); [injection H as <- _; right; exact F|]. destruct b; injection H as <- _; right; [exact F|].
    destruct (wait_more_upd c v (set_ro 0 s)) as ((_ & U1 & U2 & _) & _). apply (fz0_upd s); auto.
  - subst. right. exact F.
  - unfold on_timeout_now in H. destruct r as [t|]; [destruct (_ <? _)|]; try (destruct stepped; [|injection H as <- _; right; exact F]);
    destruct (notify _ _ _ _) as [s1 o1]; injection H as <- _; left; auto.
  - unfold stop1 in H. destruct (notify_still _ _ _ _ _ _ H) as (((_ & U1 & U2 & _) & _) & _). right. apply (fz0_upd s); auto.
  - unfold stop2 in H. destruct (notify _ _ _ _) as [s1 o1]. injection H as <- _. left; auto.
Qed.
Lemma life_fz : forall c v0 h s o, rlife c v0 h = Some (s, o) -> FZ s.
Proof.
  intros c v0. apply (rlife_ind c v0 (fun _ s _ => FZ s)).
  - intros s o H. right. unfold rstart in H. eapply fz0_empty; [exact H|]. split; [reflexivity|constructor].
  - intros h s o [e v] s' o' F _ H. eapply fz_step; eauto.
Qed.

(** Every request in a life carries the leader's log. *)
Lemma goods_after : forall c L v s s' o, FZ0 s -> reads L v -> after_success c v s = (s', o) -> Goods c L o.
Proof.
  intros c L v s s' o F R H. unfold after_success, timeout_now in H.
  destruct (notify v 0 false (set_succ true s)) as [s1 o1] eqn:E1. destruct (notify_still _ _ _ _ _ _ E1) as (((_ & U1 & U2 & _) & _) & _).
  apply notify_sent in E1. destruct E1 as (E1 & _).
  assert (F1 : 0 <= r_fsize s1) by (apply fz0_nonneg, (fz0_upd s); auto).
  destruct ((0 <? r_tni s1) && (r_tni s1 <? min_flying s1)); destruct (send_entries _ _ _) as [s3 o3] eqn:E3; injection H as _ <-.
  - apply goods_app; [apply goods_none; auto|]. constructor; [exact I|]. eapply goods_send_entries; [|eauto|exact E3]. exact F1.
  - apply goods_app; [apply goods_none; auto|]. cbn [app]. eapply goods_send_entries; [|eauto|exact E3]. exact F1.
Qed.
Lemma goods_step : forall c L s e v s' o, 0 <= c_entries c -> FZ s -> reads L v -> rstep c s (e, v) = Some (s', o) -> Goods c L o.
Proof.
  intros c L s e v s' o Hc [D|F] R H. { unfold rstep in H. rewrite D in H. discriminate. }
  assert (Sn := rstep_sent _ _ _ _ _ H).
  unfold rstep in H. destruct (r_dead s); [discriminate|].
  destruct e; try (injection H as H).
  - destruct (find_call call (r_sent s)) as [[p n]|]; [|discriminate]. injection H as H. unfold on_rpc in H.
    destruct (negb _); [injection H as _ <-; apply goods_none, reqs_chk|]. destruct r as [|[] t last].
    + injection H as _ <-; apply goods_none, reqs_chk.
    + destruct (negb _); [injection H as _ <-; apply goods_none, reqs_chk|]. destruct (pop_acked _ _ _) as [fl sz] eqn:P.
      destruct (after_success _ _ _) as [s1 o1] eqn:E. injection H as _ <-. apply goods_app; [apply goods_none, reqs_chk|]. apply goods_app; [apply goods_none; destruct (0 <? n); auto|].
      eapply goods_after; [|exact R|exact E]. destruct F as (F1 & F2). eapply fz0_pop; eauto.
    + destruct (_ <? t).
      * destruct (notify _ _ _ _) as [s1 o1] eqn:E. apply notify_sent in E. injection H as _ <-. apply goods_none. rewrite !reqs_app, reqs_chk, (proj1 E). auto.
      * match type of H with context[send_empty v ?x] => set (sx := x) in H; destruct (send_empty v sx) as [s1 o1] eqn:E end. injection H as _ <-.
        apply goods_app; [apply goods_none, reqs_chk|]. eapply goods_send_empty; eauto.
  - destruct (drop_one i (r_snaps s)) as [l|]; [|discriminate]. injection H as H. unfold on_installed in H. destruct ok; cbn [negb] in H.
    + eapply goods_after; [|exact R|exact H]. exact F.
    + injection H as _ <-. constructor.
  - unfold send_heartbeat, fill in H. destruct (_ && _); cbn [negb] in H; injection H as _ <-; apply goods_none; auto.
  - unfold on_heartbeat in H. destruct r as [[t ro]|]; [|injection H as _ <-; constructor]. destruct (_ <? _); [|injection H as _ <-; apply goods_none; destruct (_ || _); auto].
    destruct (notify _ _ _ _) as [s1 o1] eqn:E. apply notify_sent in E. injection H as _ <-. apply goods_none. rewrite reqs_app, (proj1 E). auto.
  - subst. constructor.
  - destruct (r_fired s); [discriminate|]. injection H as H. unfold woken in H. destruct (_ && _); [|injection H as _ <-; constructor]. eapply goods_send_entries; [|exact R|exact H]. apply fz0_nonneg. exact F.
  - destruct (r_tm1 s); [discriminate|]. injection H as _ <-. constructor.
  - destruct (r_tm2 s); [discriminate|]. injection H as H. unfold block_over in H. destruct (negb _); [injection H as _ <-; constructor|]. eapply goods_send_empty; eauto.
  - unfold wait_caught_up in H. repeat dmh H; injection H as _ <-; apply goods_none; auto.
  - apply notify_sent in H. apply goods_none, H.
  - unfold transfer, timeout_now in H. destruct (_ && _); injection H as _ <-; apply goods_none; auto.
  - subst. constructor.
  - unfold change_readonly in H. destruct (_ || _); [injection H as _ <-; constructor|]. destruct b; injection H as _ <-; constructor.
  - subst. apply goods_none; auto.
  - unfold on_timeout_now in H. destruct r as [t|]; [destruct (_ <? _)|]; try (destruct stepped; [|injection H as _ <-; constructor]);
    destruct (notify _ _ _ _) as [s1 o1] eqn:E; apply notify_sent in E; injection H as _ <-; apply goods_none; rewrite ?reqs_app, (proj1 E); auto.
  - unfold stop1 in H. apply notify_sent in H. apply goods_none, H.
  - unfold stop2 in H. destruct (notify _ _ _ _) as [s1 o1] eqn:E. apply notify_sent in E. injection H as _ <-. apply goods_none, E.
Qed.
Lemma life_goods : forall c L v0 h s o, 0 <= c_entries c -> reads L v0 -> (forall e v, In (e, v) h -> reads L v) -> rlife c v0 h = Some (s, o) -> Goods c L o.
Proof.
  intros c L v0 h s o Hc R0 R H. revert R. revert h s o H.
  apply (rlife_ind c v0 (fun h s o => (forall e v, In (e, v) h -> reads L v) -> Goods c L o)).
  - intros s o H _. unfold rstart in H. eapply goods_send_empty; eauto.
  - intros h s o [e v] s' o' IH Hl H R. apply goods_app.
    + apply IH. intros e1 v1 K. apply (R e1 v1). apply in_app_iff; auto.
    + eapply goods_step; [exact Hc|eapply life_fz; eauto| |exact H]. apply (R e v). apply in_app_iff; right; left; auto.
Qed.
