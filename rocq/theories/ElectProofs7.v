(** C62, lemmas: votes are asked for once per term and no term is won twice, in every history. *)
From Verif Require Import Base Elect ElectSpec ElectProofs ElectProofs2 ElectProofs3 ElectProofs6.
Implicit Type P : en -> list eo -> Prop.

Record W (s : en) (h : list eo) : Prop := mkW {
  w_el : NoDup (elected h); w_as : NoDup (votes_asked h);
  w_elt : Forall (fun t => t <= e_term s) (elected h); w_ast : Forall (fun t => t <= e_term s) (votes_asked h);
  w_win : Forall (fun t => t <= e_term s /\ ~ In t (votes_asked h)) (flat_map welect (e_win s)); w_nd : NoDup (flat_map welect (e_win s));
  w_now : In (e_term s) (elected h) -> fresh (e_v s) /\ ~ In (e_term s) (flat_map welect (e_win s));
  w_pend : In (e_term s) (flat_map welect (e_win s)) -> fresh (e_v s);
  w_ov : old_vers (e_v s) }.

(** What does not concern these. *)
Definition silent (h : list eo) : Prop := elected h = [] /\ votes_asked h = [].
Definition same_w (s s' : en) : Prop := e_term s' = e_term s /\ e_v s' = e_v s /\ flat_map welect (e_win s') = flat_map welect (e_win s).
Lemma silent_app a b : silent a -> silent b -> silent (a ++ b).
Proof. intros [A1 A2] [B1 B2]. unfold silent, elected, votes_asked in *. rewrite !flat_map_app, A1, A2, B1, B2. split; reflexivity. Qed.
Lemma W_same s s' h k : same_w s s' -> silent k -> W s h -> W s' (h ++ k).
Proof.
  intros (T & V & N) [E A] [X1 X2 X3 X4 X5 X6 X7 X8 X9].
  assert (EE : elected (h ++ k) = elected h) by (unfold elected in *; rewrite flat_map_app, E, app_nil_r; reflexivity).
  assert (AA : votes_asked (h ++ k) = votes_asked h) by (unfold votes_asked in *; rewrite flat_map_app, A, app_nil_r; reflexivity).
  constructor; rewrite ?EE, ?AA, ?T, ?V, ?N; auto.
Qed.
Lemma kw_out o : silent o -> kh W (out o). Proof. intros S s h H. cbn. apply (W_same s); auto. repeat split. Qed.
Lemma kw_upd f : (forall s, same_w s (f s)) -> kh W (upd f). Proof. intros F s h H. cbn. apply (W_same s); auto. split; reflexivity. Qed.
Ltac kw0 := repeat first
  [ assumption
  | match goal with
    | |- kh _ ret => apply kh_ret
    | |- kh _ (out _) => apply kw_out; solve [split; reflexivity]
    | |- kh _ (seq _ _) => apply kh_seq
    | |- kh _ (look _) => apply kh_look; intros ?; cbn beta
    | |- kh _ (upd (fun s => s_win _ s)) => fail 1
    | |- kh _ (upd _) => apply kw_upd; let s := fresh in intros s; solve [repeat split]
    | |- kh _ (if ?b then _ else _) => destruct b
    | |- kh _ (match ?x with _ => _ end) => destruct x
    end ].

(** Outputs of step_down and elect_self. *)
Definition quiet_m (m : M) : Prop := forall s, silent (snd (m s)).
Lemma qm_seq a b : quiet_m a -> quiet_m b -> quiet_m (a ;; b).
Proof. intros A B s. unfold seq. specialize (A s). destruct (a s) as [s1 o1]. specialize (B s1). destruct (b s1) as [s2 o2]. cbn [snd] in *. apply silent_app; auto. Qed.
Lemma qm_look f : (forall z, quiet_m (f z)) -> quiet_m (look f). Proof. intros A s. exact (A s s). Qed.
Ltac qm := repeat match goal with
    | |- quiet_m ret => intros ?; split; reflexivity
    | |- quiet_m (out _) => intros ?; split; reflexivity
    | |- quiet_m (upd _) => intros ?; split; reflexivity
    | |- quiet_m (seq _ _) => apply qm_seq
    | |- quiet_m (look _) => apply qm_look; intros ?; cbn beta
    | |- quiet_m (if ?b then _ else _) => destruct b
    | |- quiet_m (match ?x with _ => _ end) => destruct x
    end.
Lemma qm_sd t ok : quiet_m (step_down t ok). Proof. unfold step_down, no_leader. qm. Qed.
Lemma qm_el osd : quiet_m (elect_self osd). Proof. unfold elect_self, no_leader. qm. Qed.

Lemma sd_W s t h k : silent k -> W s h -> W (sd_state t s) (h ++ k).
Proof.
  intros [E A] [X1 X2 X3 X4 X5 X6 X7 X8 X9].
  assert (EE : elected (h ++ k) = elected h) by (unfold elected in *; rewrite flat_map_app, E, app_nil_r; reflexivity).
  assert (AA : votes_asked (h ++ k) = votes_asked h) by (unfold votes_asked in *; rewrite flat_map_app, A, app_nil_r; reflexivity).
  destruct (reset_fresh (e_v s) X9) as [RF RO].
  constructor; rewrite ?EE, ?AA; cbn [sd_state e_term e_v e_win]; auto.
  - eapply Forall_impl; [|exact X3]. cbn. intros; lia.
  - eapply Forall_impl; [|exact X4]. cbn. intros; lia.
  - eapply Forall_impl; [|exact X5]. cbn. intros x [? ?]; split; [lia|auto].
  - intros H. assert (M : Z.max (e_term s) t = e_term s) by (rewrite Forall_forall in X3; specialize (X3 _ H); cbn in X3; lia). rewrite M in *. destruct (X7 H). split; [|auto]. destruct (e_role s); auto.
  - intros H. assert (M : Z.max (e_term s) t = e_term s) by (rewrite Forall_forall in X5; destruct (X5 _ H); lia). rewrite M in *. specialize (X8 H). destruct (e_role s); auto.
  - destruct (e_role s); auto.
Qed.
Lemma kw_sd t ok : kh W (step_down t ok).
Proof.
  intros s h H. pose proof (qm_sd t ok s) as Q. destruct (active (e_role s)) eqn:R.
  - destruct (sd_form s t ok R) as (k & E & _). rewrite E in *. apply sd_W; auto.
  - unfold step_down, look in *. rewrite R in *. cbn. rewrite app_nil_r. exact H.
Qed.
Lemma el_cases osd s : elect_self osd s = (s, []) \/ (let s' := fst (elect_self osd s) in e_term s' = e_term s + 1 /\ e_win s' = e_win s ++ [WElect (e_term s + 1)] /\
  e_v s' = (let v := x_init (e_conf s) (e_old s) false (e_v s) in if osd then x_disrupt v else v)).
Proof.
  unfold elect_self, look. destruct (negb (memb 0 (e_conf s) || memb 0 (e_old s))); [left; reflexivity|right].
  destruct s as [r tm0 vo ld c o tm v p tr me w cs q]. unfold no_leader, seq, upd, out, ret, look. destruct r, ld as [l|], osd; vm_compute; repeat split.
Qed.
Lemma kw_el osd : kh W (elect_self osd).
Proof.
  intros s h H. pose proof (qm_el osd s) as Q. destruct (el_cases osd s) as [E|(T & N & V)].
  - rewrite E. cbn. rewrite app_nil_r. exact H.
  - destruct (elect_self osd s) as [s' k]. cbn [fst snd] in *. destruct H as [X1 X2 X3 X4 X5 X6 X7 X8 X9]. destruct Q as [E A].
    assert (EE : elected (h ++ k) = elected h) by (unfold elected in *; rewrite flat_map_app, E, app_nil_r; reflexivity).
    assert (AA : votes_asked (h ++ k) = votes_asked h) by (unfold votes_asked in *; rewrite flat_map_app, A, app_nil_r; reflexivity).
    assert (F : fresh (e_v s') /\ old_vers (e_v s')) by (rewrite V; destruct (init_fresh (e_conf s) (e_old s) false _ X9) as [F O]; destruct osd; split; assumption).
    assert (NW : flat_map welect (e_win s') = flat_map welect (e_win s) ++ [e_term s + 1]) by (rewrite N, flat_map_app; reflexivity).
    rewrite Forall_forall in X3, X4, X5.
    constructor; rewrite ?EE, ?AA, ?NW, ?T; auto; try apply F.
    + apply Forall_forall. intros x Hx. specialize (X3 x Hx). lia.
    + apply Forall_forall. intros x Hx. specialize (X4 x Hx). lia.
    + apply Forall_forall. intros x Hx. apply in_app_or in Hx. destruct Hx as [Hx|[<-|[]]]; [destruct (X5 x Hx); split; [lia|auto]|]. split; [lia|]. intros Hx. specialize (X4 _ Hx). lia.
    + apply NoDup_rev in X6. rewrite <- (rev_involutive (_ ++ _)). apply NoDup_rev. rewrite rev_app_distr. cbn. constructor; [|exact X6]. rewrite <- in_rev. intros Hx. destruct (X5 _ Hx). lia.
    + intros Hx. specialize (X3 _ Hx). lia.
    + intros _. apply F.
Qed.
(** Winning the term. *)
Lemma W_bl s h : ~ fresh (e_v s) -> W s h -> W (fst (become_leader s)) (h ++ snd (become_leader s)).
Proof.
  intros NF [X1 X2 X3 X4 X5 X6 X7 X8 X9].
  assert (EE : elected (h ++ snd (become_leader s)) = elected h ++ [e_term s]) by (unfold elected; rewrite flat_map_app; reflexivity).
  assert (AA : votes_asked (h ++ snd (become_leader s)) = votes_asked h) by (unfold votes_asked; rewrite flat_map_app; cbn; rewrite app_nil_r; reflexivity).
  assert (S : e_term (fst (become_leader s)) = e_term s /\ e_v (fst (become_leader s)) = x_reset (e_v s) /\ e_win (fst (become_leader s)) = e_win s) by (repeat split).
  destruct S as (T & V & N). destruct (reset_fresh (e_v s) X9) as [RF RO].
  constructor; rewrite ?EE, ?AA, ?T, ?V, ?N; auto.
  - apply NoDup_rev in X1. rewrite <- (rev_involutive (_ ++ _)). apply NoDup_rev. rewrite rev_app_distr. cbn. constructor; [|exact X1]. rewrite <- in_rev. intros Hx. destruct (X7 Hx). contradiction.
  - apply Forall_app. split; [exact X3|constructor; [lia|constructor]].
Qed.
Lemma W_v s h f : ~ fresh (e_v s) -> old_vers (f (e_v s)) -> W s h -> W (s_v f s) h.
Proof.
  intros NF O [X1 X2 X3 X4 X5 X6 X7 X8 X9]. constructor; cbn [s_v e_term e_v e_win]; auto.
  - intros H. destruct (X7 H). contradiction.
  - intros H. destruct (NF (X8 H)).
Qed.
Lemma W_gv s h wait : ~ fresh (e_v s) -> W s h -> W (fst (grant_self_v wait s)) (h ++ snd (grant_self_v wait s)).
Proof.
  intros NF H. unfold grant_self_v. destruct wait.
  - unfold upd. cbn [fst snd]. rewrite app_nil_r. apply W_v; auto. apply ov_timer. apply (w_ov s h H).
  - assert (H2 : W (s_v (x_grant 0) s) h) by (apply W_v; auto; apply (w_ov s h H)). unfold seq, upd, look. cbn [app].
    destruct (x_wins (e_v (s_v (x_grant 0) s))).
    + pose proof (W_bl (s_v (x_grant 0) s) h NF H2) as X. destruct (become_leader (s_v (x_grant 0) s)). exact X.
    + unfold ret. cbn. rewrite app_nil_r. exact H2.
Qed.
Lemma look_s f s : look f s = f s s. Proof. reflexivity. Qed.
Lemma seq_nil a b s z : a s = (z, []) -> (a ;; b) s = b z.
Proof. intros E. unfold seq. rewrite E. destruct (b z). reflexivity. Qed.
Lemma kw_vresp p ver t rt g rej dis last ok s h : existsb (Z.eqb ver) (x_sent (e_v s)) = true -> W s h ->
  W (fst (vote_response p ver t rt g rej dis last ok s)) (h ++ snd (vote_response p ver t rt g rej dis last ok s)).
Proof.
  intros S H. assert (R0 : W (fst (ret s)) (h ++ snd (ret s))) by (cbn; rewrite app_nil_r; exact H).
  unfold vote_response. rewrite look_s. destruct (Z.eqb_spec ver (x_ver (e_v s))) as [V|V]; cbn [negb]; [|exact R0].
  assert (NF : ~ fresh (e_v s)) by (intros F; apply (live_sent _ _ S V F)).
  destruct (e_role s); try exact R0. destruct (negb _); [exact R0|]. destruct (e_term s <? rt); [apply (kw_sd rt ok s h H)|]. destruct (negb g && negb rej); [exact R0|].
  set (z := if dis then s_v x_disrupt s else s).
  assert (Z0 : (if dis then upd (s_v x_disrupt) else ret) s = (z, [])) by (unfold z; destruct dis; reflexivity).
  assert (ZW : W z h) by (unfold z; destruct dis; [apply W_v; auto; apply (w_ov s h H)|exact H]). assert (ZF : ~ fresh (e_v z)) by (unfold z; destruct dis; exact NF).
  rewrite (seq_nil _ _ _ _ Z0). clearbody z.
  assert (POP : forall y, ~ fresh (e_v y) -> W y h -> W (s_v pop_held y) h) by (intros y A B; apply W_v; auto; apply ov_pop; apply (w_ov y h B)).
  destruct g.
  - set (y := if last then s_v (x_grant 0) (s_v (x_grant p) z) else s_v (x_grant p) z).
    assert (YW : W y h) by (unfold y; destruct last; repeat (apply W_v; [exact ZF|apply (w_ov z h ZW)|]); exact ZW). assert (YF : ~ fresh (e_v y)) by (unfold y; destruct last; exact ZF).
    assert (E : (upd (s_v (x_grant p)) ;; (if last then upd (s_v (x_grant 0)) else ret) ;; look (fun s => if x_wins (e_v s) then become_leader else upd (s_v pop_held))) z =
      (if x_wins (e_v y) then become_leader y else (s_v pop_held y, []))).
    { unfold y. destruct last; cbv beta iota zeta delta [seq upd look ret app]; match goal with |- context [x_wins ?a] => destruct (x_wins a) end; try reflexivity; destruct (become_leader _); reflexivity. }
    rewrite E. clearbody y. destruct (x_wins (e_v y)).
    + exact (W_bl y h YF YW).
    + cbn. rewrite app_nil_r. apply POP; auto.
  - unfold seq, upd. cbn. rewrite app_nil_r. apply POP; [exact ZF|]. apply W_v; auto. apply (w_ov z h ZW).
Qed.
Lemma kw_grants ps : kh W (grants ps). Proof. induction ps as [|[p l] ps IH]; cbn [grants]; kw0. Qed.
Lemma kw_gp wait : kh W (grant_self_p wait). Proof. unfold grant_self_p. pose proof (kw_el false). kw0. Qed.
Lemma kw_resume k s h w r wait logok ok : nth_out k (e_win s) = Some (w, r) -> W s h ->
  W (fst (resume w wait logok ok (s_win r s))) (h ++ snd (resume w wait logok ok (s_win r s))).
Proof.
  intros E H. destruct (nth_out_split _ _ _ _ E) as (a & b & N & ->).
  assert (WW : W (s_win (a ++ b) s) h /\ (forall t, In t (welect w) -> ~ In t (votes_asked h) /\ ~ In t (flat_map welect (a ++ b)) /\ (t = e_term s -> fresh (e_v s) /\ ~ In t (elected h)))).
  { destruct H as [X1 X2 X3 X4 X5 X6 X7 X8 X9]. rewrite N in *. rewrite flat_map_app in X5, X6, X7, X8. cbn [flat_map] in X5, X6, X7, X8.
    assert (SUB : forall x, In x (flat_map welect (a ++ b)) -> In x (flat_map welect a ++ welect w ++ flat_map welect b)).
    { intros x Hx. rewrite flat_map_app in Hx. apply in_app_or in Hx. apply in_or_app. destruct Hx; [left; auto|right; apply in_or_app; right; auto]. }
    rewrite Forall_forall in X5. split.
    - constructor; cbn [s_win e_term e_v e_win]; auto.
      + apply Forall_forall. intros x Hx. apply X5. auto.
      + rewrite flat_map_app. destruct w as [t0 b0|t0|t0 c0 r0]; cbn in X6; try exact X6. apply NoDup_remove_1 in X6. exact X6.
      + intros Hx. destruct (X7 Hx) as [Y1 Y2]. split; [exact Y1|]. intros Hy. apply Y2. auto.
    - intros t Ht. assert (In t (flat_map welect a ++ welect w ++ flat_map welect b)) as HI by (apply in_or_app; right; apply in_or_app; left; exact Ht).
      destruct (X5 t HI) as [Y1 Y2]. split; [exact Y2|]. split.
      + destruct w as [t0 b0|t0|t0 c0 r0]; cbn in Ht; [contradiction| |contradiction]. destruct Ht as [<-|[]]. cbn in X6. apply NoDup_remove_2 in X6. rewrite flat_map_app. exact X6.
      + intros ->. split; [apply X8; exact HI|]. intros Hx. destruct (X7 Hx) as [_ Y]. apply Y. exact HI. }
  destruct WW as [WW WF]. assert (WF' : forall t, In t (welect w) -> ~ In t (votes_asked h) /\ ~ In t (flat_map welect (e_win (s_win (a ++ b) s))) /\ (t = e_term (s_win (a ++ b) s) -> fresh (e_v (s_win (a ++ b) s)) /\ ~ In t (elected h))) by exact WF.
  remember (s_win (a ++ b) s) as z. clear Heqz N E H WF a b s k.
  assert (R0 : W (fst (ret z)) (h ++ snd (ret z))) by (cbn; rewrite app_nil_r; exact WW).
  unfold resume. rewrite look_s. destruct w as [t trig|t|t c rt].
  - destruct (negb _); [exact R0|]. assert (K : kh W (upd (s_p (x_init (e_conf z) (e_old z) trig)) ;; upd (s_p x_send) ;; out [OAskPre (e_term z)] ;; grant_self_p wait)).
    { pose proof (kw_gp wait). kw0. }
    apply (K z h WW).
  - destruct (Z.eqb_spec t (e_term z)) as [T|T]; cbn [negb]; [|exact R0]. destruct (WF' t (or_introl eq_refl)) as (Y1 & Y2 & Y3). destruct (Y3 T) as [Y4 Y5]. rewrite T in *. clear Y3 R0.
    set (y := s_v x_send z). set (k := [OAskVote (e_term z); OSave (e_term z) (Some 0) ok]).
    assert (YW : W y (h ++ k)).
    { destruct WW as [X1 X2 X3 X4 X5 X6 X7 X8 X9].
      assert (EE : elected (h ++ k) = elected h) by (unfold elected; rewrite flat_map_app; cbn; rewrite app_nil_r; reflexivity).
      assert (AA : votes_asked (h ++ k) = votes_asked h ++ [e_term z]) by (unfold votes_asked; rewrite flat_map_app; reflexivity).
      constructor; rewrite ?EE, ?AA; cbn [y s_v e_term e_v e_win]; auto.
      + apply NoDup_rev in X2. rewrite <- (rev_involutive (_ ++ _)). apply NoDup_rev. rewrite rev_app_distr. cbn. constructor; [|exact X2]. rewrite <- in_rev. exact Y1.
      + apply Forall_app. split; [exact X4|constructor; [lia|constructor]].
      + apply Forall_forall. intros x Hx. rewrite Forall_forall in X5. destruct (X5 x Hx) as [Z1 Z2]. split; [exact Z1|]. intros Hy. apply in_app_or in Hy. destruct Hy as [Hy|[<-|[]]]; contradiction.
      + intros Hx. contradiction.
      + intros Hx. contradiction.
      + apply ov_send. exact X9. }
    assert (YF : ~ fresh (e_v y)) by (intros [F _]; apply F; left; reflexivity).
    assert (EQ : (upd (s_v x_send) ;; out [OAskVote (e_term z); OSave (e_term z) (Some 0) ok] ;; if ok then grant_self_v wait else upd (s_term (e_term z) None)) z =
      (let '(s2, o2) := (if ok then grant_self_v wait else upd (s_term (e_term z) None)) y in (s2, k ++ o2))).
    { unfold seq, upd, out. fold y. destruct ok; [destruct (grant_self_v wait y)|]; reflexivity. }
    fold k in EQ. rewrite EQ. clear EQ. destruct ok.
    + pose proof (W_gv y (h ++ k) wait YF YW) as X. destruct (grant_self_v wait y) as [s2 o2]. cbn [fst snd] in *. rewrite app_assoc. exact X.
    + unfold upd. cbn [fst snd]. rewrite app_nil_r. rewrite <- (app_nil_r (h ++ k)). apply (W_same y); [repeat split|split; reflexivity|exact YW].
  - pose proof kw_sd as SD. match goal with |- W (fst (?m z)) _ => assert (K : kh W m) end; [|apply (K z h WW)].
    repeat first [apply SD | progress kw0].
Qed.
Lemma estep_W sdv s e s' h k : W s k -> estep sdv s e = Some (s', h) -> W s' (k ++ h).
Proof.
  intros D E.
  assert (KG : forall m : M, kh W m -> Some (m s) = Some (s', h) -> W s' (k ++ h)) by (intros m K X; injection X as X; specialize (K s k D); rewrite X in K; exact K).
  assert (K1 : forall p, Some p = Some (s', h) -> W (fst p) (k ++ snd p) -> W s' (k ++ h)) by (intros p X Y; injection X as ->; exact Y).
  assert (WIN : forall w, welect w = [] -> kh W (look (fun s => upd (s_win (e_win s ++ [w]))))).
  { intros w A z y H. unfold look, upd. cbn [fst snd]. apply (W_same z); [|split; reflexivity|exact H]. split; [reflexivity|split; [reflexivity|]]. cbn. rewrite flat_map_app. cbn. rewrite A, !app_nil_r. reflexivity. }
  assert (PV : forall trig inst, kh W (pre_vote trig inst)).
  { intros trig inst z y H. unfold pre_vote, look. destruct inst; [apply (kh_ret W z y H)|]. destruct (negb _); [apply (kh_ret W z y H)|]. apply (WIN (WPre (e_term z) trig) eq_refl z y H). }
  pose proof kw_sd as SD. pose proof kw_el as EL. pose proof kw_grants as GR.
  destruct e; cbn [estep] in E;
  try solve [match type of E with Some (?m s) = _ => apply (KG m); [|exact E] end; unfold election_timeout, vote_timeout, no_leader, check_step_down, set_leader, on_error, shutdown, set_state;
    repeat first [apply SD | apply EL | apply GR | apply PV | progress kw0]].
  - destruct (nth_out k0 (e_win s)) as [[w r]|] eqn:N; [|discriminate E]. apply (K1 _ E). apply (kw_resume k0); auto.
  - destruct (existsb _ _) eqn:S; [|discriminate E]. apply (K1 _ E). apply kw_vresp; auto.
  - destruct (existsb _ _); [|discriminate E]. match type of E with Some (?m s) = _ => apply (KG m); [|exact E] end. unfold pre_response; repeat first [apply SD | apply EL | apply GR | progress kw0].
  - destruct (existsb _ _) eqn:S; [|discriminate E]. apply (K1 _ E). destruct (active (e_role s)); cbn [negb orb]; [|apply (kh_ret W s k D)].
    destruct (Z.eqb_spec ver (x_ver (e_v s))) as [V|V]; cbn [negb]; [|apply (kh_ret W s k D)]. apply W_gv; auto. intros F. apply (live_arm _ _ S V F).
  - destruct (existsb _ _); [|discriminate E]. match type of E with Some (?m s) = _ => apply (KG m); [|exact E] end. pose proof kw_gp as GP. repeat first [apply GP | progress kw0].
  - apply (K1 _ E). destruct (_ || _); [apply (kh_ret W s k D)|]. apply (WIN (WVote (e_term s) c rt) eq_refl s k D).
  - destruct (e_role s); first [apply (KG ret); [apply kh_ret|exact E] | match type of E with Some (?m s) = _ => apply (KG m); [|exact E] end; unfold set_state; kw0].
  - destruct (e_role s); first [apply (KG ret); [apply kh_ret|exact E] | match type of E with Some (?m s) = _ => apply (KG m); [|exact E] end; unfold set_state; kw0].
  - destruct (leading _); [|discriminate E]. match type of E with Some (?m s) = _ => apply (KG m); [|exact E] end. kw0.
  - destruct (e_met s); [|discriminate E]. match type of E with Some (?m s) = _ => apply (KG m); [|exact E] end. kw0.
  - destruct c as [|p c]; [|destruct (active _)]; first [apply (KG ret); [apply kh_ret|exact E] | match type of E with Some (?m s) = _ => apply (KG m); [|exact E] end; repeat first [apply SD | progress kw0]].
  - destruct (e_role s); first [apply (KG ret); [apply kh_ret|exact E] | match type of E with Some (?m s) = _ => apply (KG m); [|exact E] end; kw0].
  - destruct (e_q s); try discriminate E. match type of E with Some (?m s) = _ => apply (KG m); [|exact E] end. unfold set_state.
    assert (DN : forall l, silent (map ODone l)) by (induction l as [|x l [I1 I2]]; split; cbn; auto).
    repeat first [progress kw0 | match goal with |- kh W (out (map ODone _)) => apply kw_out; apply DN end].
Qed.
Lemma einit_all t v c o : let '(s, h) := einit t v c o in W s h /\ dead_off false s h.
Proof.
  assert (A : kh W (match c, o with [], [] => ret | _, _ => step_down t true end ;; match c, o with [0], [] => elect_self false | _, _ => ret end)).
  { pose proof kw_sd as SD. pose proof kw_el as EL. repeat first [apply SD | apply EL | progress kw0]. }
  assert (B : kh (dead_off false) (match c, o with [], [] => ret | _, _ => step_down t true end ;; match c, o with [0], [] => elect_self false | _, _ => ret end)).
  { pose proof (kd_sd false) as SD. pose proof (kd_el false) as EL. repeat first [apply SD | apply EL | progress kd]. }
  unfold einit. set (z := mkE RFollower t v None c o (mkT false false false false) x0 x0 false false [] [] QRun).
  assert (WZ : W z []) by (constructor; cbn; try constructor; try contradiction; try constructor).
  assert (DZ : dead_off false z []) by (split; intros D; discriminate D).
  specialize (A z [] WZ). specialize (B z [] DZ). destruct ((_ ;; _) z) as [s h]. exact (conj A B).
Qed.
Lemma lives_all sdv t v c o es s h : lives sdv t v c o es s h -> W s h /\ dead_off false s h.
Proof.
  intros (s0 & h0 & h1 & E0 & E1 & ->). pose proof (einit_all t v c o) as I. rewrite E0 in I. clear E0. revert s0 h0 h1 E1 I. induction es as [|e es IH]; intros s0 h0 h1 E I; cbn [erun] in E.
  - injection E as <- <-. rewrite app_nil_r. exact I.
  - destruct (estep sdv s0 e) as [[s1 k1]|] eqn:E1; [|discriminate E]. destruct (erun sdv s1 es) as [[s2 k2]|] eqn:E2; [|discriminate E]. injection E as <- <-.
    rewrite app_assoc. apply (IH s1 (h0 ++ k1) k2 E2). destruct I as [I1 I2]. split; [apply (estep_W _ _ _ _ _ _ I1 E1)|apply (estep_dead _ _ _ _ _ _ _ I2 E1)].
Qed.
