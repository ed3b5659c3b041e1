(** C62, lemmas: steps, runs, the start. *)
From Coq Require Import Sorted.
From Verif Require Import Base Elect ElectSpec ElectProofs ElectProofs2 ElectProofs3 ElectProofs4.

Definition gone (s : en) : nat := match e_q s with QGone => 1 | _ => 0 end.
Definition good (q : bool) (e : eev) (s : en) (h : list eo) (s' : en) : Prop :=
  EI q s' /\ elok s' /\ one q s' /\ moves_to (e_role s) (e_term s) h (e_role s') (e_term s') /\
  ran h ++ e_conts s' = e_conts s ++ asked [e] /\ (shuts h + gone s)%nat = gone s'.
Lemma keeps_good q e s p : asked [e] = [] -> keeps q s p -> good q e s (snd p) (fst p).
Proof.
  intros A (K1 & K2 & K3 & [K4 [K5 K6]] & K7 & K8). unfold good, gone. rewrite A, K5, K6, K7, K8, app_nil_r. repeat (split; [auto|]). reflexivity.
Qed.
Lemma conf_na q c o : (q = false -> ~ alone c o) -> na q c o. Proof. exact (fun H => H). Qed.

Lemma sd_down q s t ok : EI q s -> elok s -> none q s -> exists s1 h1, step_down t ok s = (s1, h1) /\ fine s h1 s1 /\ same_ex s s1 /\ EI q s1 /\ elok s1 /\ none q s1 /\
  (active (e_role s) = true -> e_role s1 = RFollower) /\ (active (e_role s) = false -> s1 = s /\ h1 = []).
Proof.
  intros I L N. destruct (active (e_role s)) eqn:R.
  - destruct (sd_form s t ok R) as (h & E & F). destruct (sd_keep q s t I N R) as (A & B & C). exists (sd_state t s), h. repeat (split; [solve [auto | split; reflexivity]|]). discriminate.
  - exists s, []. split; [unfold step_down, look; rewrite R; reflexivity|]. split; [apply fine_nil; auto|]. split; [split; reflexivity|]. repeat (split; [solve [auto|discriminate]|]). auto.
Qed.

Lemma estep_good q sdv s e s' h : EI q s -> elok s -> one q s -> (forall c o, conf_of e = Some (c, o) -> na q c o) ->
  (q = true -> e_win s = [] \/ exists k w l ok, e = EResume k w l ok) -> estep sdv s e = Some (s', h) -> good q e s h s'.
Proof.
  intros I L O NA U E.
  assert (KG : forall p, asked [e] = [] -> Some p = Some (s', h) -> keeps q s p -> good q e s h s').
  { intros p A B K. injection B as ->. apply (keeps_good q e s (s', h) A K). }
  assert (N : (forall k w l ok, e <> EResume k w l ok) -> none q s) by (intros H Q; destruct (U Q) as [?|(? & ? & ? & ? & ?)]; [auto|destruct (H _ _ _ _ H0)]).
  destruct e; cbn [estep] in E.
  - (* election timeout *) apply (KG _ eq_refl E). specialize (N ltac:(discriminate)). unfold election_timeout. apply K_look. destruct (e_role s) eqn:R; try (apply K_ret; auto using none_one).
    destruct (_ && _); [apply K_ret; auto using none_one|]. apply K_upd; try reflexivity; [split; reflexivity|].
    apply K_nol; auto; [apply (EI_same q s); auto; split; reflexivity|]. intros z -> A B C. apply K_pre; auto.
  - (* vote timeout *) apply (KG _ eq_refl E). specialize (N ltac:(discriminate)). unfold vote_timeout. apply K_look. destruct (e_role s) eqn:R; try (apply K_ret; auto using none_one).
    destruct sdv; [|apply K_el; auto]. apply K_sd; auto; [|rewrite R; discriminate]. intros R2. destruct (sd_keep q s (e_term s) I N R2) as (A & B & C). apply K_pre; auto.
  - (* resume *) destruct (nth_out k (e_win s)) as [[w r]|] eqn:W; [|discriminate E]. injection E as E. pose proof (K_resume q s k w r wait logok ok I L O W) as K. rewrite E in K.
    destruct K as (K1 & K2 & K3 & K4 & K5). apply (keeps_good q (EResume k wait logok ok) s (s', h) eq_refl). unfold keeps. cbn [fst snd] in *. auto 10.
  - (* vote response *) destruct (existsb _ _) eqn:S; [|discriminate E]. apply (KG _ eq_refl E). apply K_vresp; auto. apply N. discriminate.
  - destruct (existsb _ _) eqn:S; [|discriminate E]. apply (KG _ eq_refl E). apply K_presp; auto. apply N. discriminate.
  - destruct (existsb _ _) eqn:S; [|discriminate E]. apply (KG _ eq_refl E). specialize (N ltac:(discriminate)). destruct (active (e_role s)) eqn:R; cbn [negb orb]; [|apply K_ret; auto using none_one].
    destruct (Z.eqb_spec ver (x_ver (e_v s))) as [V|V]; cbn [negb]; [|apply K_ret; auto using none_one].
    assert (F : ~ fresh (e_v s)) by (intros F; apply (live_arm _ _ S V F)). apply K_gv; auto; [apply (live_win q s I F)|].
    destruct (e_role s) eqn:R2; auto; right; destruct (i_vf q s I) as [X|X]; try (rewrite R2; discriminate); try contradiction; rewrite R2 in X; exact X.
  - destruct (existsb _ _) eqn:S; [|discriminate E]. apply (KG _ eq_refl E). specialize (N ltac:(discriminate)). destruct (active (e_role s)) eqn:R; cbn [negb orb]; [|apply K_ret; auto using none_one].
    destruct (Z.eqb_spec ver (x_ver (e_p s))) as [V|V]; cbn [negb]; [|apply K_ret; auto using none_one].
    assert (F : ~ fresh (e_p s)) by (intros F; apply (live_arm _ _ S V F)). pose proof (i_pf q s I) as PF. apply K_gp; auto; destruct (e_role s); try discriminate R; auto; destruct (F (PF eq_refl)).
  - apply (KG _ eq_refl E). specialize (N ltac:(discriminate)). destruct (e_term s <? t); [apply K_sd1; auto|apply K_ret; auto using none_one].
  - apply (KG _ eq_refl E). specialize (N ltac:(discriminate)). destruct (negb _ || _); [apply K_ret; auto using none_one|].
    apply K_end; try reflexivity; [split; reflexivity| |exact L|apply one_win; auto]. apply EI_win; auto; [split; [cbn; lia|exact Logic.I]|cbn; auto].
  - (* a leader's message *) apply (KG _ eq_refl E). specialize (N ltac:(discriminate)). destruct (active (e_role s)) eqn:R; cbn [negb orb]; [|apply K_ret; auto using none_one].
    destruct (t <? e_term s) eqn:T; [apply K_ret; auto using none_one|].
    assert (TAIL : forall z, EI q z -> e_role z = RFollower -> t_el (e_tm z) = true -> none q z -> keeps q z ((upd s_met ;; match cf with Some (c, o) => upd (s_conf c o) | None => ret end) z)).
    { intros z A B C D. assert (A2 : EI q (s_met z)) by (apply (EI_same q z); auto; split; reflexivity). apply K_upd; try reflexivity; [split; reflexivity|].
      destruct cf as [[c o]|]; [|apply K_ret; [exact A2|left; exact C|apply none_one; exact D]].
      apply K_end; try reflexivity; [split; reflexivity| |left; exact C|apply none_one; exact D]. apply EI_conf; auto. }
    assert (SL : forall z, EI q z -> e_role z = RFollower -> t_el (e_tm z) = true -> none q z ->
      keeps q z ((look (fun s => match e_leader s with None => set_leader l | Some _ => ret end) ;; upd s_met ;; match cf with Some (c, o) => upd (s_conf c o) | None => ret end) z)).
    { intros z A B C D. destruct (e_leader z) as [l0|] eqn:LD.
      - apply (K_bind _ _ _ _ z []); [unfold look; rewrite LD; reflexivity|apply fine_nil; auto|split; reflexivity|apply TAIL; auto].
      - assert (A2 : EI q (s_leader (Some l) (s_p x_reset z))).
        { apply (EI_same q (s_p x_reset z)); auto; [split; reflexivity|]. apply EI_p; auto; [apply reset_fresh; apply (i_pv q z A)|apply (i_na q z A)|]. intros _. apply reset_fresh. apply (i_pv q z A). }
        apply (K_bind _ _ _ _ (s_leader (Some l) (s_p x_reset z)) [OStartF l]); [unfold look, set_leader; rewrite LD; unfold look, seq, upd, out; rewrite LD; reflexivity|apply fine_plain; auto|split; reflexivity|apply TAIL; auto]. }
    assert (SD : forall b, (forall z, EI q z -> e_role z = RFollower -> t_el (e_tm z) = true -> none q z -> keeps q z (b z)) -> keeps q s ((step_down t ok ;; b) s)).
    { intros b B. apply K_sd; auto; [|rewrite R; discriminate]. intros _. destruct (sd_EI q s t R N I) as [X Y]. apply B; auto. }
    assert (AS : forall a b c : M, forall z, ((a ;; b) ;; c) z = (a ;; b ;; c) z).
    { intros a b c z. unfold seq. destruct (a z) as [s1 o1]. destruct (b s1) as [s2 o2]. destruct (c s2) as [s3 o3]. rewrite app_assoc. reflexivity. }
    unfold check_step_down. rewrite AS.
    match goal with |- keeps q s ((look ?f ;; ?b) s) => change (keeps q s ((f s ;; b) s)) end. cbn beta.
    destruct (e_term s <? t); [apply SD; exact SL|]. destruct (e_role s) eqn:RR; try (apply SD; exact SL); try discriminate R.
    destruct (e_leader s) eqn:LD; [|apply SD; exact SL]. apply K_skip. apply SL; auto. destruct (L RR) as [?|(? & ? & ? & X)]; [auto|congruence].
  - (* timeout now *) apply (KG _ eq_refl E). specialize (N ltac:(discriminate)). destruct (negb _); [destruct (e_term s <? t); [apply K_sd1; auto|apply K_ret; auto using none_one]|].
    destruct (e_role s) eqn:R; try (apply K_ret; auto using none_one). apply K_el; auto.
  - apply (KG _ eq_refl E). specialize (N ltac:(discriminate)). destruct (leading (e_role s)); [apply K_sd1; auto|apply K_ret; auto using none_one].
  - (* transfer *) specialize (N ltac:(discriminate)). destruct (e_role s) eqn:R; try (apply (KG _ eq_refl E); apply K_ret; auto using none_one).
    injection E as <- <-. apply (keeps_good q ETransfer s (s_role RTransferring s, [OLeadStop; OState RTransferring (e_term s)]) eq_refl).
    destruct I as [A1 A2 A3 A4 A5 A6 A7 A8 A9 A10 A11]. rewrite R in *. unfold keeps. cbn [fst snd]. split; [|split; [intros H; discriminate H|split; [apply none_one; exact N|]]].
    + constructor; cbn [s_role e_role e_term e_voted e_conf e_old e_tm e_v e_p e_trig e_met e_win e_conts e_q e_leader]; auto.
      * intros _. left. destruct A4 as [X|(_ & _ & X)]; [discriminate|exact X|discriminate X].
      * eapply Forall_impl; [|exact A6]. intros w [H H2]. split; [exact H|]. destruct w; auto; cbn; intros X; specialize (H2 X); rewrite R in H2; [discriminate H2|destruct H2; discriminate].
      * intros Q. rewrite (N Q). constructor.
      * intros _. apply A11. discriminate.
    + split; [|split; reflexivity]. split; [|split; reflexivity]. rewrite R. cbn. split; cbn; auto.
  - specialize (N ltac:(discriminate)). destruct (e_role s) eqn:R; try (apply (KG _ eq_refl E); apply K_ret; auto using none_one).
    injection E as <- <-. apply (keeps_good q ETransferTimeout s (s_role RLeader s, [OLeadStart; OState RLeader (e_term s)]) eq_refl).
    destruct I as [A1 A2 A3 A4 A5 A6 A7 A8 A9 A10 A11]. rewrite R in *. unfold keeps. cbn [fst snd]. split; [|split; [intros H; discriminate H|split; [apply none_one; exact N|]]].
    + constructor; cbn [s_role e_role e_term e_voted e_conf e_old e_tm e_v e_p e_trig e_met e_win e_conts e_q e_leader]; auto.
      * intros _. left. destruct A4 as [X|(_ & _ & X)]; [discriminate|exact X|discriminate X].
      * eapply Forall_impl; [|exact A6]. intros w [H H2]. split; [exact H|]. destruct w; auto; cbn; intros X; specialize (H2 X); rewrite R in H2; [discriminate H2|destruct H2; discriminate].
      * intros Q. rewrite (N Q). constructor.
      * intros _. apply A11. discriminate.
    + split; [|split; reflexivity]. split; [|split; reflexivity]. rewrite R. cbn. split; cbn; auto.
  - destruct (leading (e_role s)) eqn:R; [|discriminate E]. apply (KG _ eq_refl E). specialize (N ltac:(discriminate)).
    apply K_end; try reflexivity; [split; reflexivity|apply EI_conf; auto| |apply none_one; exact N]. intros H. cbn in H. rewrite H in R. discriminate R.
  - destruct (e_met s) eqn:R; [|discriminate E]. apply (KG _ eq_refl E). specialize (N ltac:(discriminate)).
    apply K_end; try reflexivity; [split; reflexivity|apply EI_conf; auto| |apply none_one; exact N]. intros H. destruct (L H) as [X|(_ & _ & X & _)]; [left; exact X|congruence].
  - (* set_peers *) apply (KG _ eq_refl E). specialize (N ltac:(discriminate)). destruct c as [|p c]; [apply K_ret; auto using none_one|]. destruct (active (e_role s)) eqn:R; [|apply K_ret; auto using none_one].
    apply K_upd; try reflexivity; [split; reflexivity|]. rewrite <- seq_ret_r. assert (I2 : EI q (s_conf (p :: c) [] s)) by (apply EI_conf; auto).
    apply K_sd; auto; [|intros H; cbn in H; congruence]. intros R2. destruct (sd_keep q _ (e_term s + 1) I2 N R2) as (A & B & C). apply K_ret; auto using none_one.
  - apply (KG _ eq_refl E). specialize (N ltac:(discriminate)). destruct (e_role s) eqn:R; try solve [apply K_ret; auto using none_one].
    apply K_end; try reflexivity; [split; reflexivity| |exact L|apply none_one; exact N]. apply (EI_same q s); auto; split; reflexivity.
  - (* on_error *) apply (KG _ eq_refl E). specialize (N ltac:(discriminate)). unfold on_error. apply K_out; [reflexivity|].
    set (F := look (fun s => match e_role s with RShutting | RShutdown | RError => ret | _ => set_state RError end)).
    assert (QUIET : forall z, EI q z -> elok z -> none q z -> active (e_role z) = false -> keeps q z (F z)).
    { intros z A B C D. unfold F. apply K_look. destruct (e_role z); try discriminate D; apply K_ret; auto using none_one. }
    match goal with |- keeps q s ((look ?f ;; ?b) s) => change (keeps q s ((f s ;; b) s)) end. cbn beta. destruct (active (e_role s)) eqn:R; [|apply K_skip; apply QUIET; auto].
    destruct (sd_form s (e_term s) ok R) as (h1 & E1 & F1). destruct (sd_keep q s (e_term s) I N R) as (A & B & C). apply (K_bind _ _ _ _ _ _ E1 F1); [split; reflexivity|].
    assert (R3 : e_role (sd_state (e_term s) s) = RFollower) by reflexivity. remember (sd_state (e_term s) s) as z. clear Heqz E1 F1 E I L N R U O s KG NA.
    unfold F. apply K_look. rewrite R3. unfold set_state, keeps, seq, upd, look, out. cbn [fst snd app].
    destruct A as [A1 A2 A3 A4 A5 A6 A7 A8 A9 A10 A11]. rewrite R3 in *. split; [|split; [intros H; discriminate H|split; [apply none_one; exact C|]]].
    + constructor; cbn [s_role e_role e_term e_voted e_conf e_old e_tm e_v e_p e_trig e_met e_win e_conts e_q e_leader]; auto; try discriminate.
      * intros _. destruct A4 as [X|X]; [discriminate|auto|auto].
      * eapply Forall_impl; [|exact A6]. intros w [H H2]. split; [exact H|]. destruct w; auto; cbn; intros X; specialize (H2 X). split; [reflexivity|apply H2].
      * intros Q. rewrite (C Q). constructor.
      * intros _. apply A11. discriminate.
    + split; [|split; reflexivity]. split; [|split; reflexivity]. rewrite R3. cbn. split; cbn; auto.
  - (* shutdown *) injection E as E. specialize (N ltac:(discriminate)).
    assert (LAST : forall z, EI q z -> elok z -> none q z -> active (e_role z) = false -> e_role z <> RError -> forall s2 h2,
      look (fun s => match e_role s with RShutdown => out [ODone id] | _ => upd (s_conts (e_conts s ++ [id])) end) z = (s2, h2) ->
      EI q s2 /\ elok s2 /\ one q s2 /\ moves_to (e_role z) (e_term z) h2 (e_role s2) (e_term s2) /\ ran h2 ++ e_conts s2 = e_conts z ++ [id] /\ (shuts h2 + gone z)%nat = gone s2).
    { intros z A B C D D2 s2 h2 X. unfold look, out, upd in X. destruct (e_role z) eqn:RZ; try discriminate D; [destruct (D2 eq_refl)| |]; injection X as <- <-.
      - destruct A as [A1 A2 A3 A4 A5 A6 A7 A8 A9 A10 A11]. split; [|split; [intros H; cbn in H; congruence|split; [apply none_one; exact C|split; [cbn; rewrite RZ; apply mt_nil|split; reflexivity]]]].
        constructor; cbn [s_conts e_role e_term e_voted e_conf e_old e_tm e_v e_p e_trig e_met e_win e_conts e_q e_leader]; auto. contradiction.
      - pose proof (i_cont q z A) as CZ. rewrite RZ in CZ. specialize (CZ ltac:(discriminate)). split; [auto|split; [auto|split; [apply none_one; exact C|split; [rewrite RZ; split; [cbn; auto|intros k M; cbn; exact M]|split; [rewrite CZ; reflexivity|reflexivity]]]]]. }
    assert (SHUT : forall z, EI q z -> none q z -> e_role z = RFollower \/ e_role z = RError -> exists s1 h1,
      (set_state RShutting ;; upd (s_tm (fun _ => mkT false false false true)) ;; upd (fun s => s_q (match e_q s with QGone => QGone | _ => QStop end) s)) z = (s1, h1) /\
      EI q s1 /\ elok s1 /\ none q s1 /\ e_role s1 = RShutting /\ moves_to (e_role z) (e_term z) h1 (e_role s1) (e_term s1) /\ quiet_out h1 /\ e_conts s1 = e_conts z /\ gone s1 = gone z).
    { intros z A C RZ. destruct A as [A1 A2 A3 A4 A5 A6 A7 A8 A9 A10 A11]. unfold seq, set_state, upd, look, out. eexists; eexists. split; [reflexivity|].
      assert (EQ : e_q z = QRun) by (destruct RZ as [RZ|RZ]; rewrite RZ in A10; exact A10).
      split; [|split; [intros H; discriminate H|split; [exact C|split; [reflexivity|split; [|split; [split; reflexivity|split; [reflexivity|unfold gone; cbn; rewrite EQ; reflexivity]]]]]]].
      - constructor; cbn [s_role s_tm s_q e_role e_term e_voted e_conf e_old e_tm e_v e_p e_trig e_met e_win e_conts e_q e_leader]; auto; try discriminate; try contradiction.
        + cbn. auto.
        + intros _. destruct RZ as [RZ|RZ]; rewrite RZ in A4; (destruct A4 as [X|X]; [discriminate|auto|auto]).
        + eapply Forall_impl; [|exact A6]. intros w [H H2]. split; [exact H|]. destruct w; auto; cbn; intros X; specialize (H2 X). split; [reflexivity|apply H2].
        + intros Q. rewrite (C Q). constructor.
        + rewrite EQ. reflexivity.
      - destruct RZ as [RZ|RZ]; rewrite RZ; cbn; split; cbn; auto. }
    assert (JOIN : forall z s1 h1, EI q s1 -> elok s1 -> none q s1 -> active (e_role s1) = false -> e_role s1 <> RError -> moves_to (e_role z) (e_term z) h1 (e_role s1) (e_term s1) -> quiet_out h1 ->
       e_conts s1 = e_conts z -> gone s1 = gone z -> forall s2 h2,
       look (fun s => match e_role s with RShutdown => out [ODone id] | _ => upd (s_conts (e_conts s ++ [id])) end) s1 = (s2, h2) -> good q (EShutdown id ok) z (h1 ++ h2) s2).
    { intros z s1 h1 A B C D D2 M [Q1 Q2] X Y s2 h2 E2. destruct (LAST s1 A B C D D2 s2 h2 E2) as (P1 & P2 & P3 & P4 & P5 & P6).
      unfold good. split; [auto|]. split; [auto|]. split; [auto|]. split; [apply (mt_app _ _ _ _ _ _ _ _ M P4)|]. unfold ran, shuts in *. rewrite flat_map_app, filter_app, app_length, Q1, Q2. cbn [app asked flat_map].
      split; [rewrite P5, X; reflexivity|]. rewrite <- Y. exact P6. }
    unfold shutdown in E. unfold seq at 1 in E.
    destruct (active (e_role s)) eqn:R.
    + destruct (sd_form s (e_term s) ok R) as (h1 & E1 & F1). destruct (sd_keep q s (e_term s) I N R) as (A & B & C).
      destruct (SHUT (sd_state (e_term s) s) A C (or_introl eq_refl)) as (s1 & h2 & E2 & X1 & X2 & X3 & X4 & X5 & X6 & X7 & X8).
      assert (EE : look (fun s => match e_role s with RShutting | RShutdown => ret
         | _ => look (fun s => if active (e_role s) then step_down (e_term s) ok else ret) ;; set_state RShutting ;;
           upd (s_tm (fun _ => mkT false false false true)) ;; upd (fun s => s_q (match e_q s with QGone => QGone | _ => QStop end) s) end) s = (s1, h1 ++ h2)).
      { unfold look at 1. assert (G : (look (fun s => if active (e_role s) then step_down (e_term s) ok else ret) ;; set_state RShutting ;;
           upd (s_tm (fun _ => mkT false false false true)) ;; upd (fun s => s_q (match e_q s with QGone => QGone | _ => QStop end) s)) s = (s1, h1 ++ h2)).
        { unfold seq at 1. unfold look at 1. rewrite R, E1, E2. reflexivity. }
        destruct (e_role s); try discriminate R; exact G. }
      rewrite EE in E. destruct (look _ s1) as [s2 h3] eqn:E3. injection E as <- <-. apply (JOIN s s1 (h1 ++ h2)); auto; try (rewrite X4; reflexivity); try (rewrite X4; discriminate).
      * destruct F1 as [F1 _]. apply (mt_app _ _ _ _ _ _ _ _ F1 X5).
      * apply quiet_app; [apply F1|auto].
    + destruct (e_role s) eqn:RR; try discriminate R.
      * destruct (SHUT s I N (or_intror RR)) as (s1 & h2 & E2 & X1 & X2 & X3 & X4 & X5 & X6 & X7 & X8).
        assert (EE : look (fun s => match e_role s with RShutting | RShutdown => ret
         | _ => look (fun s => if active (e_role s) then step_down (e_term s) ok else ret) ;; set_state RShutting ;;
           upd (s_tm (fun _ => mkT false false false true)) ;; upd (fun s => s_q (match e_q s with QGone => QGone | _ => QStop end) s) end) s = (s1, h2)).
        { unfold look at 1. rewrite RR. unfold seq at 1. unfold look at 1. rewrite RR. cbn [active]. unfold ret at 1. rewrite E2. reflexivity. }
        rewrite EE in E. destruct (look _ s1) as [s2 h3] eqn:E3. injection E as <- <-. apply (JOIN s s1 h2); auto; try (rewrite X4; reflexivity); try (rewrite X4; discriminate).
      * unfold look at 1 in E. rewrite RR in E. unfold ret in E. destruct (look _ s) as [s2 h3] eqn:E3. injection E as <- <-.
        apply (JOIN s s []); auto; try (rewrite RR; reflexivity); try (rewrite RR; discriminate); [apply mt_nil|split; reflexivity].
      * unfold look at 1 in E. rewrite RR in E. unfold ret in E. destruct (look _ s) as [s2 h3] eqn:E3. injection E as <- <-.
        apply (JOIN s s []); auto; try (rewrite RR; reflexivity); try (rewrite RR; discriminate); [apply mt_nil|split; reflexivity].
  - (* the executor ends *) specialize (N ltac:(discriminate)). destruct (e_q s) eqn:EQ; try discriminate E. injection E as E.
    destruct I as [A1 A2 A3 A4 A5 A6 A7 A8 A9 A10 A11]. assert (R : e_role s = RShutting) by (destruct (e_role s); congruence). rewrite R in *.
    subst s' h.
    assert (RN : forall l, ran (map ODone l) = l) by (induction l as [|x l IH]; cbn; [reflexivity|unfold ran in IH; rewrite IH; reflexivity]).
    assert (SN : forall l, shuts (map ODone l) = 0%nat) by (induction l as [|x l IH]; cbn; [reflexivity|exact IH]).
    assert (MN : forall l r t, moves_to r t (map ODone l) r t).
    { intros l r t. assert (X : forall k, moves r t false k -> moves r t false (map ODone l ++ k)) by (intros k M; induction l as [|x l IH]; cbn; auto). split; [|exact X]. rewrite <- (app_nil_r (map _ _)). apply X. reflexivity. }
    split; [|split; [intros H; discriminate H|split; [apply none_one; exact N|split; [|split]]]].
    + constructor; cbn [s_role s_tm s_q s_conts e_role e_term e_voted e_conf e_old e_tm e_v e_p e_trig e_met e_win e_conts e_q e_leader]; auto; try discriminate.
      * intros _. apply A4. discriminate.
      * eapply Forall_impl; [|exact A6]. intros w [H H2]. split; [exact H|]. destruct w; auto; cbn; intros X; specialize (H2 X). split; [reflexivity|apply H2].
      * intros Q. rewrite (N Q). constructor.
    + rewrite R, app_nil_r. apply (mt_app _ _ [OShut] RShutting (e_term s)); [split; [reflexivity|intros k M; exact M]|].
      apply (mt_app _ _ [OState RShutdown (e_term s)] RShutdown (e_term s)); [apply state_mt; [reflexivity|discriminate]|]. apply MN.
    + rewrite !app_nil_r. apply RN.
    + rewrite app_nil_r. unfold gone. cbn [s_role s_tm s_q s_conts e_q]. rewrite EQ. cbn. unfold shuts in SN. rewrite SN. reflexivity.
Qed.

Lemma erun_good q sdv es : forall s s' h, EI q s -> elok s -> one q s -> (forall e c o, In e es -> conf_of e = Some (c, o) -> na q c o) ->
  (q = true -> undisturbed sdv s es) -> erun sdv s es = Some (s', h) ->
  EI q s' /\ elok s' /\ moves_to (e_role s) (e_term s) h (e_role s') (e_term s') /\ ran h ++ e_conts s' = e_conts s ++ asked es /\ (shuts h + gone s)%nat = gone s'.
Proof.
  induction es as [|e es IH]; intros s s' h I L O NA U E; cbn [erun] in E.
  - injection E as <- <-. cbn [asked flat_map]. rewrite app_nil_r. split; [auto|]. split; [auto|]. split; [apply mt_nil|]. split; reflexivity.
  - destruct (estep sdv s e) as [[s1 h1]|] eqn:E1; [|discriminate E]. destruct (erun sdv s1 es) as [[s2 h2]|] eqn:E2; [|discriminate E]. injection E as <- <-.
    destruct (estep_good q sdv s e s1 h1 I L O) as (A1 & A2 & A3 & A4 & A5 & A6); auto.
    { intros c o. apply (NA e). left. reflexivity. }
    { intros Q. specialize (U Q). cbn in U. apply U. }
    destruct (IH s1 s2 h2 A1 A2 A3) as (B1 & B2 & B3 & B4 & B5); auto.
    { intros e0 c o H. apply (NA e0). right. exact H. }
    { intros Q. specialize (U Q). cbn in U. rewrite E1 in U. apply U. }
    split; [auto|]. split; [auto|]. split; [apply (mt_app _ _ _ _ _ _ _ _ A4 B3)|]. unfold ran, shuts, asked in *. rewrite !flat_map_app, filter_app, app_length in *. cbn [flat_map] in *. rewrite app_nil_r in A5.
    split; [rewrite <- app_assoc, B4, !app_assoc, A5; reflexivity|]. lia.
Qed.
Lemma einit_good q t v c o : na q c o -> let '(s, h) := einit t v c o in
  EI q s /\ elok s /\ one q s /\ moves_to RFollower t h (e_role s) (e_term s) /\ quiet_out h /\ e_conts s = [] /\ e_q s = QRun.
Proof.
  intros N. unfold einit. set (z := mkE RFollower t v None c o (mkT false false false false) x0 x0 false false [] [] QRun).
  assert (F0 : fresh x0 /\ old_vers x0) by (split; split; cbn; auto; constructor).
  assert (I : EI q z).
  { constructor; cbn; auto; try apply F0; try constructor; try discriminate; auto.
    - apply F0.
    - split; intros Q W; discriminate W. }
  assert (X : keeps q z ((match c, o with [], [] => ret | _, _ => step_down t true end ;; match c, o with [0], [] => elect_self false | _, _ => ret end) z)).
  { assert (TAIL : forall y, EI q y -> elok y -> none q y -> e_role y = RFollower -> keeps q y (match c, o with [0], [] => elect_self false | _, _ => ret end y)).
    { intros y A B C D. assert (RT : keeps q y (ret y)) by (apply K_ret; auto using none_one). assert (EL : keeps q y (elect_self false y)) by (apply K_el; auto). destruct c as [|[|p|p] [|]]; try exact RT. destruct o; [exact EL|exact RT]. }
    assert (SD : keeps q z ((step_down t true ;; match c, o with [0], [] => elect_self false | _, _ => ret end) z)).
    { apply K_sd; auto; [intros _; reflexivity| |intros W; discriminate W]. intros _. destruct (sd_keep q z t I (fun _ => eq_refl) eq_refl) as (A & B & C). apply TAIL; auto. }
    destruct c as [|p c]; [destruct o as [|p o]|]; [|exact SD|exact SD]. apply K_skip. apply TAIL; auto; [intros _; right; auto|intros _; reflexivity]. }
  destruct ((_ ;; _) z) as [s h]. destruct X as (X1 & X2 & X3 & [X4 X5] & X6 & X7). cbn [fst snd] in *. auto 10.
Qed.
Lemma lives_good sdv t v c o es s h : lives sdv t v c o es s h -> (never_alone c o es \/ undisturbed sdv (fst (einit t v c o)) es) -> exists q,
  EI q s /\ elok s /\ moves_to RFollower t h (e_role s) (e_term s) /\ ran h ++ e_conts s = asked es /\ shuts h = gone s.
Proof.
  intros (s0 & h0 & h1 & E0 & E1 & ->) H.
  assert (H' : exists q : bool, (q = false -> never_alone c o es) /\ (q = true -> undisturbed sdv (fst (einit t v c o)) es))
    by (destruct H as [H|H]; [exists false|exists true]; (split; intros Q; [|]; try exact H; discriminate Q)).
  clear H. destruct H' as (q & HF & HT). exists q. assert (NA0 : na q c o) by (intros Q; apply (HF Q)).
  pose proof (einit_good q t v c o NA0) as G. rewrite E0 in G. destruct G as (A1 & A2 & A3 & A4 & [A5 A6] & A7 & A8).
  destruct (erun_good q sdv es s0 s h1 A1 A2 A3) as (B1 & B2 & B3 & B4 & B5); auto.
  - intros e c' o' X Y Q. destruct (HF Q) as [_ H]. apply (H e); auto.
  - intros Q. specialize (HT Q). rewrite E0 in HT. exact HT.
  - split; [exact B1|]. split; [exact B2|]. split; [apply (mt_app _ _ _ _ _ _ _ _ A4 B3)|]. unfold ran, shuts in *. rewrite flat_map_app, filter_app, app_length, A5, A6. cbn [app].
    split; [rewrite B4, A7; reflexivity|]. unfold gone in B5 at 1. rewrite A8 in B5. lia.
Qed.

(** * What follows from the moves *)
Lemma moves_final r t h : moves r t false h -> active r = false -> elected h = [] /\ Forall (fun o => match o with OState r' _ => active r' = false | _ => True end) h.
Proof.
  revert r t. induction h as [|o h IH]; intros r t M A; [split; [reflexivity|constructor]|]. destruct o; cbn in M;
    try (destruct (IH _ _ M A) as [X Y]; split; [exact X|constructor; [exact I|exact Y]]).
  - destruct M as (_ & E & M). assert (A2 : active r0 = false) by (destruct r, r0; try discriminate A; try contradiction E; reflexivity).
    assert (M2 : moves r0 t0 false h) by (destruct r; try discriminate A; exact M).
    destruct (IH _ _ M2 A2) as [X Y]. split; [exact X|constructor; [exact A2|exact Y]].
  - destruct M as (W & _). discriminate W.
Qed.
Lemma moves_suffix r t w a r' t' h : moves r t w (a ++ OState r' t' :: h) -> r' <> RLeader -> moves r' t' false h.
Proof.
  revert r t w. induction a as [|o a IH]; intros r t w M L.
  - cbn in M. destruct M as (_ & _ & M). destruct r, r'; try exact M; contradiction.
  - destruct o; cbn in M; try (eapply IH; [exact M|exact L]); [destruct M as (_ & _ & M)|destruct M as (_ & _ & M)]; eapply IH; eauto.
Qed.
Definition ebound (r : role) (t : Z) (w : bool) : Z := match r, w with RCandidate, _ | _, true => t | _, _ => t + 1 end.
Lemma moves_elected r t w h : moves r t w h -> (w = true -> r = RLeader) -> StronglySorted Z.lt (elected h) /\ Forall (fun x => ebound r t w <= x) (elected h).
Proof.
  revert r t w. induction h as [|o h IH]; intros r t w M W; [split; constructor|]. destruct o; cbn in M; try exact (IH _ _ _ M W).
  - destruct M as (-> & E & M). destruct (IH _ _ _ M) as [X Y]; [destruct r, r0; congruence|]. split; [exact X|]. eapply Forall_impl; [|exact Y].
    intros x Hx. destruct r, r0; try solve [destruct E]; cbn [edge ebound] in E, Hx |- *; lia.
  - destruct M as (-> & -> & M). specialize (W eq_refl). subst r. destruct (IH _ _ _ M) as [X Y]; [discriminate|]. cbn. split.
    + constructor; [exact X|]. eapply Forall_impl; [|exact Y]. cbn [ebound]. intros x Hx. lia.
    + constructor; [lia|]. eapply Forall_impl; [|exact Y]. cbn [ebound]. intros x Hx. lia.
Qed.
