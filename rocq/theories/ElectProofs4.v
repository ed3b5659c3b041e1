(** C62, lemmas: every event keeps the invariant (continued). *)
From Verif Require Import Base Elect ElectSpec ElectProofs ElectProofs2 ElectProofs3.

Lemma K_resume q s k w r wait logok ok : EI q s -> elok s -> one q s -> nth_out k (e_win s) = Some (w, r) -> keeps q (s_win r s) (resume w wait logok ok (s_win r s)).
Proof.
  intros I0 L0 O E. destruct (EI_out q s k w r I0 O E) as (I & N & [W1 W2] & WS & WU). pose proof (L0 : elok (s_win r s)) as L.
  assert (W2' : match w with WElect t => t = e_term (s_win r s) -> leading (e_role (s_win r s)) = false /\ fresh (e_v (s_win r s)) /\ x_got (e_v (s_win r s)) = []
                | WPre t _ => t = e_term (s_win r s) -> busy (e_role (s_win r s)) = false | _ => True end) by exact W2.
  assert (WS' : q = true -> w_same (s_win r s) w) by exact WS.
  assert (W1' : wterm w <= e_term (s_win r s)) by exact W1. change r with (e_win (s_win r s)) in WU. clear W1 W2 WS I0 L0 O E. remember (s_win r s) as z eqn:Z. clear s r Z.
  unfold resume. apply K_look. destruct w as [t trig|t|t c rt].
  - destruct (Z.eqb_spec t (e_term z)) as [T|T]; cbn [negb]; [|apply K_ret; auto using none_one].
    apply K_upd; try reflexivity; [split; reflexivity|]. apply K_upd; try reflexivity; [split; reflexivity|]. apply K_out; [reflexivity|].
    assert (R : busy (e_role z) = false) by auto.
    assert (I2 : EI q (s_p x_send (s_p (x_init (e_conf z) (e_old z) trig) z))).
    { apply EI_p; [apply EI_p; auto| | |].
      - apply init_fresh. apply (i_pv q z I).
      - apply (i_na q z I).
      - rewrite R. discriminate.
      - apply ov_send. apply init_fresh. apply (i_pv q z I).
      - apply (i_na q z I).
      - cbn. rewrite R. discriminate. }
    apply K_gp; auto. destruct q; [left; apply WS'; auto|right; split; [reflexivity|constructor]].
  - destruct (Z.eqb_spec t (e_term z)) as [T|T]; cbn [negb]; [|apply K_ret; auto using none_one].
    destruct (W2' T) as (R & F & G). assert (WU2 : forall t', In (WElect t') (e_win z) -> t' <> e_term z) by (intros t' H ->; apply (WU t); [left; reflexivity|rewrite T; exact H]).
    assert (V : e_role z = RCandidate \/ q = false /\ only_self (x_send (e_v z)) /\ leading (e_role z) = false).
    { destruct q; [left; apply WS'; auto|right; split; [auto|split; [|auto]]]. unfold only_self. cbn. rewrite G. constructor. }
    apply K_upd; try reflexivity; [split; reflexivity|]. apply K_out; [reflexivity|].
    assert (I2 : EI q (s_v x_send z)).
    { apply EI_v; auto; [apply ov_send; apply (i_vv q z I)|apply (i_na q z I)|]. intros R'. destruct V as [V|V]; [contradiction|right; exact V]. }
    destruct ok; [apply K_gv; auto|]. apply K_end; try reflexivity; [split; reflexivity| |exact L|apply none_one; exact N]. apply (EI_same q (s_v x_send z)); auto; split; reflexivity.
  - assert (FIN : forall z', EI q z' -> elok z' -> none q z' ->
      keeps q z' (look (fun s => if (rt =? e_term s) && match e_voted s with Some v => v =? c | None => false end then out [OVote c rt] else ret) z')).
    { intros z' A B C. apply K_look. destruct (_ && _); [|apply K_ret; auto using none_one]. rewrite <- seq_ret_r. apply K_out; [reflexivity|]. apply K_ret; auto using none_one. }
    assert (BIND : forall a : M, keeps q z (a z) -> none q (fst (a z)) -> keeps q z ((a ;; look (fun s => if (rt =? e_term s) && match e_voted s with Some v => v =? c | None => false end then out [OVote c rt] else ret)) z)).
    { intros a (A1 & A2 & A3 & A4 & A5) A6. destruct (a z) as [z1 h1] eqn:E. apply (K_bind _ _ _ _ z1 h1); auto. }
    assert (SAME : forall m : M, none q z -> (forall s, e_win (fst (m s)) = e_win s) -> none q (fst (m z))) by (intros m H H2 Q; rewrite H2; auto).
    assert (SDW : forall t0 o0 s, e_win (fst (step_down t0 o0 s)) = e_win s).
    { intros t0 o0 s. destruct (active (e_role s)) eqn:R; [destruct (sd_form s t0 o0 R) as (h & E & _); rewrite E; reflexivity|]. unfold step_down, look. rewrite R. reflexivity. }
    destruct (Z.eqb_spec t (e_term z)) as [T|T]; cbn [negb]; [|apply BIND; [apply K_ret; auto using none_one|exact N]].
    destruct wait; [apply BIND; [apply K_ret; auto using none_one|exact N]|].
    assert (TAIL : forall z', EI q z' -> elok z' -> none q z' -> let m : M := look (fun s => match e_voted s with
              | None => if logok then step_down rt ok ;; upd (fun s => s_term (e_term s) (if ok then Some c else None) s) ;; look (fun s => out [OSave (e_term s) (Some c) ok]) else ret
              | Some _ => ret end) in keeps q z' (m z') /\ none q (fst (m z'))).
    { intros z' A B C. cbn zeta.
      assert (STEP : forall y, EI q y -> elok y -> none q y -> let m : M := upd (fun s => s_term (e_term s) (if ok then Some c else None) s) ;; look (fun s => out [OSave (e_term s) (Some c) ok]) in keeps q y (m y)).
      { intros y Y1 Y2 Y3. cbn zeta. apply K_upd; try reflexivity; [split; reflexivity|]. apply K_look. rewrite <- seq_ret_r. apply K_out; [reflexivity|].
        apply K_ret; [apply (EI_same q y); auto; split; reflexivity|exact Y2|apply none_one; exact Y3]. }
      split.
      - apply K_look. destruct (e_voted z'); [apply K_ret; auto using none_one|]. destruct logok; [|apply K_ret; auto using none_one]. apply K_sd; [exact A|exact C| |].
        + intros R. destruct (sd_keep q z' rt A C R) as (X & Y & Z). apply STEP; auto.
        + intros _. apply STEP; auto.
      - unfold look. destruct (e_voted z'); [exact C|]. destruct logok; [|exact C]. unfold seq, upd, out. pose proof (SDW rt ok z') as S. destruct (step_down rt ok z') as [z1 h1]. cbn in *. intros Q. change (e_win z1 = []). rewrite S. auto. }
    destruct (e_term z <? rt).
    + destruct (active (e_role z)) eqn:R.
      * destruct (sd_form z rt ok R) as (h & E & F). destruct (sd_keep q z rt I N R) as (X1 & X2 & X3). destruct (TAIL _ X1 X2 X3) as [K1 K2]. apply BIND.
        -- apply (K_bind _ _ _ _ _ _ E F); [split; reflexivity|exact K1].
        -- unfold seq. rewrite E. destruct (look _ (sd_state rt z)) as [z2 h2]. exact K2.
      * assert (E : step_down rt ok z = (z, [])) by (unfold step_down, look; rewrite R; reflexivity). destruct (TAIL _ I L N) as [K1 K2]. apply BIND.
        -- apply (K_bind _ _ _ _ _ _ E); [apply fine_nil; auto|split; reflexivity|exact K1].
        -- unfold seq. rewrite E. destruct (look _ z) as [z2 h2]. exact K2.
    + destruct (TAIL _ I L N) as [K1 K2]. apply BIND; [apply K_skip; exact K1|]. unfold seq, ret. destruct (look _ z) as [z2 h2]. exact K2.
Qed.

(** * The other events *)
Lemma K_skipupd q s (b : bool) f a : e_role (f s) = e_role s -> e_term (f s) = e_term s -> same_ex s (f s) ->
  (b = true -> keeps q (f s) (a (f s))) -> (b = false -> keeps q s (a s)) -> keeps q s (((if b then upd f else ret) ;; a) s).
Proof. intros R T S A B. destruct b; [apply K_upd; auto|apply K_skip; auto]. Qed.
Lemma K_vresp q s p ver t rt g rej dis last ok : EI q s -> elok s -> none q s -> existsb (Z.eqb ver) (x_sent (e_v s)) = true ->
  keeps q s (vote_response p ver t rt g rej dis last ok s).
Proof.
  intros I L N S. unfold vote_response. apply K_look. destruct (Z.eqb_spec ver (x_ver (e_v s))) as [V|V]; cbn [negb]; [|apply K_ret; auto using none_one].
  destruct (e_role s) eqn:R; try (apply K_ret; auto using none_one).
  destruct (Z.eqb_spec t (e_term s)) as [T|T]; cbn [negb]; [|apply K_ret; auto using none_one].
  destruct (e_term s <? rt); [apply K_sd1; auto|]. destruct (negb g && negb rej); [apply K_ret; auto using none_one|].
  assert (W : forall t, In (WElect t) (e_win s) -> t <> e_term s) by (apply (live_win q s I); intros F; apply (live_sent _ _ S V F)).
  assert (NA : na q (x_conf (e_v s)) (x_old (e_v s))) by apply (i_na q s I).
  assert (UP : forall f z, old_vers (f (e_v z)) -> na q (x_conf (f (e_v z))) (x_old (f (e_v z))) -> EI q z -> e_role z = RCandidate -> e_win z = e_win s -> e_term z = e_term s -> EI q (s_v f z)).
  { intros f z A B C D E F. apply EI_v; auto; [congruence|]. rewrite E, F. exact W. }
  assert (TAIL : forall z, EI q z -> e_role z = RCandidate -> e_win z = e_win s -> e_term z = e_term s ->
    keeps q z ((if g then upd (s_v (x_grant p)) ;; (if last then upd (s_v (x_grant 0)) else ret) ;; look (fun s => if x_wins (e_v s) then become_leader else upd (s_v pop_held))
           else upd (s_v (x_hold p)) ;; upd (s_v pop_held)) z)).
  { intros z A B C D. assert (LZ : forall z', e_role z' = RCandidate -> elok z') by (intros z' H H2; congruence).
    assert (NZ : forall z', e_win z' = e_win s -> none q z') by (intros z' H Q; rewrite H; auto).
    assert (POP : forall z', EI q z' -> e_role z' = RCandidate -> e_win z' = e_win s -> e_term z' = e_term s -> keeps q z' (upd (s_v pop_held) z')).
    { intros z' A' B' C' D'. apply K_end; try reflexivity; [split; reflexivity| |apply LZ; exact B'|apply none_one; apply NZ; exact C'].
      apply UP; auto; [apply ov_pop; apply (i_vv q z' A')|unfold pop_held; destruct (x_dis (e_v z')); apply (i_na q z' A')]. }
    assert (END : forall z', EI q z' -> e_role z' = RCandidate -> e_win z' = e_win s -> e_term z' = e_term s ->
      keeps q z' (look (fun s => if x_wins (e_v s) then become_leader else upd (s_v pop_held)) z')).
    { intros z' A' B' C' D'. apply K_look. cbn beta. destruct (x_wins (e_v z')); [|apply POP; auto]. apply K_bl; auto. rewrite C', D'. exact W. }
    destruct g.
    - assert (I2 : EI q (s_v (x_grant p) z)) by (apply UP; auto; [apply (i_vv q z A)|apply (i_na q z A)]).
      apply K_upd; try reflexivity; [split; reflexivity|]. apply K_skipupd; try reflexivity; [split; reflexivity| |].
      + intros _. apply END; auto. apply UP; auto; [apply (i_vv q _ I2)|apply (i_na q _ I2)].
      + intros _. apply END; auto.
    - assert (I2 : EI q (s_v (x_hold p) z)) by (apply UP; auto; [apply (i_vv q z A)|apply (i_na q z A)]).
      apply K_upd; try reflexivity; [split; reflexivity|]. apply POP; auto. }
  apply K_skipupd; try reflexivity; [split; reflexivity| |].
  - intros _. apply TAIL; auto. apply UP; auto. apply (i_vv q s I).
  - intros _. apply TAIL; auto.
Qed.
Lemma K_grants q ps : forall s b, EI q s -> elok s -> none q s -> e_role s = RFollower ->
  (forall z, EI q z -> elok z -> none q z -> e_role z = RFollower -> keeps q z (b z)) -> keeps q s ((grants ps ;; b) s).
Proof.
  assert (UP : forall s p, EI q s -> e_role s = RFollower -> EI q (s_p (x_grant p) s)).
  { intros s p A B. apply EI_p; auto; [apply (i_pv q s A)|apply (i_na q s A)|rewrite B; discriminate]. }
  assert (ASS : forall a b c : M, forall s, ((a ;; b) ;; c) s = (a ;; b ;; c) s).
  { intros a b c s. unfold seq. destruct (a s) as [s1 o1]. destruct (b s1) as [s2 o2]. destruct (c s2) as [s3 o3]. rewrite app_assoc. reflexivity. }
  induction ps as [|[p l] ps IH]; intros s b I L N R B; cbn [grants]; [apply K_skip; auto|]. rewrite ASS. apply K_upd; try reflexivity; [split; reflexivity|]. rewrite ASS.
  apply K_skipupd; try reflexivity; [split; reflexivity| |]; intros _; apply IH; auto; apply UP; auto; apply UP; auto.
Qed.
Lemma K_presp q s p ver t rt g rej dis ok last : EI q s -> elok s -> none q s -> keeps q s (pre_response p ver t rt g rej dis ok last s).
Proof.
  intros I L N. unfold pre_response. apply K_look. destruct (negb _); [apply K_ret; auto using none_one|]. destruct (e_role s) eqn:R; try (apply K_ret; auto using none_one).
  destruct (negb _); [apply K_ret; auto using none_one|]. destruct (e_term s <? rt); [apply K_sd1; auto|]. destruct (negb g && negb rej); [apply K_ret; auto using none_one|].
  destruct (rej && _); [apply K_ret; auto using none_one|].
  assert (UP : forall f z, old_vers (f (e_p z)) -> x_conf (f (e_p z)) = x_conf (e_p z) -> x_old (f (e_p z)) = x_old (e_p z) -> EI q z -> e_role z = RFollower -> EI q (s_p f z)).
  { intros f z A B C D E. apply EI_p; auto; [rewrite B, C; apply (i_na q z D)|rewrite E; discriminate]. }
  assert (END : forall z, EI q z -> elok z -> none q z -> e_role z = RFollower -> keeps q z (look (fun s => if x_wins (e_p s) then elect_self false else ret) z)).
  { intros z A B C D. apply K_look. destruct (x_wins (e_p z)); [apply K_el; auto|apply K_ret; auto using none_one]. }
  assert (POP : forall z, EI q z -> elok z -> none q z -> e_role z = RFollower -> keeps q z
    ((look (fun s => let ps := popped (e_p s) ++ (if rej then [] else [p]) in upd (s_p pop_held) ;; grants (map (fun q => (q, q =? last)) ps)) ;;
           look (fun s => if x_wins (e_p s) then elect_self false else ret)) z)).
  { intros z A B C D. cbn zeta. match goal with |- keeps q z ((look (fun s => upd ?f ;; @?gg s) ;; ?e) z) =>
      change (keeps q z (((upd f ;; gg z) ;; e) z)); assert (AS : forall b c : M, ((upd f ;; b) ;; c) z = (upd f ;; b ;; c) z) end.
    { intros b c. unfold seq, upd. destruct (b _) as [s2 o2]. destruct (c s2) as [s3 o3]. reflexivity. }
    rewrite AS. apply K_upd; try reflexivity; [split; reflexivity|]. apply K_grants; auto. apply UP; auto; [apply ov_pop; apply (i_pv q z A)| |]; unfold pop_held; destruct (x_dis (e_p z)); reflexivity. }
  assert (HOLD : forall z, EI q z -> elok z -> none q z -> e_role z = RFollower -> keeps q z (((if rej then upd (s_p (x_hold p)) else ret) ;;
    look (fun s => let ps := popped (e_p s) ++ (if rej then [] else [p]) in upd (s_p pop_held) ;; grants (map (fun q => (q, q =? last)) ps)) ;;
           look (fun s => if x_wins (e_p s) then elect_self false else ret)) z)).
  { intros z A B C D. apply K_skipupd; try reflexivity; [split; reflexivity| |]; intros _; apply POP; auto. apply UP; auto. apply (i_pv q z A). }
  apply K_skipupd; try reflexivity; [split; reflexivity| |]; intros _; apply HOLD; auto. apply UP; auto. apply (i_pv q s I).
Qed.
