(** C62, lemmas: the invariant. *)
From Verif Require Import Base Elect ElectSpec ElectProofs.

Definition el_state (osd : bool) (s : en) : en :=
  mkE RCandidate (e_term s + 1) (Some 0) None (e_conf s) (e_old s)
      (start_vt (match e_role s with RFollower => stop_el (e_tm s) | _ => e_tm s end))
      (let v := x_init (e_conf s) (e_old s) false (e_v s) in if osd then x_disrupt v else v) (x_reset (e_p s))
      (e_trig s) (e_met s) (e_win s ++ [WElect (e_term s + 1)]) (e_conts s) (e_q s).
Lemma el_form s osd : (e_role s = RFollower \/ e_role s = RCandidate) -> elect_self osd s = (s, []) \/ exists h, elect_self osd s = (el_state osd s, h) /\ fine s h (el_state osd s).
Proof.
  intros R. assert (X : forall a b, forallb plain a = true -> forallb plain b = true -> fine s (a ++ [OState RCandidate (e_term s + 1)] ++ b) (el_state osd s)).
  { intros a b Fa Fb. split.
    - apply (mt_app _ _ _ (e_role s) (e_term s)); [apply plain_mt; exact Fa|]. apply (mt_app _ _ _ RCandidate (e_term s + 1)); [|apply plain_mt; exact Fb].
      apply state_mt; [|discriminate]. destruct R as [-> | ->]; reflexivity.
    - apply quiet_app; [apply quiet_plain; auto|]. apply quiet_app; [split; reflexivity|apply quiet_plain; auto]. }
  unfold elect_self, look. destruct (negb (memb 0 (e_conf s) || memb 0 (e_old s))); [left; reflexivity|right].
  destruct s as [r tm0 vo ld c o tm v p tr me w cs q]. cbn [e_role e_term] in R, X.
  destruct R as [R|R]; subst r; destruct ld as [l|], osd;
  match goal with |- exists h, ?m = _ /\ _ => let x := eval cbv beta iota zeta delta [seq upd out ret look no_leader leading s_role s_leader s_tm s_v s_p s_win s_term e_role e_term e_voted e_conf e_old e_tm e_v e_p e_trig e_met e_win e_conts e_q e_leader app] in m in
     match x with (_, ?h) => exists h end end;
  (split; [reflexivity|]);
    match goal with |- fine _ ?h _ => match h with
      | [OState ?x ?y] => apply (X [] []); reflexivity | [?a; OState ?x ?y] => apply (X [a] []); reflexivity end end.
Qed.
Definition bl_state (s : en) : en :=
  mkE RLeader (e_term s) (e_voted s) (Some 0) (e_conf s) (e_old s) (start_sd (stop_vt (e_tm s))) (x_reset (e_v s)) (e_p s)
      (e_trig s) (e_met s) (e_win s) (e_conts s) (e_q s).
Lemma bl_form s : e_role s = RCandidate -> exists h, become_leader s = (bl_state s, h) /\ fine s h (bl_state s).
Proof.
  intros R. eexists. split; [reflexivity|]. destruct s as [r tm0 vo ld c o tm v p tr me w cs q]. cbn in R. subst r. split; [|split; reflexivity].
  split; cbn; auto.
Qed.

(** * The invariant *)
Definition fresh (x : vctx) : Prop := ~ In (x_ver x) (x_sent x) /\ ~ In (x_ver x) (x_arm x).
Definition old_vers (x : vctx) : Prop := Forall (fun v => v <= x_ver x) (x_sent x) /\ Forall (fun v => v <= x_ver x) (x_arm x).
Definition only_self (x : vctx) : Prop := Forall (fun p => p = 0) (x_got x).
Definition welect (w : win) : list Z := match w with WElect t => [t] | _ => [] end.
Definition wterm (w : win) : Z := match w with WElect t | WPre t _ | WVote t _ _ => t end.
Definition na (q : bool) (c o : list peer) : Prop := q = false -> ~ alone c o.
Definition tm_ok (r : role) (t : tms) : Prop :=
  match r with
  | RFollower => t_vt t = false /\ t_sd t = false /\ t_dead t = false
  | RCandidate => t_el t = false /\ t_vt t = true /\ t_sd t = false /\ t_dead t = false
  | RLeader | RTransferring => t_el t = false /\ t_vt t = false /\ t_sd t = true /\ t_dead t = false
  | RError => t_vt t = false /\ t_sd t = false /\ t_dead t = false
  | RShutting | RShutdown => t_el t = false /\ t_vt t = false /\ t_sd t = false /\ t_dead t = true
  end.
Definition busy (r : role) : bool := match r with RCandidate | RLeader | RTransferring => true | _ => false end.
Definition w_ok (s : en) (w : win) : Prop :=
  wterm w <= e_term s /\
  match w with
  | WElect t => t = e_term s -> leading (e_role s) = false /\ fresh (e_v s) /\ x_got (e_v s) = []
  | WPre t _ => t = e_term s -> busy (e_role s) = false
  | WVote _ _ _ => True
  end.
(** In the undisturbed case the function that waits finds the state as it left it. *)
Definition w_same (s : en) (w : win) : Prop :=
  match w with WElect t => t = e_term s -> e_role s = RCandidate | WPre t _ => t = e_term s -> e_role s = RFollower | _ => True end.
Record EI (q : bool) (s : en) : Prop := mkEI {
  i_tm : tm_ok (e_role s) (e_tm s);
  i_vv : old_vers (e_v s); i_pv : old_vers (e_p s);
  i_vf : e_role s <> RCandidate -> fresh (e_v s) \/ (q = false /\ only_self (e_v s) /\ leading (e_role s) = false);
  i_pf : busy (e_role s) = true -> fresh (e_p s);
  i_win : Forall (w_ok s) (e_win s);
  i_uniq : NoDup (flat_map welect (e_win s));
  i_q : q = true -> Forall (w_same s) (e_win s);
  i_na : na q (e_conf s) (e_old s) /\ na q (x_conf (e_v s)) (x_old (e_v s)) /\ na q (x_conf (e_p s)) (x_old (e_p s));
  i_exq : match e_role s with RShutting => e_q s = QStop | RShutdown => e_q s = QGone | _ => e_q s = QRun end;
  i_cont : e_role s <> RShutting -> e_conts s = [] }.
Definition elok (s : en) : Prop := e_role s = RFollower -> t_el (e_tm s) = true \/ (e_conf s = [] /\ e_old s = [] /\ e_met s = false /\ e_leader s = None).

Lemma reset_fresh x : old_vers x -> fresh (x_reset x) /\ old_vers (x_reset x).
Proof.
  intros [A B]. rewrite Forall_forall in A, B. unfold fresh, old_vers, x_reset. cbn. repeat split.
  - intros H. specialize (A _ H). cbn in A. lia.
  - intros H. specialize (B _ H). cbn in B. lia.
  - apply Forall_forall. intros y H. specialize (A _ H). cbn in A. lia.
  - apply Forall_forall. intros y H. specialize (B _ H). cbn in B. lia.
Qed.
Lemma init_fresh c o b x : old_vers x -> fresh (x_init c o b x) /\ old_vers (x_init c o b x).
Proof. intros H. exact (reset_fresh x H). Qed.
Lemma w_up s s' : e_term s < e_term s' -> Forall (w_ok s) (e_win s) -> Forall (w_ok s') (e_win s).
Proof.
  intros L F. eapply Forall_impl; [|exact F]. intros w [H _]. split; [lia|]. destruct w; cbn in H |- *; auto; intros E; lia.
Qed.
Lemma w_same_term s s' l : e_term s' = e_term s -> (leading (e_role s) = false -> leading (e_role s') = false) -> (busy (e_role s) = false -> busy (e_role s') = false) ->
  (leading (e_role s) = false -> fresh (e_v s) -> x_got (e_v s) = [] -> fresh (e_v s') /\ x_got (e_v s') = []) -> Forall (w_ok s) l -> Forall (w_ok s') l.
Proof.
  intros T A B C F. eapply Forall_impl; [|exact F]. intros w [H H2]. split; [lia|]. destruct w; auto; rewrite T; intros E; [auto|].
  destruct (H2 E) as (X & Y & Z). auto.
Qed.

Lemma sd_EI q s t : active (e_role s) = true -> (q = true -> e_win s = []) -> EI q s -> EI q (sd_state t s) /\ t_el (e_tm (sd_state t s)) = true.
Proof.
  intros A Q [T VV PV VF PF W U IQ (N1 & N2 & N3) X CN]. split.
  - constructor; cbn [sd_state e_role e_term e_voted e_conf e_old e_tm e_v e_p e_trig e_met e_win e_conts e_q e_leader]; auto.
    + destruct (e_role s); try discriminate A; cbn in T |- *; unfold start_el, sd_tm, stop_vt, stop_sd; cbn; destruct T as (? & ? & T); intuition; repeat match goal with H : t_dead _ = false |- _ => rewrite H in * end; cbn; auto.
    + destruct (e_role s); auto; apply reset_fresh; auto.
    + destruct (e_role s); auto; apply reset_fresh; auto.
    + intros _. destruct (e_role s) eqn:R; try discriminate A.
      * destruct VF as [VF|(_ & _ & VF)]; [discriminate|left; auto|discriminate VF].
      * destruct VF as [VF|(_ & _ & VF)]; [discriminate|left; auto|discriminate VF].
      * left. apply reset_fresh. auto.
      * destruct VF as [VF|(VF1 & VF2 & _)]; [discriminate|left; auto|right; auto].
    + discriminate.
    + destruct (Z.le_gt_cases t (e_term s)) as [L|L].
      * apply (w_same_term s); cbn [sd_state e_role e_term e_v leading busy]; auto; [lia|]. intros _ F G. destruct (e_role s); auto. split; [apply reset_fresh; auto|exact G].
      * apply (w_up s); [cbn; lia|exact W].
    + intros E. rewrite (Q E). constructor.
    + split; [exact N1|]. split; [destruct (e_role s); exact N2|destruct (e_role s); exact N3].
    + destruct (e_role s); try discriminate A; exact X.
    + intros _. apply CN. destruct (e_role s); try discriminate A; discriminate.
  - cbn. unfold start_el. destruct (e_role s); try discriminate A; cbn in T |- *; destruct T as (? & ? & T); intuition; repeat match goal with H : t_dead _ = false |- _ => rewrite H in * end; reflexivity.
Qed.
Lemma nodup_snoc l (w : win) t : welect w = [t] -> (forall x, In x l -> wterm x < t) -> NoDup (flat_map welect l) -> NoDup (flat_map welect (l ++ [w])).
Proof.
  intros E L N. rewrite flat_map_app. cbn. rewrite E. cbn. apply NoDup_rev in N. rewrite <- (rev_involutive (_ ++ [t])). apply NoDup_rev. rewrite rev_app_distr. cbn. constructor; [|exact N].
  rewrite <- in_rev. intros H. apply in_flat_map in H. destruct H as (x & Hx & H). specialize (L x Hx). destruct x; cbn in H, L; intuition lia.
Qed.
Lemma el_EI q s osd : (e_role s = RFollower \/ e_role s = RCandidate) -> (q = true -> e_win s = []) -> EI q s -> EI q (el_state osd s).
Proof.
  intros R Q [T VV PV VF PF W U IQ (N1 & N2 & N3) X CN].
  assert (FV : fresh (x_init (e_conf s) (e_old s) false (e_v s)) /\ old_vers (x_init (e_conf s) (e_old s) false (e_v s))) by (apply init_fresh; auto).
  constructor; unfold el_state; cbn zeta; cbn [e_role e_term e_voted e_conf e_old e_tm e_v e_p e_trig e_met e_win e_conts e_q e_leader]; auto.
  - destruct R as [R|R]; rewrite R in *; cbn in T |- *; unfold start_vt, stop_el; cbn; destruct T as (? & ? & T); intuition; repeat match goal with H : t_dead _ = false |- _ => rewrite H in * end; cbn; auto.
  - destruct osd; apply FV.
  - apply reset_fresh; auto.
  - congruence.
  - intros _. apply reset_fresh; auto.
  - apply Forall_app. split; [apply (w_up s); [cbn; lia|exact W]|]. constructor; [|constructor]. split; [cbn; lia|]. cbn. intros _. split; [reflexivity|]. destruct osd; (split; [apply FV|reflexivity]).
  - apply (nodup_snoc _ _ (e_term s + 1)); [reflexivity| |exact U]. intros x Hx. rewrite Forall_forall in W. destruct (W x Hx). lia.
  - intros E. rewrite (Q E). constructor; [cbn; auto|constructor].
  - destruct osd; (split; [exact N1|split; [exact N1|exact N3]]).
  - destruct R as [R|R]; rewrite R in X; exact X.
  - intros _. apply CN. destruct R as [R|R]; rewrite R; discriminate.
Qed.
Lemma bl_EI q s : e_role s = RCandidate -> (q = true -> e_win s = []) -> (forall t, In (WElect t) (e_win s) -> t <> e_term s) -> EI q s -> EI q (bl_state s).
Proof.
  intros R Q NW [T VV PV VF PF W U IQ (N1 & N2 & N3) X CN]. rewrite R in *.
  constructor; unfold bl_state; cbn [e_role e_term e_voted e_conf e_old e_tm e_v e_p e_trig e_met e_win e_conts e_q e_leader]; auto.
  - cbn in T |- *. unfold start_sd, stop_vt. cbn. destruct T as (? & ? & ? & T). rewrite T. cbn. auto.
  - apply reset_fresh; auto.
  - intros _. left. apply reset_fresh; auto.
  - apply Forall_forall. intros w Hw. rewrite Forall_forall in W. destruct (W w Hw) as [H H2]. split; [exact H|]. destruct w; auto; cbn [e_term e_role]; intros E.
    + specialize (H2 E). rewrite R in H2. discriminate H2.
    + destruct (NW t); auto.
  - intros E. rewrite (Q E). constructor.
  - intros _. apply CN. discriminate.
Qed.
(** A ballot only oneself has granted is not won, unless one is alone. *)
Lemma half_mono c a b : (forall p, memb p a = true -> memb p b = true) -> half c a = true -> half c b = true.
Proof.
  intros S H. unfold half in *. apply Nat.leb_le in H. apply Nat.leb_le. etransitivity; [exact H|]. clear H. induction c as [|x c IH]; cbn; [lia|].
  destruct (memb x a) eqn:E; [rewrite (S x E); cbn; lia|]. destruct (memb x b); cbn; lia.
Qed.
Lemma self_not_wins q x : na q (x_conf x) (x_old x) -> q = false -> only_self x -> x_wins (x_grant 0 x) = false.
Proof.
  intros N Q O. destruct (x_wins (x_grant 0 x)) eqn:E; [|reflexivity]. exfalso. apply (N Q). unfold alone, x_wins, wins in *. cbn [x_grant x_conf x_old x_got] in E.
  assert (S : forall p, memb p (if memb 0 (x_got x) then x_got x else 0 :: x_got x) = true -> memb p [0] = true).
  { intros p H. unfold memb in *. assert (F : Forall (fun p => p = 0) (if existsb (Z.eqb 0) (x_got x) then x_got x else 0 :: x_got x)) by (destruct (existsb _ _); [exact O|constructor; auto]).
    apply existsb_exists in H. destruct H as (y & H1 & H2). rewrite Forall_forall in F. apply Z.eqb_eq in H2. subst y. rewrite (F p H1). reflexivity. }
  apply andb_prop in E. destruct E as [E1 E2]. apply andb_true_intro. split; [apply (half_mono _ _ _ S E1)|]. destruct (x_old x); [reflexivity|apply (half_mono _ _ _ S E2)].
Qed.
