(** Lemmas on the timed group model, part 7: the leader's lease in every execution. *)
From Verif Require Import Base Ballot QuorumSpec BallotProofs Lease LeaseSpec LeaseProofs LeaseProofs2 LeaseProofs3 LeaseProofs4 LeaseProofs5 LeaseProofs6.

Section P.
Variables (conf : list peer) (old : option (list peer)) (timeout fto drift : peer -> Z -> Z) (clk : peer -> Z -> Z) (eps dr : Z).
Hypothesis Wf : wf_jconf (conf, old).
Hypothesis Ce : 0 <= eps.
Hypothesis Ct : timeouts_safe conf old timeout fto drift clk dr eps.
Hypothesis Ck : clocks dr clk.
Notation NA := (NA conf old).
Notation core := (core conf old).
Notation fol := (fol fto drift clk).
Notation mem := (mem conf old).
Notation lok := (lok conf old clk eps).
Notation just := (just conf old clk eps).
Notation together := (together clk eps).

Lemma just_mono : forall tr tr' p t x, incl tr tr' -> just tr p t x -> just tr' p t x.
Proof. intros tr tr' p t x I (cf & M & h1 & h2 & h3). exists cf, M. sp; auto. intros f Hf. destruct (h3 f Hf) as [?|[a [ha hb]]]; auto. right. exists a. auto. Qed.
Lemma lok_mono : forall tr tr' p n, incl tr tr' -> lok tr p n -> lok tr' p n.
Proof.
  intros tr tr' p n I []. constructor; intros.
  - destruct (o_reps H q x H0) as [hp [[a [ha hb]]|[a [ha hb]]]]; split; auto; [left|right]; exists a; auto.
  - destruct (o_acked H q H0) as [a ha]. exists a. auto.
  - destruct (o_first H H0) as [Q [h1 h2]]. exists Q. split; auto. intros q Hq. destruct (h2 q Hq) as [?|[a ha]]; auto. right. exists a. auto.
  - destruct (o_lease H) as (h1 & h2 & h3). sp; auto. intros K. destruct (h3 K). split; auto. eapply just_mono; eauto.
Qed.
Definition same7 (n n' : lnode) : Prop := n_st n' = n_st n /\ n_term n' = n_term n /\ n_reps n' = n_reps n /\ n_acked n' = n_acked n /\ n_first n' = n_first n /\ l_term n' = l_term n /\ l_ts n' = l_ts n.
Lemma lok_same : forall tr p n n', lok tr p n -> same7 n n' -> lok tr p n'.
Proof. intros tr p n n' [] (E1 & E2 & E3 & E4 & E5 & E6 & E7). constructor; rewrite ?E1, ?E2, ?E3, ?E4, ?E5, ?E6, ?E7; auto. Qed.
Lemma lok_idle : forall tr p n, leads (n_st n) = false -> l_term n = 0 -> lok tr p n.
Proof. intros tr p n H1 H2. constructor; intros; congruence. Qed.
Definition fresh7 (n : lnode) : Prop := n_st n = LLeader /\ n_reps n = [] /\ n_acked n = [] /\ n_first n = false /\ l_term n = n_term n /\ l_ts n = 0.
Lemma lok_fresh : forall tr p n, fresh7 n -> lok tr p n.
Proof. intros tr p n (E1 & E2 & E3 & E4 & E5 & E6). constructor; rewrite ?E1, ?E2, ?E3, ?E4, ?E5, ?E6; auto; try discriminate; try (intros; contradiction). intros _. sp; auto. congruence. Qed.
Lemma lz : forall tr p n, lok tr p n -> n_st n <> LLeader -> l_term n = 0.
Proof. intros tr p n [] H. destruct (Z.eq_dec (l_term n) 0); auto. destruct (o_lease n0). contradiction. Qed.
Lemma sd_lterm : forall t n, l_term (step_down t n) = match n_st n with LLeader => 0 | _ => l_term n end.
Proof. intros t n. unfold step_down. destruct (n_st n); cbn [set_ctx lease_stop set_role set_reps n_term]; destruct (n_term n <? t); reflexivity. Qed.
Lemma lok_sd : forall tr p n t, lok tr p n -> lok tr p (step_down t n).
Proof. intros tr p n t H. apply lok_idle; [rewrite sd_st; auto|]. rewrite sd_lterm. destruct (n_st n) eqn:S; auto; eapply lz; eauto; congruence. Qed.
Lemma bl_fresh : forall p now n n' ms rs, become_leader p now n = Some (n', ms, rs) -> fresh7 n'.
Proof. intros p now n n' ms rs H. unfold become_leader in H. destruct (n_st n); try discriminate. injection H as <- <- <-. unfold fresh7. sp; reflexivity. Qed.
Lemma gs_lok : forall tr p now n n' ms rs, lok tr p n -> grant_self conf old fto drift clk p now n = Some (n', ms, rs) -> lok tr p n'.
Proof.
  intros tr p now n n' ms rs H Hg. unfold grant_self in Hg. destruct (votable _ _ _ _ _).
  - set (n1 := set_ctx (n_ver n) (p :: n_grants n) (n_dis n) n) in *. destruct (wins _ _ _).
    + destruct (become_leader p now n1) as [[[n2 m2] r2]|] eqn:Eb; try discriminate. injection Hg as <- <- <-. eapply lok_fresh, bl_fresh; eauto.
    + injection Hg as <- <- <-. eapply lok_same; eauto. unfold same7; sp; reflexivity.
  - injection Hg as <- <- <-. eapply lok_same; eauto. unfold same7; sp; reflexivity.
Qed.

Record lse (s : lcl) : Prop := {
  s_lok : forall p, lok (c_trace s) p (c_nodes s p);
  s_ack : forall f l t snt, In (MAck f l t snt) (c_net s) -> exists a, In (RRenew f l t a) (c_trace s) /\ snt <= clk l a;
  s_app : forall f t snt, In (MApp f t snt) (c_net s) -> snt <= clk f (c_now s) }.
Lemma lse0 : lse lc0.
Proof. constructor; cbn; try (intros; contradiction). intros p. apply lok_idle; reflexivity. Qed.

Lemma upd_in : forall q x l y t, In (y, t) (upd_ts q x l) -> In (y, t) l \/ (y = q /\ exists t0, In (y, t0) l /\ t = Z.max t0 x).
Proof.
  induction l as [|[a b] l IH]; intros y t H; cbn in H; auto. destruct (Z.eqb_spec a q) as [->|].
  - destruct H as [H|H]; [injection H as <- <-; right; split; auto; exists b; split; auto; left; auto|left; right; auto].
  - destruct H as [H|H]; [left; left; auto|]. destruct (IH _ _ H) as [K|[-> [t0 [h1 h2]]]]; [left; right; auto|right; split; auto; exists t0; split; auto; right; auto].
Qed.

(** setting the lease time *)
Lemma lts_lok : forall tr p n c, lok tr p n -> n_st n = LLeader -> n_first n = true -> mem p -> together tr -> 0 <= c -> l_term n <> 0 -> lok tr p (set_lts (last_active conf old p c (n_reps n)) n).
Proof.
  intros tr p n c H S Fi Hm Ht Hc Hl. pose proof H as H'. destruct H. constructor; cbn [set_lts n_st n_term n_reps n_acked n_first l_term l_ts]; auto.
  intros _. destruct (o_lease Hl) as (h1 & h2 & _). sp; auto. intros Hx. split; auto. apply last_active_just; auto. rewrite S; auto.
Qed.

Lemma act_lse : forall s p now e n' ms rs, core s -> lse s -> c_now s <= now ->
  lact conf old timeout fto drift clk s p now e = Some (n', ms, rs) -> together (rs ++ c_trace s) ->
  lok (rs ++ c_trace s) p n' /\ (forall f l t snt, In (MAck f l t snt) ms -> exists a, In (RRenew f l t a) (rs ++ c_trace s) /\ snt <= clk l a) /\ (forall f t snt, In (MApp f t snt) ms -> snt <= clk f now).
Proof.
  intros s p now e n' ms rs HC HL Hn Ha Ht. pose proof (k_na _ _ _ HC p) as HA. destruct HL as [HL HAk HAp]. specialize (HL p). set (n := c_nodes s p) in *. destruct Ck as [Cp [Cm _]].
  assert (I : incl (c_trace s) (rs ++ c_trace s)) by (intros y Hy; apply in_or_app; auto).
  assert (N1 : forall (P : Prop), P -> P /\ (forall f l t snt, In (MAck f l t snt) [] -> exists a, In (RRenew f l t a) (rs ++ c_trace s) /\ snt <= clk l a) /\ (forall f t snt, In (MApp f t snt) [] -> snt <= clk f now)).
  { intros P HP. sp; auto; intros; contradiction. }
  destruct e; cbn [lact] in Ha; fold n in Ha; unfold ok0 in Ha.
  - destruct (leads (n_st n)) eqn:S; try discriminate. injection Ha as <- <- <-. apply N1. unfold elect_1. destruct (_ || _); auto. apply lok_idle; [reflexivity|].
    cbn [set_wait set_ctx set_term set_role l_term]. eapply lz; eauto. intros K. rewrite K in S. discriminate.
  - destruct (_ && _) eqn:S; try discriminate. injection Ha as <- <- <-. apply andb_true_iff in S. destruct S as [_ S]. apply N1. unfold elect_1. destruct (_ || _); auto. apply lok_idle; [reflexivity|].
    cbn [set_wait set_f set_ctx set_term set_role l_term]. eapply lz; eauto. intros K. rewrite K in S. discriminate.
  - unfold elect_2 in Ha. destruct (n_win n) as [t|]; try discriminate. set (n0 := set_wait (n_gself n) None n) in *. assert (H0 : lok (c_trace s) p n0) by (eapply lok_same; eauto; unfold same7; sp; reflexivity).
    destruct (n_term n0 =? t).
    + destruct (grant_self conf old fto drift clk p now (save n0)) as [[[n2 m2] r2]|] eqn:Eg; try discriminate. injection Ha as <- <- <-.
      pose proof (gs_form _ _ _ _ _ _ _ _ _ _ _ Eg) as [-> _]. sp.
      * eapply lok_mono; [exact I|]. eapply gs_lok; [|exact Eg]. eapply lok_same; [exact H0|unfold same7; sp; reflexivity].
      * intros f l t0 snt [K|[]]; discriminate.
      * intros f t0 snt [K|[]]; discriminate.
    + injection Ha as <- <- <-. auto.
  - unfold grant_timer in Ha. destruct (n_gself n) as [v|]; try discriminate. set (n0 := set_wait None (n_win n) n) in *. assert (H0 : lok (c_trace s) p n0) by (eapply lok_same; eauto; unfold same7; sp; reflexivity).
    destruct (v =? n_ver n0).
    + pose proof (gs_form _ _ _ _ _ _ _ _ _ _ _ Ha) as [-> _]. apply N1. eapply lok_mono; [exact I|]. eapply gs_lok; [|exact Ha]. auto.
    + injection Ha as <- <- <-. auto.
  - destruct (sent _ s && _) eqn:E; try discriminate. unfold vote_1 in Ha. set (n1 := match n_st n with LFollower => _ | _ => n end) in *.
    assert (H1 : lok (c_trace s) p n1). { unfold n1. destruct (n_st n); auto. destruct dis as [[l lt]|]; auto. destruct ((n_term n =? lt) && opeer_eqb (n_leader n) l); auto. eapply lok_same; eauto; unfold same7; sp; reflexivity. }
    clearbody n1. destruct (t <? n_term n1); injection Ha as <- <- <-; cbn [app].
    + sp; auto; intros f; intros; destruct H as [K|[]]; discriminate.
    + apply N1. eapply lok_same; eauto; unfold same7; sp; reflexivity.
  - unfold vote_2 in Ha. destruct (find_w k (n_vw n)) as [w|]; try discriminate. set (n1 := set_vw _ _ n) in *. assert (H1 : lok (c_trace s) p n1) by (eapply lok_same; eauto; unfold same7; sp; reflexivity).
    clearbody n1. destruct (if negb (w_prev w =? n_term n1) || negb (votable fto drift clk p now n1) then (n1, None, []) else _) as [[n2 d] r2] eqn:E.
    assert (H2 : lok (c_trace s) p n2).
    { destruct (negb _ || negb _); [injection E as <- <- <-; auto|].
      destruct (if n_term n1 <? w_term w then _ else (n1, None)) as [n3 d3] eqn:E3.
      assert (H3 : lok (c_trace s) p n3). { destruct (n_term n1 <? w_term w); injection E3 as <- <-; auto using lok_sd. }
      destruct (ok && opeer_eqb (n_voted n3) None); injection E as <- <- <-; auto. pose proof (lok_sd _ _ _ (w_term w) H3) as H6. apply lok_idle; cbn [save set_term n_st l_term]; [rewrite sd_st; auto|].
      eapply lz; [exact H6|]. rewrite sd_st. discriminate. }
    injection Ha as <- <- <-. sp; [eapply lok_mono; eauto|..]; intros f; intros; destruct H as [K|[]]; discriminate.
  - destruct (_ && _) eqn:E; try discriminate. unfold vote_resp in Ha. clear E.
    destruct (negb (ver =? n_ver n)); [injection Ha as <- <- <-; auto|]. destruct (n_st n); try (injection Ha as <- <- <-; auto; fail).
    destruct (negb (t =? n_term n)); [injection Ha as <- <- <-; auto|]. destruct (n_term n <? rt); [injection Ha as <- <- <-; apply N1; apply lok_sd; auto|].
    destruct (negb g && negb again); [injection Ha as <- <- <-; auto|].
    set (n1 := match d with Some pt => set_ctx (n_ver n) (n_grants n) (Some (Some from, pt)) n | None => n end) in *.
    assert (H1 : lok (c_trace s) p n1). { unfold n1. destruct d; auto. eapply lok_same; eauto; unfold same7; sp; reflexivity. }
    clearbody n1. destruct (if g then _ else (n1, [])) as [n2 r2] eqn:E2.
    assert (H2 : lok (c_trace s) p n2). { destruct g; [|injection E2 as <- <-; auto]. destruct (opeer_eqb _ _); injection E2 as <- <-; (eapply lok_same; [exact H1|unfold same7; sp; reflexivity]). }
    clear E2. destruct (g && wins conf old (n_grants n2)).
    + destruct (become_leader p now n2) as [[[n3 m3] r3]|] eqn:Eb; try discriminate. injection Ha as <- <- <-. pose proof (bl_fresh _ _ _ _ _ _ Eb) as Fb. unfold become_leader in Eb. destruct (n_st n2); try discriminate. injection Eb as _ <- _. apply N1. apply lok_fresh. auto.
    + injection Ha as <- <- <-. sp; [eapply lok_mono; eauto|..]; intros f; intros; exfalso; destruct again; try contradiction; (destruct (n_dis n2); [destruct H as [K|[]]; discriminate|contradiction]).
  - destruct (n_term n <=? t); try discriminate. injection Ha as <- <- <-. sp; [apply lok_sd; auto|..]; intros f; intros; exfalso; destruct (wake && leads (n_st n)); try contradiction; destruct H as [K|[]]; discriminate.
  - destruct (n_st n) eqn:S; try discriminate. injection Ha as <- <- <-. apply N1. apply lok_idle; [reflexivity|]. cbn [set_role l_term]. eapply lz; eauto. congruence.
  - destruct (existsb _ _); try discriminate. injection Ha as <- <- <-. sp; auto; intros f; intros; destruct H as [K|[]]; try discriminate. injection K as <- <- <-. lia.
  - destruct (_ && _) eqn:E; try discriminate. apply andb_true_iff in E. destruct E as [E1 _]. apply sent_in in E1. apply HAp in E1. unfold append_req in Ha.
    destruct (Z.ltb_spec t (n_term n)) as [|Hlt]; [injection Ha as <- <- <-; auto|].
    assert (H1 : lok (c_trace s) p (check_step_down t from n)).
    { destruct (csd_form t from n Hlt) as (n1 & h1 & h2 & h3 & h4). rewrite h4. assert (H1 : lok (c_trace s) p n1) by (destruct h1 as [->| ->]; auto using lok_sd). destruct (n_leader n1); auto.
      apply lok_idle; [reflexivity|]. cbn [set_role l_term]. eapply lz; eauto. congruence. }
    set (n1 := check_step_down t from n) in *. clearbody n1. destruct (negb _); [injection Ha as <- <- <-; apply N1; apply lok_sd; auto|].
    destruct cached; injection Ha as <- <- <-; auto. cbn [app]. sp.
    + eapply lok_mono; [exact I|]. eapply lok_same; [exact H1|unfold same7; sp; reflexivity].
    + intros f l t0 s0 [K|[]]. injection K as <- <- <- <-. exists now. split; [left; auto|]. specialize (Cm from (c_now s) now Hn). lia.
    + intros f t0 s0 [K|[]]. discriminate.
  - destruct (sent _ s) eqn:E; try discriminate. apply sent_in in E. apply HAk in E. destruct E as [a [ha hb]]. unfold ack in Ha. destruct (leads (n_st n) && (t =? n_term n)) eqn:El; injection Ha as <- <- <-; auto.
    apply andb_true_iff in El. destruct El as [Ld Et]. apply Z.eqb_eq in Et. subst t. apply N1. cbn [app]. destruct HL. constructor; cbn [set_reps n_st n_term n_reps n_acked n_first l_term l_ts]; auto.
    + intros _ q x Hq. apply upd_in in Hq. destruct Hq as [Hq|[-> [t0 [Hq ->]]]]; auto. destruct (o_reps Ld _ _ Hq) as [hp K]. split; [lia|].
      destruct (Z.max_spec t0 snt) as [[_ ->]|[_ ->]]; auto. right. exists a. auto.
    + intros _ q [<-|Hq]; auto. exists a. auto.
  - unfold start_rep in Ha. destruct (leads (n_st n) && negb (q =? p) && negb (existsb (fun x => fst x =? q) (n_reps n))) eqn:El; injection Ha as <- <- <-; auto. apply N1.
    apply (lok_mono _ ([RStart p (n_term n) q now] ++ c_trace s)) in HL; [|exact I]. destruct HL. constructor; cbn [set_reps n_st n_term n_reps n_acked n_first l_term l_ts]; auto.
    intros Ld q0 x [Hq|Hq]; auto. injection Hq as <- <-. split; auto. left. exists now. split; auto. left. auto.
  - unfold first_commit in Ha. destruct (leads (n_st n) && wins conf old (p :: n_acked n)) eqn:El; try discriminate. injection Ha as <- <- <-. apply andb_true_iff in El. destruct El as [Ld Hw]. apply wins_quorum in Hw; auto. apply N1. cbn [app].
    destruct HL. constructor; cbn [set_reps n_st n_term n_reps n_acked n_first l_term l_ts]; auto.
    + intros _ _. exists (p :: n_acked n). split; auto. intros q [<-|Hq]; auto.
    + intros K. destruct (o_lease K) as (h1 & h2 & h3). sp; auto. intros X. destruct (h3 X). auto.
  - unfold lease_begin in Ha. destruct (n_first n) eqn:Fi; cbn [negb] in Ha; try discriminate. destruct (n_st n) eqn:S; injection Ha as <- <- <-; auto. destruct (Z.eqb_spec (l_term n) 0); cbn [orb]; auto. destruct (negb _); auto.
    apply N1. apply lts_lok; auto. + destruct (a_ld _ _ _ _ _ _ HA); [rewrite S; auto|]. eapply (a_el _ _ _ _ _ _ HA); eauto. + specialize (Cp p now). lia.
  - injection Ha as <- <- <-. apply N1. cbn [app]. unfold lease_status. destruct (lease_info (timeout p now) (clk p now) n) eqn:Ei; cbn [fst]; auto. destruct (n_st n) eqn:S; cbn [fst]; auto.
    assert (L0 : l_term n <> 0 /\ l_ts n <> 0). { unfold lease_info in Ei. destruct (Z.eqb_spec (l_term n) 0); try discriminate. destruct (Z.eqb_spec (l_ts n) 0); try discriminate. auto. }
    destruct L0 as [L0 L1]. assert (H1 : lok (c_trace s) p (set_lts (last_active conf old p (clk p now) (n_reps n)) n)).
    { apply lts_lok; auto. - apply (o_lease _ _ _ _ _ _ _ HL); auto. - destruct (a_ld _ _ _ _ _ _ HA); [rewrite S; auto|]. eapply (a_el _ _ _ _ _ _ HA); eauto. - specialize (Cp p now). lia. }
    set (n1 := set_lts _ n) in *. clearbody n1. destruct (lease_info (timeout p now) (clk p now) n1); cbn [fst]; auto using lok_sd.
  - injection Ha as <- <- <-. apply N1. cbn [app]. unfold transfer. destruct (n_st n) eqn:S; auto. destruct (n_first n) eqn:Fi; auto. destruct HL. constructor; cbn [lease_stop set_role n_st n_term n_reps n_acked n_first l_term l_ts]; auto; try congruence; rewrite ?S in *; auto. 
  - injection Ha as <- <- <-. apply N1. cbn [app]. unfold transfer_timeout. destruct (n_st n) eqn:S; auto. destruct HL. constructor; cbn [lease_start set_role n_st n_term n_reps n_acked n_first l_term l_ts]; auto; rewrite ?S in *; auto. intros _. sp; auto. congruence.
  - injection Ha as <- <- <-. apply N1. cbn [app]. apply lok_idle; unfold restart; set (n0 := mkLN _ _ _ _ _ _ _ _ _ _ _ _ _ _ _ _ _ _ _ _ _ _); destruct (n_term n0 <? lt); destruct (_ && _); reflexivity.
Qed.

Lemma lse_step : forall s x s', core s -> lse s -> lstep conf old timeout fto drift clk s x = Some s' -> started_together eps clk s' -> lse s'.
Proof.
  intros s x s' HC HL Hs Ht. apply step_form in Hs. destruct Hs as (dt & p & e & n & ms & rs & -> & Hd & Ha & ->).
  assert (Hn : c_now s <= c_now s + dt) by lia. destruct (act_lse _ _ _ _ _ _ _ HC HL Hn Ha) as (h1 & h2 & h3); [exact Ht|]. destruct HL.
  constructor; cbn [c_nodes c_net c_trace c_now].
  - intros q. unfold lupd. destruct (Z.eqb_spec q p) as [->|]; auto. eapply lok_mono; [|apply s_lok0]. intros y Hy. apply in_or_app; auto.
  - intros f l t snt H. apply in_app_or in H. destruct H as [H|H]; auto. destruct (s_ack0 _ _ _ _ H) as [a [ha hb]]. exists a. split; auto. apply in_or_app; auto.
  - intros f t snt H. apply in_app_or in H. destruct H as [H|H]; [eauto|]. apply s_app0 in H. destruct Ck as [_ [Cm _]]. specialize (Cm f (c_now s) (c_now s + dt) Hn). lia.
Qed.

Lemma exec_inv : forall s, timed_execution conf old timeout fto drift clk eps s -> core s /\ fol s /\ lse s.
Proof.
  induction 1 as [|s x s' H IH Hs Ht Hk]; [auto using core0, fol0, lse0|]. destruct IH as (i1 & i2 & i3). sp.
  - eapply core_step; eauto.
  - eapply fol_step; eauto.
  - eapply lse_step; eauto.
Qed.

(** The earliest of the elections above [t] *)
Lemma earliest : forall tr t, later tr t -> exists tr2 p t' a tr1, tr = tr2 ++ RElect p t' a :: tr1 /\ t < t' /\ ~ later tr1 t.
Proof.
  induction tr as [|r tr IH]; intros t (x & t1 & h1 & [a h2]); [destruct h2|].
  assert (Dec : later tr t \/ ~ later tr t).
  { clear. induction tr as [|r tr IH]; [right; intros (x & t1 & _ & [a []])|]. destruct IH as [(x & t1 & h1 & h2)|N].
    - left. exists x, t1. split; auto. apply el_cons. auto.
    - destruct r as [| |p t' a|]; try (right; intros (x & t1 & h1 & h2); apply el_cons in h2; destruct h2 as [[b E]|h2]; [discriminate|]; apply N; exists x, t1; auto; fail).
      destruct (Z.ltb_spec t t'); [left; exists p, t'; split; auto; apply el_cons; left; eauto|].
      right. intros (x & t1 & h1 & h2). apply el_cons in h2. destruct h2 as [[b E]|h2]; [injection E as <- <- _; lia|]. apply N. exists x, t1. auto. }
  destruct Dec as [D|D].
  - destruct (IH t D) as (tr2 & p & t' & b & tr1 & -> & e2 & e3). exists (r :: tr2), p, t', b, tr1. sp; auto.
  - destruct h2 as [->|h2]; [|exfalso; apply D; exists x, t1; split; auto; exists a; auto]. exists [], x, t1, a, tr. sp; auto.
Qed.
Lemma TE_split : forall tr2 r tr1, TE conf old (tr2 ++ r :: tr1) -> TE conf old (r :: tr1).
Proof. induction tr2 as [|x tr2 IH]; intros r tr1 H; auto. apply IH. apply H. Qed.
Lemma TI_split : forall nd tr2 r tr1, TI fto drift clk nd (tr2 ++ r :: tr1) -> TI fto drift clk nd (r :: tr1).
Proof. intros nd. induction tr2 as [|x tr2 IH]; intros r tr1 H; auto. apply IH. apply H. Qed.

(** A renewal and a vote in a later term *)
Lemma TI_order : forall nd tr f l t a t' c v, TI fto drift clk nd tr -> In (RRenew f l t a) tr -> t < t' ->
  forall tr1, (exists tr2, tr = tr2 ++ tr1) -> In (RVote f t' c v) tr1 -> ~ later tr1 t -> a <= v /\ (clk f a + fto f v + drift f v <= clk f v \/ left (nd l) t).
Proof.
  intros nd tr f l t a t' c v H Hr Hlt tr1 [tr2 ->] Hv Hla. apply in_split in Hv. destruct Hv as (A & B & ->). rewrite app_assoc in *. set (U := tr2 ++ A) in *.
  assert (Hb : ~ later B t). { intros (x & t1 & h1 & [b h2]). apply Hla. exists x, t1. split; auto. exists b. apply in_or_app. right. right. auto. }
  apply in_app_or in Hr. destruct Hr as [Hr|[Hr|Hr]]; [|discriminate|].
  - exfalso. clearbody U. induction U as [|u U IH]; [destruct Hr|]. destruct H as [h1 h2]. destruct Hr as [->|Hr]; auto.
    destruct h1 as [_ [_ h1]]. specialize (h1 t' c). enough (t' <= t) by lia. apply h1. exists v. apply in_or_app. right. left. auto.
  - apply TI_split in H. destruct H as [h1 _]. destruct (h1 _ _ _ Hr Hlt) as [h2 [h3|[h3|h3]]]; auto. contradiction.
Qed.

Theorem lease_main : forall s l now t e, timed_execution conf old timeout fto drift clk eps s -> valid_lease timeout clk s l now t e ->
  n_st (c_nodes s l) = LLeader /\ n_term (c_nodes s l) = t /\ elected s l t /\ forall p t', elected s p t' -> t' <= t /\ (t' = t -> p = l).
Proof.
  intros s l now t e Hx [Hn Hv]. destruct (exec_inv s Hx) as (HC & HF & HL). pose proof (k_na _ _ _ HC l) as HA. pose proof (s_lok _ HL l) as HO.
  unfold lease_info in Hv. destruct (Z.eqb_spec (l_term (c_nodes s l)) 0) as [|Lt]; try discriminate. destruct (Z.eqb_spec (l_ts (c_nodes s l)) 0) as [|Ls]; try discriminate.
  destruct (Z.ltb_spec (clk l now) (l_ts (c_nodes s l) + timeout l now)) as [Lv|]; try discriminate. injection Hv as E1 E2.
  destruct (o_lease _ _ _ _ _ _ _ HO Lt) as (S & T & J). destruct (J Ls) as [_ J']. rewrite E1 in T. rewrite <- T in J'. clear J.
  destruct (a_ld _ _ _ _ _ _ HA) as [Ms He]; [rewrite S; auto|]. rewrite <- T in He, Ms. assert (NL : ~ left (c_nodes s l) t). { intros [K|[K1 K2]]; [lia|]. rewrite K2 in S; [discriminate|lia]. }
  sp; auto. intros p t' Hp. split.
  - destruct (Z.le_gt_cases t' t) as [|Hgt]; auto. exfalso.
    destruct (earliest (c_trace s) t) as (tr2 & q & t1 & a & tr1 & Et & h1 & h2). { exists p, t'. split; [lia|exact Hp]. }
    assert (Te : TE conf old (RElect q t1 a :: tr1)) by (eapply TE_split; rewrite <- Et; apply HC). destruct Te as [[Q [Qq Qv]] _].
    destruct J' as (cf & M & hc & hm & hj).
    assert (X : exists f, In f M /\ In f Q /\ member conf old f). { destruct Qq as [q1 q2]. destruct hc as [->|hc]; [|rewrite hc in q2]; [destruct (majorities_meet_same _ _ _ hm q1) as (f & fc & fm & fq)|destruct (majorities_meet_same _ _ _ hm q2) as (f & fc & fm & fq)]; exists f; sp; auto; unfold member; auto. right. rewrite hc. exact fc. }
    destruct X as (f & fm & fq & fmem). destruct (Qv f fq) as [v Hv]. destruct (hj f fm) as [->|[b [hb hx]]].
    + assert (K : vt (c_trace s) l t1 q) by (exists v; rewrite Et; apply in_or_app; right; right; auto). apply (a_vt _ _ _ _ _ _ HA) in K. lia.
    + destruct (TI_order (c_nodes s) (c_trace s) f l t b t1 q v) with (tr1 := tr1) as [Hbv [K|K]]; auto; try (apply HF).
      * exists (tr2 ++ [RElect q t1 a]). rewrite <- app_assoc. exact Et.
      * destruct Ck as [_ [Cm Cc]]. specialize (Cc l f b v Hbv). assert (Hvn : v <= now).
        { assert (In (RVote f t1 q v) (c_trace s)) by (rewrite Et; apply in_or_app; right; right; auto). apply (x_time _ _ _ _ HF) in H. cbn in H. lia. }
        pose proof (Cm l b v Hbv) as Cm1. destruct (Ct l f v now (proj2 (a_el _ _ _ _ _ _ HA _ He)) fmem Hvn); specialize (Cm l v now Hvn); lia.
  - intros ->. eapply el_unique; [apply HC|apply HC|exact Hp|exact He].
Qed.
End P.
