(** C62, lemmas. *)
From Verif Require Import Base Elect ElectSpec.

Definition moves_to r t h r' t' : Prop := moves r t false h /\ forall k, moves r' t' false k -> moves r t false (h ++ k).
Lemma mt_nil r t : moves_to r t [] r t. Proof. split; [reflexivity|auto]. Qed.
Lemma mt_app r t h r1 t1 k r2 t2 : moves_to r t h r1 t1 -> moves_to r1 t1 k r2 t2 -> moves_to r t (h ++ k) r2 t2.
Proof. intros [_ A] [B C]. split; [auto|]. intros k' M. rewrite <- app_assoc. auto. Qed.

(** * Closed forms *)
Definition sd_tm (r : role) (t : tms) : tms := match r with RCandidate => stop_vt t | RFollower => t | _ => stop_sd t end.
Definition sd_state (t : Z) (s : en) : en :=
  mkE RFollower (Z.max (e_term s) t) (if e_term s <? t then None else e_voted s) None (e_conf s) (e_old s) (start_el (sd_tm (e_role s) (e_tm s)))
      (match e_role s with RCandidate => x_reset (e_v s) | _ => e_v s end) (match e_role s with RFollower => x_reset (e_p s) | _ => e_p s end)
      (e_trig s) (e_met s) (e_win s) (e_conts s) (e_q s).
Definition plain (o : eo) : bool := match o with OState _ _ | OElected _ | OShut | ODone _ => false | _ => true end.
Lemma plain_mt r t h : forallb plain h = true -> moves_to r t h r t.
Proof.
  intros F. assert (A : forall k, moves r t false k -> moves r t false (h ++ k)).
  { induction h as [|o h IH]; intros k M; [exact M|]. cbn in F. apply andb_prop in F. destruct F as [F1 F2]. destruct o; try discriminate F1; cbn; apply IH; auto. }
  split; [|exact A]. specialize (A [] eq_refl). rewrite app_nil_r in A. exact A.
Qed.
Lemma state_mt r t r' t' : edge r t r' t' -> r' <> RLeader -> moves_to r t [OState r' t'] r' t'.
Proof.
  intros E L. assert (F : (match r, r' with RCandidate, RLeader => true | _, _ => false end) = false) by (destruct r, r'; congruence).
  split; [cbn; rewrite F; auto|]. intros k M. cbn. rewrite F. auto.
Qed.
Definition quiet_out (h : list eo) : Prop := ran h = [] /\ shuts h = 0%nat.
Lemma quiet_app a b : quiet_out a -> quiet_out b -> quiet_out (a ++ b).
Proof. intros [A1 A2] [B1 B2]. unfold quiet_out, ran, shuts in *. rewrite flat_map_app, filter_app, app_length, A1, B1. split; [reflexivity|lia]. Qed.
Lemma quiet_plain h : forallb plain h = true -> quiet_out h.
Proof. induction h as [|o h IH]; intros F; [split; reflexivity|]. cbn in F. apply andb_prop in F. destruct F as [F1 F2]. destruct (IH F2) as [I1 I2]. destruct o; try discriminate F1; split; cbn; auto. Qed.
Definition fine (s : en) (h : list eo) (s' : en) : Prop := moves_to (e_role s) (e_term s) h (e_role s') (e_term s') /\ quiet_out h.
Lemma fine_nil s s' : e_role s' = e_role s -> e_term s' = e_term s -> fine s [] s'.
Proof. unfold fine. intros -> ->. split; [apply mt_nil|split; reflexivity]. Qed.
Lemma fine_app s h s1 k s2 : fine s h s1 -> fine s1 k s2 -> fine s (h ++ k) s2.
Proof. intros [A1 A2] [B1 B2]. split; [apply (mt_app _ _ _ (e_role s1) (e_term s1)); auto|apply quiet_app; auto]. Qed.
Lemma fine_plain s h s' : forallb plain h = true -> e_role s' = e_role s -> e_term s' = e_term s -> fine s h s'.
Proof. unfold fine. intros F -> ->. split; [apply plain_mt; auto|apply quiet_plain; auto]. Qed.

Lemma sd_form s t ok : active (e_role s) = true -> exists h, step_down t ok s = (sd_state t s, h) /\ fine s h (sd_state t s).
Proof.
  intros A. assert (X : forall a b, forallb plain a = true -> forallb plain b = true -> fine s (a ++ [OState RFollower (Z.max (e_term s) t)] ++ b) (sd_state t s)).
  { intros a b Fa Fb. split.
    - apply (mt_app _ _ _ (e_role s) (e_term s)); [apply plain_mt; exact Fa|]. apply (mt_app _ _ _ RFollower (Z.max (e_term s) t)); [|apply plain_mt; exact Fb].
      apply state_mt; [|discriminate]. destruct (e_role s); try discriminate A; cbn; lia.
    - apply quiet_app; [apply quiet_plain; auto|]. apply quiet_app; [split; reflexivity|apply quiet_plain; auto]. }
  destruct s as [r tm0 vo ld c o tm v p tr me w cs q]. cbn [e_role e_term] in A, X.
  assert (MX : (if tm0 <? t then t else tm0) = Z.max tm0 t) by (destruct (Z.ltb_spec tm0 t); lia).
  unfold sd_state, step_down, no_leader, seq, look, upd, out, ret in *. cbn [e_role e_term e_voted e_conf e_old e_tm e_v e_p e_trig e_met e_win e_conts e_q e_leader] in *.
  destruct r; try discriminate A; destruct ld as [l|]; cbn [leading active negb s_role s_leader s_tm s_v s_p e_role e_term e_voted e_conf e_old e_tm e_v e_p e_trig e_met e_win e_conts e_q e_leader];
  destruct (Z.ltb_spec tm0 t); cbn [s_term s_role s_leader s_tm s_v s_p e_role e_term e_voted e_conf e_old e_tm e_v e_p e_trig e_met e_win e_conts e_q e_leader];
    rewrite ?app_nil_r; cbn [app]; rewrite <- MX in *; eexists; (split; [reflexivity|]);
    match goal with |- fine _ ?h _ => match h with
      | [?a; OState ?x ?y] => apply (X [a] []); reflexivity | [OState ?x ?y] => apply (X [] []); reflexivity
      | [?a; ?b; OState ?x ?y] => apply (X [a; b] []); reflexivity | [?a; ?b; ?c; OState ?x ?y] => apply (X [a; b; c] []); reflexivity
      | [?a; ?b; ?c; ?d; OState ?x ?y] => apply (X [a; b; c; d] []); reflexivity end end.
Qed.
