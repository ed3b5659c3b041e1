(** C62, lemmas: what holds in every history. *)
From Verif Require Import Base Elect ElectSpec ElectProofs ElectProofs2 ElectProofs3.
Implicit Type P : en -> list eo -> Prop.

Definition kh P (m : M) : Prop := forall s h, P s h -> P (fst (m s)) (h ++ snd (m s)).
Lemma kh_seq P a b : kh P a -> kh P b -> kh P (a ;; b).
Proof. intros A B s h H. unfold seq. specialize (A s h H). destruct (a s) as [s1 o1]. specialize (B s1 _ A). destruct (b s1) as [s2 o2]. cbn [fst snd] in *. rewrite app_assoc. exact B. Qed.
Lemma kh_ret P : kh P ret. Proof. intros s h H. unfold ret. cbn. rewrite app_nil_r. exact H. Qed.
Lemma kh_look P f : (forall z, kh P (f z)) -> kh P (look f). Proof. intros A s h H. exact (A s s h H). Qed.

(** * Destroyed timers do not run *)
Definition dead_off (d : bool) (s : en) (h : list eo) : Prop := (d = true -> t_dead (e_tm s) = true) /\ (t_dead (e_tm s) = true -> t_el (e_tm s) = false /\ t_vt (e_tm s) = false /\ t_sd (e_tm s) = false).
Lemma kd_upd d f : (forall s, dead_off d s [] -> dead_off d (f s) []) -> kh (dead_off d) (upd f). Proof. intros A s h H. exact (A s H). Qed.
Lemma kd_out d o : kh (dead_off d) (out o). Proof. intros s h H. exact H. Qed.
Lemma kd_tm d f : (forall t : tms, (t_dead t = true -> t_el t = false /\ t_vt t = false /\ t_sd t = false) -> (t_dead t = true -> t_dead (f t) = true) /\ (t_dead (f t) = true -> t_el (f t) = false /\ t_vt (f t) = false /\ t_sd (f t) = false)) -> kh (dead_off d) (upd (s_tm f)).
Proof. intros A. apply kd_upd. intros s [H1 H2]. destruct (A (e_tm s) H2) as [X Y]. split; [intros D; apply X; auto|exact Y]. Qed.
Ltac kd := repeat first
  [ assumption
  | match goal with
    | |- kh _ ret => apply kh_ret
    | |- kh _ (out _) => apply kd_out
    | |- kh _ (seq _ _) => apply kh_seq
    | |- kh _ (look _) => apply kh_look; intros ?; cbn beta
    | |- kh _ (upd (s_tm _)) => apply kd_tm; let t := fresh in let H := fresh in intros t H; unfold start_el, start_vt, start_sd, stop_el, stop_vt, stop_sd; destruct t as [? ? ? []]; cbn in *; solve [intuition discriminate]
    | |- kh _ (upd _) => apply kd_upd; let s := fresh in let H := fresh in intros s H; exact H
    | |- kh _ (if ?b then _ else _) => destruct b
    | |- kh _ (match ?x with _ => _ end) => destruct x
    end ].
Lemma kd_sd d t ok : kh (dead_off d) (step_down t ok). Proof. unfold step_down, no_leader. kd. Qed.
Lemma kd_el d osd : kh (dead_off d) (elect_self osd). Proof. unfold elect_self, no_leader. kd. Qed.
Lemma kd_bl d : kh (dead_off d) become_leader. Proof. unfold become_leader, set_state. kd. Qed.
Lemma kd_grants d ps : kh (dead_off d) (grants ps). Proof. induction ps as [|[p l] ps IH]; cbn [grants]; kd. Qed.
Lemma estep_dead d sdv s e s' h k : dead_off d s k -> estep sdv s e = Some (s', h) -> dead_off d s' (k ++ h).
Proof.
  intros D E.
  assert (KG : forall m : M, kh (dead_off d) m -> Some (m s) = Some (s', h) -> dead_off d s' (k ++ h)) by (intros m K X; injection X as X; specialize (K s k D); rewrite X in K; exact K).
  pose proof (kd_sd d) as SD. pose proof (kd_el d) as EL. pose proof (kd_bl d) as BL. pose proof (kd_grants d) as GR.
  destruct e; cbn [estep] in E; try (match type of E with Some (?m s) = _ => apply (KG m); [|exact E] end).
  all: try solve [unfold election_timeout, vote_timeout, pre_vote, no_leader, check_step_down, set_leader, on_error, shutdown, set_state;
    repeat first [apply SD | apply EL | apply BL | apply GR | progress kd]].
  - destruct (nth_out k0 (e_win s)) as [[w r]|]; [|discriminate E]. injection E as E.
    assert (K : kh (dead_off d) (resume w wait logok ok)) by (unfold resume, grant_self_v, grant_self_p; repeat first [apply SD | apply EL | apply BL | progress kd]).
    specialize (K (s_win r s) k D). rewrite E in K. exact K.
  - destruct (existsb _ _); [|discriminate E]. match type of E with Some (?m s) = _ => apply (KG m); [|exact E] end. unfold vote_response; repeat first [apply SD | apply BL | progress kd].
  - destruct (existsb _ _); [|discriminate E]. match type of E with Some (?m s) = _ => apply (KG m); [|exact E] end. unfold pre_response; repeat first [apply SD | apply EL | apply GR | progress kd].
  - destruct (existsb _ _); [|discriminate E]. match type of E with Some (?m s) = _ => apply (KG m); [|exact E] end. unfold grant_self_v; repeat first [apply BL | progress kd].
  - destruct (existsb _ _); [|discriminate E]. match type of E with Some (?m s) = _ => apply (KG m); [|exact E] end. unfold grant_self_p; repeat first [apply EL | progress kd].
  - destruct (e_role s); first [apply (KG ret); [apply kh_ret|exact E] | match type of E with Some (?m s) = _ => apply (KG m); [|exact E] end; unfold set_state; kd].
  - destruct (e_role s); first [apply (KG ret); [apply kh_ret|exact E] | match type of E with Some (?m s) = _ => apply (KG m); [|exact E] end; unfold set_state; kd].
  - destruct (leading _); [|discriminate E]. match type of E with Some (?m s) = _ => apply (KG m); [|exact E] end. kd.
  - destruct (e_met s); [|discriminate E]. match type of E with Some (?m s) = _ => apply (KG m); [|exact E] end. kd.
  - destruct c as [|p c]; [|destruct (active _)]; first [apply (KG ret); [apply kh_ret|exact E] | match type of E with Some (?m s) = _ => apply (KG m); [|exact E] end; repeat first [apply SD | progress kd]].
  - destruct (e_role s); first [apply (KG ret); [apply kh_ret|exact E] | match type of E with Some (?m s) = _ => apply (KG m); [|exact E] end; kd].
  - destruct (e_q s); try discriminate E. match type of E with Some (?m s) = _ => apply (KG m); [|exact E] end. unfold set_state. kd.
Qed.

Lemma erun_dead d sdv es : forall s s' h k, dead_off d s k -> erun sdv s es = Some (s', h) -> dead_off d s' (k ++ h).
Proof.
  induction es as [|e es IH]; intros s s' h k D E; cbn [erun] in E; [injection E as <- <-; rewrite app_nil_r; exact D|].
  destruct (estep sdv s e) as [[s1 k1]|] eqn:E1; [|discriminate E]. destruct (erun sdv s1 es) as [[s2 k2]|] eqn:E2; [|discriminate E]. injection E as <- <-.
  rewrite app_assoc. apply (IH s1 s2 k2 (k ++ k1)); [apply (estep_dead _ _ _ _ _ _ _ D E1)|exact E2].
Qed.
