(** C62, lemmas: every event keeps the invariant. *)
From Verif Require Import Base Elect ElectSpec ElectProofs ElectProofs2.

Definition same_ex (s s' : en) : Prop := e_conts s' = e_conts s /\ e_q s' = e_q s.
Definition one (q : bool) (s : en) : Prop := q = true -> (length (e_win s) <= 1)%nat.
Definition none (q : bool) (s : en) : Prop := q = true -> e_win s = [].
Definition keeps (q : bool) (s : en) (p : en * list eo) : Prop :=
  EI q (fst p) /\ elok (fst p) /\ one q (fst p) /\ fine s (snd p) (fst p) /\ same_ex s (fst p).
Lemma none_one q s : none q s -> one q s. Proof. intros N E. rewrite (N E). cbn. lia. Qed.

Lemma K_bind q s a b s1 h1 : a s = (s1, h1) -> fine s h1 s1 -> same_ex s s1 -> keeps q s1 (b s1) -> keeps q s ((a ;; b) s).
Proof.
  intros A F [S1 S2] (K1 & K2 & K3 & K4 & [K5 K6]). unfold seq. rewrite A. destruct (b s1) as [s2 h2]. cbn [fst snd] in *.
  unfold keeps. cbn [fst snd]. split; [auto|]. split; [auto|]. split; [auto|]. split; [apply (fine_app _ _ s1); auto|]. split; congruence.
Qed.
Lemma K_upd q s f b : e_role (f s) = e_role s -> e_term (f s) = e_term s -> same_ex s (f s) -> keeps q (f s) (b (f s)) -> keeps q s ((upd f ;; b) s).
Proof. intros R T S K. apply (K_bind _ _ _ _ (f s) []); [reflexivity|apply fine_nil; auto|exact S|exact K]. Qed.
Lemma K_out q s h b : forallb plain h = true -> keeps q s (b s) -> keeps q s ((out h ;; b) s).
Proof. intros P K. apply (K_bind _ _ _ _ s h); [reflexivity|apply fine_plain; auto|split; reflexivity|exact K]. Qed.
Lemma K_skip q s b : keeps q s (b s) -> keeps q s ((ret ;; b) s).
Proof. intros K. apply (K_bind _ _ _ _ s []); [reflexivity|apply fine_nil; auto|split; reflexivity|exact K]. Qed.
Lemma K_ret q s : EI q s -> elok s -> one q s -> keeps q s (ret s).
Proof. intros A B C. unfold keeps, ret. cbn [fst snd]. split; [auto|]. split; [auto|]. split; [auto|]. split; [apply fine_nil; auto|split; reflexivity]. Qed.
Lemma K_end q s f : e_role (f s) = e_role s -> e_term (f s) = e_term s -> same_ex s (f s) -> EI q (f s) -> elok (f s) -> one q (f s) -> keeps q s (upd f s).
Proof. intros R T S A B C. unfold keeps, upd. cbn [fst snd]. split; [auto|]. split; [auto|]. split; [auto|]. split; [apply fine_nil; auto|exact S]. Qed.
Lemma K_look q s f : keeps q s (f s s) -> keeps q s (look f s). Proof. exact (fun H => H). Qed.

Lemma EI_same q s s' : e_role s' = e_role s -> e_term s' = e_term s -> e_tm s' = e_tm s -> e_v s' = e_v s -> e_p s' = e_p s -> e_win s' = e_win s ->
  e_conf s' = e_conf s -> e_old s' = e_old s -> same_ex s s' -> EI q s -> EI q s'.
Proof.
  intros R T M V P W C O [S1 S2] [A1 A2 A3 A4 A5 A6 A7 A8 A9 A10 A11]. constructor; rewrite ?R, ?T, ?M, ?V, ?P, ?W, ?C, ?O, ?S1, ?S2; auto.
  - eapply Forall_impl; [|exact A6]. intros w. unfold w_ok. rewrite R, T, V. auto.
  - intros E. specialize (A8 E). eapply Forall_impl; [|exact A8]. intros w. unfold w_same. destruct w; rewrite ?R, ?T; auto.
Qed.
Lemma EI_conf q s c o : na q c o -> EI q s -> EI q (s_conf c o s).
Proof. intros N [A1 A2 A3 A4 A5 A6 A7 A8 (A9 & A10 & A11) A12 A13]. constructor; cbn; auto. Qed.
Lemma EI_v q s f : EI q s -> old_vers (f (e_v s)) -> na q (x_conf (f (e_v s))) (x_old (f (e_v s))) ->
  (e_role s <> RCandidate -> fresh (f (e_v s)) \/ (q = false /\ only_self (f (e_v s)) /\ leading (e_role s) = false)) ->
  (forall t, In (WElect t) (e_win s) -> t <> e_term s) -> EI q (s_v f s).
Proof.
  intros [A1 A2 A3 A4 A5 A6 A7 A8 (A9 & A10 & A11) A12 A13] O N V W. constructor; cbn [s_v e_role e_term e_voted e_conf e_old e_tm e_v e_p e_trig e_met e_win e_conts e_q e_leader]; auto.
  apply Forall_forall. intros w Hw. rewrite Forall_forall in A6. destruct (A6 w Hw) as [H H2]. split; [exact H|]. destruct w; auto. cbn. intros E. exfalso. apply (W t Hw E).
Qed.
Lemma EI_p q s f : EI q s -> old_vers (f (e_p s)) -> na q (x_conf (f (e_p s))) (x_old (f (e_p s))) -> (busy (e_role s) = true -> fresh (f (e_p s))) -> EI q (s_p f s).
Proof. intros [A1 A2 A3 A4 A5 A6 A7 A8 (A9 & A10 & A11) A12 A13] O N V. constructor; cbn [s_p e_role e_term e_voted e_conf e_old e_tm e_v e_p e_trig e_met e_win e_conts e_q e_leader]; auto. Qed.
Lemma EI_win q s w : EI q s -> none q s -> w_ok s w -> welect w = [] -> (q = true -> w_same s w) -> EI q (s_win (e_win s ++ [w]) s).
Proof.
  intros [A1 A2 A3 A4 A5 A6 A7 A8 (A9 & A10 & A11) A12 A13] N W E S. constructor; cbn [s_win e_role e_term e_voted e_conf e_old e_tm e_v e_p e_trig e_met e_win e_conts e_q e_leader]; auto.
  - apply Forall_app. split; [exact A6|constructor; [exact W|constructor]].
  - rewrite flat_map_app. cbn. rewrite E, !app_nil_r. exact A7.
  - intros Q. rewrite (N Q). constructor; [exact (S Q)|constructor].
Qed.
Lemma one_win q s w : none q s -> one q (s_win (e_win s ++ [w]) s).
Proof. intros N E. cbn. rewrite (N E). cbn. lia. Qed.

(** * The pieces *)
Lemma K_sd q s t ok b : EI q s -> none q s -> (active (e_role s) = true -> keeps q (sd_state t s) (b (sd_state t s))) -> (active (e_role s) = false -> keeps q s (b s)) ->
  keeps q s ((step_down t ok ;; b) s).
Proof.
  intros I N A B. destruct (active (e_role s)) eqn:R.
  - destruct (sd_form s t ok R) as (h & E & F). apply (K_bind _ _ _ _ _ _ E F); [split; reflexivity|auto].
  - apply (K_bind _ _ _ _ s []); [|apply fine_nil; auto|split; reflexivity|auto]. unfold step_down, look. rewrite R. reflexivity.
Qed.
Lemma sd_keep q s t : EI q s -> none q s -> active (e_role s) = true -> EI q (sd_state t s) /\ elok (sd_state t s) /\ none q (sd_state t s).
Proof. intros I N R. destruct (sd_EI q s t R N I) as [A B]. split; [exact A|]. split; [intros _; left; exact B|exact N]. Qed.
Lemma seq_ret_r (a : M) s : (a ;; ret) s = a s.
Proof. unfold seq, ret. destruct (a s) as [s1 o1]. rewrite app_nil_r. reflexivity. Qed.
Lemma K_sd1 q s t ok : EI q s -> elok s -> none q s -> keeps q s (step_down t ok s).
Proof.
  intros I L N. rewrite <- seq_ret_r. apply K_sd; auto.
  - intros R. destruct (sd_keep q s t I N R) as (A & B & C). apply K_ret; auto using none_one.
  - intros _. apply K_ret; auto using none_one.
Qed.
Lemma K_el q s osd : (e_role s = RFollower \/ e_role s = RCandidate) -> EI q s -> elok s -> none q s -> keeps q s (elect_self osd s).
Proof.
  intros R I L N. destruct (el_form s osd R) as [E|(h & E & F)]; rewrite E.
  - apply K_ret; auto using none_one.
  - unfold keeps. cbn [fst snd]. split; [apply el_EI; auto|]. split; [intros E2; discriminate E2|]. split; [intros Q; cbn; rewrite (N Q); cbn; lia|]. split; [exact F|split; reflexivity].
Qed.
Lemma K_bl q s : e_role s = RCandidate -> (forall t, In (WElect t) (e_win s) -> t <> e_term s) -> EI q s -> none q s -> keeps q s (become_leader s).
Proof.
  intros R W I N. destruct (bl_form s R) as (h & E & F). rewrite E. unfold keeps. cbn [fst snd]. split; [apply bl_EI; auto|].
  split; [intros E2; discriminate E2|]. split; [apply none_one; exact N|]. split; [exact F|split; reflexivity].
Qed.
Lemma K_pre q s trig inst : e_role s = RFollower -> EI q s -> elok s -> none q s -> keeps q s (pre_vote trig inst s).
Proof.
  intros R I L N. unfold pre_vote. apply K_look. destruct inst; [apply K_ret; auto using none_one|]. destruct (negb _); [apply K_ret; auto using none_one|].
  apply K_end; try reflexivity; [split; reflexivity| |exact L|apply one_win; auto]. apply EI_win; auto.
  - split; [cbn; lia|]. cbn. rewrite R. auto.
  - cbn. auto.
Qed.
Lemma K_nol q s b : e_role s = RFollower -> EI q s -> elok s -> none q s ->
  (forall s', s' = s_leader None s -> EI q s' -> elok s' -> none q s' -> keeps q s' (b s')) -> keeps q s ((no_leader ;; b) s).
Proof.
  intros R I L N B.
  assert (K : keeps q (s_leader None s) (b (s_leader None s))).
  { apply B; auto; [apply (EI_same q s); auto; split; reflexivity|]. intros E. destruct (L E) as [?|(? & ? & ? & ?)]; [left; auto|right; cbn; auto]. }
  apply (K_bind _ _ _ _ (s_leader None s) (match e_leader s with Some l => [OStopF l] | None => [] end)); [|apply fine_plain; auto; destruct (e_leader s); auto|split; reflexivity|exact K].
  unfold no_leader, look, seq, upd, out, ret. destruct (e_leader s); [rewrite R|]; reflexivity.
Qed.

(** versions *)
Lemma ov_grant p x : old_vers x -> old_vers (x_grant p x). Proof. exact (fun H => H). Qed.
Lemma ov_send x : old_vers x -> old_vers (x_send x). Proof. intros [A B]. split; [constructor; [cbn; lia|exact A]|exact B]. Qed.
Lemma ov_timer x : old_vers x -> old_vers (x_timer x). Proof. intros [A B]. split; [exact A|constructor; [cbn; lia|exact B]]. Qed.
Lemma ov_pop x : old_vers x -> old_vers (pop_held x). Proof. intros H. unfold pop_held. destruct (x_dis x); exact H. Qed.
Lemma live_sent x v : existsb (Z.eqb v) (x_sent x) = true -> v = x_ver x -> fresh x -> False.
Proof. intros E -> [F _]. apply F. apply existsb_exists in E. destruct E as (y & A & B). apply Z.eqb_eq in B. subst. exact A. Qed.
Lemma live_arm x v : existsb (Z.eqb v) (x_arm x) = true -> v = x_ver x -> fresh x -> False.
Proof. intros E -> [_ F]. apply F. apply existsb_exists in E. destruct E as (y & A & B). apply Z.eqb_eq in B. subst. exact A. Qed.
Lemma live_win q s : EI q s -> ~ fresh (e_v s) -> forall t, In (WElect t) (e_win s) -> t <> e_term s.
Proof. intros I F t H E. pose proof (i_win q s I) as W. rewrite Forall_forall in W. destruct (W _ H) as [_ W2]. destruct (W2 E) as (_ & X & _). auto. Qed.
Lemma only_grant x : only_self x -> only_self (x_grant 0 x).
Proof. unfold only_self, x_grant. cbn. intros H. destruct (memb 0 (x_got x)); [exact H|constructor; auto]. Qed.

(** grant_self, when the ballot is being collected *)
Lemma K_gv q s wait : EI q s -> elok s -> none q s -> (forall t, In (WElect t) (e_win s) -> t <> e_term s) ->
  (e_role s = RCandidate \/ (q = false /\ only_self (e_v s) /\ leading (e_role s) = false)) -> keeps q s (grant_self_v wait s).
Proof.
  intros I L N W V. assert (NA : na q (x_conf (e_v s)) (x_old (e_v s))) by apply (i_na q s I). unfold grant_self_v. destruct wait.
  - apply K_end; try reflexivity; [split; reflexivity| |exact L|apply none_one; exact N]. apply EI_v; auto; [apply ov_timer; apply (i_vv q s I)|]. intros R. destruct V as [V|V]; [contradiction|auto].
  - assert (I2 : EI q (s_v (x_grant 0) s)).
    { apply EI_v; auto; [apply ov_grant; apply (i_vv q s I)|]. intros R. destruct V as [V|(V1 & V2 & V3)]; [contradiction|right; split; [auto|split; [apply only_grant; auto|auto]]]. }
    apply K_upd; try reflexivity; [split; reflexivity|]. apply K_look. cbn beta. destruct (x_wins (e_v (s_v (x_grant 0) s))) eqn:E.
    + destruct V as [V|(V1 & V2 & V3)]; [apply K_bl; auto|]. exfalso. cbn [s_v e_v] in E. rewrite (self_not_wins q _ NA V1 V2) in E. discriminate E.
    + apply K_ret; auto using none_one.
Qed.
Lemma K_gp q s wait : EI q s -> elok s -> none q s -> busy (e_role s) = false -> (e_role s = RFollower \/ (q = false /\ only_self (e_p s))) -> keeps q s (grant_self_p wait s).
Proof.
  intros I L N R V. assert (NA : na q (x_conf (e_p s)) (x_old (e_p s))) by apply (i_na q s I). unfold grant_self_p. destruct wait.
  - apply K_end; try reflexivity; [split; reflexivity| |exact L|apply none_one; exact N]. apply EI_p; auto; [apply ov_timer; apply (i_pv q s I)|]. rewrite R. discriminate.
  - assert (I2 : EI q (s_p (x_grant 0) s)) by (apply EI_p; auto; [apply ov_grant; apply (i_pv q s I)|rewrite R; discriminate]).
    apply K_upd; try reflexivity; [split; reflexivity|]. apply K_look. cbn beta. destruct (x_wins (e_p (s_p (x_grant 0) s))) eqn:E.
    + destruct V as [V|[V1 V2]]; [apply K_el; auto|]. exfalso. cbn [s_p e_p] in E. rewrite (self_not_wins q _ NA V1 V2) in E. discriminate E.
    + apply K_ret; auto using none_one.
Qed.

(** * A function has the lock again *)
Lemma nth_out_split {A} k (l : list A) x r : nth_out k l = Some (x, r) -> exists a b, l = a ++ x :: b /\ r = a ++ b.
Proof.
  revert k r. induction l as [|y l IH]; intros k r E; [destruct k; discriminate E|]. destruct k as [|k]; cbn in E.
  - injection E as <- <-. exists [], l. auto.
  - destruct (nth_out k l) as [[z r']|] eqn:E2; [|discriminate E]. injection E as -> <-. destruct (IH _ _ E2) as (a & b & -> & ->). exists (y :: a), b. auto.
Qed.
Lemma EI_out q s k w r : EI q s -> one q s -> nth_out k (e_win s) = Some (w, r) ->
  EI q (s_win r s) /\ none q (s_win r s) /\ w_ok s w /\ (q = true -> w_same s w) /\ (forall t, In t (welect w) -> ~ In (WElect t) r).
Proof.
  intros [A1 A2 A3 A4 A5 A6 A7 A8 A9 A10 A11] O E. destruct (nth_out_split _ _ _ _ E) as (a & b & W & ->). rewrite W in *.
  assert (F : forall P : win -> Prop, Forall P (a ++ w :: b) -> P w /\ Forall P (a ++ b)).
  { intros P H. apply Forall_app in H. destruct H as [H1 H2]. inversion H2; subst. split; [auto|apply Forall_app; auto]. }
  rewrite flat_map_app in A7. cbn [flat_map] in A7.
  split; [|split; [|split; [|split]]].
  - constructor; cbn [s_win e_role e_term e_voted e_conf e_old e_tm e_v e_p e_trig e_met e_win e_conts e_q e_leader]; auto.
    + apply (F _ A6).
    + rewrite flat_map_app. destruct (welect w) as [|t [|]] eqn:E2; cbn in A7; [exact A7| |destruct w; discriminate E2]. apply NoDup_remove_1 in A7. exact A7.
    + intros Q. apply (F _ (A8 Q)).
  - intros Q. cbn. specialize (O Q). rewrite W in O. rewrite app_length in O. cbn in O. destruct a, b; cbn in O; try lia. reflexivity.
  - apply (F _ A6).
  - intros Q. apply (F _ (A8 Q)).
  - intros t Ht H. destruct w as [t0 b0|t0|t0 c0 r0]; cbn in Ht; [contradiction| |contradiction]. destruct Ht as [<-|[]]. cbn in A7. apply NoDup_remove_2 in A7. apply A7. rewrite <- flat_map_app. apply in_flat_map. exists (WElect t0). split; [exact H|left; reflexivity].
Qed.
