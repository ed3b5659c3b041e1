From Verif Require Import Base BaseLemmas LogEntry Repl ReplSpec ReplProofs ReplProofs2.

Ltac rs := cbn [set_fly set_stat set_wait set_ro set_tni set_succ set_reader set_catch set_dead set_timers set_sent
  r_next r_fsize r_fly r_st r_wait r_cancel r_ro r_tni r_succ r_reader r_catch r_dead r_regs r_fired r_nwait r_tm1 r_tm2 r_snaps r_calls r_sent].
Ltac rsi H := cbn [set_fly set_stat set_wait set_ro set_tni set_succ set_reader set_catch set_dead set_timers set_sent
  r_next r_fsize r_fly r_st r_wait r_cancel r_ro r_tni r_succ r_reader r_catch r_dead r_regs r_fired r_nwait r_tm1 r_tm2 r_snaps r_calls r_sent] in H.

(** * The window *)
Definition quiet (s : rep) : Prop := r_cancel s = true \/ (r_regs s = [] /\ r_fired s = 0%nat).
Fixpoint chain (i : Z) (l : list (Z * Z * Z)) (j : Z) : Prop :=
  match l with [] => i = j | (a, n, _) :: l' => a = i /\ 0 < n /\ chain (i + n) l' j end.
Definition alone (s : rep) : nat := (r_tm1 s + r_tm2 s + length (r_snaps s))%nat.
Definition Stream (s : rep) : Prop := chain (min_flying s) (r_fly s) (r_next s) /\ alone s = 0%nat.
Definition Probe (s : rep) : Prop := (exists k, r_fly s = [(r_next s, 0, k)]) /\ r_fsize s = 0 /\ quiet s /\ alone s = 0%nat.
Definition Calm (s : rep) : Prop := r_fly s = [] /\ r_fsize s = 0 /\ quiet s /\ (alone s <= 1)%nat.
Definition Corr (s : rep) : Prop := forall i n k, In (i, n, k) (r_fly s) -> In (k, i - 1, n) (r_sent s).
Definition Modes (s : rep) : Prop := Stream s \/ Probe s \/ Calm s.
Definition Inv (s : rep) : Prop := Corr s /\ Modes s.

Lemma chain_app : forall l1 l2 i j, chain i (l1 ++ l2) j <-> exists m, chain i l1 m /\ chain m l2 j.
Proof.
  induction l1 as [|[[a n] k] l1 IH]; intros l2 i j; cbn [app chain].
  - split; [intros H; exists i; auto|]. intros (m & -> & H). auto.
  - rewrite IH. split.
    + intros (A & B & m & C & D). exists m. auto.
    + intros (m & (A & B & C) & D). split; auto. split; auto. exists m. auto.
Qed.
Lemma chain_le : forall l i j, chain i l j -> i <= j.
Proof. induction l as [|[[a n] k] l IH]; intros i j H; cbn in H; [lia|]. destruct H as (-> & N & H). apply IH in H. lia. Qed.

(** [upd s s']: only fields the invariant does not look at differ. *)
Definition upd (s s' : rep) : Prop :=
  r_next s' = r_next s /\ r_fsize s' = r_fsize s /\ r_fly s' = r_fly s /\ r_sent s' = r_sent s /\ alone s' = alone s.
Definition still (s s' : rep) : Prop := upd s s' /\ r_cancel s' = r_cancel s /\ r_regs s' = r_regs s /\ r_fired s' = r_fired s.
Lemma upd_refl : forall s, upd s s. Proof. repeat split. Qed.
Lemma still_refl : forall s, still s s. Proof. repeat split. Qed.
Lemma upd_mf : forall s s', upd s s' -> min_flying s' = min_flying s.
Proof. intros s s' (A & B & _). unfold min_flying. congruence. Qed.
Lemma upd_stream : forall s s', upd s s' -> Stream s -> Stream s'.
Proof. intros s s' U (A & B). unfold Stream. rewrite (upd_mf _ _ U). destruct U as (-> & _ & -> & _ & ->). auto. Qed.
Lemma upd_corr : forall s s', upd s s' -> Corr s -> Corr s'.
Proof. intros s s' (_ & _ & A & B & _). unfold Corr. rewrite A, B. auto. Qed.
Lemma still_modes : forall s s', still s s' -> Modes s -> Modes s'.
Proof.
  intros s s' (U & C1 & C2 & C3) [M|[M|M]]; [left; eapply upd_stream; eauto|right; left|right; right];
  destruct U as (A1 & A2 & A3 & _ & A5); unfold Probe, Calm, quiet in *; rewrite ?A1, ?A2, ?A3, ?A5, ?C1, ?C2, ?C3; auto.
Qed.
Lemma still_inv : forall s s', still s s' -> Inv s -> Inv s'.
Proof. intros s s' S (A & B). split; [eapply upd_corr; [apply S|auto]|eapply still_modes; eauto]. Qed.

Lemma notify_still : forall v c b s s' o, notify v c b s = (s', o) ->
  still s s' /\ r_succ s' = r_succ s /\ r_tni s' = r_tni s /\ r_ro s' = r_ro s /\ r_dead s' = r_dead s.
Proof. intros v c b s s' o H. unfold notify, run_catch in H. repeat dmh H; inj H; repeat split; auto. Qed.
Lemma wait_more_upd : forall c v s, upd s (wait_more c v s) /\ r_succ (wait_more c v s) = r_succ s /\ r_tni (wait_more c v s) = r_tni s /\
  r_catch (wait_more c v s) = r_catch s /\ r_dead (wait_more c v s) = r_dead s /\ r_ro (wait_more c v s) = r_ro s.
Proof.
  intros c v s. unfold wait_more, lm_wait.
  destruct (_ && _ && _); [destruct (negb _)|]; match goal with |- context[if ?b then set_stat _ _ else _] => destruct b end; repeat split; auto.
Qed.
Lemma block_alone : forall s, (alone (block s) <= S (alone s))%nat.
Proof. intros s. unfold block, alone. destruct (r_st s); rs; lia. Qed.
Lemma install_spec : forall v s s' o, install v s = (s', o) ->
  r_next s' = r_next s /\ r_fsize s' = r_fsize s /\ r_fly s' = r_fly s /\ r_sent s' = r_sent s /\ (alone s' <= S (alone s))%nat /\
  r_cancel s' = r_cancel s /\ r_regs s' = r_regs s /\ r_fired s' = r_fired s /\ r_succ s' = r_succ s /\ r_tni s' = r_tni s /\ r_catch s' = r_catch s /\ r_dead s' = r_dead s /\ r_ro s' = r_ro s.
Proof.
  intros v s s' o H. unfold install, block in H.
  destruct (v_snap v).
  - inj H. destruct (r_st s); repeat split; auto; unfold alone; rs; lia.
  - destruct (r_reader s); inj H; repeat split; auto; unfold alone; rs; lia.
  - destruct (r_reader s); inj H; repeat split; auto; unfold alone; rs; lia.
  - destruct (r_reader s); inj H; repeat split; auto; unfold alone; rs; lia.
  - destruct (r_reader s); inj H; repeat split; auto; unfold alone; rs; cbn [length]; lia.
Qed.
Lemma install_inv : forall v s s' o, install v s = (s', o) -> r_fly s = [] -> r_fsize s = 0 -> quiet s -> alone s = 0%nat -> Inv s'.
Proof.
  intros v s s' o H F Z Q A. destruct (install_spec _ _ _ _ H) as (_ & B2 & B3 & _ & B5 & B6 & B7 & B8 & _).
  split. { unfold Corr. rewrite B3, F. intros i n k []. }
  right; right. unfold Calm, quiet in *. rewrite B2, B3, B6, B7, B8. repeat split; auto. lia.
Qed.
Lemma reset_spec : forall s, r_fly (reset_next s) = [] /\ r_fsize (reset_next s) = 0 /\ quiet (reset_next s) /\ alone (reset_next s) = alone s /\
  r_next (reset_next s) = min_flying s /\ min_flying (reset_next s) = min_flying s /\ r_sent (reset_next s) = r_sent s.
Proof.
  intros s. unfold reset_next, quiet, min_flying, alone. rs. rewrite Z.sub_0_r. repeat split; auto.
Qed.
Lemma reset_still : forall s, r_succ (reset_next s) = r_succ s /\ r_tni (reset_next s) = r_tni s /\ r_catch (reset_next s) = r_catch s /\ r_dead (reset_next s) = r_dead s /\ r_ro (reset_next s) = r_ro s.
Proof. intros. repeat split. Qed.

Definition nocheck (o : list rout) : Prop := ~ In (OCheck 2) o /\ ~ In (OCheck 3) o.
Lemma nk_app : forall a b, nocheck a -> nocheck b -> nocheck (a ++ b).
Proof. intros a b [A1 A2] [B1 B2]. split; intros H; apply in_app_iff in H; tauto. Qed.
Lemma nk_nil : nocheck []. Proof. split; intros []. Qed.
Lemma nk_chk : forall n b, n <> 2 -> n <> 3 -> nocheck (chk n b).
Proof. intros n [] A B; split; cbn; intuition congruence. Qed.
Lemma nk_one : forall x, (forall n, x <> OCheck n) -> nocheck [x].
Proof. intros x H. split; intros [K|[]]; eapply H; eauto. Qed.
Lemma fill_nk : forall v p r o, fill v p false = (r, o) -> nocheck o.
Proof. intros v p r o H. unfold fill in H. destruct (_ && _); cbn [negb] in H; injection H as _ <-; [apply nk_chk; lia|apply nk_nil]. Qed.
Lemma install_nk : forall v s s' o, install v s = (s', o) -> nocheck o.
Proof.
  intros v s s' o H. unfold install in H. destruct (v_snap v); [inj H; apply nk_nil|..];
  (destruct (r_reader s); [inj H; apply nk_nil|]); cbn in H; inj H; first [apply nk_nil|apply nk_one; discriminate].
Qed.
Lemma notify_nk : forall v c b s s' o, notify v c b s = (s', o) -> nocheck o.
Proof. intros v c b s s' o H. unfold notify, run_catch in H. repeat dmh H; inj H; first [apply nk_nil|apply nk_one; discriminate]. Qed.

(** What both ways of sending keep. *)
Record Kept (s s' : rep) : Prop := mkKept {
  k_mf : min_flying s' = min_flying s; k_succ : r_succ s' = r_succ s; k_tni : r_tni s' = r_tni s; k_catch : r_catch s' = r_catch s; k_dead : r_dead s' = r_dead s }.

Lemma send_empty_inv : forall v s s' o, send_empty v s = (s', o) -> r_fly s = [] -> r_fsize s = 0 -> quiet s -> alone s = 0%nat ->
  Inv s' /\ Kept s s' /\ nocheck o /\ (forall k p t es cm, In (OReq k p t es cm) o -> p + 1 = min_flying s').
Proof.
  intros v s s' o H F Z Q A. unfold send_empty in H. destruct (fill v (r_next s - 1) false) as [[[p t]|] o0] eqn:Fl.
  - destruct (fill_prev _ _ _ _ _ Fl) as [-> Fr]. assert (Nk := fill_nk _ _ _ _ Fl). unfold fill in Fl. destruct (_ && _) in Fl; cbn [negb] in Fl; [discriminate|]. injection Fl as _ <-.
    injection H as <- <-. rs. rewrite F, Z. split; [|split; [constructor; try reflexivity; unfold min_flying; rs; lia|]].
    + split.
      * unfold Corr. rs. cbn [app]. intros i n k [E|[]]. injection E as <- <- <-. left. auto.
      * right; left. unfold Probe, alone, quiet in *. rs. cbn [app]. split; [eauto|]. auto.
    + split.
      * cbn [chk Z.eqb app]. apply nk_one. discriminate.
      * intros k p t0 es cm. cbn [chk Z.eqb app]. intros [E|[]]. injection E as <- <- <- <- <-. unfold min_flying. rs. lia.
  - destruct (install v s) as [s1 o1] eqn:E. injection H as <- <-. split; [eapply install_inv; eauto|].
    destruct (install_spec _ _ _ _ E) as (B1 & B2 & B3 & _ & _ & _ & _ & _ & B8 & B9 & B10 & B11 & _). split; [|split].
    + constructor; auto. unfold min_flying. congruence.
    + apply nk_app; [eapply fill_nk; eauto|eapply install_nk; eauto].
    + intros k p t es cm K. exfalso. destruct (install_sent _ _ _ _ E) as [R _].
      assert (X : In (k, p, zlen es) (reqs (o0 ++ o1))) by (apply reqs_in; eauto).
      rewrite reqs_app, R, app_nil_r in X. unfold fill in Fl. destruct (_ && _) in Fl; cbn [negb] in Fl; [|discriminate]. injection Fl as <-. rewrite reqs_chk in X. destruct X.
Qed.

Lemma send_entries_inv : forall c v s s' o, send_entries c v s = (s', o) -> Stream s -> Corr s ->
  Inv s' /\ Kept s s' /\ nocheck o /\ (forall k p t es cm, In (OReq k p t es cm) o -> min_flying s' <= p + 1).
Proof.
  intros c v s s' o H St Co. assert (St' := St). destruct St' as [Ch Al]. unfold send_entries in H.
  assert (Same : Inv s /\ Kept s s /\ nocheck [] /\ (forall k p t es cm, In (OReq k p t es cm) [] -> min_flying s <= p + 1)).
  { split; [split; [auto|left; auto]|]. split; [constructor; auto|]. split; [apply nk_nil|]. intros k p t es cm []. }
  destruct (_ || _ || _). { injection H as <- <-. auto. }
  clear Same. destruct (reset_spec s) as (R1 & R2 & R3 & R4 & R5 & R6 & R7). rewrite Al in R4.
  assert (Inst : forall s0 s1 o0 o1, install v (reset_next s0) = (s1, o1) -> upd s s0 -> r_succ s0 = r_succ s -> r_tni s0 = r_tni s -> r_catch s0 = r_catch s -> r_dead s0 = r_dead s ->
     nocheck o0 -> reqs o0 = [] ->
     Inv s1 /\ Kept s s1 /\ nocheck (o0 ++ o1) /\ (forall k p t es cm, In (OReq k p t es cm) (o0 ++ o1) -> min_flying s1 <= p + 1)).
  { intros s0 s1 o0 o1 E U X1 X2 X3 X4 N Rq. destruct (reset_spec s0) as (T1 & T2 & T3 & T4 & T5 & T6 & T7).
    assert (A0 : alone s0 = 0%nat) by (destruct U as (_ & _ & _ & _ & ->); auto). rewrite A0 in T4. split; [eapply install_inv; eauto|].
    destruct (install_spec _ _ _ _ E) as (B1 & B2 & B3 & _ & _ & _ & _ & _ & B8 & B9 & B10 & B11 & _). split; [|split].
    - constructor; rewrite ?B8, ?B9, ?B10, ?B11; rs; auto. rewrite <- (upd_mf _ _ U), <- T6. unfold min_flying. congruence.
    - apply nk_app; auto. eapply install_nk; eauto.
    - intros k p t es cm K. exfalso. destruct (install_sent _ _ _ _ E) as [R _].
      assert (X : In (k, p, zlen es) (reqs (o0 ++ o1))) by (apply reqs_in; eauto). rewrite reqs_app, R, Rq in X. destruct X. }
  destruct (fill v (r_next s - 1) false) as [[[p t]|] o0] eqn:Fl; assert (Nk := fill_nk _ _ _ _ Fl).
  2:{ destruct (install v (reset_next s)) as [s1 o1] eqn:E. injection H as <- <-. apply (Inst s); auto using upd_refl.
      unfold fill in Fl. destruct (_ && _) in Fl; cbn [negb] in Fl; [|discriminate]. injection Fl as <-. apply reqs_chk. }
  destruct (fill_prev _ _ _ _ _ Fl) as [-> Fr]. destruct (prepare _ _ _ _ _ _) as [[es ro] rc]. destruct es as [|e es].
  - assert (Dflt : forall s1, upd s s1 -> r_succ s1 = r_succ s -> r_tni s1 = r_tni s -> r_catch s1 = r_catch s -> r_dead s1 = r_dead s ->
      Inv s1 /\ Kept s s1 /\ nocheck o0 /\ (forall k p t es cm, In (OReq k p t es cm) o0 -> min_flying s1 <= p + 1)).
    { intros s1 U X1 X2 X3 X4. split; [split; [eapply upd_corr; eauto|left; eapply upd_stream; eauto]|]. split; [constructor; auto; apply upd_mf; auto|]. split; auto.
      intros k p t0 es cm K. exfalso. assert (X : In (k, p, zlen es) (reqs o0)) by (apply reqs_in; eauto). rewrite Fr in X. destruct X. }
    rsi H. destruct (_ <? v_first v).
    + destruct (install v (reset_next (set_ro ro s))) as [s1 o1] eqn:E. injection H as <- <-. apply (Inst (set_ro ro s)); auto. repeat split.
    + destruct (rc =? R_EREADONLY).
      * destruct (_ =? 0); injection H as <- <-; apply Dflt; auto; repeat split.
      * injection H as <- <-. destruct (wait_more_upd c v (set_ro ro s)) as (U & W1 & W2 & W3 & W4 & _). apply Dflt; rewrite ?W1, ?W2, ?W3, ?W4; auto.
  - unfold fill in Fl. destruct (_ && _) in Fl; cbn [negb] in Fl; [discriminate|]. injection Fl as _ <-.
    set (n := zlen (e :: es)) in H.
    match type of H with (wait_more c v ?x, _) = _ => set (sx := x) in H end.
    destruct (wait_more_upd c v sx) as (U & W1 & W2 & W3 & W4 & _). injection H as <- <-.
    assert (Hn : 0 < n) by (unfold n, zlen; cbn [length]; lia).
    assert (Mf : min_flying sx = min_flying s) by (unfold min_flying, sx; rs; lia).
    split; [|split; [|split]].
    + split; [eapply upd_corr; [exact U|]|left; eapply upd_stream; [exact U|]].
      * unfold Corr, sx. rs. intros i m k K. apply in_app_iff in K. destruct K as [K|[K|[]]]; [right; apply Co; auto|]. injection K as <- <- <-. left. auto.
      * split; [|exact Al]. rewrite Mf. unfold sx. rs. apply chain_app. exists (r_next s). split; auto. cbn [chain]. auto.
    + constructor; rewrite ?W1, ?W2, ?W3, ?W4; auto. rewrite (upd_mf _ _ U). auto.
    + cbn [app]. apply nk_one. discriminate.
    + cbn [app]. intros k p t0 es0 cm [K|[]]. injection K as <- <- _ _ _. rewrite (upd_mf _ _ U), Mf. apply chain_le in Ch. lia.
Qed.
