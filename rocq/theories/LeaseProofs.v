(** Lemmas on the timed group model, part 1: votes, terms and elections. *)
From Verif Require Import Base Ballot QuorumSpec BallotProofs Lease LeaseSpec.

Ltac sp := repeat match goal with |- _ /\ _ => split end.

Definition el (tr : list lrec) (p : peer) (t : Z) : Prop := exists a, In (RElect p t a) tr.
Definition vt (tr : list lrec) (q : peer) (t : Z) (c : peer) : Prop := exists a, In (RVote q t c a) tr.

Lemma opeer_eqb_eq : forall a b, opeer_eqb a b = true -> a = b.
Proof. intros [a|] [b|] H; cbn in H; try discriminate; auto. apply Z.eqb_eq in H. congruence. Qed.
Lemma opeer_eqb_refl : forall a, opeer_eqb a a = true.
Proof. intros [a|]; cbn; auto. apply Z.eqb_refl. Qed.
Lemma pair_eqb_eq : forall a b, pair_eqb a b = true -> a = b.
Proof. intros [[x y]|] [[x' y']|] H; cbn in H; try discriminate; auto. apply andb_true_iff in H. destruct H as [H1 H2]. apply opeer_eqb_eq in H1. apply Z.eqb_eq in H2. congruence. Qed.
Lemma msg_eqb_eq : forall a b, msg_eqb a b = true -> a = b.
Proof.
  intros [] [] H; cbn in H; try discriminate; repeat (apply andb_true_iff in H; let K := fresh in destruct H as [H K]);
  repeat match goal with
  | K : (_ =? _) = true |- _ => apply Z.eqb_eq in K
  | K : Bool.eqb _ _ = true |- _ => apply Bool.eqb_prop in K
  | K : opeer_eqb _ _ = true |- _ => apply opeer_eqb_eq in K
  | K : pair_eqb _ _ = true |- _ => apply pair_eqb_eq in K
  end; congruence.
Qed.
Lemma sent_in : forall m s, sent m s = true -> In m (c_net s).
Proof. unfold sent. intros m s H. apply existsb_exists in H. destruct H as [x [H1 H2]]. apply msg_eqb_eq in H2. congruence. Qed.
Lemma opeer_none : forall v, opeer_eqb v None = true -> v = None.
Proof. intros [v|]; cbn; congruence. Qed.

Section P.
Variables (conf : list peer) (old : option (list peer)) (timeout fto drift : peer -> Z -> Z) (clk : peer -> Z -> Z).
Definition mem (p : peer) : Prop := In p conf \/ match old with Some o => In p o | None => False end.

(** ** A node's terms and votes *)
Record NA (tr : list lrec) (net : list lmsg) (p : peer) (n : lnode) : Prop := {
  a_m : 1 <= n_mterm n <= n_term n;
  a_un : n_mterm n < n_term n -> n_voted n = Some p;
  a_sv : n_mterm n = n_term n -> n_voted n = n_mvoted n;
  a_ld : leads (n_st n) = true -> n_mterm n = n_term n /\ el tr p (n_term n);
  a_el : forall t, el tr p t -> 2 <= t <= n_mterm n /\ mem p;
  a_vt : forall t c, vt tr p t c -> t <= n_mterm n /\ (t = n_mterm n -> n_mvoted n = Some c);
  a_mv : forall c, n_mvoted n = Some c -> c <> p -> vt tr p (n_mterm n) c;
  a_gr : n_st n = LCandidate -> forall q, In q (n_grants n) -> vt tr q (n_term n) p;
  a_gs : forall v, n_gself n = Some v -> v <= n_ver n /\ (v = n_ver n -> n_st n = LCandidate -> n_mterm n = n_term n);
  a_cd : n_st n = LCandidate -> n_voted n = Some p /\ 2 <= n_term n /\ mem p;
  a_rq : forall t v d, In (MReq p t v d) net -> v <= n_ver n /\ (v = n_ver n -> n_st n = LCandidate -> n_mterm n = n_term n);
  a_ldr : forall x, n_leader n = Some x -> el tr x (n_term n);
  a_led : forall t, In t (n_led n) -> el tr p t;
  a_vw : forall w, In w (n_vw n) -> w_prev w <= w_term w /\ w_cand w <> p /\ exists d, In (MReq (w_cand w) (w_term w) (w_ver w) d) net }.

Lemma NA_agree : forall tr net p n n', NA tr net p n ->
  n_st n' = n_st n -> n_term n' = n_term n -> n_voted n' = n_voted n -> n_leader n' = n_leader n ->
  n_mterm n' = n_mterm n -> n_mvoted n' = n_mvoted n -> n_led n' = n_led n -> n_ver n' = n_ver n ->
  n_grants n' = n_grants n -> n_gself n' = n_gself n -> n_vw n' = n_vw n -> NA tr net p n'.
Proof. intros tr net p n n' [] E1 E2 E3 E4 E5 E6 E7 E8 E9 E10 E11. constructor; rewrite ?E1, ?E2, ?E3, ?E4, ?E5, ?E6, ?E7, ?E8, ?E9, ?E10, ?E11; auto. Qed.

Lemma el_mono : forall tr tr' p t, incl tr tr' -> el tr p t -> el tr' p t.
Proof. intros tr tr' p t H [a K]. exists a. auto. Qed.
Lemma vt_mono : forall tr tr' p t c, incl tr tr' -> vt tr p t c -> vt tr' p t c.
Proof. intros tr tr' p t c H [a K]. exists a. auto. Qed.

Lemma NA_mono : forall tr net tr' net' p n, NA tr net p n -> incl tr tr' -> incl net net' ->
  (forall t, el tr' p t -> el tr p t) -> (forall t c, vt tr' p t c -> vt tr p t c) ->
  (forall t v d, In (MReq p t v d) net' -> In (MReq p t v d) net) -> NA tr' net' p n.
Proof.
  intros tr net tr' net' p n [] It In_ He Hv Hr. constructor; auto; intros.
  - destruct (a_ld0 H). split; auto. eapply el_mono; eauto.
  - eapply vt_mono; eauto.
  - eapply vt_mono; eauto.
  - eauto.
  - eapply el_mono; eauto.
  - eapply el_mono; eauto.
  - destruct (a_vw0 w H) as [h0 [h1 [d h2]]]. sp; auto. exists d. auto.
Qed.

(** ** step_down *)
Lemma sd_term : forall t n, n_term (step_down t n) = if n_term n <? t then t else n_term n.
Proof. intros t n. unfold step_down. destruct (n_st n); cbn [set_ctx lease_stop set_role set_reps n_term]; destruct (n_term n <? t); reflexivity. Qed.
Lemma sd_mterm : forall t n, n_mterm (step_down t n) = if n_term n <? t then t else n_mterm n.
Proof. intros t n. unfold step_down. destruct (n_st n); cbn [set_ctx lease_stop set_role set_reps n_term]; destruct (n_term n <? t); reflexivity. Qed.
Lemma sd_voted : forall t n, n_voted (step_down t n) = if n_term n <? t then None else n_voted n.
Proof. intros t n. unfold step_down. destruct (n_st n); cbn [set_ctx lease_stop set_role set_reps n_term]; destruct (n_term n <? t); reflexivity. Qed.
Lemma sd_mvoted : forall t n, n_mvoted (step_down t n) = if n_term n <? t then None else n_mvoted n.
Proof. intros t n. unfold step_down. destruct (n_st n); cbn [set_ctx lease_stop set_role set_reps n_term]; destruct (n_term n <? t); reflexivity. Qed.
Lemma sd_st : forall t n, n_st (step_down t n) = LFollower.
Proof. intros t n. unfold step_down. destruct (n_st n); cbn [set_ctx lease_stop set_role set_reps n_term]; destruct (n_term n <? t); reflexivity. Qed.
Lemma sd_leader : forall t n, n_leader (step_down t n) = None.
Proof. intros t n. unfold step_down. destruct (n_st n); cbn [set_ctx lease_stop set_role set_reps n_term]; destruct (n_term n <? t); reflexivity. Qed.
Lemma sd_ver : forall t n, n_ver (step_down t n) = match n_st n with LCandidate => n_ver n + 1 | _ => n_ver n end.
Proof. intros t n. unfold step_down. destruct (n_st n); cbn [set_ctx lease_stop set_role set_reps n_term]; destruct (n_term n <? t); reflexivity. Qed.
Lemma sd_led : forall t n, n_led (step_down t n) = n_led n.
Proof. intros t n. unfold step_down. destruct (n_st n); cbn [set_ctx lease_stop set_role set_reps n_term]; destruct (n_term n <? t); reflexivity. Qed.
Lemma sd_gself : forall t n, n_gself (step_down t n) = n_gself n.
Proof. intros t n. unfold step_down. destruct (n_st n); cbn [set_ctx lease_stop set_role set_reps n_term]; destruct (n_term n <? t); reflexivity. Qed.
Lemma sd_vw : forall t n, n_vw (step_down t n) = n_vw n.
Proof. intros t n. unfold step_down. destruct (n_st n); cbn [set_ctx lease_stop set_role set_reps n_term]; destruct (n_term n <? t); reflexivity. Qed.
Lemma sd_flast : forall t n, f_last (step_down t n) = f_last n.
Proof. intros t n. unfold step_down. destruct (n_st n); cbn [set_ctx lease_stop set_role set_reps n_term]; destruct (n_term n <? t); reflexivity. Qed.
Lemma sd_fts : forall t n, f_ts (step_down t n) = f_ts n.
Proof. intros t n. unfold step_down. destruct (n_st n); cbn [set_ctx lease_stop set_role set_reps n_term]; destruct (n_term n <? t); reflexivity. Qed.
Lemma sd_dis : forall t n, n_dis (step_down t n) = match n_st n with LCandidate => None | _ => n_dis n end.
Proof. intros t n. unfold step_down. destruct (n_st n); cbn [set_ctx lease_stop set_role set_reps n_term]; destruct (n_term n <? t); reflexivity. Qed.

Lemma NA_step_down : forall tr net p n t, NA tr net p n -> NA tr net p (step_down t n).
Proof.
  intros tr net p n t []. constructor; rewrite ?sd_term, ?sd_mterm, ?sd_voted, ?sd_mvoted, ?sd_st, ?sd_leader, ?sd_ver, ?sd_led, ?sd_gself, ?sd_vw; auto; try discriminate; destruct (Z.ltb_spec (n_term n) t); try lia; auto; intros.
  - destruct (a_el0 t0); auto. sp; auto; lia.
  - destruct (a_vt0 t0 c H0). split; lia.
  - discriminate.
  - destruct (a_gs0 v H0). split; [destruct (n_st n); lia|discriminate].
  - destruct (a_gs0 v H0). split; [destruct (n_st n); lia|discriminate].
  - destruct (a_rq0 t0 v d H0). split; [destruct (n_st n); lia|discriminate].
  - destruct (a_rq0 t0 v d H0). split; [destruct (n_st n); lia|discriminate].
Qed.

(** ** Leaving a term *)
Definition left (n : lnode) (t : Z) : Prop := t < n_mterm n \/ (n_mterm n = t /\ (n_term n = t -> n_st n = LFollower)).
Definition keep (n n' : lnode) : Prop := n_mterm n <= n_mterm n' /\
  (n_mterm n = n_mterm n' -> n_term n' = n_mterm n' -> n_st n' = LFollower \/ (n_term n = n_mterm n /\ n_st n <> LFollower)).
Lemma keep_left : forall n n' t, keep n n' -> left n t -> left n' t.
Proof.
  intros n n' t [H1 H2] [H|[H3 H4]]; [left; lia|]. destruct (Z.eq_dec (n_mterm n) (n_mterm n')) as [E|]; [|left; lia].
  right. split; [lia|]. intros K. destruct H2 as [?|[? ?]]; auto; try lia. exfalso. apply H0. apply H4. lia.
Qed.
Lemma keep_trans : forall a b c, keep a b -> keep b c -> keep a c.
Proof.
  intros a b c [H1 H2] [H3 H4]. split; [lia|]. intros E1 E2. destruct H4 as [?|[e1 e2]]; auto; try lia.
  destruct H2 as [?|?]; auto; try lia. congruence.
Qed.
Lemma keep_refl : forall n, n_mterm n <= n_term n -> keep n n.
Proof. intros n H. split; [lia|]. intros _ E. destruct (n_st n) eqn:K; auto; right; split; auto; congruence. Qed.
Lemma keep_same : forall n n', n_mterm n' = n_mterm n -> n_term n' = n_term n -> n_st n' = n_st n -> keep n n'.
Proof. intros n n' E1 E2 E3. split; [lia|]. intros _ E. rewrite E3. destruct (n_st n) eqn:K; auto; right; split; try congruence; lia. Qed.
Lemma keep_step_down : forall t n, n_mterm n <= n_term n -> keep n (step_down t n).
Proof. intros t n H. split; rewrite sd_mterm; destruct (Z.ltb_spec (n_term n) t); try lia. - left. apply sd_st. Qed.

Lemma csd_form : forall t f n, n_term n <= t -> exists n1, (n1 = n \/ n1 = step_down t n) /\
   n_term n1 = t /\ n_st n1 = LFollower /\
   check_step_down t f n = (match n_leader n1 with None => set_role LFollower (Some f) n1 | Some _ => n1 end).
Proof.
  intros t f n H. unfold check_step_down.
  exists (if n_term n <? t then step_down t n else match n_st n, n_leader n with LFollower, Some _ => n | _, _ => step_down t n end).
  destruct (Z.ltb_spec (n_term n) t).
  - sp; auto; rewrite ?sd_term, ?sd_st; auto. destruct (Z.ltb_spec (n_term n) t); lia. 
  - assert (E : n_term (step_down t n) = t) by (rewrite sd_term; destruct (Z.ltb_spec (n_term n) t); lia).
    destruct (n_st n) eqn:S; [| | |destruct (n_leader n) eqn:Ld]; sp; auto; rewrite ?sd_st; auto; try lia.
    rewrite Ld. reflexivity.
Qed.

Lemma wins_quorum : forall gs, wf_jconf (conf, old) -> wins conf old gs = true -> quorum conf old gs.
Proof.
  intros gs W H. unfold wins in H.
  assert (E : forall l b, fold_left grant1 l b = grant_all b (map (fun p => (p, no_hint)) l)).
  { induction l; intros; cbn; auto. apply IHl. }
  rewrite E in H. apply (proj1 (granted_iff_quorum conf old _ W)) in H.
  rewrite map_map in H. cbn in H. rewrite map_id in H. exact H.
Qed.
End P.
