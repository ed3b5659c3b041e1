From Verif Require Import Base BaseLemmas Ballot QuorumSpec.

(** State of one half after some acks: element i is conf[i] with found = member of acks. *)
Definition half_ok (conf acks : list peer) (l : list unfound) (q : Z) : Prop :=
  l = map (fun p => mkU p (memb p acks)) conf /\
  q = quorum_of conf - zlen (ackers_in conf acks).

Lemma search_spec : forall p l i,
  match search p l i with
  | Some n => (i <= n)%nat /\ exists u, nth_error l (n - i) = Some u /\ u_peer u = p
  | None => forall u, In u l -> u_peer u <> p
  end.
Proof.
  induction l as [|u l IH]; intros i; cbn; auto.
  destruct (Z.eqb_spec (u_peer u) p).
  - split; auto. exists u. replace (i - i)%nat with O by lia. auto.
  - specialize (IH (S i)). destruct (search p l (S i)) as [m|].
    + destruct IH as [H1 [v [H2 H3]]]. split; try lia. exists v.
      replace (m - i)%nat with (S (m - S i)) by lia. auto.
    + intros w [Hw|Hw]; subst; auto.
Qed.

Lemma find_peer_spec : forall p l h,
  match find_peer p l h with
  | Some n => exists u, nth_error l n = Some u /\ u_peer u = p
  | None => forall u, In u l -> u_peer u <> p
  end.
Proof.
  intros p l h. unfold find_peer.
  pose proof (search_spec p l 0) as Hs.
  assert (Hs' : match search p l 0 with
    | Some n => exists u, nth_error l n = Some u /\ u_peer u = p
    | None => forall u, In u l -> u_peer u <> p end).
  { destruct (search p l 0); auto. destruct Hs as [_ [u Hu]].
    rewrite Nat.sub_0_r in Hu. eauto. }
  destruct (znth l h) eqn:E; auto.
  destruct (Z.eqb_spec (u_peer u) p); auto.
  exists u. split; auto. unfold znth in E. destruct (h <? 0); congruence.
Qed.

Lemma set_found_map : forall conf acks p n,
  NoDup conf -> nth_error conf n = Some p ->
  set_found (map (fun p => mkU p (memb p acks)) conf) n
  = map (fun x => mkU x (memb x (p :: acks))) conf.
Proof.
  induction conf as [|c conf IH]; intros acks p n Hnd Hn.
  - destruct n; discriminate.
  - inversion Hnd; subst. destruct n; cbn in *.
    + inversion Hn; subst. rewrite Z.eqb_refl. cbn. f_equal.
      apply map_ext_in. intros a Ha. f_equal. unfold memb; cbn.
      destruct (Z.eqb_spec a p); subst; auto; contradiction.
    + rewrite (IH acks p n); auto. f_equal. f_equal. unfold memb; cbn.
      destruct (Z.eqb_spec c p); subst; auto.
      apply nth_error_In in Hn. contradiction.
Qed.

Lemma map_found_irrel : forall conf acks p,
  (~ In p conf \/ In p acks) ->
  map (fun x => mkU x (memb x acks)) conf = map (fun x => mkU x (memb x (p :: acks))) conf.
Proof.
  intros. apply map_ext_in. intros a Ha. f_equal. unfold memb; cbn.
  destruct (Z.eqb_spec a p); subst; auto. destruct H; try contradiction.
  cbn. apply memb_In in H. exact H.
Qed.

Lemma ackers_irrel : forall conf acks p,
  (~ In p conf \/ In p acks) -> ackers_in conf (p :: acks) = ackers_in conf acks.
Proof.
  intros. unfold ackers_in. apply filter_ext_in. intros a Ha.
  unfold memb; cbn. destruct (Z.eqb_spec a p); subst; auto. destruct H; try contradiction.
  apply memb_In in H. unfold memb in H. rewrite H. auto.
Qed.

Lemma ackers_new : forall conf acks p,
  NoDup conf -> In p conf -> ~ In p acks ->
  zlen (ackers_in conf (p :: acks)) = zlen (ackers_in conf acks) + 1.
Proof.
  induction conf as [|c conf IH]; intros acks p Hnd Hin Hna; [destruct Hin|].
  inversion Hnd; subst. destruct Hin as [->|Hin].
  - unfold ackers_in. cbn [filter].
    replace (memb p (p :: acks)) with true by (symmetry; apply memb_In; cbn; auto).
    apply memb_false in Hna. rewrite Hna. rewrite zlen_cons. f_equal.
    f_equal. apply filter_ext_in. intros a Ha. unfold memb; cbn.
    destruct (Z.eqb_spec a p); subst; auto; contradiction.
  - unfold ackers_in in *. cbn [filter].
    assert (Hcp : c <> p) by (intros ->; contradiction).
    assert (He : memb c (p :: acks) = memb c acks).
    { unfold memb; cbn. destruct (Z.eqb_spec c p); auto; contradiction. }
    rewrite He. destruct (memb c acks).
    + rewrite !zlen_cons. rewrite IH; auto.
    + apply IH; auto.
Qed.

Lemma grant_half_ok : forall conf acks l q p h l' q' h',
  NoDup conf -> half_ok conf acks l q ->
  grant_half p l q h = (l', q', h') ->
  half_ok conf (p :: acks) l' q'.
Proof.
  intros conf acks l q p h l' q' h' Hnd [Hl Hq] Hg.
  unfold grant_half in Hg.
  pose proof (find_peer_spec p l h) as Hf.
  destruct (find_peer p l h) as [n|].
  - destruct Hf as [u [Hn Hu]]. rewrite Hn in Hg.
    assert (Hc : nth_error conf n = Some p /\ u_found u = memb p acks).
    { rewrite Hl in Hn. rewrite nth_error_map in Hn.
      destruct (nth_error conf n); try discriminate. cbn in Hn. inversion Hn; subst.
      cbn in *. subst; auto. }
    destruct Hc as [Hc Hfd].
    destruct (u_found u) eqn:Ef; inversion Hg; subst l' q' h'; clear Hg.
    + symmetry in Hfd. apply memb_In in Hfd. split.
      * rewrite Hl. apply map_found_irrel; auto.
      * rewrite ackers_irrel; auto.
    + symmetry in Hfd. apply memb_false in Hfd. split.
      * rewrite Hl. apply set_found_map; auto.
      * rewrite ackers_new; auto; try lia. eapply nth_error_In; eauto.
  - inversion Hg; subst l' q' h'. assert (~ In p conf).
    { intros Hin. apply (Hf (mkU p (memb p acks))); auto. rewrite Hl.
      apply in_map_iff. exists p; auto. }
    split.
    + rewrite Hl. apply map_found_irrel; auto.
    + rewrite ackers_irrel; auto.
Qed.

(** Whole-ballot invariant. *)
Definition ballot_ok (conf : list peer) (old : option (list peer)) (acks : list peer) (b : ballot) : Prop :=
  half_ok conf acks (b_peers b) (b_quorum b) /\
  match old with
  | None => b_old_peers b = [] /\ b_old_quorum b = 0
  | Some o => half_ok o acks (b_old_peers b) (b_old_quorum b)
  end.

Lemma half_ok_init : forall conf, half_ok conf [] (unfounds conf) (quorum_of conf).
Proof.
  intros. split.
  - unfold unfounds. apply map_ext. intros; reflexivity.
  - unfold ackers_in. replace (filter (fun p => memb p []) conf) with (@nil peer).
    + rewrite zlen_nil. lia.
    + induction conf; auto.
Qed.

Lemma ballot_ok_init : forall conf old, ballot_ok conf old [] (ballot_init conf old).
Proof.
  intros conf [o|]; unfold ballot_ok, ballot_init; cbn; split;
    auto using half_ok_init.
Qed.

Lemma grant_ok : forall conf old acks b p h,
  wf_jconf (conf, old) -> ballot_ok conf old acks b ->
  ballot_ok conf old (p :: acks) (fst (grant b p h)).
Proof.
  intros conf old acks b p h [Hc Ho] [H1 H2]. cbn in Hc, Ho.
  unfold grant. destruct (grant_half p (b_peers b) (b_quorum b) (pos0 h)) as [[ps q] h0] eqn:E1.
  pose proof (grant_half_ok _ _ _ _ _ _ _ _ _ Hc H1 E1) as G1.
  destruct old as [o|].
  - destruct (b_old_peers b) as [|u us] eqn:Eo.
    + (* old conf empty: nothing changes, and nothing has to *)
      cbn [fst]. split; cbn; auto.
      destruct H2 as [H2 H3].
      destruct o; try discriminate. split; cbn; auto.
    + destruct (grant_half p (u :: us) (b_old_quorum b) (pos1 h)) as [[ops oq] h1] eqn:E2.
      cbn [fst]. split; cbn; auto.
      eapply grant_half_ok; eauto.
  - destruct H2 as [H2 H3]. rewrite H2. cbn [fst]. split; cbn; auto.
Qed.

Lemma grant_all_ok : forall gs conf old acks b,
  wf_jconf (conf, old) -> ballot_ok conf old acks b ->
  ballot_ok conf old (rev (map fst gs) ++ acks) (grant_all b gs).
Proof.
  induction gs as [|g gs IH]; intros; cbn; auto.
  rewrite <- app_assoc. cbn. apply IH; auto. apply grant_ok; auto.
Qed.

Lemma quorum_le0_iff : forall conf acks q,
  q = quorum_of conf - zlen (ackers_in conf acks) ->
  (q <= 0 <-> majority conf acks).
Proof.
  intros. unfold majority, quorum_of in *. pose proof (zlen_nonneg conf).
  assert (zlen conf / 2 * 2 <= zlen conf < zlen conf / 2 * 2 + 2).
  { pose proof (Z.div_mod (zlen conf) 2). pose proof (Z.mod_pos_bound (zlen conf) 2). lia. }
  lia.
Qed.

Lemma ballot_ok_granted : forall conf old acks b,
  ballot_ok conf old acks b -> (granted b = true <-> quorum conf old acks).
Proof.
  intros conf old acks b [[_ H1] H2]. unfold granted, quorum.
  rewrite andb_true_iff, !Z.leb_le. rewrite (quorum_le0_iff _ _ _ H1).
  destruct old as [o|].
  - destruct H2 as [_ H2]. rewrite (quorum_le0_iff _ _ _ H2). tauto.
  - destruct H2 as [_ H2]. rewrite H2. intuition lia.
Qed.

Lemma ackers_in_ext : forall conf a1 a2,
  (forall p, In p a1 <-> In p a2) -> ackers_in conf a1 = ackers_in conf a2.
Proof.
  intros. unfold ackers_in. apply filter_ext. intros a.
  destruct (memb a a1) eqn:E1, (memb a a2) eqn:E2; auto.
  - apply memb_In in E1. apply memb_false in E2. exfalso; apply E2, H; auto.
  - apply memb_In in E2. apply memb_false in E1. exfalso; apply E1, H; auto.
Qed.

Lemma majority_ext : forall conf a1 a2,
  (forall p, In p a1 <-> In p a2) -> majority conf a1 -> majority conf a2.
Proof. intros. unfold majority in *. rewrite <- (ackers_in_ext conf a1 a2); auto. Qed.

Lemma quorum_ext : forall conf old a1 a2,
  (forall p, In p a1 <-> In p a2) -> quorum conf old a1 -> quorum conf old a2.
Proof.
  intros conf old a1 a2 H [H1 H2]. split; eauto using majority_ext.
  destruct old; eauto using majority_ext.
Qed.

Lemma granted_iff_quorum : forall conf old gs,
  wf_jconf (conf, old) ->
  (granted (grant_all (ballot_init conf old) gs) = true <-> quorum conf old (map fst gs)).
Proof.
  intros conf old gs Hwf.
  rewrite (ballot_ok_granted conf old (rev (map fst gs) ++ [])).
  - split; apply quorum_ext; intros p; rewrite app_nil_r, <- in_rev; tauto.
  - apply grant_all_ok; auto. apply ballot_ok_init.
Qed.

(** ** Pigeonhole *)

Lemma majority_mono : forall conf a1 a2,
  (forall p, In p a1 -> In p a2) -> majority conf a1 -> majority conf a2.
Proof.
  intros conf a1 a2 H. unfold majority.
  enough (zlen (ackers_in conf a1) <= zlen (ackers_in conf a2)) by lia.
  unfold ackers_in. induction conf as [|c conf IH]; cbn; try lia.
  destruct (memb c a1) eqn:E1.
  - apply memb_In in E1. apply H in E1. apply memb_In in E1. rewrite E1.
    rewrite !zlen_cons. lia.
  - destruct (memb c a2); rewrite ?zlen_cons; lia.
Qed.

(** Counting: two sublists selected by filters from a common list. *)
Lemma filter_two : forall (f g : peer -> bool) l,
  zlen (filter f l) + zlen (filter g l)
  <= zlen l + zlen (filter (fun x => f x && g x) l).
Proof.
  induction l; cbn; try lia.
  destruct (f a), (g a); cbn; rewrite ?zlen_cons; lia.
Qed.

Lemma zlen_incl : forall (l m : list peer), NoDup l -> incl l m -> zlen l <= zlen m.
Proof. intros. unfold zlen. apply inj_le. apply NoDup_incl_length; auto. Qed.

(** General overlap: both confs live inside a universe of n peers with n at most
    the sum of the quorums - 1. *)
Lemma majorities_meet_same : forall c a1 a2,
  majority c a1 -> majority c a2 -> exists p, In p c /\ In p a1 /\ In p a2.
Proof.
  intros c a1 a2 H1 H2. unfold majority, ackers_in in *.
  pose proof (filter_two (fun p => memb p a1) (fun p => memb p a2) c) as H.
  destruct (filter (fun x => memb x a1 && memb x a2) c) as [|p l] eqn:E.
  - rewrite zlen_nil in H. lia.
  - assert (Hp : In p (filter (fun x => memb x a1 && memb x a2) c)) by (rewrite E; cbn; auto).
    apply filter_In in Hp. destruct Hp as [Hp Hb]. apply andb_true_iff in Hb.
    destruct Hb as [Hb1 Hb2]. apply memb_In in Hb1, Hb2. eauto.
Qed.

Lemma filter_incl_len : forall (f : peer -> bool) c d,
  NoDup c -> incl c d -> zlen (filter f c) <= zlen (filter f d).
Proof.
  intros. apply zlen_incl. apply NoDup_filter; auto.
  intros x Hx. apply filter_In in Hx. apply filter_In. split; try tauto. apply H0; tauto.
Qed.

Lemma adds_one_len : forall c d, NoDup c -> NoDup d -> adds_one c d -> zlen d = zlen c + 1.
Proof.
  intros c d Hc Hd [p [Hp He]].
  assert (zlen d <= zlen (p :: c)).
  { apply zlen_incl; auto. intros x Hx. apply He in Hx. cbn. intuition. }
  assert (zlen (p :: c) <= zlen d).
  { apply zlen_incl. constructor; auto. intros x Hx. apply He. cbn in Hx. intuition. }
  rewrite zlen_cons in *. lia.
Qed.

Lemma majorities_meet_add : forall c d a1 a2,
  NoDup c -> NoDup d -> adds_one c d ->
  majority c a1 -> majority d a2 -> exists p, In p c /\ In p a1 /\ In p a2.
Proof.
  intros c d a1 a2 Hc Hd Ha H1 H2.
  pose proof (adds_one_len c d Hc Hd Ha) as Hlen.
  destruct Ha as [p [Hp He]].
  unfold majority, ackers_in in *.
  (* at least |acks2 in d| - 1 of them are in c *)
  assert (Hd2 : zlen (filter (fun p => memb p a2) d) <= zlen (filter (fun p => memb p a2) c) + 1).
  { transitivity (zlen (filter (fun p => memb p a2) (p :: c))).
    - apply filter_incl_len; auto. intros x Hx. apply He in Hx. cbn; intuition.
    - cbn. destruct (memb p a2); rewrite ?zlen_cons; lia. }
  pose proof (filter_two (fun p => memb p a1) (fun p => memb p a2) c) as H.
  destruct (filter (fun x => memb x a1 && memb x a2) c) as [|x l] eqn:E.
  - rewrite zlen_nil in H. lia.
  - assert (Hx : In x (filter (fun x => memb x a1 && memb x a2) c)) by (rewrite E; cbn; auto).
    apply filter_In in Hx. destruct Hx as [Hx Hb]. apply andb_true_iff in Hb.
    destruct Hb as [Hb1 Hb2]. apply memb_In in Hb1, Hb2. eauto.
Qed.

Lemma quorums_meet : forall c1 c2 a1 a2,
  wf_jconf c1 -> wf_jconf c2 -> overlapping c1 c2 ->
  quorum (fst c1) (snd c1) a1 -> quorum (fst c2) (snd c2) a2 ->
  exists p, In p a1 /\ In p a2.
Proof.
  intros c1 c2 a1 a2 W1 W2 Ho [Q1 Q1'] [Q2 Q2'].
  destruct Ho; cbn in *.
  - destruct (majorities_meet_same _ _ _ Q1 Q2) as [p ?]; exists p; tauto.
  - destruct (majorities_meet_same _ _ _ Q1 Q2') as [p ?]; exists p; tauto.
  - destruct (majorities_meet_same _ _ _ Q1 Q2) as [p ?]; exists p; tauto.
  - destruct W1, W2. cbn in *.
    destruct (majorities_meet_add c d a1 a2) as [p ?]; auto; exists p; tauto.
  - destruct W1, W2. cbn in *.
    destruct (majorities_meet_add d c a2 a1) as [p ?]; auto; exists p; tauto.
Qed.

Lemma ballots_overlap : forall c1 c2 g1 g2,
  wf_jconf c1 -> wf_jconf c2 -> overlapping c1 c2 ->
  granted (grant_all (ballot_init (fst c1) (snd c1)) g1) = true ->
  granted (grant_all (ballot_init (fst c2) (snd c2)) g2) = true ->
  exists p, In p (map fst g1) /\ In p (map fst g2).
Proof.
  intros [c1 o1] [c2 o2] g1 g2 W1 W2 Ho H1 H2. cbn [fst snd] in *.
  apply granted_iff_quorum in H1; auto. apply granted_iff_quorum in H2; auto.
  eapply (quorums_meet (c1, o1) (c2, o2)); eauto.
Qed.
