(** Lemmas on the timed group model, part 6: the leader's lease rests on a majority's follower leases. *)
From Coq Require Import Permutation Sorted.
From Verif Require Import Base Ballot QuorumSpec BallotProofs Lease LeaseSpec LeaseProofs LeaseProofs2 LeaseProofs3 LeaseProofs4 LeaseProofs5.

(** ** The n/2 largest times *)
Lemma ins_perm : forall x l, Permutation (x :: l) (ins x l).
Proof. induction l as [|y l IH]; cbn; auto. destruct (x <=? y); auto. eapply Permutation_trans; [apply perm_swap|]. constructor. auto. Qed.
Lemma ins_sorted : forall x l, StronglySorted Z.le l -> StronglySorted Z.le (ins x l).
Proof.
  induction l as [|y l IH]; intros H; cbn; [repeat constructor|]. inversion H; subst. destruct (Z.leb_spec x y).
  - constructor; auto. constructor; auto. eapply Forall_impl; [|eauto]. cbn. intros. lia.
  - constructor; auto. eapply Permutation_Forall; [apply ins_perm|]. constructor; auto; lia.
Qed.
Lemma ins_len : forall x l, zlen (ins x l) = zlen l + 1.
Proof. intros. unfold zlen. rewrite <- (Permutation_length (ins_perm x l)). cbn [length]. lia. Qed.
Lemma perm_map_cons : forall (f : peer -> Z) S a l, Permutation (map f S) (a :: l) -> exists S1 y S2, S = S1 ++ y :: S2 /\ f y = a /\ Permutation (map f (S1 ++ S2)) l.
Proof.
  intros f S a l H. assert (I : In a (map f S)) by (eapply Permutation_in; [apply Permutation_sym; eauto|left; auto]).
  apply in_map_iff in I. destruct I as [y [E I]]. apply in_split in I. destruct I as [S1 [S2 ->]]. exists S1, y, S2. sp; auto.
  rewrite map_app in *. cbn in H. rewrite E in H. eapply Permutation_app_inv with (l3 := []); cbn; eauto.
Qed.

Lemma scan_spec : forall k reps ps acc S, 0 <= k -> NoDup (S ++ ps) -> StronglySorted Z.le acc -> Permutation (map (fun q => ts_of q reps) S) acc -> zlen acc <= k ->
  exists S', incl S' (S ++ ps) /\ NoDup S' /\ StronglySorted Z.le (scan k reps acc ps) /\ Permutation (map (fun q => ts_of q reps) S') (scan k reps acc ps) /\
    zlen (scan k reps acc ps) = Z.min k (zlen acc + zlen ps).
Proof.
  intros k reps. induction ps as [|q ps IH]; intros acc S Hk Hnd Hs Hp Hl; cbn [scan].
  - exists S. rewrite app_nil_r in *. sp; auto. + intros x Hx; auto. + change (zlen (@nil peer)) with 0. lia.
  - assert (Z0 : 0 <= zlen ps) by (unfold zlen; lia). assert (L1 : zlen (q :: ps) = zlen ps + 1) by (unfold zlen; cbn [length]; lia).
    set (acc1 := ins (ts_of q reps) acc). assert (S1 : StronglySorted Z.le acc1) by (apply ins_sorted; auto).
    assert (P1 : Permutation (map (fun q => ts_of q reps) (q :: S)) acc1) by (cbn [map]; eapply Permutation_trans; [|apply ins_perm]; constructor; auto).
    assert (Len : zlen acc1 = zlen acc + 1) by apply ins_len.
    assert (N1 : NoDup ((q :: S) ++ ps)) by (cbn; eapply Permutation_NoDup; [|exact Hnd]; apply Permutation_sym, Permutation_middle).
    assert (I1 : incl ((q :: S) ++ ps) (S ++ q :: ps)) by (intros x; cbn; rewrite !in_app_iff; cbn; tauto).
    destruct (Z.ltb_spec k (zlen acc1)).
    + destruct acc1 as [|a acc2] eqn:Ea; [unfold zlen in *; cbn in *; lia|]. cbn [tl]. inversion S1; subst.
      destruct (perm_map_cons _ _ _ _ P1) as (A & y & B & E & _ & P2).
      assert (L2 : zlen (a :: acc2) = zlen acc2 + 1) by (unfold zlen; cbn [length]; lia).
      destruct (IH acc2 (A ++ B)) as (S' & h1 & h2 & h3 & h4 & h5); auto; try lia.
      * rewrite E in N1. rewrite <- !app_assoc in *. cbn in N1. apply NoDup_remove_1 in N1. auto.
      * exists S'. sp; auto; try lia. intros x Hx. apply h1 in Hx. apply I1. rewrite E. rewrite !in_app_iff in *. cbn. tauto.
    + destruct (IH acc1 (q :: S)) as (S' & h1 & h2 & h3 & h4 & h5); auto; try lia.
      exists S'. sp; auto; try lia. intros x Hx. apply I1. auto.
Qed.

Lemma remove_len : forall p cf, NoDup cf -> In p cf -> zlen (filter (fun q => negb (q =? p)) cf) = zlen cf - 1.
Proof.
  intros p cf. induction cf as [|a cf IH]; intros Hn Hi; [destruct Hi|]. inversion Hn; subst. cbn [filter].
  assert (L : zlen (a :: cf) = zlen cf + 1) by (unfold zlen; cbn [length]; lia).
  destruct (Z.eqb_spec a p) as [->|N]; cbn [negb].
  - rewrite L. replace (filter (fun q => negb (q =? p)) cf) with cf; [lia|]. clear IH Hn Hi L H2.
    induction cf as [|b cf IH]; cbn; auto. destruct (Z.eqb_spec b p); cbn; [exfalso; apply H1; subst; left; auto|]. f_equal. apply IH. intros K. apply H1. right; auto.
  - destruct Hi as [E|Hi]; [congruence|]. specialize (IH H2 Hi). unfold zlen in *. cbn [length] in *. lia.
Qed.

(** A majority (the leader with it) has been heard since [active_in]. *)
Lemma active_majority : forall p c reps cf, NoDup cf -> In p cf ->
  exists S, majority cf (p :: S) /\ incl S cf /\ ~ In p S /\ forall q, In q S -> active_in p c reps cf <= ts_of q reps.
Proof.
  intros p c reps cf Hn Hi. unfold active_in. set (os := filter (fun q => negb (q =? p)) cf). assert (Ho : NoDup os) by (apply NoDup_filter; auto).
  assert (Hlen : zlen os = zlen cf - 1) by (apply remove_len; auto).
  assert (Hpos : 1 <= zlen cf) by (destruct cf; [destruct Hi|unfold zlen; cbn [length]; lia]).
  assert (K0 : 0 <= zlen cf / 2) by (apply Z.div_pos; lia).
  destruct (scan_spec (zlen cf / 2) reps os [] []) as (S & h1 & h2 & h3 & h4 & h5); auto; [constructor|]. cbn [app] in h1. change (zlen (@nil Z)) with 0 in h5.
  assert (Np : ~ In p S). { intros K. apply h1 in K. apply filter_In in K. destruct K as [_ K]. rewrite Z.eqb_refl in K. discriminate. }
  assert (Is : incl S cf). { intros x Hx. apply h1 in Hx. apply filter_In in Hx. tauto. }
  assert (Ls : zlen S = Z.min (zlen cf / 2) (zlen cf - 1)). { assert (E : zlen S = zlen (scan (zlen cf / 2) reps [] os)) by (pose proof (Permutation_length h4) as PL; rewrite map_length in PL; change (Z.of_nat (length S) = Z.of_nat (length (scan (zlen cf / 2) reps [] os))); congruence). rewrite E, h5. unfold peer in *. lia. }
  exists S. sp; auto.
  - unfold majority. assert (zlen (p :: S) <= zlen (ackers_in cf (p :: S))).
    { apply zlen_incl. constructor; auto. intros x Hx. unfold ackers_in. apply filter_In. split.
      - destruct Hx as [<-|Hx]; auto. - unfold memb. apply existsb_exists. exists x. split; auto. apply Z.eqb_refl. }
    assert (zlen (p :: S) = zlen S + 1) by (unfold zlen; cbn [length]; lia). pose proof (Z.div_mod (zlen cf) 2 ltac:(lia)). pose proof (Z.mod_pos_bound (zlen cf) 2 ltac:(lia)). lia.
  - intros q Hq. assert (Iq : In (ts_of q reps) (scan (zlen cf / 2) reps [] os)) by (eapply Permutation_in; [exact h4|]; apply (in_map (fun q => ts_of q reps)); auto).
    destruct (scan (zlen cf / 2) reps [] os) as [|m r]; [destruct Iq|]. inversion h3; subst. destruct Iq as [<-|Iq]; [lia|]. rewrite Forall_forall in H2. apply H2. auto.
Qed.

Lemma ins_in : forall x l y, In y (ins x l) -> y = x \/ In y l.
Proof. intros x l y H. apply (Permutation_in y (Permutation_sym (ins_perm x l))) in H. destruct H; auto. Qed.
Lemma scan_in : forall k reps ps acc m, In m (scan k reps acc ps) -> In m acc \/ exists q, In q ps /\ m = ts_of q reps.
Proof.
  intros k reps. induction ps as [|q ps IH]; intros acc m H; cbn [scan] in H; auto. apply IH in H. destruct H as [H|[q' [h1 h2]]]; [|right; exists q'; split; auto; right; auto].
  assert (K : In m (ins (ts_of q reps) acc)). { destruct (_ <? _); auto. destruct (ins (ts_of q reps) acc); auto. right. auto. }
  apply ins_in in K. destruct K as [->|K]; auto. right. exists q. split; auto. left; auto.
Qed.
Lemma ts_in : forall q reps, ts_of q reps = 0 \/ In (q, ts_of q reps) reps.
Proof. induction reps as [|[a t] r IH]; cbn [ts_of]; auto. destruct (Z.eqb_spec a q) as [->|]; [right; left; auto|]. destruct IH; auto. right. right. auto. Qed.

Section P.
Variables (conf : list peer) (old : option (list peer)) (timeout fto drift : peer -> Z -> Z) (clk : peer -> Z -> Z) (eps : Z).
Hypothesis Wf : wf_jconf (conf, old).
Hypothesis Ce : 0 <= eps.
Hypothesis Ck : forall p t, 0 < clk p t.
Notation NA := (NA conf old).
Notation core := (core conf old).
Notation mem := (mem conf old).

Definition just (tr : list lrec) (p : peer) (t x : Z) : Prop :=
  exists cf M, (cf = conf \/ old = Some cf) /\ majority cf M /\ forall f, In f M -> f = p \/ exists a, In (RRenew f p t a) tr /\ x <= clk p a + eps.
Record lok (tr : list lrec) (p : peer) (n : lnode) : Prop := {
  o_reps : leads (n_st n) = true -> forall q x, In (q, x) (n_reps n) -> 0 < x /\ ((exists a, In (RStart p (n_term n) q a) tr /\ x = clk p a) \/ (exists a, In (RRenew q p (n_term n) a) tr /\ x <= clk p a));
  o_acked : leads (n_st n) = true -> forall q, In q (n_acked n) -> exists a, In (RRenew q p (n_term n) a) tr;
  o_first : leads (n_st n) = true -> n_first n = true -> exists Q, quorum conf old Q /\ forall q, In q Q -> q = p \/ exists a, In (RRenew q p (n_term n) a) tr;
  o_lease : l_term n <> 0 -> n_st n = LLeader /\ l_term n = n_term n /\ (l_ts n <> 0 -> n_first n = true /\ just tr p (n_term n) (l_ts n)) }.
Definition together (tr : list lrec) : Prop := forall l t q ts f ta, In (RStart l t q ts) tr -> In (RRenew f l t ta) tr -> clk l ts <= clk l ta + eps.

Lemma all_or : forall (A : peer -> Prop) (B : Prop) l, (forall x, In x l -> A x \/ B) -> (forall x, In x l -> A x) \/ B.
Proof.
  induction l as [|a l IH]; intros H; [left; intros x []|]. destruct (H a (or_introl eq_refl)); auto. destruct IH; auto. { intros x Hx. apply H. right; auto. }
  left. intros x [<-|Hx]; auto.
Qed.

Lemma last_active_just : forall tr p n c, lok tr p n -> leads (n_st n) = true -> n_first n = true -> mem p -> together tr -> 0 <= c ->
  last_active conf old p c (n_reps n) <> 0 -> just tr p (n_term n) (last_active conf old p c (n_reps n)).
Proof.
  intros tr p n c H Ld Fi Hm Ht Hc Hx. set (x := last_active conf old p c (n_reps n)) in *.
  assert (X : exists cf, (cf = conf \/ old = Some cf) /\ NoDup cf /\ In p cf /\ x <= active_in p c (n_reps n) cf).
  { destruct Wf as [W1 W2]. cbn in W1, W2. unfold x, last_active. destruct Hm as [Hm|Hm].
    - exists conf. sp; auto. destruct old; lia.
    - destruct old as [o|]; [|destruct Hm]. exists o. sp; auto. lia. }
  destruct X as (cf & Hcf & Hn & Hi & Hle). destruct (active_majority p c (n_reps n) cf Hn Hi) as (S & s1 & s2 & s3 & s4).
  assert (Q : (forall q, In q S -> exists a, In (RRenew q p (n_term n) a) tr /\ x <= clk p a + eps) \/ exists q a, In (RStart p (n_term n) q a) tr /\ x <= clk p a).
  { apply all_or. intros q Hq. specialize (s4 q Hq). assert (Xp : 0 <= x).
    { assert (Pt : forall q', 0 <= ts_of q' (n_reps n)). { intros q'. destruct (ts_in q' (n_reps n)) as [->|K]; [lia|]. destruct (o_reps _ _ _ H Ld _ _ K). lia. }
      assert (Pa : forall cf', 0 <= active_in p c (n_reps n) cf').
      { intros cf'. unfold active_in. destruct (scan _ _ _ _) as [|m r] eqn:E; auto.
        destruct (scan_in (zlen cf' / 2) (n_reps n) (filter (fun q => negb (q =? p)) cf') [] m) as [[]|[q' [_ ->]]]; auto. rewrite E. left; auto. }
      unfold x, last_active. pose proof (Pa conf). destruct old as [o|]; auto. pose proof (Pa o). lia. }
    destruct (ts_in q (n_reps n)) as [E|K]; [lia|].
    destruct (o_reps _ _ _ H Ld _ _ K) as [_ [[a [ha hb]]|[a [ha hb]]]]; [right; exists q, a; split; auto; lia|left; exists a; split; auto; lia]. }
  destruct Q as [Q|[q [a [qa qb]]]].
  - exists cf, (p :: S). sp; auto. intros f [<-|Hf]; auto.
  - destruct (o_first _ _ _ H Ld Fi) as [Q [[q1 _] q3]]. exists conf, Q. sp; auto. intros f Hf. destruct (q3 f Hf) as [?|[b Hb]]; auto. right. exists b. split; auto.
    pose proof (Ht _ _ _ _ _ _ qa Hb). lia.
Qed.
End P.
