(** C39: read_committed_user_log returns only committed user data. *)
From Verif Require Import Base BaseLemmas LogEntry BallotBox ReadLog ReadLogSpec.

Lemma read_loop_ok : forall fuel L get k applied cur e, reads L get -> e = L cur -> cur <= applied -> (Z.to_nat (applied - cur) <= fuel)%nat ->
  match read_loop fuel get k applied cur e with
  | ROk j d => cur <= j <= applied /\ no_user_data L cur j /\ e_type (L j) = T_DATA /\ d = e_data (L j)
  | RErr c => (c = ENOMOREUSERLOG /\ no_user_data L cur (applied + 1)) \/
              (c = ELOGDELETED /\ exists j n, cur < j <= applied /\ get n j = None /\ no_user_data L cur j)
  end.
Proof.
  intros fuel L get. revert fuel.
  assert (X : forall cur e (Q : rres -> Prop), e = L cur -> (e_type e = T_DATA -> Q (ROk cur (e_data e))) ->
     forall r, (e_type e <> T_DATA -> Q r) -> Q (match e_type e with T_DATA => ROk cur (e_data e) | _ => r end)).
  { intros cur e Q He H1 r H2. destruct (e_type e); auto; apply H2; discriminate. }
  induction fuel as [|fuel IH]; intros k applied cur e R He Hc Hf; cbn [read_loop];
    (apply X; [exact He|intros Ht; subst e; repeat split; auto; try lia; intros i Hi; lia|]); intros Ht; subst e;
    (destruct (Z.ltb_spec applied (cur + 1)) as [Hl|Hl]; [left; split; [reflexivity|]; intros i Hi; replace i with cur by lia; exact Ht|]).
  - lia.
  - destruct (get k (cur + 1)) as [e'|] eqn:E.
    + specialize (IH (S k) applied (cur + 1) e' R (R _ _ _ E) ltac:(lia) ltac:(lia)).
      assert (N : forall j, no_user_data L (cur + 1) j -> no_user_data L cur j).
      { intros j Hj i Hi. destruct (Z.eq_dec i cur) as [->|]; [exact Ht|apply Hj; lia]. }
      destruct (read_loop _ _ _ _ _ _) as [c|j d].
      * destruct IH as [[-> IH]|[-> [j [n [H1 [H2 H3]]]]]]; [left; auto|right]. split; auto. exists j, n. split; [lia|auto].
      * destruct IH as [H1 [H2 [H3 H4]]]. split; [lia|]. auto.
    + right. split; auto. exists (cur + 1), k. split; [lia|]. split; auto. intros i Hi. replace i with cur by lia. exact Ht.
Qed.

(** [applied] is at most the committed index (C20), so every index returned is committed. *)
Theorem read_log_spec : forall L get applied index, reads L get ->
  match read_committed get applied index with
  | ROk j d => 0 < index <= j /\ j <= applied /\ e_type (L j) = T_DATA /\ d = e_data (L j) /\ no_user_data L index j
  | RErr c => (c = EINVAL /\ index <= 0) \/
              (c = ENOMOREUSERLOG /\ 0 < index /\ no_user_data L index (applied + 1)) \/
              (c = ELOGDELETED /\ 0 < index /\ exists j n, index <= j <= applied /\ get n j = None /\ no_user_data L index j)
  end.
Proof.
  intros L get applied index R. unfold read_committed. destruct (Z.leb_spec index 0); [left; auto|].
  destruct (Z.ltb_spec applied index); [right; left; repeat split; auto; intros i Hi; lia|].
  destruct (get O index) as [e|] eqn:E.
  - pose proof (read_loop_ok (Z.to_nat (applied - index)) L get 1%nat applied index e R (R _ _ _ E) ltac:(lia) ltac:(lia)) as K.
    destruct (read_loop _ _ _ _ _ _) as [c|j d].
    + destruct K as [[-> K]|[-> [j [n [H1 [H2 H3]]]]]]; [right; left; auto|right; right]. repeat split; auto. exists j, n. split; [lia|auto].
    + destruct K as [H1 [H2 [H3 H4]]]. repeat split; auto; lia.
  - right; right. repeat split; auto. exists index, O. split; [lia|]. split; auto. intros i Hi; lia.
Qed.
(** Conversely, when nothing is deleted in between the first user entry is found. *)
Theorem read_log_finds : forall L get applied index j, reads L get -> 0 < index <= j -> j <= applied ->
  e_type (L j) = T_DATA -> no_user_data L index j -> (forall n i, index <= i <= j -> get n i = Some (L i)) ->
  read_committed get applied index = ROk j (e_data (L j)).
Proof.
  intros L get applied index j R H1 H2 H3 H4 H5. pose proof (read_log_spec L get applied index R) as K.
  destruct (read_committed get applied index) as [c|j' d].
  - exfalso. destruct K as [[_ K]|[[_ [_ K]]|[_ [_ [i [n [K1 [K2 K3]]]]]]]]; [lia|apply (K j); auto; lia|].
    destruct (Z_le_gt_dec i j); [rewrite H5 in K2 by lia; discriminate|apply (K3 j); auto; lia].
  - destruct K as [K1 [K2 [K3 [K4 K5]]]]. assert (j' = j).
    { destruct (Z.lt_trichotomy j' j) as [Hl|[He|Hl]]; auto; exfalso; [apply (H4 j'); auto; lia|apply (K5 j); auto; lia]. }
    subst. reflexivity.
Qed.

Definition ex_L (i : Z) : entry := if i =? 3 then mkEntry (mkId 3 1) T_DATA [7] None None else mkEntry (mkId i 1) T_CONF [] (Some [1]) None.
Example ex_read : reads ex_L (fun _ i => Some (ex_L i)) /\ reads ex_L (fun k i => if i <? Z.of_nat k * 2 then None else Some (ex_L i)) /\
  read_committed (fun _ i => Some (ex_L i)) 5 1 = ROk 3 [7] /\ read_committed (fun _ i => Some (ex_L i)) 5 4 = RErr ENOMOREUSERLOG /\
  read_committed (fun k i => if i <? Z.of_nat k * 2 then None else Some (ex_L i)) 5 1 = RErr ELOGDELETED /\
  read_committed (fun _ i => Some (ex_L i)) 2 1 = RErr ENOMOREUSERLOG /\ read_committed (fun _ i => Some (ex_L i)) 2 0 = RErr EINVAL.
Proof.
  split; [intros k i e H; congruence|]. split; [intros k i e H; destruct (_ <? _); congruence|]. repeat split; vm_compute; reflexivity.
Qed.
Print Assumptions read_log_spec.
Print Assumptions read_log_finds.
