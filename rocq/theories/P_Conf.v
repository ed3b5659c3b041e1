(** Properties C31, C32. *)
From Verif Require Import Base Conf ConfSpec ConfProofs.

(** C31 (a) *)
Theorem peer_text_roundtrip : forall p,
  valid_peer p -> peer_parse (peer_to_string p) = Some p.
Proof. exact peer_roundtrip. Qed.
Print Assumptions peer_text_roundtrip.

(** C31 (b): also the roles, and the same set object. *)
Theorem configuration_text_roundtrip : forall c,
  wf_conf c -> Forall valid_peer c -> conf_parse (conf_to_string c) = Some c.
Proof. exact conf_roundtrip. Qed.
Print Assumptions configuration_text_roundtrip.

(** Non-vacuity: 10.0.0.255:8100:7:1 and a second peer. *)
Definition ex_p1 := mkPeer (10 * 16777216 + 255) 8100 7 1.
Definition ex_p2 := mkPeer (192 * 16777216 + 168 * 65536) 0 0 0.
Example conf_text_example :
  wf_conf [ex_p1; ex_p2] /\ Forall valid_peer [ex_p1; ex_p2] /\
  peer_to_string ex_p1 =
    [49;48;46;48;46;48;46;50;53;53;58;56;49;48;48;58;55;58;49] /\
  conf_parse (conf_to_string [ex_p1; ex_p2]) = Some [ex_p1; ex_p2].
Proof.
  split; [|split; [|split; vm_compute; reflexivity]].
  - split; [|split; [intros q []|exact I]]. intros q [<-|[]]. vm_compute. reflexivity.
  - constructor; [|constructor; [|constructor]]; (split; [unfold ex_p1, ex_p2, p_ip|unfold ex_p1, ex_p2, p_role]; lia).
Qed.

(** C32: the value of each operation as a set of identities. *)
Theorem configuration_add : forall c p, wf_conf c ->
  wf_conf (fst (conf_add c p)) /\
  (forall k, mem k (fst (conf_add c p)) <-> k = key p \/ mem k c) /\
  (snd (conf_add c p) = true <-> ~ mem (key p) c) /\
  (forall q, In q c -> In q (fst (conf_add c p))) /\
  conf_size (fst (conf_add c p)) = conf_size c + (if snd (conf_add c p) then 1 else 0).
Proof.
  intros c p H. unfold conf_add. split; [exact (insert_wf p c H)|].
  split; [exact (fun k => insert_mem p c k H)|]. split; [exact (insert_bool p c H)|].
  split; [exact (insert_keeps p c)|exact (insert_size p c)].
Qed.
Print Assumptions configuration_add.

Theorem configuration_remove : forall c p, wf_conf c ->
  wf_conf (fst (conf_remove c p)) /\
  (forall k, mem k (fst (conf_remove c p)) <-> k <> key p /\ mem k c) /\
  (snd (conf_remove c p) = true <-> mem (key p) c) /\
  (forall q, In q c -> key q <> key p -> In q (fst (conf_remove c p))).
Proof.
  intros c p H. unfold conf_remove. split; [exact (erase_wf p c H)|].
  split; [exact (fun k => erase_mem p c k H)|]. split; [exact (erase_bool p c)|exact (erase_keeps p c)].
Qed.
Print Assumptions configuration_remove.

Theorem configuration_contains : forall c p, conf_contains c p = true <-> mem (key p) c.
Proof. exact contains_mem. Qed.
Print Assumptions configuration_contains.

Theorem configuration_of_vector : forall ps,
  wf_conf (conf_of ps) /\ forall k, mem k (conf_of ps) <-> mem k ps.
Proof. exact conf_of_spec. Qed.
Print Assumptions configuration_of_vector.

Theorem configuration_equals : forall c d, wf_conf c -> wf_conf d ->
  (conf_equals c d = true <-> forall k, mem k c <-> mem k d).
Proof. exact equals_spec. Qed.
Print Assumptions configuration_equals.

Theorem configuration_equals_vector : forall c ps, wf_conf c ->
  (conf_equals_vec c ps = true <-> forall k, mem k c <-> mem k ps).
Proof. exact equals_vec_spec. Qed.
Print Assumptions configuration_equals_vector.

Theorem configuration_diffs : forall c rhs, wf_conf c -> wf_conf rhs ->
  let '(included, excluded) := conf_diffs c rhs in
  wf_conf included /\ wf_conf excluded /\
  (forall k, mem k included <-> mem k c /\ ~ mem k rhs) /\
  (forall k, mem k excluded <-> mem k rhs /\ ~ mem k c).
Proof.
  intros c rhs H1 H2. cbn.
  destruct (erase_all_spec rhs c H1) as [A1 [A2 _]], (erase_all_spec c rhs H2) as [B1 [B2 _]].
  exact (conj A1 (conj B1 (conj A2 B2))).
Qed.
Print Assumptions configuration_diffs.

(** The number of peers is the number of distinct identities. *)
Theorem configuration_size_counts_distinct : forall ps,
  conf_size (conf_of ps) = zlen (nodup key_dec (map key ps)).
Proof.
  intros ps. destruct (conf_of_spec ps) as [W M]. unfold conf_size, zlen. f_equal.
  rewrite <- (map_length key (conf_of ps)).
  apply Nat.le_antisymm; apply NoDup_incl_length.
  - exact (wf_nodup _ W).
  - intros k Hk. apply nodup_In. apply M. exact Hk.
  - apply NoDup_nodup.
  - intros k Hk. apply nodup_In in Hk. apply M. exact Hk.
Qed.
Print Assumptions configuration_size_counts_distinct.

(** Adding a peer that is present under another role keeps the old role (observed
    behaviour of std::set::insert; a role cannot be changed by add_peer). *)
Example add_keeps_role :
  let w := mkPeer 1 2 3 1 in let r := mkPeer 1 2 3 0 in
  conf_add (conf_of [w]) r = ([w], false).
Proof. vm_compute. reflexivity. Qed.

Example conf_ops_example :
  let a := mkPeer 1 1 0 0 in let b := mkPeer 2 1 0 0 in let c := mkPeer 3 1 0 0 in
  wf_conf [a; b] /\ conf_diffs (conf_of [b; a; b]) (conf_of [c; b]) = ([a], [c]) /\
  conf_equals_vec [a; b] [b; a; a] = true /\ conf_equals [a; b] [a; c] = false.
Proof.
  cbv zeta. split; [|split; [|split]; vm_compute; reflexivity].
  split; [|split; [intros q []|exact I]]. intros q [<-|[]]. reflexivity.
Qed.
