From Verif Require Import Base BaseLemmas Conf ConfSpec.

Arguments mem : simpl never.
(** *** Text *)
Lemma value_snoc : forall l c, value (l ++ [c]) = 10 * value l + (c - 48).
Proof. intros. unfold value. rewrite fold_left_app. reflexivity. Qed.

Lemma print_nat_ok : forall fuel n, 0 <= n -> Z.log2 n < Z.of_nat fuel ->
  value (print_nat fuel n) = n /\ Forall (fun c => is_digit c = true) (print_nat fuel n) /\
  print_nat fuel n <> [].
Proof.
  induction fuel as [|f IH]; intros n Hn Hf.
  - pose proof (Z.log2_nonneg n). lia.
  - cbn [print_nat]. destruct (Z.ltb_spec n 10).
    + unfold value; cbn [fold_left]. split; [lia|]. split; [|discriminate].
      constructor; auto. unfold is_digit. apply andb_true_iff. rewrite !Z.leb_le. lia.
    + assert (Hd : 0 <= n / 10) by (apply Z.div_pos; lia).
      assert (Hl : Z.log2 (n / 10) < Z.of_nat f).
      { assert (Z.log2 (n / 10) <= Z.log2 (n / 2)).
        { apply Z.log2_le_mono. apply Z.div_le_compat_l; lia. }
        rewrite <- Z.div2_div in H0. rewrite Z.div2_spec in H0.
        rewrite Z.log2_shiftr in H0 by lia.
        assert (3 <= Z.log2 n). { change 3 with (Z.log2 8). apply Z.log2_le_mono. lia. }
        lia. }
      destruct (IH _ Hd Hl) as [I1 [I2 I3]].
      assert (Hm : 0 <= n mod 10 < 10) by (apply Z.mod_pos_bound; lia).
      split; [|split].
      * rewrite value_snoc, I1. pose proof (Z.div_mod n 10). lia.
      * apply Forall_app; split; auto. constructor; auto.
        unfold is_digit. apply andb_true_iff. rewrite !Z.leb_le. lia.
      * intros E. apply app_eq_nil in E. destruct E; discriminate.
Qed.

Lemma span_app : forall f a r, Forall (fun c => f c = true) a ->
  match r with [] => True | c :: _ => f c = false end -> span f (a ++ r) = (a, r).
Proof.
  induction a as [|c a IH]; intros r H Hr; cbn.
  - destruct r; cbn; auto. rewrite Hr. auto.
  - inversion H; subst. rewrite H2. rewrite IH; auto.
Qed.

Definition pn (n : Z) := print_nat (S (Z.to_nat (Z.log2 n))) n.
Lemma pn_ok : forall n, 0 <= n ->
  value (pn n) = n /\ Forall (fun c => is_digit c = true) (pn n) /\ pn n <> [].
Proof. intros. apply print_nat_ok; auto. pose proof (Z.log2_nonneg n). lia. Qed.

Lemma digit_not_space : forall c, is_digit c = true -> is_space c = false.
Proof.
  unfold is_digit, is_space. intros c H. apply andb_true_iff in H. destruct H as [H1 H2].
  apply Z.leb_le in H1, H2. apply orb_false_iff. split. apply Z.eqb_neq. lia.
  apply andb_false_iff. right. apply Z.leb_gt. lia.
Qed.

Lemma digit_neq : forall c x, is_digit c = true -> x < 48 \/ 57 < x -> (c =? x) = false.
Proof.
  unfold is_digit. intros c x H Hx. apply andb_true_iff in H. destruct H as [H1 H2].
  apply Z.leb_le in H1, H2. apply Z.eqb_neq. lia.
Qed.

Definition stops (r : text) : Prop := match r with [] => True | c :: _ => is_digit c = false end.

Lemma scan_print_int : forall n r, stops r -> scan_int (print_int n ++ r) = Some (n, r).
Proof.
  intros n r Hr. unfold print_int, scan_int. destruct (Z.ltb_spec n 0).
  - fold (pn (-n)). destruct (pn_ok (-n)) as [V [D NE]]; try lia.
    remember (pn (-n)) as ds eqn:Eds.
    assert (S0 : span is_space ((ch_minus :: ds) ++ r) = ([], ch_minus :: ds ++ r)) by reflexivity.
    rewrite S0. cbn [snd]. change (ch_minus =? ch_minus) with true. cbv iota.
    rewrite span_app; auto. rewrite V. destruct ds; [congruence|]. f_equal. f_equal. lia.
  - fold (pn n). destruct (pn_ok n) as [V [D NE]]; auto.
    destruct (pn n) as [|c ds] eqn:E; try congruence.
    inversion D; subst. pose proof (digit_not_space _ H2) as Hs.
    cbn [app span]. rewrite Hs. cbn [snd].
    rewrite (digit_neq c ch_minus), (digit_neq c ch_plus) by (auto; unfold ch_minus, ch_plus; lia).
    rewrite app_comm_cons. rewrite span_app; auto. rewrite Z.mul_1_l. reflexivity.
Qed.

Lemma scan_octet_all :
  forallb (fun k => let n := Z.of_nat k in
     match print_int n with
     | c :: ds => negb ((c =? 48) && negb (match ds with [] => true | _ => false end))
     | [] => false end) (seq 0 256) = true.
Proof. vm_compute. reflexivity. Qed.

Lemma scan_octet_print : forall n r, 0 <= n < 256 -> stops r ->
  scan_octet (print_int n ++ r) = Some (n, r).
Proof.
  intros n r Hn Hr. unfold scan_octet.
  pose proof scan_octet_all as Ha. rewrite forallb_forall in Ha.
  specialize (Ha (Z.to_nat n)). cbv zeta in Ha. rewrite Z2Nat.id in Ha by lia.
  assert (Hin : In (Z.to_nat n) (seq 0 256)) by (apply in_seq; lia). specialize (Ha Hin).
  unfold print_int in *. destruct (Z.ltb_spec n 0); try lia. fold (pn n) in *.
  destruct (pn_ok n) as [V [D NE]]; try lia.
  rewrite span_app; auto. destruct (pn n) as [|c ds]; try congruence.
  apply negb_true_iff in Ha. rewrite Ha. rewrite V. destruct (Z.leb_spec n 255); auto. lia.
Qed.

Lemma print_int_nonempty_digit : forall n, 0 <= n ->
  exists c ds, print_int n = c :: ds /\ is_digit c = true.
Proof.
  intros n Hn. unfold print_int. destruct (Z.ltb_spec n 0); try lia. fold (pn n).
  destruct (pn_ok n) as [V [D NE]]; auto. destruct (pn n); try congruence. inversion D; eauto.
Qed.

Lemma octets : forall ip, 0 <= ip < 4294967296 ->
  0 <= ip / 16777216 < 256 /\ 0 <= ip / 65536 mod 256 < 256 /\
  0 <= ip / 256 mod 256 < 256 /\ 0 <= ip mod 256 < 256 /\
  ip / 16777216 * 16777216 + ip / 65536 mod 256 * 65536 + ip / 256 mod 256 * 256 + ip mod 256 = ip.
Proof.
  intros ip H.
  repeat split; try (apply Z.mod_pos_bound; lia); try (apply Z.div_pos; lia);
    try (apply Z.div_lt_upper_bound; lia).
  assert (A : ip = 256 * (ip / 256) + ip mod 256) by (apply Z.div_mod; lia).
  assert (B : ip / 256 = 256 * (ip / 65536) + ip / 256 mod 256).
  { replace (ip / 65536) with (ip / 256 / 256) by (rewrite Z.div_div by lia; reflexivity).
    apply Z.div_mod; lia. }
  assert (C : ip / 65536 = 256 * (ip / 16777216) + ip / 65536 mod 256).
  { replace (ip / 16777216) with (ip / 65536 / 256) by (rewrite Z.div_div by lia; reflexivity).
    apply Z.div_mod; lia. }
  lia.
Qed.

Lemma str2ip_print : forall ip, 0 <= ip < 4294967296 -> str2ip (print_ip ip) = Some ip.
Proof.
  intros ip H. destruct (octets ip H) as [O1 [O2 [O3 [O4 O5]]]].
  unfold str2ip, print_ip.
  destruct (print_int_nonempty_digit (ip / 16777216)) as [c [ds [E D]]]; try lia.
  assert (S1 : forall r, snd (span is_space (print_int (ip / 16777216) ++ r)) = print_int (ip / 16777216) ++ r).
  { intros. rewrite E. cbn [app span]. rewrite (digit_not_space _ D). reflexivity. }
  rewrite S1.
  assert (SD : forall r, stops (ch_dot :: r)) by (intros; reflexivity).
  rewrite scan_octet_print by auto. cbn [bind scan_dot]. change (ch_dot =? ch_dot) with true. cbv iota. cbn [bind].
  rewrite scan_octet_print by auto. cbn [bind scan_dot]. change (ch_dot =? ch_dot) with true. cbv iota. cbn [bind].
  rewrite scan_octet_print by auto. cbn [bind scan_dot]. change (ch_dot =? ch_dot) with true. cbv iota. cbn [bind].
  rewrite <- (app_nil_r (print_int (ip mod 256))).
  rewrite scan_octet_print by (auto; exact I). cbn [bind].
  rewrite O5. reflexivity.
Qed.

Lemma print_int_chars : forall n, Forall (fun c => is_digit c = true \/ c = ch_minus) (print_int n).
Proof.
  intros n. unfold print_int. destruct (Z.ltb_spec n 0).
  - fold (pn (-n)). constructor; auto. destruct (pn_ok (-n)) as [_ [D _]]; try lia.
    eapply Forall_impl; [|exact D]. cbn; auto.
  - fold (pn n). destruct (pn_ok n) as [_ [D _]]; auto. eapply Forall_impl; [|exact D]. cbn; auto.
Qed.

Lemma print_ip_chars : forall ip,
  Forall (fun c => is_digit c = true \/ c = ch_minus \/ c = ch_dot) (print_ip ip).
Proof.
  intros. unfold print_ip.
  assert (P : forall n, Forall (fun c => is_digit c = true \/ c = ch_minus \/ c = ch_dot) (print_int n)).
  { intros. eapply Forall_impl; [|apply print_int_chars]. cbn. tauto. }
  repeat (apply Forall_app; split; [apply P|]; constructor; [tauto|]). apply P.
Qed.

Lemma peer_chars : forall p c, In c (peer_to_string p) ->
  is_digit c = true \/ c = ch_minus \/ c = ch_dot \/ c = ch_colon.
Proof.
  intros p c. unfold peer_to_string.
  assert (P : forall n, In c (print_int n) -> is_digit c = true \/ c = ch_minus \/ c = ch_dot \/ c = ch_colon).
  { intros n H. pose proof (print_int_chars n) as F. rewrite Forall_forall in F. apply F in H. tauto. }
  rewrite in_app_iff. cbn [In]. rewrite in_app_iff. cbn [In]. rewrite in_app_iff. cbn [In].
  intros [H|[H|[H|[H|[H|[H|H]]]]]]; subst; eauto.
  pose proof (print_ip_chars (p_ip p)) as F. rewrite Forall_forall in F. apply F in H. tauto.
Qed.

Lemma print_int_ne : forall n, print_int n <> [].
Proof.
  intros n. unfold print_int. destruct (Z.ltb_spec n 0); [discriminate|].
  fold (pn n). destruct (pn_ok n) as [_ [_ NE]]; auto.
Qed.

Lemma print_ip_ne : forall n, print_ip n <> [].
Proof. intros n. unfold print_ip. intros E. apply app_eq_nil in E. destruct E. discriminate. Qed.

Lemma colon_then_int : forall n r, scan_colons (ch_colon :: print_int n ++ r) = Some (print_int n ++ r).
Proof.
  intros. unfold scan_colons. change (ch_colon :: print_int n ++ r) with ([ch_colon] ++ (print_int n ++ r)).
  rewrite span_app.
  - reflexivity.
  - constructor; auto.
  - pose proof (print_int_chars n) as F. pose proof (print_int_ne n).
    destruct (print_int n) as [|c ds]; try congruence. cbn. inversion F; subst.
    destruct H2 as [D| ->]; [apply digit_neq; auto; unfold ch_colon; lia|reflexivity].
Qed.

Lemma peer_roundtrip : forall p, valid_peer p -> peer_parse (peer_to_string p) = Some p.
Proof.
  intros p [Hip Hr]. unfold peer_parse, peer_to_string.
  assert (S1 : forall r, scan_nocolon (print_ip (p_ip p) ++ ch_colon :: r) = Some (print_ip (p_ip p), ch_colon :: r)).
  { intros. unfold scan_nocolon. rewrite span_app; [|  |reflexivity].
    - pose proof (print_ip_ne (p_ip p)). destruct (print_ip (p_ip p)); [congruence|reflexivity].
    - eapply Forall_impl; [|apply print_ip_chars]. cbn. intros c [D|[->| ->]]; try reflexivity.
      rewrite digit_neq; auto. unfold ch_colon; lia. }
  rewrite S1. clear S1. rewrite colon_then_int.
  rewrite scan_print_int by reflexivity. rewrite colon_then_int.
  rewrite scan_print_int by reflexivity.
  rewrite <- (app_nil_r (print_int (p_role p))). rewrite colon_then_int.
  rewrite scan_print_int by exact I.
  destruct (Z.leb_spec 0 (p_role p)); try lia. destruct (Z.leb_spec (p_role p) 1); try lia.
  cbn [andb negb]. rewrite str2ip_print by auto. destruct p; reflexivity.
Qed.

(** *** Order *)
Lemma ltb_trans : forall a b c, peer_ltb a b = true -> peer_ltb b c = true -> peer_ltb a c = true.
Proof.
  unfold peer_ltb. intros a b c.
  destruct (Z.eqb_spec (p_ip a) (p_ip b)), (Z.eqb_spec (p_ip b) (p_ip c)), (Z.eqb_spec (p_ip a) (p_ip c)),
    (Z.eqb_spec (p_port a) (p_port b)), (Z.eqb_spec (p_port b) (p_port c)), (Z.eqb_spec (p_port a) (p_port c));
    cbn; rewrite ?Z.ltb_lt; intros; try lia.
Qed.

Lemma ltb_irrefl : forall a b, key a = key b -> peer_ltb a b = false.
Proof.
  unfold peer_ltb, key. intros a b H. inversion H as [[E1 E2 E3]]. rewrite E1, E2, E3, !Z.eqb_refl. cbn.
  apply Z.ltb_irrefl.
Qed.

Lemma ltb_total : forall a b, peer_ltb a b = false -> peer_ltb b a = false -> key a = key b.
Proof.
  unfold peer_ltb, key. intros a b.
  rewrite (Z.eqb_sym (p_ip b)), (Z.eqb_sym (p_port b)).
  destruct (Z.eqb_spec (p_ip a) (p_ip b)), (Z.eqb_spec (p_port a) (p_port b)); cbn;
    rewrite ?Z.ltb_ge; intros; try lia. f_equal; [f_equal|]; lia.
Qed.

Lemma eqb_key : forall a b, peer_eqb a b = true <-> key a = key b.
Proof.
  unfold peer_eqb, key. intros. rewrite !andb_true_iff, !Z.eqb_eq. split.
  - intros [[-> ->] ->]. auto.
  - intros H. inversion H. auto.
Qed.

Lemma ltb_key : forall a b c, key a = key b -> peer_ltb a c = peer_ltb b c.
Proof. unfold key, peer_ltb. intros a b c H. inversion H. auto. Qed.

(** *** Sets *)
Lemma insert_In : forall p c q, In q (fst (set_insert p c)) -> q = p \/ In q c.
Proof.
  induction c as [|x c IH]; cbn; intros q H; [intuition|].
  destruct (peer_ltb p x); cbn in H; [intuition|].
  destruct (peer_ltb x p).
  - destruct (set_insert p c) as [c' b]. cbn in *. destruct H as [H|H]; auto. apply IH in H. intuition.
  - cbn in H; intuition.
Qed.

Lemma insert_keeps : forall p c q, In q c -> In q (fst (set_insert p c)).
Proof.
  induction c as [|x c IH]; cbn; intros q H; [tauto|].
  destruct (peer_ltb p x); cbn; [tauto|].
  destruct (peer_ltb x p).
  - destruct (set_insert p c) as [c' b]. cbn in *. destruct H as [H|H]; auto.
  - cbn; tauto.
Qed.

Lemma insert_wf : forall p c, wf_conf c -> wf_conf (fst (set_insert p c)).
Proof.
  induction c as [|x c IH]; intros H; cbn.
  - split; [intros q []|exact I].
  - destruct (peer_ltb p x) eqn:E1.
    + cbn. split; auto. intros q [<-|Hq]; auto. destruct H as [H _]. eapply ltb_trans; eauto.
    + destruct (peer_ltb x p) eqn:E2; auto.
      destruct H as [H1 H2]. specialize (IH H2).
      pose proof (insert_In p c) as HI.
      destruct (set_insert p c) as [c' b]. cbn in *. split; auto.
      intros q Hq. apply HI in Hq. destruct Hq as [->|Hq]; auto.
Qed.

Lemma mem_ex : forall k c, mem k c <-> exists p, In p c /\ key p = k.
Proof. unfold mem. intros. rewrite in_map_iff. split; intros [p H]; exists p; tauto. Qed.

Lemma insert_mem : forall p c k, wf_conf c ->
  (mem k (fst (set_insert p c)) <-> k = key p \/ mem k c).
Proof.
  induction c as [|x c IH]; intros k H; cbn.
  - unfold mem; cbn. intuition.
  - destruct (peer_ltb p x) eqn:E1; [unfold mem; cbn; intuition|].
    destruct (peer_ltb x p) eqn:E2.
    + destruct H as [_ H]. specialize (IH k H). destruct (set_insert p c) as [c' b].
      unfold mem in *; cbn in *. rewrite IH. intuition.
    + unfold mem; cbn. pose proof (ltb_total _ _ E1 E2). intuition congruence.
Qed.

Lemma insert_bool : forall p c, wf_conf c ->
  (snd (set_insert p c) = true <-> ~ mem (key p) c).
Proof.
  induction c as [|x c IH]; intros H; cbn.
  - unfold mem; cbn. intuition.
  - destruct H as [H1 H2].
    destruct (peer_ltb p x) eqn:E1.
    + cbn. split; auto. intros _ Hm. apply (mem_ex (key p) (x :: c)) in Hm. destruct Hm as [q [[<-|Hq] Hk]].
      * rewrite (ltb_irrefl p x) in E1; congruence.
      * apply H1 in Hq. assert (peer_ltb p q = true) by (eapply ltb_trans; eauto).
        rewrite (ltb_irrefl p q) in H; congruence.
    + destruct (peer_ltb x p) eqn:E2.
      * specialize (IH H2). destruct (set_insert p c) as [c' b]. unfold mem in *; cbn in *.
        rewrite IH. split; intros H Hm; apply H; auto. destruct Hm as [Hm|Hm]; auto.
        rewrite (ltb_irrefl x p) in E2; congruence.
      * cbn. split; [discriminate|]. intros Hm. exfalso. apply Hm. unfold mem; cbn. left.
        symmetry. apply ltb_total; auto.
Qed.

Lemma insert_size : forall p c,
  conf_size (fst (set_insert p c)) = conf_size c + (if snd (set_insert p c) then 1 else 0).
Proof.
  unfold conf_size. induction c as [|x c IH]; cbn; [reflexivity|].
  destruct (peer_ltb p x); cbn; [zl; lia|]. destruct (peer_ltb x p); cbn; [|zl; lia].
  destruct (set_insert p c) as [c' b]. cbn in *. zl. lia.
Qed.

Lemma erase_sub : forall p c q, In q (fst (set_erase p c)) -> In q c.
Proof.
  induction c as [|x c IH]; cbn; intros q H; auto.
  destruct (peer_eqb p x); cbn in *; auto. destruct (set_erase p c). cbn in *. destruct H; auto.
Qed.

Lemma erase_wf : forall p c, wf_conf c -> wf_conf (fst (set_erase p c)).
Proof.
  induction c as [|x c IH]; cbn; intros H; auto. destruct H as [H1 H2].
  destruct (peer_eqb p x); cbn; auto. pose proof (erase_sub p c) as HS.
  destruct (set_erase p c). cbn in *. split; auto.
Qed.

Lemma wf_notin_tail : forall x c, wf_conf (x :: c) -> ~ mem (key x) c.
Proof.
  intros x c [H _] Hm. rewrite mem_ex in Hm. destruct Hm as [q [Hq Hk]].
  apply H in Hq. rewrite ltb_irrefl in Hq; congruence.
Qed.

Lemma erase_mem : forall p c k, wf_conf c ->
  (mem k (fst (set_erase p c)) <-> k <> key p /\ mem k c).
Proof.
  induction c as [|x c IH]; intros k H.
  - cbn. unfold mem; cbn. intuition.
  - pose proof (wf_notin_tail x c H) as Hn. destruct H as [H1 H2]. cbn.
    destruct (peer_eqb p x) eqn:E.
    + apply eqb_key in E. cbn. unfold mem in *; cbn. rewrite E. split.
      * intros Hm. split; auto. intros ->. auto.
      * intros [A [B|B]]; auto. congruence.
    + assert (key p <> key x) by (intros X; apply eqb_key in X; congruence).
      specialize (IH k H2). destruct (set_erase p c). unfold mem in *; cbn in *.
      rewrite IH. intuition congruence.
Qed.

Lemma erase_bool : forall p c, snd (set_erase p c) = true <-> mem (key p) c.
Proof.
  induction c as [|x c IH]; cbn.
  - unfold mem; cbn. intuition congruence.
  - destruct (peer_eqb p x) eqn:E.
    + apply eqb_key in E. cbn. unfold mem; cbn. intuition.
    + assert (key p <> key x) by (intros X; apply eqb_key in X; congruence).
      destruct (set_erase p c). unfold mem in *; cbn in *. rewrite IH. intuition congruence.
Qed.

Lemma erase_keeps : forall p c q, In q c -> key q <> key p -> In q (fst (set_erase p c)).
Proof.
  induction c as [|x c IH]; cbn; intros q H Hk; auto.
  destruct (peer_eqb p x) eqn:E; cbn.
  - apply eqb_key in E. destruct H as [->|H]; auto. congruence.
  - specialize (IH q). destruct (set_erase p c). cbn in *. destruct H; auto.
Qed.

Lemma contains_mem : forall c p, conf_contains c p = true <-> mem (key p) c.
Proof.
  intros. unfold conf_contains. rewrite existsb_exists, mem_ex. split; intros [q [H1 H2]]; exists q; split; auto.
  - apply eqb_key in H2. auto.
  - apply eqb_key. auto.
Qed.

Lemma conf_of_acc : forall ps c, wf_conf c ->
  wf_conf (fold_left (fun c p => fst (set_insert p c)) ps c) /\
  forall k, mem k (fold_left (fun c p => fst (set_insert p c)) ps c) <-> mem k ps \/ mem k c.
Proof.
  induction ps as [|p ps IH]; intros c H; cbn.
  - split; auto. unfold mem; cbn. intuition.
  - destruct (IH _ (insert_wf p c H)) as [I1 I2]. split; auto.
    intros k. rewrite I2, insert_mem by auto. unfold mem; cbn. intuition.
Qed.

Lemma conf_of_spec : forall ps, wf_conf (conf_of ps) /\ forall k, mem k (conf_of ps) <-> mem k ps.
Proof.
  intros. destruct (conf_of_acc ps [] I) as [H1 H2]. split; auto.
  intros. unfold conf_of. rewrite H2. unfold mem at 2; cbn. tauto.
Qed.

Lemma erase_all_spec : forall ps c, wf_conf c ->
  wf_conf (erase_all ps c) /\ (forall k, mem k (erase_all ps c) <-> mem k c /\ ~ mem k ps) /\
  (forall q, In q (erase_all ps c) -> In q c).
Proof.
  unfold erase_all. induction ps as [|p ps IH]; intros c H; cbn.
  - split; auto. split; auto. intros k. unfold mem at 3; cbn. tauto.
  - destruct (IH _ (erase_wf p c H)) as [I1 [I2 I3]]. split; auto. split.
    + intros k. rewrite I2, erase_mem by auto.
      assert (X : mem k (p :: ps) <-> k = key p \/ mem k ps) by (unfold mem; cbn; intuition).
      rewrite X. tauto.
    + intros q Hq. apply I3, erase_sub in Hq. auto.
Qed.

Lemma wf_nodup : forall c, wf_conf c -> NoDup (map key c).
Proof.
  induction c as [|x c IH]; intros H; cbn; constructor.
  - exact (wf_notin_tail x c H).
  - apply IH. destruct H; auto.
Qed.

Lemma key_dec : forall a b : Z * Z * Z, {a = b} + {a <> b}.
Proof. repeat decide equality. Qed.

Lemma same_keys_size : forall c d, wf_conf c -> wf_conf d ->
  (forall k, mem k c -> mem k d) -> conf_size c = conf_size d -> forall k, mem k d -> mem k c.
Proof.
  unfold conf_size, zlen, mem. intros c d Hc Hd Hi Hl k Hk.
  assert (Hin : incl (map key d) (map key c)).
  { apply NoDup_length_incl. apply wf_nodup; auto. rewrite !map_length. lia. exact Hi. }
  auto.
Qed.

Lemma same_mem_size : forall c d, wf_conf c -> wf_conf d ->
  (forall k, mem k c <-> mem k d) -> conf_size c = conf_size d.
Proof.
  unfold conf_size, zlen, mem. intros c d Hc Hd H. f_equal.
  rewrite <- (map_length key c), <- (map_length key d).
  apply Nat.le_antisymm; apply NoDup_incl_length; try (apply wf_nodup; auto); intros k Hk; apply H; auto.
Qed.

Lemma equals_spec : forall c d, wf_conf c -> wf_conf d ->
  (conf_equals c d = true <-> forall k, mem k c <-> mem k d).
Proof.
  intros c d Hc Hd. unfold conf_equals. rewrite andb_true_iff, Z.eqb_eq, forallb_forall. split.
  - intros [Hs Hf]. assert (A : forall k, mem k c -> mem k d).
    { intros k Hk. rewrite mem_ex in Hk. destruct Hk as [p [Hp <-]]. apply contains_mem; auto. }
    intros k. split; auto. apply same_keys_size; auto.
  - intros H. split. apply same_mem_size; auto. intros p Hp. apply contains_mem, H.
    apply mem_ex. eauto.
Qed.

Lemma equals_vec_spec : forall c ps, wf_conf c ->
  (conf_equals_vec c ps = true <-> forall k, mem k c <-> mem k ps).
Proof.
  intros c ps Hc. unfold conf_equals_vec. destruct (conf_of_spec ps) as [W M].
  rewrite andb_true_iff, Z.eqb_eq. unfold conf_contains_all. rewrite forallb_forall. split.
  - intros [Hf Hs]. assert (A : forall k, mem k ps -> mem k c).
    { intros k Hk. rewrite mem_ex in Hk. destruct Hk as [p [Hp <-]]. apply contains_mem; auto. }
    intros k. split; auto. intros Hk. apply M.
    eapply same_keys_size with (d := c); eauto. intros k0 Hk0. apply A, M, Hk0.
  - intros H. split.
    + intros p Hp. apply contains_mem, H, mem_ex. eauto.
    + apply same_mem_size; auto. intros k. rewrite M. symmetry. apply H.
Qed.

(** *** Configuration text *)
Lemma insert_last : forall c p, wf_conf (c ++ [p]) -> set_insert p c = (c ++ [p], true).
Proof.
  induction c as [|x c IH]; cbn; intros p H; auto.
  destruct H as [H1 H2]. assert (Hxp : peer_ltb x p = true) by (apply H1; apply in_or_app; cbn; auto).
  destruct (peer_ltb p x) eqn:E.
  - assert (peer_ltb p p = true) by (eapply ltb_trans; eauto).
    rewrite ltb_irrefl in H; congruence.
  - rewrite Hxp, IH by auto. auto.
Qed.

Lemma wf_app_l : forall c d, wf_conf (c ++ d) -> wf_conf c.
Proof.
  induction c as [|x c IH]; cbn; auto. intros d [H1 H2]. split; eauto.
  intros q Hq. apply H1. apply in_or_app; auto.
Qed.

Lemma split_app : forall a s cur, ~ In ch_comma a -> split_comma (a ++ s) cur = split_comma s (cur ++ a).
Proof.
  induction a as [|c a IH]; intros s cur H; cbn.
  - rewrite app_nil_r. auto.
  - destruct (Z.eqb_spec c ch_comma). { exfalso. apply H. cbn; auto. }
    rewrite IH. rewrite <- app_assoc. auto. intros X. apply H. cbn; auto.
Qed.

Lemma peer_no_comma : forall p, ~ In ch_comma (peer_to_string p).
Proof.
  intros p H. apply peer_chars in H. destruct H as [H|[H|[H|H]]]; discriminate.
Qed.

Lemma peer_str_ne : forall p, peer_to_string p <> [].
Proof. intros p E. unfold peer_to_string in E. apply app_eq_nil in E. destruct E; discriminate. Qed.

Lemma split_conf : forall c, split_comma (conf_to_string c) [] = map peer_to_string c.
Proof.
  induction c as [|p c IH]; auto.
  pose proof (peer_str_ne p) as NE. pose proof (peer_no_comma p) as NC.
  destruct c as [|q c].
  - cbn [conf_to_string map]. rewrite <- (app_nil_r (peer_to_string p)) at 1.
    rewrite split_app by auto. cbn. destruct (peer_to_string p); congruence.
  - change (conf_to_string (p :: q :: c)) with (peer_to_string p ++ ch_comma :: conf_to_string (q :: c)).
    rewrite split_app by auto. cbn [app].
    change (split_comma (ch_comma :: conf_to_string (q :: c)) (peer_to_string p))
      with (match peer_to_string p with [] => split_comma (conf_to_string (q :: c)) [] | _ => peer_to_string p :: split_comma (conf_to_string (q :: c)) [] end).
    rewrite IH. cbn [map]. destruct (peer_to_string p); [congruence|reflexivity].
Qed.

Lemma parse_fields_ok : forall d c, wf_conf (c ++ d) -> Forall valid_peer d ->
  parse_fields (map peer_to_string d) c = Some (c ++ d).
Proof.
  induction d as [|p d IH]; intros c H V; cbn.
  - rewrite app_nil_r. auto.
  - inversion V; subst. rewrite peer_roundtrip by auto.
    replace (c ++ p :: d) with ((c ++ [p]) ++ d) in * by (rewrite <- app_assoc; auto).
    unfold conf_add. rewrite insert_last by (eapply wf_app_l; eauto). cbn. apply IH; auto.
Qed.

Lemma conf_roundtrip : forall c, wf_conf c -> Forall valid_peer c ->
  conf_parse (conf_to_string c) = Some c.
Proof.
  intros c H V. unfold conf_parse. rewrite split_conf. exact (parse_fields_ok c [] H V).
Qed.

(** parse_from always yields a set *)
Lemma parse_fields_wf : forall fs c d, wf_conf c -> parse_fields fs c = Some d -> wf_conf d.
Proof.
  induction fs as [|f fs IH]; cbn; intros c d H E.
  - inversion E; subst; auto.
  - destruct (peer_parse f); try discriminate. eapply IH; [|eauto]. apply insert_wf; auto.
Qed.
