From Verif Require Import Base BaseLemmas Conf ConfSpec ConfProofs MetaFile MetaFileProofs SegCodec Segment SegSpec.

Lemma unbe_be32 : forall n, 0 <= n < 4294967296 -> unbe (be32 n) = n.
Proof.
  intros n Hn. unfold unbe, be32. cbn [fold_left].
  rewrite (Z.mod_small (n / 16777216) 256) by (split; [apply Z.div_pos; lia|apply Z.div_lt_upper_bound; lia]).
  pose proof (Z.div_mod n 256). pose proof (Z.div_mod (n / 256) 256). pose proof (Z.div_mod (n / 65536) 256).
  rewrite Z.div_div in * by lia. change (256 * 256) with 65536 in *. change (65536 * 256) with 16777216 in *. lia.
Qed.
Lemma be32_len : forall n, zlen (be32 n) = 4. Proof. reflexivity. Qed.
Lemma unbe_app : forall a b, unbe (a ++ b) = unbe a * 256 ^ zlen b + unbe b.
Proof.
  intros a b. unfold unbe. rewrite fold_left_app. generalize (fold_left (fun v b0 => v * 256 + b0) a 0). clear a. intros v.
  revert v. induction b as [|x b IH] using rev_ind; intros v; [cbn; change (zlen (@nil Z)) with 0; lia|]. rewrite !fold_left_app. cbn [fold_left]. rewrite IH. rewrite zlen_app. change (zlen [x]) with 1.
  rewrite Z.pow_add_r by (pose proof (zlen_nonneg b); lia). change (256 ^ 1) with 256. ring.
Qed.
Lemma unbe_be64 : forall n, 0 <= n < 18446744073709551616 -> unbe (be64 n) = n.
Proof.
  intros n Hn. unfold be64. rewrite unbe_app, be32_len. change (256 ^ 4) with 4294967296.
  rewrite unbe_be32 by (split; [apply Z.div_pos; lia|apply Z.div_lt_upper_bound; lia]).
  assert (E : be32 n = be32 (n mod 4294967296)).
  { unfold be32. pose proof (Z.mod_pos_bound n 4294967296). rewrite (Z.div_mod n 4294967296) at 1 2 3 4 by lia. set (q := n / 4294967296). set (r := n mod 4294967296).
    f_equal; [|f_equal; [|f_equal; [|f_equal]]].
    - replace (4294967296 * q + r) with (r + (256 * q) * 16777216) by ring. rewrite Z.div_add by lia. rewrite Z.add_mod by lia. replace (256 * q) with (q * 256) by ring. rewrite Z.mod_mul by lia. rewrite Z.add_0_r, Z.mod_mod by lia. reflexivity.
    - replace (4294967296 * q + r) with (r + (65536 * q) * 65536) by ring. rewrite Z.div_add by lia. rewrite Z.add_mod by lia. replace (65536 * q) with (256 * q * 256) by ring. rewrite Z.mod_mul by lia. rewrite Z.add_0_r, Z.mod_mod by lia. reflexivity.
    - replace (4294967296 * q + r) with (r + (16777216 * q) * 256) by ring. rewrite Z.div_add by lia. rewrite Z.add_mod by lia. replace (16777216 * q) with (65536 * q * 256) by ring. rewrite Z.mod_mul by lia. rewrite Z.add_0_r, Z.mod_mod by lia. reflexivity.
    - replace (4294967296 * q + r) with (r + (16777216 * q) * 256) by ring. rewrite Z.mod_add by lia. reflexivity. }
  rewrite E, unbe_be32 by (apply Z.mod_pos_bound; lia). pose proof (Z.div_mod n 4294967296). lia.
Qed.

(** ** The configuration payload *)
Lemma pb_str_len : forall tag p, (0 < length (pb_str tag p))%nat. Proof. intros. cbn. lia. Qed.
Lemma good_len : forall p, good_peer p -> 0 <= zlen (peer_to_string p) < 128 ^ Z.of_nat 10.
Proof.
  intros p [V [P I]]. split; [apply zlen_nonneg|]. pose proof (peer_str_len p V P I). change (128 ^ Z.of_nat 10) with 1180591620717411303424. lia.
Qed.
Lemma par_one : forall k tag p rest, tag = 10 \/ tag = 18 -> good_peer p ->
  par_strs (S k) (pb_str tag p ++ rest) =
  match par_strs k rest with Some (ps, os) => Some (if tag =? 10 then (peer_to_string p :: ps, os) else (ps, peer_to_string p :: os)) | None => None end.
Proof.
  intros k tag p rest T G. unfold pb_str. cbn [app]. cbn [par_strs].
  assert (E : (tag =? 10) || (tag =? 18) = true) by (destruct T; subst; reflexivity). rewrite E.
  rewrite <- app_assoc. rewrite varint_ok by (apply good_len; auto).
  rewrite zlen_app. destruct (Z.ltb_spec (zlen (peer_to_string p) + zlen rest) (zlen (peer_to_string p))); [pose proof (zlen_nonneg rest); lia|].
  assert (Tn : Z.to_nat (zlen (peer_to_string p)) = length (peer_to_string p)) by apply Nat2Z.id. rewrite Tn. rewrite skipn_app, skipn_all, Nat.sub_diag. rewrite firstn_app, firstn_all, Nat.sub_diag. cbn [app skipn firstn]. rewrite app_nil_r. reflexivity.
Qed.
Lemma par_more : forall k k' bs r, (k <= k')%nat -> par_strs k bs = Some r -> par_strs k' bs = Some r.
Proof.
  induction k as [|k IH]; intros k' bs r L E; [destruct bs; [destruct k'; exact E|discriminate]|]. destruct k' as [|k']; [lia|].
  destruct bs as [|tag bs]; [exact E|]. cbn [par_strs] in *. destruct (_ || _); [|discriminate]. destruct (unvarint bs) as [[len r1]|]; [|discriminate]. destruct (_ <? _); [discriminate|].
  destruct (par_strs k _) as [[ps os]|] eqn:E2; [|discriminate]. rewrite (IH k' _ _ ltac:(lia) E2). exact E.
Qed.
Lemma par_old : forall l, Forall good_peer l -> exists n, par_strs n (flat_map (pb_str 18) l) = Some ([], map peer_to_string l) /\ (n <= length (flat_map (pb_str 18) l))%nat.
Proof.
  induction l as [|p l IH]; intros G; [exists O; split; [reflexivity|cbn; lia]|]. inversion G as [|? ? G1 G2]; subst. destruct (IH G2) as [n [E Ln]].
  exists (S n). cbn [flat_map map]. rewrite par_one, E by auto. split; [reflexivity|]. rewrite app_length. pose proof (pb_str_len 18 p). lia.
Qed.
Lemma par_new : forall l rest n os, Forall good_peer l -> par_strs n rest = Some ([], os) -> (n <= length rest)%nat ->
  exists m, par_strs m (flat_map (pb_str 10) l ++ rest) = Some (map peer_to_string l, os) /\ (m <= length (flat_map (pb_str 10) l ++ rest))%nat.
Proof.
  induction l as [|p l IH]; intros rest n os G E Ln; [exists n; split; [exact E|exact Ln]|]. inversion G as [|? ? G1 G2]; subst. destruct (IH _ _ _ G2 E Ln) as [m [E2 Lm]].
  exists (S m). cbn [flat_map map]. rewrite <- app_assoc. rewrite par_one, E2 by auto. split; [reflexivity|]. rewrite app_length. pose proof (pb_str_len 10 p). lia.
Qed.
Lemma parse_peers_ok : forall l, Forall good_peer l -> parse_peers (map peer_to_string l) = Some l.
Proof.
  induction l as [|p l IH]; intros G; [reflexivity|]. inversion G as [|? ? [G1 _] G2]; subst. cbn [map parse_peers]. rewrite peer_roundtrip by auto. rewrite IH by auto. reflexivity.
Qed.
Lemma par_ser : forall ps old, good_body (BConf ps old) -> par_conf (ser_conf ps old) = Some (Some (se_body (same_entry (mkSent 0 (BConf ps old))))).
Proof.
  intros ps old [G1 G2]. unfold par_conf, ser_conf.
  set (ol := match old with Some l => l | None => [] end).
  assert (Eo : match old with Some l => flat_map (pb_str 18) l | None => [] end = flat_map (pb_str 18) ol) by (destruct old; reflexivity).
  assert (Go : Forall good_peer ol) by (unfold ol; destruct old; [exact G2|constructor]).
  rewrite Eo. destruct (par_old _ Go) as [n [E Ln]]. destruct (par_new ps _ _ _ G1 E Ln) as [m [E2 Lm]].
  rewrite (par_more _ _ _ _ Lm E2). rewrite !parse_peers_ok by auto. unfold ol. destruct old as [[|q l]|]; reflexivity.
Qed.

(** ** Records *)
Definition hdr_of (H : hashes) (ck : Z) (e : sent) : hdr :=
  mkHdr (se_term e) (ty_of (se_body e)) ck (zlen (payload (se_body e))) (match checksum H ck (payload (se_body e)) with Some c => c | None => 0 end).

Lemma checksum_range : forall H ck bs c, checksum H ck bs = Some c -> 0 <= c < 4294967296.
Proof.
  intros H ck bs c E. unfold checksum, u32 in E. destruct (ck =? 0); [injection E as <-; apply Z.mod_pos_bound; lia|]. destruct (ck =? 1); [injection E as <-; apply Z.mod_pos_bound; lia|discriminate].
Qed.
Lemma checksum_some : forall H ck bs, ck = 0 \/ ck = 1 -> exists c, checksum H ck bs = Some c.
Proof. intros H ck bs [->| ->]; eexists; reflexivity. Qed.

Lemma record_head : forall H ck e, exists hd, record H ck e = hd ++ payload (se_body e) /\ zlen hd = 24 /\ length hd = 24%nat.
Proof. intros. eexists. split; [reflexivity|]. split; reflexivity. Qed.
Lemma record_len : forall H ck e, zlen (record H ck e) = 24 + zlen (payload (se_body e)).
Proof. intros. destruct (record_head H ck e) as [hd [-> [E _]]]. rewrite zlen_app, E. reflexivity. Qed.

Lemma pread_app : forall a b off n, off = zlen a -> pread (a ++ b) off n = firstn (Z.to_nat n) b.
Proof. intros a b off n ->. unfold pread, zlen. rewrite Nat2Z.id, skipn_app, skipn_all, Nat.sub_diag. reflexivity. Qed.
Lemma pread_app2 : forall a b off n, zlen a <= off -> pread (a ++ b) off n = pread b (off - zlen a) n.
Proof.
  intros a b off n L. unfold pread, zlen in *. rewrite skipn_app. rewrite (skipn_all2 a) by lia. cbn [app]. f_equal. f_equal. lia.
Qed.
Lemma zlen_firstn_le : forall A (l : list A) n, 0 <= n <= zlen l -> zlen (firstn (Z.to_nat n) l) = n.
Proof. intros A l n L. unfold zlen in *. rewrite firstn_length. lia. Qed.

(** What is read from the 24 bytes of a header. *)
Lemma head_fields : forall H ck term ty data tail,
  ck = 0 \/ ck = 1 -> 0 <= term < 9223372036854775808 -> 0 <= ty <= 255 -> zlen data < 4294967296 ->
  let h := head20 H ck term ty data in
  let buf := h ++ be32 (match checksum H ck h with Some c => c | None => 0 end) ++ tail in
  unbe (pread buf 0 8) = term /\ unbe (pread buf 8 4) / 16777216 = ty /\ unbe (pread buf 8 4) / 65536 mod 256 = ck /\ unbe (pread buf 12 4) = zlen data /\
  Some (unbe (pread buf 16 4)) = checksum H ck data /\ pread buf 0 20 = h /\ Some (unbe (pread buf 20 4)) = checksum H ck h.
Proof.
  intros H ck term ty data tail C T Ty L h buf.
  destruct (checksum_some H ck data C) as [c1 E1]. destruct (checksum_some H ck h C) as [c2 E2].
  pose proof (checksum_range _ _ _ _ E1) as R1. pose proof (checksum_range _ _ _ _ E2) as R2.
  unfold buf. rewrite E2. pose proof (zlen_nonneg data).
  assert (Hh : h = be64 term ++ be32 (ty * 16777216 + ck * 65536) ++ be32 (zlen data) ++ be32 c1).
  { unfold h, head20. rewrite E1. unfold u32. rewrite (Z.mod_small (zlen data)) by lia. reflexivity. }
  assert (L8 : zlen (be64 term) = 8) by reflexivity.
  assert (M : 0 <= ty * 16777216 + ck * 65536 < 4294967296) by (destruct C; subst; lia).
  assert (P0 : pread (h ++ be32 c2 ++ tail) 0 8 = be64 term) by (rewrite Hh; reflexivity).
  assert (P1 : pread (h ++ be32 c2 ++ tail) 8 4 = be32 (ty * 16777216 + ck * 65536)) by (rewrite Hh; reflexivity).
  assert (P2 : pread (h ++ be32 c2 ++ tail) 12 4 = be32 (zlen data)) by (rewrite Hh; reflexivity).
  assert (P3 : pread (h ++ be32 c2 ++ tail) 16 4 = be32 c1) by (rewrite Hh; reflexivity).
  assert (P4 : pread (h ++ be32 c2 ++ tail) 20 4 = be32 c2) by (rewrite Hh; reflexivity).
  rewrite P0, P1, P2, P3, P4. rewrite unbe_be64, !unbe_be32 by lia.
  split; [reflexivity|]. split; [|split; [|split; [reflexivity|split; [symmetry; exact E1|split; [rewrite Hh; reflexivity|reflexivity]]]]].
  - rewrite Z.div_add_l by lia. rewrite Z.div_small by (destruct C; subst; lia). lia.
  - replace (ty * 16777216 + ck * 65536) with ((ty * 256 + ck) * 65536) by ring. rewrite Z.div_mul by lia. rewrite Z.add_comm, Z.mod_add by lia. apply Z.mod_small. destruct C; subst; lia.
Qed.

Lemma verify_eq : forall H ck bs v, verify H ck bs v = true <-> checksum H ck bs = Some v.
Proof.
  intros H ck bs v. unfold verify. destruct (checksum H ck bs) as [c|]; [|split; discriminate]. rewrite Z.eqb_eq. split; [intros ->; reflexivity|intros E; injection E; auto].
Qed.

Lemma ty_range : forall b, 0 <= ty_of b <= 255. Proof. intros []; cbn; lia. Qed.

(** Reading a record that is there: with and without its data. *)
Lemma load_at : forall H a ck e b want hint,
  good_item (ck, e) -> hint = 24 \/ hint = zlen (record H ck e) ->
  load_entry H (a ++ record H ck e ++ b) (zlen a) want hint = LOk (hdr_of H ck e) (if want then payload (se_body e) else []).
Proof.
  intros H a ck e b want hint [C [T [_ L]]] Hh. cbn [fst snd] in *. pose proof (record_len H ck e) as RL. pose proof (zlen_nonneg (payload (se_body e))) as P0.
  unfold load_entry, HDR. cbv zeta. rewrite (pread_app a) by reflexivity.
  assert (Mx : Z.max hint 24 = hint) by (destruct Hh; lia). rewrite Mx.
  assert (ZL : zlen (firstn (Z.to_nat hint) (record H ck e ++ b)) = hint) by (apply zlen_firstn_le; rewrite zlen_app; pose proof (zlen_nonneg b); destruct Hh; lia).
  rewrite ZL, Z.eqb_refl. cbn [negb].
  assert (B : exists tail, firstn (Z.to_nat hint) (record H ck e ++ b) = head20 H ck (se_term e) (ty_of (se_body e)) (payload (se_body e)) ++ be32 (match checksum H ck (head20 H ck (se_term e) (ty_of (se_body e)) (payload (se_body e))) with Some c => c | None => 0 end) ++ tail /\ (hint = 24 -> tail = []) /\ (hint = zlen (record H ck e) -> tail = payload (se_body e))).
  { destruct Hh as [->| ->].
    - exists []. split; [reflexivity|]. split; auto. intros K. rewrite RL in K. symmetry. apply zlen_0_nil. lia.
    - exists (payload (se_body e)). split; [|split; auto].
      + unfold zlen at 1. rewrite Nat2Z.id, firstn_app, firstn_all, Nat.sub_diag. cbn [firstn]. rewrite app_nil_r. unfold record. rewrite <- app_assoc. reflexivity.
      + intros K. apply zlen_0_nil. lia. }
  destruct B as [tail [EB [T1 T2]]]. rewrite EB. set (h := head20 H ck (se_term e) (ty_of (se_body e)) (payload (se_body e))) in *.
  destruct (head_fields H ck (se_term e) (ty_of (se_body e)) (payload (se_body e)) tail C T (ty_range _) L) as [F1 [F2 [F3 [F4 [F5 [F6 F7]]]]]]. fold h in F1, F2, F3, F4, F5, F6, F7.
  cbn [hd_ck hd_len hd_sum]. rewrite F1, F2, F3, F4, F6.
  assert (V1 : verify H ck h (unbe (pread (h ++ be32 match checksum H ck h with Some c => c | None => 0 end ++ tail) 20 4)) = true) by (apply verify_eq; symmetry; exact F7).
  rewrite V1. cbn [negb].
  assert (HD : mkHdr (se_term e) (ty_of (se_body e)) ck (zlen (payload (se_body e))) (unbe (pread (h ++ be32 match checksum H ck h with Some c => c | None => 0 end ++ tail) 16 4)) = hdr_of H ck e).
  { unfold hdr_of. rewrite <- F5. reflexivity. }
  rewrite HD. destruct want; cbn [negb]; [|reflexivity].
  assert (ZB : zlen (h ++ be32 match checksum H ck h with Some c => c | None => 0 end ++ tail) = hint) by (rewrite <- EB; exact ZL).
  set (hb := h ++ be32 match checksum H ck h with Some c => c | None => 0 end) in *. rewrite (app_assoc h) in *. fold hb in EB, ZB |- *.
  assert (Lhb : zlen hb = 24) by reflexivity. assert (Rec : record H ck e = hb ++ payload (se_body e)) by reflexivity.
  assert (Data : (zlen (payload (se_body e)) + 24 = hint -> skipn 24 (firstn (Z.to_nat (24 + zlen (payload (se_body e)))) (hb ++ tail)) = payload (se_body e))).
  { intros K. rewrite T2 by lia. rewrite firstn_all2 by (rewrite app_length; unfold zlen in *; lia). reflexivity. }
  assert (V2 : forall d, d = payload (se_body e) -> (if verify H ck d (unbe (pread ((hb) ++ tail) 16 4)) then LOk (hdr_of H ck e) d else LBad) = LOk (hdr_of H ck e) (payload (se_body e))).
  { intros d ->. assert (V : verify H ck (payload (se_body e)) (unbe (pread (hb ++ tail) 16 4)) = true) by (apply verify_eq; symmetry; unfold hb; rewrite <- app_assoc; exact F5). rewrite V. reflexivity. }
  destruct (Z.ltb_spec hint (24 + zlen (payload (se_body e)))) as [Lt|Ge].
  - assert (K : hint = 24) by (destruct Hh; lia). rewrite K in *. rewrite T1 by reflexivity. rewrite app_nil_r in *.
    replace (zlen a + 24) with (zlen (a ++ hb)) by (rewrite zlen_app; lia). rewrite Rec, <- app_assoc, app_assoc. rewrite pread_app by reflexivity.
    rewrite zlen_firstn_le by (rewrite zlen_app; pose proof (zlen_nonneg b); lia). rewrite Z.eqb_refl. cbn [andb negb].
    rewrite T1 in V2 by reflexivity. rewrite app_nil_r in V2. apply V2.
    replace (24 + zlen (payload (se_body e)) - 24) with (zlen (payload (se_body e))) by lia. unfold zlen at 1. rewrite Nat2Z.id, firstn_app, firstn_all, Nat.sub_diag. cbn [firstn]. rewrite app_nil_r. reflexivity.
  - cbn [andb]. apply V2. apply Data. destruct Hh; lia.
Qed.
