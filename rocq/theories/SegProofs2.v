From Verif Require Import Base BaseLemmas Conf ConfSpec MetaFile SegCodec Segment SegSpec SegCodecProofs SegProofs.

(** * Only intact records are returned *)
Lemma be_unbe : forall bs, be_value bs = unbe bs.
Proof.
  induction bs as [|b bs IH] using rev_ind; [reflexivity|]. unfold unbe in *. rewrite fold_left_app. cbn [fold_left]. rewrite <- IH. clear IH.
  induction bs as [|x bs IH]; [cbn; change (zlen (@nil Z)) with 0; lia|]. cbn [app be_value]. rewrite IH, zlen_app. change (zlen [b]) with 1. rewrite Z.pow_add_r by (pose proof (zlen_nonneg bs); lia). change (256 ^ 1) with 256. ring.
Qed.
Lemma pread_len : forall f off n, 0 <= n -> 0 <= off -> zlen (pread f off n) = Z.min n (Z.max 0 (zlen f - off)).
Proof. intros f off n Hn Ho. unfold pread, zlen. rewrite firstn_length, skipn_length. lia. Qed.
Lemma skipn_skipn : forall A (l : list A) a b, skipn a (skipn b l) = skipn (b + a) l.
Proof. intros A l a b. revert l. induction b as [|b IH]; intros l; [reflexivity|]. destruct l; [rewrite !skipn_nil; reflexivity|]. cbn. apply IH. Qed.
Lemma pread_pread : forall f off n a b, 0 <= off -> 0 <= a -> 0 <= b -> a + b <= n -> pread (pread f off n) a b = bytes_at f (off + a) b.
Proof.
  intros f off n a b Ho Ha Hb L. unfold pread, bytes_at. replace (Z.to_nat (off + a)) with (Z.to_nat off + Z.to_nat a)%nat by lia. rewrite <- skipn_skipn.
  rewrite skipn_firstn_comm. rewrite firstn_firstn. f_equal. lia.
Qed.

Lemma bytes_at_bytes : forall f off n, is_bytes f -> is_bytes (bytes_at f off n).
Proof.
  intros f off n B. unfold is_bytes, bytes_at in *. rewrite Forall_forall in *. intros x Hx. apply B. assert (F : In x (skipn (Z.to_nat off) f)) by (rewrite <- (firstn_skipn (Z.to_nat n)); apply in_or_app; left; exact Hx).
  rewrite <- (firstn_skipn (Z.to_nat off) f). apply in_or_app. right. exact F.
Qed.
Lemma be_range : forall bs, is_bytes bs -> 0 <= be_value bs < 256 ^ zlen bs.
Proof.
  induction bs as [|b bs IH]; intros B; [cbn; change (zlen (@nil Z)) with 0; lia|]. inversion B as [|? ? B1 B2]; subst. specialize (IH B2). cbn [be_value]. rewrite zlen_cons, Z.pow_add_r by (pose proof (zlen_nonneg bs); lia). change (256 ^ 1) with 256. nia.
Qed.
Lemma ck_field : forall f off, is_bytes f -> 0 <= off -> off + 12 <= zlen f -> num f (off + 8) 4 / 65536 mod 256 = num f (off + 9) 1 /\ num f (off + 8) 4 / 16777216 = num f (off + 8) 1.
Proof.
  intros f off B Ho L. unfold num.
  assert (E : exists a b c d, bytes_at f (off + 8) 4 = [a; b; c; d]).
  { unfold bytes_at. set (g := skipn (Z.to_nat (off + 8)) f). assert (Lg : (4 <= length g)%nat) by (unfold g; rewrite skipn_length; unfold zlen in L; lia). change (Z.to_nat 4) with 4%nat. destruct g as [|a [|b [|c [|d g]]]]; cbn in Lg; try lia. exists a, b, c, d. reflexivity. }
  destruct E as [a [b [c [d E]]]]. pose proof (bytes_at_bytes f (off + 8) 4 B) as B4. rewrite E in *. inversion B4 as [|? ? Ba B3]; subst. inversion B3 as [|? ? Bb B2]; subst. inversion B2 as [|? ? Bc B1]; subst. inversion B1 as [|? ? Bd _]; subst.
  assert (E1 : bytes_at f (off + 9) 1 = [b] /\ bytes_at f (off + 8) 1 = [a]).
  { unfold bytes_at in *. replace (Z.to_nat (off + 9)) with (Z.to_nat (off + 8) + 1)%nat by lia. rewrite <- skipn_skipn. set (g := skipn (Z.to_nat (off + 8)) f) in *. change (Z.to_nat 4) with 4%nat in E. change (Z.to_nat 1) with 1%nat. destruct g as [|a' [|b' [|c' [|d' g]]]]; cbn in E; try discriminate. injection E as -> -> -> ->. split; reflexivity. }
  destruct E1 as [-> ->]. cbn [be_value]. change (zlen [b; c; d]) with 3. change (zlen [c; d]) with 2. change (zlen [d]) with 1. change (zlen (@nil Z)) with 0. change (256 ^ 3) with 16777216. change (256 ^ 2) with 65536. change (256 ^ 1) with 256. change (256 ^ 0) with 1. split.
  - replace (a * 16777216 + (b * 65536 + (c * 256 + (d * 1 + 0)))) with ((a * 256 + b) * 65536 + (c * 256 + d)) by ring. rewrite Z.div_add_l by lia. rewrite (Z.div_small (c * 256 + d)) by lia. rewrite Z.add_0_r, Z.add_comm, Z.mod_add by lia. rewrite Z.mod_small by lia. lia.
  - replace (a * 16777216 + (b * 65536 + (c * 256 + (d * 1 + 0)))) with (a * 16777216 + (b * 65536 + c * 256 + d)) by ring. rewrite Z.div_add_l by lia. rewrite (Z.div_small (b * 65536 + c * 256 + d)) by lia. lia.
Qed.

Definition field_hdr (f : list Z) (off : Z) : hdr := mkHdr (num f off 8) (num f (off + 8) 1) (num f (off + 9) 1) (num f (off + 12) 4) (num f (off + 16) 4).

Lemma load_entry_fields : forall H f off want hint, is_bytes f -> 0 <= off -> 
  load_entry H f off want hint =
  if zlen f <? off + Z.max hint 24 then LShort
  else if negb (verify H (num f (off + 9) 1) (bytes_at f off 20) (num f (off + 20) 4)) then LBad
  else if negb want then LOk (field_hdr f off) []
  else if zlen f <? off + 24 + num f (off + 12) 4 then LShort
  else if verify H (num f (off + 9) 1) (bytes_at f (off + 24) (num f (off + 12) 4)) (num f (off + 16) 4) then LOk (field_hdr f off) (bytes_at f (off + 24) (num f (off + 12) 4)) else LBad.
Proof.
  intros H f off want hint B Ho. unfold load_entry, HDR. cbv zeta. rewrite pread_len by lia. set (tr := Z.max hint 24).
  destruct (Z.eqb_spec (Z.min tr (Z.max 0 (zlen f - off))) tr) as [E|E]; cbn [negb].
  2: { destruct (Z.ltb_spec (zlen f) (off + tr)); [reflexivity|lia]. }
  destruct (Z.ltb_spec (zlen f) (off + tr)); [lia|].
  rewrite !pread_pread by lia. rewrite <- !be_unbe. rewrite !Z.add_0_r. change (be_value (bytes_at f off 8)) with (num f off 8). change (be_value (bytes_at f (off + 8) 4)) with (num f (off + 8) 4). change (be_value (bytes_at f (off + 12) 4)) with (num f (off + 12) 4). change (be_value (bytes_at f (off + 16) 4)) with (num f (off + 16) 4). change (be_value (bytes_at f (off + 20) 4)) with (num f (off + 20) 4).
  destruct (ck_field f off B Ho ltac:(lia)) as [C1 C2]. rewrite C1, C2. fold (field_hdr f off). cbn [hd_ck hd_len hd_sum field_hdr]. destruct (verify H (num f (off + 9) 1) (bytes_at f off 20) (num f (off + 20) 4)); cbn [negb]; [|reflexivity]. destruct want; cbn [negb]; [|reflexivity].
  rewrite E. set (len := num f (off + 12) 4). assert (Ln : 0 <= len) by (apply be_range; apply bytes_at_bytes; exact B).
  assert (D : (if tr <? 24 + len then zlen f <? off + 24 + len else false) = (zlen f <? off + 24 + len)).
  { destruct (Z.ltb_spec tr (24 + len)); [reflexivity|]. destruct (Z.ltb_spec (zlen f) (off + 24 + len)); [lia|reflexivity]. }
  rewrite <- D. destruct (Z.ltb_spec tr (24 + len)) as [L|L]; cbn [andb].
  - rewrite pread_len by lia. destruct (Z.eqb_spec (Z.min (24 + len - tr) (Z.max 0 (zlen f - (off + tr)))) (24 + len - tr)); cbn [negb].
    + destruct (Z.ltb_spec (zlen f) (off + 24 + len)); [lia|].
      assert (X : skipn 24 (pread f off tr ++ pread f (off + tr) (24 + len - tr)) = bytes_at f (off + 24) len).
      { unfold pread, bytes_at. replace (Z.to_nat (off + tr)) with (Z.to_nat off + Z.to_nat tr)%nat by lia. replace (Z.to_nat (off + 24)) with (Z.to_nat off + 24)%nat by lia. rewrite <- !skipn_skipn. set (g := skipn (Z.to_nat off) f).
        assert (Lg : (Z.to_nat (24 + len) <= length g)%nat) by (unfold g; rewrite skipn_length; unfold zlen in *; lia).
        replace (firstn (Z.to_nat tr) g ++ firstn (Z.to_nat (24 + len - tr)) (skipn (Z.to_nat tr) g)) with (firstn (Z.to_nat (24 + len)) g).
        - rewrite skipn_firstn_comm. f_equal. lia.
        - rewrite <- (firstn_skipn (Z.to_nat tr) g) at 1. rewrite firstn_app. rewrite firstn_firstn. rewrite firstn_length. replace (Nat.min (Z.to_nat (24 + len)) (Z.to_nat tr)) with (Z.to_nat tr) by lia. f_equal. f_equal. lia. }
      rewrite X. reflexivity.
    + destruct (Z.ltb_spec (zlen f) (off + 24 + len)); [reflexivity|lia].
  - assert (X : skipn 24 (firstn (Z.to_nat (24 + len)) (pread f off tr)) = bytes_at f (off + 24) len).
    { unfold pread, bytes_at. replace (Z.to_nat (off + 24)) with (Z.to_nat off + 24)%nat by lia. rewrite <- skipn_skipn. rewrite firstn_firstn. replace (Nat.min (Z.to_nat (24 + len)) (Z.to_nat tr)) with (Z.to_nat (24 + len)) by lia. rewrite skipn_firstn_comm. f_equal. lia. }
    rewrite X. reflexivity.
Qed.

(** * Files with a bad tail *)
Lemma scan_prefix : forall H t l pre fuel i, Forall good_item l -> (length (bytes_of H l) <= fuel)%nat ->
  scan H (pre ++ bytes_of H l ++ t) fuel i (zlen pre) =
  match scan H (pre ++ bytes_of H l ++ t) (fuel - length l) (i + zlen l) (zlen pre + zlen (bytes_of H l)) with
  | Some (offs, confs, e, st) => Some (offs_of H (zlen pre) l ++ offs, confs_of i l ++ confs, e, st)
  | None => None
  end.
Proof.
  intros H t. induction l as [|[ck e] l IH]; intros pre fuel i G Fu.
  - change (bytes_of H []) with (@nil Z). change (zlen (@nil Z)) with 0. change (zlen (@nil (Z * sent))) with 0. rewrite !Z.add_0_r. cbn [length app offs_of confs_of]. rewrite Nat.sub_0_r. destruct (scan H (pre ++ t) fuel i (zlen pre)) as [[[[? ?] ?] ?]|]; reflexivity.
  - inversion G as [|? ? G1 G2]; subst. change (bytes_of H ((ck, e) :: l)) with (record H ck e ++ bytes_of H l) in *. rewrite <- !app_assoc in *. set (rest := bytes_of H l ++ t) in *.
    rewrite app_length in Fu. pose proof (rec_pos H (ck, e)) as RP. cbn [fst snd] in RP.
    assert (LR : (24 <= length (record H ck e))%nat) by (unfold zlen in RP; lia). destruct fuel as [|fuel]; [lia|].
    replace (S fuel - length ((ck, e) :: l))%nat with (fuel - length l)%nat by (cbn; lia). set (RHS := scan H _ (fuel - length l) _ _). cbn [scan].
    rewrite !zlen_app. pose proof (zlen_nonneg rest).
    destruct (Z.leb_spec (zlen pre + (zlen (record H ck e) + zlen rest)) (zlen pre)); [lia|].
    change HDR with 24 at 1. rewrite (load_at H pre ck e rest false 24 G1 (or_introl eq_refl)). cbv zeta. cbn [hd_len hd_type hd_term hdr_of].
    assert (Sk : HDR + zlen (payload (se_body e)) = zlen (record H ck e)) by (rewrite record_len; reflexivity). rewrite Sk.
    destruct (Z.ltb_spec (zlen pre + (zlen (record H ck e) + zlen rest)) (zlen pre + zlen (record H ck e))); [lia|].
    assert (Next : scan H (pre ++ record H ck e ++ rest) fuel (i + 1) (zlen pre + zlen (record H ck e)) = match RHS with Some (offs, confs, e0, st) => Some (offs_of H (zlen pre + zlen (record H ck e)) l ++ offs, confs_of (i + 1) l ++ confs, e0, st) | None => None end).
    { unfold RHS, rest. rewrite app_assoc. rewrite <- zlen_app. rewrite IH by (auto; lia). rewrite zlen_cons, !zlen_app. replace (i + 1 + zlen l) with (i + (zlen l + 1)) by lia. replace (zlen pre + (zlen (record H ck e) + zlen (bytes_of H l))) with (zlen pre + zlen (record H ck e) + zlen (bytes_of H l)) by lia. reflexivity. }
    rewrite Next. cbn [offs_of confs_of fst snd]. unfold conf_at. cbn [snd].
    destruct (se_body e) as [|d|ps old] eqn:Eb; cbn [ty_of].
    + change (1 =? 3) with false. cbv iota. destruct RHS as [[[[? ?] ?] ?]|]; reflexivity.
    + change (2 =? 3) with false. cbv iota. destruct RHS as [[[[? ?] ?] ?]|]; reflexivity.
    + change (3 =? 3) with true. cbv iota. rewrite (load_at H pre ck e rest true _ G1 (or_intror eq_refl)). rewrite Eb. cbn [payload].
      destruct G1 as [_ [_ [Gb _]]]. cbn [snd] in Gb. rewrite Eb in Gb. rewrite par_ser by exact Gb. unfold same_entry. rewrite Eb. destruct RHS as [[[[? ?] ?] ?]|]; reflexivity.
Qed.
Lemma bytes_long : forall H l, (length l <= length (bytes_of H l))%nat.
Proof.
  induction l as [|x l IH]; [cbn; lia|]. change (bytes_of H (x :: l)) with (record H (fst x) (snd x) ++ bytes_of H l). rewrite app_length. pose proof (rec_pos H x). unfold zlen in *. cbn [length]. lia.
Qed.
Lemma load_bad_header : forall H opened first last l t, Forall good_item l -> t <> [] -> load_entry H (bytes_of H l ++ t) (zlen (bytes_of H l)) false HDR = LBad ->
  seg_load H false opened first last (bytes_of H l ++ t) = Some None.
Proof.
  intros H opened first last l t G Ne LB. unfold seg_load. pose proof (scan_prefix H t l [] (length (bytes_of H l ++ t)) first G) as SP. cbn [app] in SP. change (zlen (@nil Z)) with 0 in SP. rewrite app_length in *.
  rewrite SP by lia. rewrite Z.add_0_l. clear SP. pose proof (bytes_long H l). destruct t as [|b t]; [congruence|]. cbn [length].
  destruct (length (bytes_of H l) + S (length t) - length l)%nat as [|fuel] eqn:F; [lia|]. cbn [scan]. rewrite zlen_app, zlen_cons. pose proof (zlen_nonneg t).
  destruct (Z.leb_spec (zlen (bytes_of H l) + (zlen t + 1)) (zlen (bytes_of H l))); [lia|]. rewrite LB. cbn [orb andb]. destruct opened; reflexivity.
Qed.
Lemma load_closed_cut : forall H recover first l k, Forall good_item l -> 0 <= k < zlen (bytes_of H l) -> seg_load H recover false first (first + zlen l - 1) (firstn (Z.to_nat k) (bytes_of H l)) = Some None.
Proof.
  intros H recover first l k G Lk. destruct (cut_whole H l k G) as [t [E T]].
  assert (W : zlen (whole H k l) < zlen l).
  { destruct (whole_prefix H l k) as [r Er]. destruct r as [|x r]; [|rewrite Er at 2; rewrite zlen_app, zlen_cons; pose proof (zlen_nonneg r); lia]. rewrite app_nil_r in Er. exfalso.
    assert (zlen (firstn (Z.to_nat k) (bytes_of H l)) = zlen (bytes_of H l) + zlen t) by (rewrite E, zlen_app, <- Er; reflexivity). pose proof (zlen_nonneg t). unfold zlen in *. rewrite firstn_length in *. lia. }
  rewrite E. unfold seg_load. pose proof (scan_ok H t (whole H k l) [] (length (bytes_of H (whole H k l) ++ t)) first (whole_good H l k G) T (le_n _)) as SO. cbn [app] in SO. change (zlen (@nil Z)) with 0 in SO. rewrite SO. cbv zeta. rewrite offs_len.
  destruct (Z.eqb_spec (first - 1 + zlen (whole H k l)) (first + zlen l - 1)); [lia|]. rewrite orb_true_r. reflexivity.
Qed.
