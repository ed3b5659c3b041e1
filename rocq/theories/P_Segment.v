(** Properties C09 and C10: log segment files, for every checksum function, every entry and every
    crash point. *)
From Verif Require Import Base BaseLemmas Conf ConfSpec MetaFile SegCodec Segment SegSpec SegCodecProofs SegProofs SegProofs2.

(** C09.  Whatever is appended to a new segment is read back: same index, term, type and payload. *)
Theorem segment_reads_back : forall H first l,
  Forall good_item l -> exists s, append_all H (seg_create first) l = Some s /\ shows H s first l.
Proof.
  intros H first l G. destruct (append_all_rep H l _ first [] (create_rep H first) eq_refl G) as [s [E [R _]]]. exists s. split; auto. apply rep_shows. exact R.
Qed.

(** The record format is injective, even when followed by other bytes. *)
Theorem record_injective : forall H ck e ck' e' rest rest',
  good_item (ck, e) -> good_item (ck', e') -> record H ck e ++ rest = record H ck' e' ++ rest' -> se_term e = se_term e' /\ ty_of (se_body e) = ty_of (se_body e') /\ payload (se_body e) = payload (se_body e') /\ same_entry e = same_entry e' /\ ck = ck'.
Proof.
  intros H ck e ck' e' rest rest' G G' E. pose proof (load_at H [] ck e rest true 24 G (or_introl eq_refl)) as L1. pose proof (load_at H [] ck' e' rest' true 24 G' (or_introl eq_refl)) as L2.
  cbn [app] in *. rewrite E, L2 in L1. unfold hdr_of in L1. injection L1 as E1 E2 E3 E4 E5 E6.
  split; [auto|]. split; [auto|]. split; [auto|]. split; [|auto]. destruct e as [t b], e' as [t' b']. cbn [se_term se_body] in *. subst t'.
  destruct G as [_ [_ [Gb _]]], G' as [_ [_ [Gb' _]]]. cbn [snd se_body] in Gb, Gb'.
  destruct b as [|d|ps o], b' as [|d'|ps' o']; cbn in E2; try discriminate; cbn [payload] in E6; [reflexivity|subst; reflexivity|].
  pose proof (par_ser _ _ Gb) as P1. pose proof (par_ser _ _ Gb') as P2. rewrite E6, P1 in P2. injection P2 as P2. unfold same_entry in *. cbn [se_body se_term] in *. f_equal. exact P2.
Qed.

(** A record whose header or data does not match its checksum is never returned: whatever bytes the
    file holds, what [get] returns comes from an intact record and is what that record says. *)
Theorem corrupt_record_never_returned : forall H s i e,
  is_bytes (sg_file s) -> (forall o t, In (o, t) (sg_offs s) -> 0 <= o) -> seg_get H s i = Some (Some e) ->
  exists off, In (off, se_term e) (sg_offs s) /\ record_intact H (sg_file s) off /\
    se_term e = num (sg_file s) off 8 /\ ty_of (se_body e) = num (sg_file s) (off + 8) 1 /\
    (match se_body e with BData d => d = bytes_at (sg_file s) (off + 24) (num (sg_file s) (off + 12) 4) | BNoop => num (sg_file s) (off + 12) 4 = 0
     | b => par_conf (bytes_at (sg_file s) (off + 24) (num (sg_file s) (off + 12) 4)) = Some (Some b) end).
Proof.
  intros H s i e B P G. unfold seg_get in G. destruct (get_meta s i) as [[[off len] term]|] eqn:M; [|discriminate].
  assert (In0 : In (off, term) (sg_offs s)).
  { unfold get_meta in M. destruct (_ || _); [discriminate|]. destruct (_ =? _); [discriminate|]. destruct (znth (sg_offs s) (i - sg_first s)) as [[c t]|] eqn:Zn; [|discriminate]. injection M as <- _ <-. apply znth_In in Zn. exact Zn. }
  pose proof (P _ _ In0) as Ho. rewrite (load_entry_fields H (sg_file s) off true len B Ho) in G. cbn [negb] in G.
  destruct (Z.ltb_spec (zlen (sg_file s)) (off + Z.max len 24)); [discriminate|].
  destruct (verify H (num (sg_file s) (off + 9) 1) (bytes_at (sg_file s) off 20) (num (sg_file s) (off + 20) 4)) eqn:V1; cbn [negb] in G; [|discriminate].
  destruct (Z.ltb_spec (zlen (sg_file s)) (off + 24 + num (sg_file s) (off + 12) 4)); [discriminate|].
  destruct (verify H (num (sg_file s) (off + 9) 1) (bytes_at (sg_file s) (off + 24) (num (sg_file s) (off + 12) 4)) (num (sg_file s) (off + 16) 4)) eqn:V2; [|discriminate].
  apply verify_eq in V1, V2. unfold field_hdr in G. cbn [hd_term hd_type] in G. destruct (Z.eqb_spec term (num (sg_file s) off 8)) as [E|]; cbn [negb] in G; [|discriminate].
  assert (I : record_intact H (sg_file s) off) by (split; [lia|split; assumption]).
  exists off. destruct (Z.eqb_spec (num (sg_file s) (off + 8) 1) 2) as [T|].
  { injection G as <-. cbn [se_term se_body ty_of]. rewrite <- E. auto. }
  destruct (Z.eqb_spec (num (sg_file s) (off + 8) 1) 1) as [T|].
  { set (d := bytes_at (sg_file s) (off + 24) (num (sg_file s) (off + 12) 4)) in *. destruct d eqn:Ed; [|discriminate]. injection G as <-. cbn [se_term se_body ty_of]. rewrite <- E. split; [exact In0|]. split; [exact I|]. split; [reflexivity|]. split; [auto|].
    assert (Zd : zlen d = num (sg_file s) (off + 12) 4). { unfold d, bytes_at. apply zlen_firstn_le. assert (0 <= num (sg_file s) (off + 12) 4) by (apply be_range; apply bytes_at_bytes; exact B). unfold zlen in *. rewrite skipn_length. lia. }
    rewrite Ed in Zd. symmetry. exact Zd. }
  destruct (Z.eqb_spec (num (sg_file s) (off + 8) 1) 3) as [T|]; [|discriminate].
  destruct (par_conf (bytes_at (sg_file s) (off + 24) (num (sg_file s) (off + 12) 4))) as [[b|]|] eqn:Pc; try discriminate. injection G as <-. cbn [se_term se_body].
  assert (Bc : exists ps o, b = BConf ps o). { unfold par_conf in Pc. destruct (par_strs _ _) as [[ps os]|]; [|discriminate]. destruct (parse_peers ps), (parse_peers os); try discriminate. injection Pc as <-. eauto. }
  destruct Bc as [ps [o ->]]. cbn [ty_of]. rewrite <- E. auto.
Qed.
(** A record whose header does not match its checksum makes loading fail, in an open and in a closed
    segment (raft_recover_log_from_corrupt off). *)
Theorem corrupt_header_fails_load : forall H opened first last l t,
  Forall good_item l -> is_bytes (bytes_of H l ++ t) -> 24 <= zlen t ->
  let off := zlen (bytes_of H l) in let f := bytes_of H l ++ t in
  checksum H (num f (off + 9) 1) (bytes_at f off 20) <> Some (num f (off + 20) 4) ->
  seg_load H false opened first last f = Some None.
Proof.
  intros H opened first last l t G B L off f C. apply load_bad_header; auto; [intros ->; change (zlen (@nil Z)) with 0 in L; lia|].
  change HDR with 24. rewrite load_entry_fields by (auto; apply zlen_nonneg). fold off f. change (Z.max 24 24) with 24. destruct (Z.ltb_spec (zlen f) (off + 24)) as [K|K]; [unfold f, off in K; rewrite zlen_app in K; lia|].
  destruct (verify H (num f (off + 9) 1) (bytes_at f off 20) (num f (off + 20) 4)) eqn:V; [apply verify_eq in V; congruence|reflexivity].
Qed.

(** C10.  The process dies while appending [e], having written any number [k] of bytes of its record,
    after the entries [l] were appended: loading the open segment shows exactly [l], or [l] and [e]
    when all of [e] was written; the file holds nothing else, so the next appends are read back too,
    and the configurations among the entries were reported to the configuration manager. *)
Theorem crash_keeps_completed_appends : forall H recover first l ck e k s s1 c,
  Forall good_item l -> good_item (ck, e) ->
  append_all H (seg_create first) l = Some s -> seg_append H ck (sg_last s + 1) e (Some k) s = Some (s1, c) ->
  let kept := if (length (record H ck e) <=? k)%nat then l ++ [(ck, e)] else l in
  exists s2, seg_load H recover true first 0 (sg_file s1) = Some (Some (s2, confs_of first kept)) /\ shows H s2 first kept /\
    forall more, Forall good_item more -> exists s3, append_all H s2 more = Some s3 /\ shows H s3 first (kept ++ more).
Proof.
  intros H recover first l ck e k s s1 c G Ge A C kept.
  destruct (append_all_rep H l _ first [] (create_rep H first) eq_refl G) as [s0 [E [R O]]]. rewrite A in E. injection E as <-. cbn [app] in R.
  unfold seg_append in C. rewrite O, Z.eqb_refl in C. cbn [negb] in C. cbv zeta in C. injection C as <- _. cbn [sg_file]. rewrite (sr_file _ _ _ _ R), (sr_pos _ _ _ _ R), fwrite_end.
  set (n := zlen (bytes_of H l) + Z.of_nat k).
  assert (F : bytes_of H l ++ firstn k (record H ck e) = firstn (Z.to_nat n) (bytes_of H (l ++ [(ck, e)]))).
  { rewrite bytes_app, bytes_one, firstn_app. cbn [fst snd]. rewrite (firstn_all2 (bytes_of H l)) by (unfold n, zlen; lia). f_equal. f_equal. unfold n, zlen. lia. }
  assert (W : whole H n (l ++ [(ck, e)]) = kept).
  { rewrite whole_app by (unfold n; lia). unfold n. replace (zlen (bytes_of H l) + Z.of_nat k - zlen (bytes_of H l)) with (Z.of_nat k) by lia. unfold kept. cbn [whole fst snd].
    destruct (Nat.leb_spec (length (record H ck e)) k), (Z.leb_spec (zlen (record H ck e)) (Z.of_nat k)); unfold zlen in *; try lia; auto. apply app_nil_r. }
  assert (G2 : Forall good_item (l ++ [(ck, e)])) by (apply Forall_app; split; [exact G|constructor; [exact Ge|constructor]]).
  destruct (load_open_cut H recover first (l ++ [(ck, e)]) n G2) as [s2 [L [R2 O2]]]. rewrite F. rewrite W in *. exists s2. split; [exact L|]. split; [apply rep_shows; exact R2|].
  intros more Gm. destruct (append_all_rep H more _ first kept R2 O2 Gm) as [s3 [E3 [R3 _]]]. exists s3. split; [exact E3|apply rep_shows; exact R3].
Qed.
(** More generally the file may be cut anywhere: the entries whose record is whole are kept. *)
Theorem cut_file_keeps_whole_records : forall H recover first l k,
  Forall good_item l ->
  exists s, seg_load H recover true first 0 (firstn (Z.to_nat k) (bytes_of H l)) = Some (Some (s, confs_of first (whole H k l))) /\ shows H s first (whole H k l) /\
    exists lost, l = whole H k l ++ lost /\ (lost <> [] -> k < zlen (bytes_of H l)).
Proof.
  intros H recover first l k G. destruct (load_open_cut H recover first l k G) as [s [L [R _]]]. exists s. split; [exact L|]. split; [apply rep_shows; exact R|].
  destruct (whole_prefix H l k) as [lost E]. exists lost. split; [exact E|]. intros Ne. destruct (Z_lt_ge_dec k (zlen (bytes_of H l))) as [|Ge]; [assumption|].
  rewrite (whole_all H l k) in E by lia. exfalso. apply Ne. rewrite <- (app_nil_r l) in E at 1. apply app_inv_head in E. auto.
Qed.
(** A closed segment is either loaded with all its entries or, when its file was cut, refused. *)
Theorem closed_segment_all_or_error : forall H recover first l k,
  Forall good_item l -> 0 <= k <= zlen (bytes_of H l) ->
  (k = zlen (bytes_of H l) -> exists s, seg_load H recover false first (first + zlen l - 1) (firstn (Z.to_nat k) (bytes_of H l)) = Some (Some (s, confs_of first l)) /\ shows H s first l) /\
  (k < zlen (bytes_of H l) -> seg_load H recover false first (first + zlen l - 1) (firstn (Z.to_nat k) (bytes_of H l)) = Some None).
Proof.
  intros H recover first l k G K. split; intros E.
  - subst k. assert (Fa : firstn (Z.to_nat (zlen (bytes_of H l))) (bytes_of H l) = bytes_of H l) by (unfold zlen; rewrite Nat2Z.id; apply firstn_all). rewrite Fa. destruct (load_closed H recover first l G) as [s [L [R _]]]. exists s. split; [exact L|apply rep_shows; exact R].
  - apply load_closed_cut; auto. lia.
Qed.

(** Not so: a payload of 4 GiB or more is accepted and acknowledged but not read back, because the
    length is stored in 32 bits (log.cpp:416; the CHECK at 412 allows 2^56). *)
Theorem big_payload_not_read_back_refuted : forall H first term d,
  4294967296 <= zlen d -> 
  exists s, seg_append H 1 first (mkSent term (BData d)) None (seg_create first) = Some (s, 0) /\ forall t, seg_get H s first <> Some (Some (mkSent t (BData d))).
Proof.
  intros H first term d L. unfold seg_append, seg_create. cbn [sg_open sg_last sg_first sg_bytes sg_offs sg_file sg_pos negb]. replace (first - 1 + 1) with first by lia. rewrite Z.eqb_refl. cbn [negb].
  eexists. split; [reflexivity|]. intros t G. unfold seg_get in G. destruct (get_meta _ first) as [[[off len] tm]|] eqn:M; [|discriminate].
  assert (Off : off = 0). { unfold get_meta in M. cbn [sg_last sg_first sg_offs] in M. destruct (_ || _); [discriminate|]. destruct (_ =? _); [discriminate|]. replace (first - first) with 0 in M by lia. cbn [app] in M. rewrite znth_cons_0 in M. injection M as <- _ _. reflexivity. }
  subst off. cbn [sg_file] in G. change (fwrite [] 0 (record H 1 (mkSent term (BData d)))) with (record H 1 (mkSent term (BData d)) ++ []) in G. rewrite app_nil_r in G.
  assert (LE : forall h dd, load_entry H (record H 1 (mkSent term (BData d))) 0 true len = LOk h dd -> zlen dd < 4294967296).
  { intros h dd E. unfold load_entry, HDR in E. cbv zeta in E. set (buf := pread _ 0 (Z.max len 24)) in E. destruct (negb (zlen buf =? Z.max len 24)) eqn:Zb; [discriminate|]. apply negb_false_iff, Z.eqb_eq in Zb. cbn [negb hd_len hd_ck hd_sum] in E.
    assert (Bf : exists b1 tl, buf = be64 term ++ b1 ++ be32 (u32 (zlen d)) ++ tl /\ length b1 = 4%nat).
    { assert (Rc : exists tl0, record H 1 (mkSent term (BData d)) = be64 term ++ be32 (2 * 16777216 + 1 * 65536) ++ be32 (u32 (zlen d)) ++ tl0).
      { unfold record. cbn [se_term se_body payload ty_of]. cbv zeta. set (c := be32 (match checksum H 1 (head20 H 1 term 2 d) with Some c => c | None => 0 end)). unfold head20. eexists. rewrite <- !app_assoc. reflexivity. }
      destruct Rc as [tl0 Rc]. exists (be32 (2 * 16777216 + 1 * 65536)), (firstn (Z.to_nat (Z.max len 24) - 16) tl0). split; [|reflexivity]. unfold buf, pread. change (Z.to_nat 0) with O. cbn [skipn]. rewrite Rc.
      rewrite !firstn_app. rewrite (firstn_all2 (be64 term)) by (change (length (be64 term)) with 8%nat; lia). rewrite !firstn_all2 by (cbn [be32 length]; change (length (be64 term)) with 8%nat; lia). f_equal. f_equal. f_equal. f_equal. change (length (be64 term)) with 8%nat. cbn [be32 length]. lia. }
    destruct Bf as [b1 [tl [Bf Lb1]]].
    assert (P12 : pread buf 12 4 = be32 (u32 (zlen d))). { rewrite Bf. destruct b1 as [|x1 [|x2 [|x3 [|x4 [|]]]]]; cbn in Lb1; try lia. reflexivity. }
    rewrite P12 in E. rewrite unbe_be32 in E by (apply Z.mod_pos_bound; lia). set (dl := u32 (zlen d)) in *. assert (Dl : 0 <= dl < 4294967296) by (apply Z.mod_pos_bound; lia).
    destruct (negb (verify _ _ _ _)); [discriminate|]. destruct (_ && _) eqn:Ab; [discriminate|]. destruct (verify _ _ _ _); [|discriminate]. apply (f_equal (fun r => match r with LOk _ x => x | _ => [] end)) in E. cbv beta iota in E. subst dd.
    destruct (Z.ltb_spec (zlen buf) (24 + dl)) as [Lt|Ge].
    - cbn [andb] in Ab. apply negb_false_iff, Z.eqb_eq in Ab. unfold zlen in *. rewrite skipn_length, app_length. lia.
    - unfold zlen in *. rewrite skipn_length, firstn_length. lia. }
  destruct (load_entry H (record H 1 (mkSent term (BData d))) 0 true len) as [| |h dd] eqn:E; try discriminate. specialize (LE _ _ eq_refl). destruct (negb _); [discriminate|].
  destruct (hd_type h =? 2); [injection G as _ ->; lia|]. destruct (hd_type h =? 1); [destruct dd; discriminate|]. destruct (hd_type h =? 3); [|discriminate]. destruct (par_conf dd) as [[b|]|] eqn:Pc; try discriminate. injection G as _ ->.
  unfold par_conf in Pc. destruct (par_strs _ _) as [[ps os]|]; [|discriminate]. destruct (parse_peers ps), (parse_peers os); discriminate.
Qed.

(** Not so: one wrong byte in the data of a configuration entry of the open segment is not reported:
    loading succeeds, drops that entry and all after it, and cuts the file (log.cpp:314-316). *)
Definition ex_H := mkHash (fun bs => fold_left (fun a b => a * 31 + b) bs 7) (fun bs => fold_left (fun a b => a * 131 + b) bs 3).
Definition ex_peer := mkPeer 167772161 8100 0 0.
Definition ex_l : list (Z * sent) := [(1, mkSent 3 (BConf [ex_peer] None)); (1, mkSent 3 (BData [1; 2; 3])); (0, mkSent 4 BNoop)].
Lemma ex_good : Forall good_item ex_l.
Proof.
  assert (GP : good_peer ex_peer) by (split; [split; cbn; lia|cbn; lia]).
  assert (FP : Forall good_peer [ex_peer]) by (constructor; [exact GP|constructor]).
  unfold ex_l. constructor; [|constructor; [|constructor; [|constructor]]]; (split; [cbn; tauto|]); (split; [cbn; lia|]); (split; [|vm_compute; reflexivity]); cbn [snd se_body good_body]; auto.
Qed.
Definition flip (n : nat) (f : list Z) : list Z := firstn n f ++ match skipn n f with b :: r => (b + 1) mod 256 :: r | [] => [] end.
Theorem corrupt_configuration_silently_dropped_refuted :
  exists s, seg_load ex_H false true 1 0 (flip 30 (bytes_of ex_H ex_l)) = Some (Some (s, [])) /\ sg_last s = 0 /\ sg_file s = [] /\
            Forall good_item ex_l /\ zlen ex_l = 3.
Proof. destruct (seg_load ex_H false true 1 0 (flip 30 (bytes_of ex_H ex_l))) as [[[s c]|]|] eqn:E; vm_compute in E; try discriminate. injection E as <- <-. eexists. split; [reflexivity|]. split; [reflexivity|]. split; [reflexivity|]. split; [exact ex_good|reflexivity]. Qed.
(** Not so: after a write that failed halfway, an append to the same segment reports success but is not
    read back (the torn bytes are not cut off).  LogManager stops appending after an error. *)
Theorem append_after_failed_write_refuted :
  exists s s1 s2, append_all ex_H (seg_create 1) ex_l = Some s /\ seg_append ex_H 1 4 (mkSent 4 (BData [9])) (Some 5%nat) s = Some (s1, -1) /\
    seg_append ex_H 1 4 (mkSent 4 (BData [9])) None s1 = Some (s2, 0) /\ seg_get ex_H s2 4 = Some None.
Proof.
  destruct (append_all ex_H (seg_create 1) ex_l) as [s|] eqn:E; [|vm_compute in E; discriminate].
  destruct (seg_append ex_H 1 4 (mkSent 4 (BData [9])) (Some 5%nat) s) as [[s1 c1]|] eqn:E1; [|vm_compute in E; injection E as <-; vm_compute in E1; discriminate].
  destruct (seg_append ex_H 1 4 (mkSent 4 (BData [9])) None s1) as [[s2 c2]|] eqn:E2; [|vm_compute in E; injection E as <-; vm_compute in E1; injection E1 as <- <-; vm_compute in E2; discriminate].
  exists s, s1, s2. vm_compute in E. injection E as <-. vm_compute in E1. injection E1 as <- <-. vm_compute in E2. injection E2 as <- <-. split; [reflexivity|]. split; [reflexivity|]. split; [reflexivity|]. vm_compute. reflexivity.
Qed.

(** A concrete segment: its records, a crash in the third append, and what a flipped byte does. *)
Example ex_segment : exists s, append_all ex_H (seg_create 1) ex_l = Some s /\ sg_last s = 3 /\ seg_get ex_H s 2 = Some (Some (mkSent 3 (BData [1; 2; 3]))) /\ seg_get ex_H s 4 = Some None /\ zlen (sg_file s) = 94.
Proof. destruct (append_all ex_H (seg_create 1) ex_l) as [s|] eqn:E; vm_compute in E; [|discriminate]. injection E as <-. eexists. split; [reflexivity|]. vm_compute. auto. Qed.
Example ex_torn : whole ex_H 90 ex_l = firstn 2 ex_l /\ whole ex_H 94 ex_l = ex_l /\ whole ex_H 42 ex_l = [].
Proof. vm_compute. auto. Qed.
Example ex_flip_header : seg_load ex_H false true 1 0 (flip 3 (bytes_of ex_H ex_l)) = Some None.
Proof. vm_compute. reflexivity. Qed.

Print Assumptions segment_reads_back.
Print Assumptions record_injective.
Print Assumptions corrupt_record_never_returned.
Print Assumptions corrupt_header_fails_load.
Print Assumptions crash_keeps_completed_appends.
Print Assumptions cut_file_keeps_whole_records.
Print Assumptions closed_segment_all_or_error.
Print Assumptions big_payload_not_read_back_refuted.
Print Assumptions corrupt_configuration_silently_dropped_refuted.
Print Assumptions append_after_failed_write_refuted.
