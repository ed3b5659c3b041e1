From Verif Require Import Base BaseLemmas Conf ConfSpec MetaFile SegCodec Segment SegSpec SegCodecProofs.

Fixpoint offs_of (H : hashes) (off : Z) (l : list (Z * sent)) : list (Z * Z) :=
  match l with [] => [] | x :: l' => (off, se_term (snd x)) :: offs_of H (off + zlen (record H (fst x) (snd x))) l' end.
Record seg_rep (H : hashes) (s : seg) (first : Z) (l : list (Z * sent)) : Prop := {
  sr_first : sg_first s = first; sr_last : sg_last s = first + zlen l - 1; sr_offs : sg_offs s = offs_of H 0 l; sr_file : sg_file s = bytes_of H l;
  sr_bytes : sg_bytes s = zlen (bytes_of H l); sr_pos : sg_pos s = zlen (bytes_of H l); sr_good : Forall good_item l }.

Lemma bytes_app : forall H a b, bytes_of H (a ++ b) = bytes_of H a ++ bytes_of H b.
Proof. intros. apply flat_map_app. Qed.
Lemma bytes_one : forall H x, bytes_of H [x] = record H (fst x) (snd x).
Proof. intros. unfold bytes_of. cbn [flat_map]. apply app_nil_r. Qed.
Lemma offs_app : forall H a off b, offs_of H off (a ++ b) = offs_of H off a ++ offs_of H (off + zlen (bytes_of H a)) b.
Proof.
  induction a as [|x a IH]; intros off b; cbn [app offs_of].
  - f_equal. change (bytes_of H []) with (@nil Z). change (zlen (@nil Z)) with 0. lia.
  - rewrite IH. f_equal. f_equal. f_equal. change (bytes_of H (x :: a)) with (record H (fst x) (snd x) ++ bytes_of H a). rewrite zlen_app. lia.
Qed.
Lemma offs_len : forall H l off, zlen (offs_of H off l) = zlen l.
Proof. induction l as [|x l IH]; intros; [reflexivity|]. cbn [offs_of]. rewrite !zlen_cons, IH. reflexivity. Qed.
Lemma znth_split : forall A (l : list A) m x, znth l m = Some x -> exists a b, l = a ++ x :: b /\ zlen a = m.
Proof.
  intros A l m x E. pose proof (znth_some_bound _ _ _ E). unfold znth in E. destruct (m <? 0); [discriminate|]. apply nth_error_split in E. destruct E as [a [b [E1 E2]]]. exists a, b. split; auto. unfold zlen. lia.
Qed.
Lemma znth_mid : forall A (a b : list A) x, znth (a ++ x :: b) (zlen a) = Some x.
Proof. intros. pose proof (zlen_nonneg a). rewrite znth_app2 by lia. rewrite Z.sub_diag. apply znth_cons_0. Qed.
Lemma rec_pos : forall H x, 24 <= zlen (record H (fst x) (snd x)).
Proof. intros. rewrite record_len. pose proof (zlen_nonneg (payload (se_body (snd x)))). lia. Qed.

Lemma rep_shows : forall H s first l, seg_rep H s first l -> shows H s first l.
Proof.
  intros H s first l R. split; [apply R|]. split; [apply R|]. intros i. unfold seg_get, seg_term, get_meta. rewrite (sr_first _ _ _ _ R), (sr_last _ _ _ _ R), (sr_offs _ _ _ _ R), (sr_file _ _ _ _ R), (sr_bytes _ _ _ _ R). pose proof (zlen_nonneg l).
  destruct (Z.ltb_spec (first + zlen l - 1) i); cbn [orb]; [rewrite (proj2 (znth_none l (i - first))) by lia; split; reflexivity|].
  destruct (Z.ltb_spec i first); cbn [orb]; [rewrite (proj2 (znth_none l (i - first))) by lia; split; reflexivity|].
  destruct (Z.eqb_spec (first + zlen l - 1) (first - 1)); [lia|].
  destruct (znth_in_bound l (i - first) ltac:(lia)) as [[ck e] E]. rewrite E. destruct (znth_split _ _ _ _ E) as [a [b [-> La]]].
  pose proof (sr_good _ _ _ _ R) as G. apply Forall_app in G. destruct G as [_ G]. inversion G as [|? ? G1 G2]; subst.
  rewrite offs_app. cbn [offs_of fst snd]. replace (i - first) with (zlen (offs_of H 0 a)) by (rewrite offs_len; lia). rewrite znth_mid.
  set (off := 0 + zlen (bytes_of H a)).
  assert (Len : (if i <? first + zlen (a ++ (ck, e) :: b) - 1 then match znth (offs_of H 0 a ++ (off, se_term e) :: offs_of H (off + zlen (record H ck e)) b) (zlen (offs_of H 0 a) + 1) with Some (n, _) => n | None => 0 end else zlen (bytes_of H (a ++ (ck, e) :: b))) - off = zlen (record H ck e)).
  { rewrite zlen_app, zlen_cons in *. rewrite offs_len in *. destruct b as [|[ck2 e2] b].
    - destruct (Z.ltb_spec i (first + (zlen a + (zlen (@nil (Z * sent)) + 1)) - 1)); [change (zlen (@nil (Z * sent))) with 0 in *; lia|]. rewrite bytes_app, bytes_one, zlen_app. cbn [fst snd]. unfold off. lia.
    - destruct (Z.ltb_spec i (first + (zlen a + (zlen ((ck2, e2) :: b) + 1)) - 1)); [|rewrite zlen_cons in *; pose proof (zlen_nonneg b); lia].
      rewrite znth_app2 by (rewrite offs_len; lia). rewrite offs_len. replace (zlen a + 1 - zlen a) with 1 by lia. cbn [offs_of fst snd]. rewrite znth_cons_pos by lia. cbn. rewrite znth_cons_0. lia. }
  rewrite Len. cbn [snd]. split; [|reflexivity].
  rewrite bytes_app. change (bytes_of H ((ck, e) :: b)) with (record H ck e ++ bytes_of H b).
  unfold off. rewrite Z.add_0_l. rewrite (load_at H (bytes_of H a) ck e (bytes_of H b) true _ G1 (or_intror eq_refl)).
  cbn [hd_term hd_type hdr_of]. rewrite Z.eqb_refl. cbn [negb]. unfold same_entry. destruct e as [t bd]. cbn [se_term se_body]. destruct G1 as [_ [_ [Gb _]]]. cbn [snd se_body] in Gb. destruct bd as [|d|ps old]; cbn [ty_of payload].
  - reflexivity.
  - reflexivity.
  - change (3 =? 2) with false. change (3 =? 1) with false. change (3 =? 3) with true. cbv iota. rewrite par_ser by exact Gb. cbn [same_entry se_body]. reflexivity.
Qed.

Lemma create_rep : forall H first, seg_rep H (seg_create first) first [].
Proof. intros. constructor; try reflexivity; [cbn; change (zlen (@nil (Z * sent))) with 0; lia|constructor]. Qed.

Lemma fwrite_end : forall f bs, fwrite f (zlen f) bs = f ++ bs.
Proof. intros. unfold fwrite, zlen. rewrite Nat2Z.id, firstn_all, skipn_all2 by lia. rewrite app_nil_r. reflexivity. Qed.

Lemma append_rep : forall H s first l ck e, seg_rep H s first l -> sg_open s = true -> good_item (ck, e) ->
  exists s', seg_append H ck (sg_last s + 1) e None s = Some (s', 0) /\ seg_rep H s' first (l ++ [(ck, e)]) /\ sg_open s' = true.
Proof.
  intros H s first l ck e R O G. unfold seg_append. rewrite O, Z.eqb_refl. cbn [negb]. cbv zeta. eexists. split; [reflexivity|]. split; [|reflexivity].
  constructor; cbn [sg_first sg_last sg_offs sg_file sg_bytes sg_pos].
  - apply R.
  - rewrite (sr_last _ _ _ _ R), zlen_app. change (zlen [(ck, e)]) with 1. lia.
  - rewrite (sr_offs _ _ _ _ R), (sr_bytes _ _ _ _ R), offs_app. reflexivity.
  - rewrite (sr_file _ _ _ _ R), (sr_pos _ _ _ _ R), fwrite_end, bytes_app, bytes_one. reflexivity.
  - rewrite (sr_bytes _ _ _ _ R), bytes_app, bytes_one, zlen_app. reflexivity.
  - rewrite (sr_pos _ _ _ _ R), bytes_app, bytes_one, zlen_app. reflexivity.
  - apply Forall_app. split; [apply R|]. constructor; [exact G|constructor].
Qed.
Lemma append_all_rep : forall H l2 s first l, seg_rep H s first l -> sg_open s = true -> Forall good_item l2 ->
  exists s', append_all H s l2 = Some s' /\ seg_rep H s' first (l ++ l2) /\ sg_open s' = true.
Proof.
  induction l2 as [|[ck e] l2 IH]; intros s first l R O G; [exists s; rewrite app_nil_r; auto|]. inversion G as [|? ? G1 G2]; subst.
  destruct (append_rep _ _ _ _ _ _ R O G1) as [s1 [E [R1 O1]]]. cbn [append_all fst snd]. rewrite E. destruct (IH _ _ _ R1 O1 G2) as [s2 [E2 [R2 O2]]]. exists s2. rewrite <- app_assoc in R2. auto.
Qed.

(** * Scanning a file *)
Definition torn (H : hashes) (t : list Z) : Prop := exists x k, good_item x /\ t = firstn k (record H (fst x) (snd x)) /\ zlen t < zlen (record H (fst x) (snd x)).

Lemma load_24 : forall H a b c, 24 <= zlen b -> load_entry H (a ++ b ++ c) (zlen a) false HDR = load_entry H (a ++ b) (zlen a) false HDR.
Proof.
  intros H a b c L. unfold load_entry, HDR. cbv zeta. change (Z.max 24 24) with 24. change (negb false) with true. cbv iota. rewrite !pread_app by reflexivity.
  rewrite firstn_app. replace (Z.to_nat 24 - length b)%nat with O by (unfold zlen in L; lia). cbn [firstn]. rewrite app_nil_r. reflexivity.
Qed.
Lemma load_short : forall H a b want, zlen b < 24 -> load_entry H (a ++ b) (zlen a) want HDR = LShort.
Proof.
  intros H a b want L. unfold load_entry, HDR. cbv zeta. change (Z.max 24 24) with 24. rewrite pread_app by reflexivity.
  rewrite firstn_all2 by (unfold zlen in L; lia). destruct (Z.eqb_spec (zlen b) 24); [lia|]. reflexivity.
Qed.

Lemma scan_torn : forall H pre t fuel i, torn H t -> t <> [] -> (0 < fuel)%nat -> scan H (pre ++ t) fuel i (zlen pre) = Some ([], [], zlen pre, StTorn).
Proof.
  intros H pre t fuel i [[ck e] [k [G [E Lt]]]] Ne Fu. cbn [fst snd] in *. destruct fuel as [|fuel]; [lia|]. cbn [scan]. rewrite zlen_app.
  assert (0 < zlen t). { pose proof (zlen_nonneg t). destruct (Z.eq_dec (zlen t) 0) as [Z0|]; [apply zlen_0_nil in Z0; congruence|lia]. }
  destruct (Z.leb_spec (zlen pre + zlen t) (zlen pre)); [lia|].
  destruct (Z_lt_ge_dec (zlen t) 24) as [L|L]; [rewrite load_short by exact L; reflexivity|].
  assert (Rt : exists c, record H ck e = t ++ c) by (exists (skipn k (record H ck e)); rewrite E; symmetry; apply firstn_skipn). destruct Rt as [c Rt].
  rewrite <- (load_24 H pre t c) by lia. rewrite <- Rt. pose proof (load_at H pre ck e [] false 24 G (or_introl eq_refl)) as LA. rewrite app_nil_r in LA. change HDR with 24 at 1. rewrite LA.
  cbn [hd_len hdr_of hd_type]. rewrite record_len in Lt. unfold HDR. destruct (Z.ltb_spec (zlen pre + zlen t) (zlen pre + (24 + zlen (payload (se_body e))))); [reflexivity|lia].
Qed.
Lemma scan_nil : forall H f fuel i off, zlen f <= off -> scan H f fuel i off = Some ([], [], off, StEnd).
Proof. intros H f fuel i off L. destruct fuel; cbn [scan]; destruct (Z.leb_spec (zlen f) off); try lia; reflexivity. Qed.

Lemma scan_ok : forall H t l pre fuel i, Forall good_item l -> (t = [] \/ torn H t) -> (length (bytes_of H l ++ t) <= fuel)%nat ->
  scan H (pre ++ bytes_of H l ++ t) fuel i (zlen pre) = Some (offs_of H (zlen pre) l, confs_of i l, zlen pre + zlen (bytes_of H l), match t with [] => StEnd | _ => StTorn end).
Proof.
  intros H t. induction l as [|[ck e] l IH]; intros pre fuel i G Ht Fu.
  - change (bytes_of H []) with (@nil Z) in *. cbn [app offs_of confs_of] in *. change (zlen (@nil Z)) with 0. rewrite Z.add_0_r.
    destruct t as [|b t]; [rewrite app_nil_r; apply scan_nil; lia|]. destruct Ht as [Ht|Ht]; [discriminate|]. apply scan_torn; auto; [discriminate|]. cbn in Fu. lia.
  - inversion G as [|? ? G1 G2]; subst. change (bytes_of H ((ck, e) :: l)) with (record H ck e ++ bytes_of H l) in *. rewrite <- !app_assoc in *. set (rest := bytes_of H l ++ t) in *.
    rewrite app_length in Fu. pose proof (rec_pos H (ck, e)) as RP. cbn [fst snd] in RP.
    assert (LR : (24 <= length (record H ck e))%nat) by (unfold zlen in RP; lia). destruct fuel as [|fuel]; [lia|]. cbn [scan].
    rewrite !zlen_app. pose proof (zlen_nonneg rest).
    destruct (Z.leb_spec (zlen pre + (zlen (record H ck e) + zlen rest)) (zlen pre)); [lia|].
    change HDR with 24 at 1. rewrite (load_at H pre ck e rest false 24 G1 (or_introl eq_refl)). cbv zeta. cbn [hd_len hd_type hd_term hdr_of].
    assert (Sk : HDR + zlen (payload (se_body e)) = zlen (record H ck e)) by (rewrite record_len; reflexivity). rewrite Sk.
    destruct (Z.ltb_spec (zlen pre + (zlen (record H ck e) + zlen rest)) (zlen pre + zlen (record H ck e))); [lia|].
    assert (Next : scan H (pre ++ record H ck e ++ rest) fuel (i + 1) (zlen pre + zlen (record H ck e)) = Some (offs_of H (zlen pre + zlen (record H ck e)) l, confs_of (i + 1) l, zlen pre + zlen (record H ck e) + zlen (bytes_of H l), match t with [] => StEnd | _ => StTorn end)).
    { rewrite app_assoc. rewrite <- zlen_app. apply IH; auto. fold rest. lia. }
    rewrite Next. cbn [offs_of confs_of fst snd]. unfold conf_at. cbn [snd].
    destruct (se_body e) as [|d|ps old] eqn:Eb; cbn [ty_of].
    + change (1 =? 3) with false. cbv iota. cbn [app]. f_equal. f_equal. f_equal. lia.
    + change (2 =? 3) with false. cbv iota. cbn [app]. f_equal. f_equal. f_equal. lia.
    + change (3 =? 3) with true. cbv iota. rewrite (load_at H pre ck e rest true _ G1 (or_intror eq_refl)). rewrite Eb. cbn [payload].
      destruct G1 as [_ [_ [Gb _]]]. cbn [snd] in Gb. rewrite Eb in Gb. rewrite par_ser by exact Gb. cbn [app]. f_equal. f_equal. f_equal; [|lia]. f_equal. f_equal. unfold same_entry. rewrite Eb. reflexivity.
Qed.

(** A cut of the file ends in a torn record, or at the end of a record. *)
Lemma cut_whole : forall H l k, Forall good_item l -> exists t, firstn (Z.to_nat k) (bytes_of H l) = bytes_of H (whole H k l) ++ t /\ (t = [] \/ torn H t).
Proof.
  intros H. induction l as [|[ck e] l IH]; intros k G; [exists []; rewrite firstn_nil; split; [reflexivity|auto]|]. inversion G as [|? ? G1 G2]; subst.
  cbn [whole fst snd]. change (bytes_of H ((ck, e) :: l)) with (record H ck e ++ bytes_of H l). pose proof (rec_pos H (ck, e)) as RP. cbn [fst snd] in RP.
  destruct (Z.leb_spec (zlen (record H ck e)) k).
  - destruct (IH (k - zlen (record H ck e)) G2) as [t [E T]]. exists t. split; auto. change (bytes_of H ((ck, e) :: whole H (k - zlen (record H ck e)) l)) with (record H ck e ++ bytes_of H (whole H (k - zlen (record H ck e)) l)).
    rewrite firstn_app. rewrite firstn_all2 by (unfold zlen in *; lia). rewrite <- app_assoc. f_equal. rewrite <- E. f_equal. unfold zlen in *. lia.
  - exists (firstn (Z.to_nat k) (record H ck e)). cbn [bytes_of flat_map app]. split; [rewrite firstn_app; replace (Z.to_nat k - length (record H ck e))%nat with O by (unfold zlen in *; lia); cbn [firstn]; apply app_nil_r|].
    right. exists (ck, e), (Z.to_nat k). split; [exact G1|]. split; [reflexivity|]. cbn [fst snd]. unfold zlen in *. rewrite firstn_length. lia.
Qed.
Lemma whole_good : forall H l k, Forall good_item l -> Forall good_item (whole H k l).
Proof. intros H. induction l as [|x l IH]; intros k G; cbn [whole]; [constructor|]. inversion G; subst. destruct (_ <=? k); [constructor; auto|constructor]. Qed.
Lemma whole_prefix : forall H l k, exists r, l = whole H k l ++ r.
Proof. intros H. induction l as [|x l IH]; intros k; cbn [whole]; [exists []; reflexivity|]. destruct (_ <=? k); [destruct (IH (k - zlen (record H (fst x) (snd x)))) as [r E]; exists r; cbn [app]; f_equal; exact E|exists (x :: l); reflexivity]. Qed.
Lemma whole_all : forall H l k, zlen (bytes_of H l) <= k -> whole H k l = l.
Proof.
  intros H. induction l as [|x l IH]; intros k L; [reflexivity|]. cbn [whole]. change (bytes_of H (x :: l)) with (record H (fst x) (snd x) ++ bytes_of H l) in L. rewrite zlen_app in L. pose proof (zlen_nonneg (bytes_of H l)).
  destruct (Z.leb_spec (zlen (record H (fst x) (snd x))) k); [f_equal; apply IH; lia|lia].
Qed.
Lemma whole_app : forall H a b k, zlen (bytes_of H a) <= k -> whole H k (a ++ b) = a ++ whole H (k - zlen (bytes_of H a)) b.
Proof.
  intros H. induction a as [|x a IH]; intros b k L; [cbn; change (zlen (@nil Z)) with 0; rewrite Z.sub_0_r; reflexivity|]. cbn [whole app]. change (bytes_of H (x :: a)) with (record H (fst x) (snd x) ++ bytes_of H a) in *. rewrite zlen_app in *. pose proof (zlen_nonneg (bytes_of H a)).
  destruct (Z.leb_spec (zlen (record H (fst x) (snd x))) k); [|lia]. f_equal. rewrite IH by lia. f_equal. f_equal. lia.
Qed.

Lemma load_open_cut : forall H recover first l k, Forall good_item l ->
  exists s, seg_load H recover true first 0 (firstn (Z.to_nat k) (bytes_of H l)) = Some (Some (s, confs_of first (whole H k l))) /\ seg_rep H s first (whole H k l) /\ sg_open s = true.
Proof.
  intros H recover first l k G. destruct (cut_whole H l k G) as [t [E T]]. rewrite E. unfold seg_load.
  pose proof (scan_ok H t (whole H k l) [] (length (bytes_of H (whole H k l) ++ t)) first (whole_good H l k G) T (le_n _)) as SO. cbn [app] in SO. change (zlen (@nil Z)) with 0 in SO. rewrite SO. cbv zeta. rewrite Z.add_0_l.
  assert (St : (match (match t with [] => StEnd | _ => StTorn end) with StCorrupt | StConfParse => true | _ => false end) = false) by (destruct t; reflexivity). rewrite St. cbn [negb andb orb].
  eexists. split; [reflexivity|]. split; [|reflexivity]. assert (Fi : firstn (Z.to_nat (zlen (bytes_of H (whole H k l)))) (bytes_of H (whole H k l) ++ t) = bytes_of H (whole H k l)).
  { unfold zlen. rewrite Nat2Z.id, firstn_app, firstn_all, Nat.sub_diag. cbn [firstn]. apply app_nil_r. }
  constructor; cbn [sg_first sg_last sg_offs sg_file sg_bytes sg_pos]; auto.
  - rewrite offs_len. lia.
  - apply whole_good. exact G.
Qed.
Lemma load_closed : forall H recover first l, Forall good_item l ->
  exists s, seg_load H recover false first (first + zlen l - 1) (bytes_of H l) = Some (Some (s, confs_of first l)) /\ seg_rep H s first l /\ sg_open s = false.
Proof.
  intros H recover first l G. unfold seg_load. pose proof (scan_ok H [] l [] (length (bytes_of H l)) first G (or_introl eq_refl)) as SO. cbn [app] in SO. rewrite app_nil_r in SO. specialize (SO (le_n _)). change (zlen (@nil Z)) with 0 in SO. rewrite SO. cbv zeta. rewrite Z.add_0_l, offs_len.
  replace (first - 1 + zlen l) with (first + zlen l - 1) by lia. rewrite Z.eqb_refl. cbn [negb andb orb].
  eexists. split; [reflexivity|]. split; [|reflexivity]. constructor; cbn [sg_first sg_last sg_offs sg_file sg_bytes sg_pos]; auto. unfold zlen. rewrite Nat2Z.id. apply firstn_all.
Qed.

Lemma offs_firstn : forall H n l off, firstn n (offs_of H off l) = offs_of H off (firstn n l).
Proof. induction n as [|n IH]; intros [|x l] off; cbn; auto. f_equal. apply IH. Qed.
Lemma truncate_rep : forall H s first l kept, seg_rep H s first l -> first - 1 <= kept < sg_last s ->
  exists s', seg_truncate kept s = Some s' /\ seg_rep H s' first (firstn (Z.to_nat (kept + 1 - first)) l) /\ sg_open s' = true.
Proof.
  intros H s first l kept R K. pose proof (sr_last _ _ _ _ R) as La. unfold seg_truncate. destruct (Z.leb_spec (sg_last s) kept); [lia|]. rewrite (sr_first _ _ _ _ R), (sr_offs _ _ _ _ R), (sr_file _ _ _ _ R).
  destruct (znth_in_bound l (kept + 1 - first) ltac:(lia)) as [[ck e] E]. destruct (znth_split _ _ _ _ E) as [a [b [-> Ea]]].
  rewrite offs_app. cbn [offs_of]. rewrite <- Ea. assert (ZM : forall x c, znth (offs_of H 0 a ++ x :: c) (zlen a) = Some x) by (intros; rewrite <- (offs_len H a 0); apply znth_mid). rewrite ZM. clear ZM. eexists. split; [reflexivity|]. split; [|reflexivity].
  assert (Fa : firstn (Z.to_nat (zlen a)) (a ++ (ck, e) :: b) = a) by (unfold zlen; rewrite Nat2Z.id, firstn_app, firstn_all, Nat.sub_diag; cbn [firstn]; apply app_nil_r). rewrite Fa.
  assert (Fb : firstn (Z.to_nat (0 + zlen (bytes_of H a))) (bytes_of H (a ++ (ck, e) :: b)) = bytes_of H a) by (rewrite bytes_app, Z.add_0_l; unfold zlen; rewrite Nat2Z.id, firstn_app, firstn_all, Nat.sub_diag; cbn [firstn]; apply app_nil_r).
  constructor; cbn [sg_first sg_last sg_offs sg_file sg_bytes sg_pos]; auto; try lia.
  - assert (Fo : forall c, firstn (Z.to_nat (zlen a)) (offs_of H 0 a ++ c) = offs_of H 0 a).
    { intros c. unfold zlen. rewrite Nat2Z.id. rewrite firstn_app. pose proof (offs_len H a 0) as OL. unfold zlen in OL. apply Nat2Z.inj in OL. rewrite OL, Nat.sub_diag. cbn [firstn]. rewrite app_nil_r. rewrite <- OL. apply firstn_all. }
    apply Fo.
  - pose proof (sr_good _ _ _ _ R) as G. apply Forall_app in G. apply G.
Qed.
Lemma close_rep : forall H s first l, seg_rep H s first l -> seg_rep H (seg_close s) first l.
Proof. intros H s first l R. destruct R. constructor; auto. Qed.
