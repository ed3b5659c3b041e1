(** Proofs about copying files: the wire format of the attachment, then the session. *)
From Verif Require Import Base MetaFile SegCodec SegCodecProofs Copier CopierSpec.

Ltac sp := repeat match goal with |- _ /\ _ => split end.
(** * Lists *)
Lemma zlen_take : forall n l, 0 <= n <= zlen l -> zlen (take n l) = n.
Proof. intros. unfold take, zlen in *. rewrite firstn_length. lia. Qed.
Lemma take_all : forall n l, zlen l <= n -> take n l = l.
Proof. intros. unfold take, zlen in *. apply firstn_all2. lia. Qed.
Lemma drop_all : forall n l, zlen l <= n -> drop n l = [].
Proof. intros. unfold drop, zlen in *. apply skipn_all2. lia. Qed.
Lemma take_app_exact : forall a b n, n = zlen a -> take n (a ++ b) = a.
Proof. intros. subst. unfold take, zlen. rewrite Nat2Z.id, firstn_app, Nat.sub_diag, firstn_O, app_nil_r. apply firstn_all. Qed.
Lemma drop_app_exact : forall a b n, n = zlen a -> drop n (a ++ b) = b.
Proof. intros. subst. unfold drop, zlen. rewrite Nat2Z.id, skipn_app, Nat.sub_diag, skipn_all. reflexivity. Qed.
Lemma zlen_app' : forall (a b : list Z), zlen (a ++ b) = zlen a + zlen b.
Proof. intros. unfold zlen. rewrite app_length. lia. Qed.
Lemma zlen_zeros : forall n, 0 <= n -> zlen (zeros n) = n.
Proof. intros. unfold zlen, zeros. rewrite repeat_length. lia. Qed.
Lemma zeros_app : forall a b, 0 <= a -> 0 <= b -> zeros a ++ zeros b = zeros (a + b).
Proof. intros. unfold zeros. rewrite <- repeat_app. f_equal. lia. Qed.
Lemma zeros_neg : forall n, n <= 0 -> zeros n = [].
Proof. intros. unfold zeros. replace (Z.to_nat n) with O by lia. reflexivity. Qed.
Lemma zlen_nn : forall (l : list Z), 0 <= zlen l. Proof. intros. unfold zlen. lia. Qed.
Lemma zlen_drop : forall n l, 0 <= n <= zlen l -> zlen (drop n l) = zlen l - n.
Proof. intros. unfold drop, zlen in *. rewrite skipn_length. lia. Qed.
Lemma take_take_drop : forall a n l, 0 <= a -> 0 <= n -> take a l ++ take n (drop a l) = take (a + n) l.
Proof.
  intros. unfold take, drop. replace (Z.to_nat (a + n)) with (Z.to_nat a + Z.to_nat n)%nat by lia.
  generalize (Z.to_nat a) as p. generalize (Z.to_nat n) as q. clear. intros q p. revert l.
  induction p; intros; cbn; [reflexivity|]. destruct l; cbn; [now rewrite firstn_nil|]. now rewrite IHp.
Qed.

(** * The wire format *)
Definition okseg (x : Z * list Z) : Prop := 0 <= fst x < 18446744073709551616 /\ 0 < zlen (snd x) < 4294967296.
Definition enc1 (x : Z * list Z) : list Z := header (fst x) (zlen (snd x)) ++ snd x.
Definition enc (l : list (Z * list Z)) : list Z := concat (map enc1 l).
Lemma header_len : forall o n, zlen (header o n) = 12. Proof. reflexivity. Qed.
Lemma enc_app : forall a b, enc (a ++ b) = enc a ++ enc b.
Proof. intros. unfold enc. now rewrite map_app, concat_app. Qed.
Lemma segs_enc : forall l fuel, Forall okseg l -> (length (enc l) <= fuel)%nat -> sd_segs fuel (enc l) = l.
Proof.
  induction l as [|[o d] l IH]; intros fuel F L.
  - destruct fuel; reflexivity.
  - inversion F as [|? ? [O D] F']; subst. cbn [fst snd] in *.
    assert (Q : enc ((o, d) :: l) = be64 o ++ (be32 (zlen d) ++ (d ++ enc l))).
    { unfold enc. cbn [map concat]. unfold enc1, header. cbn [fst snd]. now rewrite !app_assoc. }
    assert (Q2 : enc ((o, d) :: l) = header o (zlen d) ++ (d ++ enc l)) by (rewrite Q; unfold header; now rewrite !app_assoc).
    assert (LQ : length (enc ((o, d) :: l)) = (12 + (length d + length (enc l)))%nat).
    { rewrite Q2, !app_length. reflexivity. }
    destruct fuel as [|f]; [lia|].
    assert (N : sd_segs (S f) (enc ((o, d) :: l)) =
      (let dd := enc ((o, d) :: l) in let off := unbe (take 8 dd) in let len := unbe (take 4 (drop 8 dd)) in
       if len =? 0 then [] else (off, take len (drop 12 dd)) :: sd_segs f (drop len (drop 12 dd)))).
    { destruct (enc ((o, d) :: l)); [cbn in LQ; lia|reflexivity]. }
    rewrite N. cbv zeta. clear N.
    assert (T8 : take 8 (enc ((o, d) :: l)) = be64 o) by (rewrite Q; apply take_app_exact; reflexivity).
    assert (D8 : drop 8 (enc ((o, d) :: l)) = be32 (zlen d) ++ (d ++ enc l)) by (rewrite Q; apply drop_app_exact; reflexivity).
    assert (D12 : drop 12 (enc ((o, d) :: l)) = d ++ enc l) by (rewrite Q2; apply drop_app_exact; reflexivity).
    rewrite T8, D8, D12, unbe_be64 by lia.
    rewrite (take_app_exact (be32 (zlen d))) by reflexivity. rewrite unbe_be32 by lia.
    destruct (Z.eqb_spec (zlen d) 0); [lia|].
    rewrite take_app_exact, drop_app_exact by reflexivity. f_equal. apply IH; [assumption|]. lia.
Qed.
Lemma segs_ok : forall l, Forall okseg l -> segs (enc l) = l.
Proof. intros. unfold segs. apply segs_enc; auto. Qed.

(** the list of segments a FileSegData stands for *)
Definition rep (s : segd) (l : list (Z * list Z)) : Prop :=
  (s = sd0 /\ l = []) \/
  exists fr x h, l = fr ++ [(d_off s, x)] /\ d_data s = enc fr ++ h ++ x /\ zlen h = 12 /\ d_hdr s = zlen (enc fr) /\ d_len s = zlen x /\ Forall okseg l.
(** what append does to that list *)
Definition addseg (off : Z) (d : list Z) (l l' : list (Z * list Z)) : Prop :=
  l' = l ++ [(off, d)] \/ exists fr o x, l = fr ++ [(o, x)] /\ off = o + zlen x /\ l' = fr ++ [(o, x ++ d)].

Lemma assign_rep : forall fr h x o, zlen h = 12 -> assign (zlen (enc fr)) (header o (zlen x)) (enc fr ++ h ++ x) = enc (fr ++ [(o, x)]).
Proof.
  intros. unfold assign. rewrite take_app_exact by reflexivity. rewrite (app_assoc (enc fr) h x).
  rewrite drop_app_exact by (rewrite zlen_app'; lia).
  rewrite enc_app. f_equal. unfold enc. cbn [map concat]. unfold enc1. cbn [fst snd]. now rewrite app_nil_r.
Qed.
Lemma rep_data : forall s l, rep s l -> sd_data s = enc l.
Proof.
  intros s l [[-> ->]|(fr & x & h & -> & D & H & P & L & F)]; [reflexivity|].
  unfold sd_data. apply Forall_app in F. destruct F as [_ F]. inversion F as [|? ? [O X] ?]; subst. cbn [fst snd] in *.
  rewrite L, P, D. destruct (Z.ltb_spec 0 (zlen x)); [|lia]. now apply assign_rep.
Qed.
Lemma rep_append : forall s l off d, rep s l -> okseg (off, d) ->
  (forall o x, In (o, x) l -> zlen x + zlen d < 4294967296) ->
  exists l', rep (sd_append d off s) l' /\ addseg off d l l' /\ Forall okseg l'.
Proof.
  intros s l off d R OK SZ. assert (K := OK). destruct K as [KO KD]. cbn [fst snd] in *.
  assert (U : u32 (zlen d) = zlen d) by (unfold u32; apply Z.mod_small; lia).
  destruct R as [[-> ->]|(fr & x & h & -> & D & H & P & L & F)].
  - exists [(off, d)]. assert (F : Forall okseg [(off, d)]) by (constructor; auto). sp; auto.
    + right. exists [], d, (zeros 12). unfold sd_append. cbn [d_off sd0 Z.eqb negb andb]. cbn [d_len d_data d_off d_hdr].
      sp; auto.
    + left. reflexivity.
  - assert (F0 := F). apply Forall_app in F0. destruct F0 as [F1 F2]. inversion F2 as [|? ? [O X] ?]; subst. cbn [fst snd] in *.
    assert (SX : zlen x + zlen d < 4294967296) by (apply (SZ (d_off s)); apply in_or_app; right; left; reflexivity).
    unfold sd_append. rewrite U.
    destruct (negb (d_off s =? 0) && (off =? d_off s + d_len s)) eqn:E.
    + apply andb_true_iff in E. destruct E as [_ E]. apply Z.eqb_eq in E.
      assert (F' : Forall okseg (fr ++ [(d_off s, x ++ d)])).
      { apply Forall_app. split; auto. constructor; auto. split; cbn [fst snd]; auto. rewrite zlen_app'. lia. }
      exists (fr ++ [(d_off s, x ++ d)]). sp; auto.
      * right. exists fr, (x ++ d), h. cbn [d_off d_data d_hdr d_len]. sp; auto.
        -- rewrite D. now rewrite <- !app_assoc.
        -- rewrite L, zlen_app'. unfold u32. apply Z.mod_small. lia.
      * right. exists fr, (d_off s), x. sp; auto. lia.
    + assert (F' : Forall okseg ((fr ++ [(d_off s, x)]) ++ [(off, d)])) by (apply Forall_app; split; auto).
      exists ((fr ++ [(d_off s, x)]) ++ [(off, d)]). sp; auto.
      * right. exists (fr ++ [(d_off s, x)]), d, (zeros 12). cbv zeta. cbn [d_off d_data d_hdr d_len].
        rewrite L, P, D. destruct (Z.ltb_spec 0 (zlen x)); [|lia]. rewrite assign_rep by auto. sp; auto.
      * left. reflexivity.
Qed.

(** * Writing the segments *)
Definition ext (f : list Z) (o : Z) (d : list Z) : list Z := f ++ zeros (o - zlen f) ++ d.
Definition put (l : list (Z * list Z)) (f : list Z) : list Z := fold_left (fun f x => ext f (fst x) (snd x)) l f.
Fixpoint fits (f : list Z) (l : list (Z * list Z)) : Prop := match l with [] => True | (o, d) :: r => zlen f <= o /\ fits (ext f o d) r end.
Definition padded (f : list Z) (n : Z) : list Z := f ++ zeros (n - zlen f).

Lemma zlen_ext : forall f o d, zlen f <= o -> zlen (ext f o d) = o + zlen d.
Proof. intros. unfold ext. rewrite !zlen_app', zlen_zeros by lia. lia. Qed.
Lemma pwrite_ext : forall f o d, zlen f <= o -> pwrite f o d = ext f o d.
Proof.
  intros. unfold pwrite, ext. rewrite take_all by lia. pose proof (zlen_nn d).
  rewrite drop_all by lia. now rewrite app_nil_r.
Qed.
Lemma bufput_ext : forall f o d, zlen f <= o -> bufput f o d = ext f o d.
Proof. intros. unfold bufput, ext. now rewrite take_all by lia. Qed.
Lemma padded_ext : forall f o d, zlen f <= o -> padded (ext f o d) (o + zlen d) = padded f o ++ d.
Proof.
  intros. unfold padded. rewrite zlen_ext by auto. rewrite zeros_neg by lia. rewrite app_nil_r. unfold ext. now rewrite app_assoc.
Qed.
Lemma ext_merge : forall f o x d, zlen f <= o -> ext (ext f o x) (o + zlen x) d = ext f o (x ++ d).
Proof.
  intros. unfold ext at 1. rewrite zlen_ext by auto. rewrite zeros_neg by lia. cbn [app]. unfold ext. now rewrite <- !app_assoc.
Qed.
Lemma put_app : forall a b f, put (a ++ b) f = put b (put a f).
Proof. intros. unfold put. apply fold_left_app. Qed.
Lemma fits_app : forall a b f, fits f (a ++ b) <-> fits f a /\ fits (put a f) b.
Proof.
  induction a as [|[o d] a IH]; intros; cbn [app fits put fold_left fst snd].
  - tauto.
  - rewrite IH. unfold put. tauto.
Qed.
Lemma addseg_put : forall l l' off d f, addseg off d l l' -> fits f l -> zlen (put l f) <= off ->
  fits f l' /\ put l' f = ext (put l f) off d.
Proof.
  intros l l' off d f [->|(fr & o & x & -> & -> & ->)] F L.
  - split; [apply fits_app; cbn; auto|]. rewrite put_app. reflexivity.
  - apply fits_app in F. destruct F as [F1 [F2 _]]. split.
    + apply fits_app. cbn. auto.
    + rewrite !put_app. cbn [put fold_left fst snd]. symmetry. apply ext_merge. auto.
Qed.

Lemma put_file_put : forall l w f f', fits f l -> put_file w f l = (f', true) -> f' = put l f.
Proof.
  induction l as [|[o d] l IH]; intros w f f' F P; cbn in P.
  - injection P as <-. reflexivity.
  - destruct F as [F1 F2]. rewrite pwrite_ext in P by auto. cbn [put fold_left fst snd]. apply (IH (option_map pred w)); auto.
    destruct w as [[|n]|]; [congruence|exact P|exact P].
Qed.
Lemma put_buf_put : forall l f b, fits f l -> put_buf f b l = (put l f, b).
Proof.
  induction l as [|[o d] l IH]; intros f b F; cbn [put_buf].
  - reflexivity.
  - destruct F as [F1 F2]. rewrite bufput_ext by auto. destruct (Z.ltb_spec o (zlen f)); [lia|]. rewrite orb_false_r.
    rewrite IH by auto. reflexivity.
Qed.

(** * The attachment *)
Lemma allzero : forall b, forallb (Z.eqb 0) b = true -> b = zeros (zlen b).
Proof.
  intros. unfold zeros, zlen. rewrite Nat2Z.id. induction b as [|x b IH]; [reflexivity|]. cbn [forallb] in H.
  apply andb_true_iff in H. destruct H as [E H]. apply Z.eqb_eq in E. subst. cbn. f_equal. auto.
Qed.
Lemma padded_zeros : forall f o b, zlen f <= o -> forallb (Z.eqb 0) b = true -> padded f (o + zlen b) = padded f o ++ b.
Proof.
  intros. pose proof (zlen_nn b). rewrite (allzero b) at 2 by auto. unfold padded. rewrite <- app_assoc, zeros_app by lia.
  do 2 f_equal. lia.
Qed.

Lemma holes_ok : forall blocks off s l f, rep s l -> Forall okseg l -> fits f l -> zlen (put l f) <= off -> 0 <= off ->
  nonil blocks = true -> off + zlen (concat blocks) < 18446744073709551616 ->
  zlen (concat (map snd l)) + zlen (concat blocks) < 4294967296 ->
  exists l', rep (holes off blocks s) l' /\ Forall okseg l' /\ fits f l' /\
    zlen (put l' f) <= off + zlen (concat blocks) /\
    padded (put l' f) (off + zlen (concat blocks)) = padded (put l f) off ++ concat blocks.
Proof.
  induction blocks as [|b bl IH]; intros off s l f R OK F L O NN SZ SUM.
  - exists l. cbn [holes concat]. change (zlen (@nil Z)) with 0. rewrite Z.add_0_r, app_nil_r. sp; auto.
  - cbn [holes concat] in *. rewrite zlen_app' in *. pose proof (zlen_nn b). pose proof (zlen_nn (concat bl)). pose proof (zlen_nn (concat (map snd l))).
    assert (Nb : b <> []) by (intros ->; discriminate).
    assert (NN' : nonil bl = true) by (destruct b; [congruence|exact NN]).
    assert (Lb : 0 < zlen b) by (destruct b; [congruence|unfold zlen; cbn; lia]).
    destruct (forallb (Z.eqb 0) b) eqn:E.
    + destruct (IH (off + zlen b) s l f) as (l' & R' & OK' & F' & L' & P'); auto; try lia.
      exists l'. rewrite Z.add_assoc. sp; auto. rewrite P', app_assoc. f_equal. now apply padded_zeros.
    + assert (K : okseg (off, b)) by (split; cbn [fst snd]; lia).
      destruct (rep_append s l off b) as (l1 & R1 & A1 & O1); auto.
      { intros o x I. assert (zlen x <= zlen (concat (map snd l))); [|lia].
        clear - I. induction l as [|[o' x'] l IH]; [destruct I|]. cbn [map concat snd]. rewrite zlen_app'. pose proof (zlen_nn x'). pose proof (zlen_nn (concat (map snd l))).
        destruct I as [I|I]; [injection I as -> ->; lia|]. specialize (IH I). lia. }
      destruct (addseg_put l l1 off b f A1 F L) as [F1 P1].
      assert (SM : zlen (concat (map snd l1)) = zlen (concat (map snd l)) + zlen b).
      { destruct A1 as [->|(fr & o & x & -> & -> & ->)]; rewrite !map_app, !concat_app, !zlen_app'; cbn [map concat snd]; rewrite ?app_nil_r, ?zlen_app'; lia. }
      destruct (IH (off + zlen b) (sd_append b off s) l1 f) as (l' & R' & OK' & F' & L' & P'); auto; try lia.
      { rewrite P1, zlen_ext by auto. lia. }
      exists l'. rewrite Z.add_assoc. sp; auto. rewrite P', P1, app_assoc. f_equal. now apply padded_ext.
Qed.

Lemma attachment_ok : forall hole off blocks f, zlen f <= off -> nonil blocks = true ->
  off + zlen (concat blocks) < 18446744073709551616 -> zlen (concat blocks) < 4294967296 ->
  exists l, segs (attachment hole off blocks) = l /\ fits f l /\ zlen (put l f) <= off + zlen (concat blocks) /\
    padded (put l f) (off + zlen (concat blocks)) = padded f off ++ concat blocks /\
    (hole = false -> zlen f = off -> zlen (put l f) = off + zlen (concat blocks)).
Proof.
  intros hole off blocks f L NN SZ SUM. pose proof (zlen_nn f). unfold attachment.
  destruct (concat blocks) as [|c cs] eqn:E.
  - exists []. change (zlen (@nil Z)) with 0. rewrite Z.add_0_r, app_nil_r. cbn. sp; auto.
  - assert (0 < zlen (c :: cs)) by (unfold zlen; cbn [length]; lia). rewrite <- E in *. destruct hole.
    + destruct (holes_ok blocks off sd0 [] f) as (l & R & OK & F & L' & P); auto; try (cbn; lia).
      { left. auto. }
      exists l. rewrite (rep_data _ _ R), segs_ok by auto. sp; auto. discriminate.
    + destruct (rep_append sd0 [] off (concat blocks)) as (l1 & R1 & A1 & O1).
      { left. auto. } { split; cbn [fst snd]; lia. } { intros ? ? []. }
      assert (F : fits f []) by exact I.
      destruct (addseg_put [] l1 off (concat blocks) f A1 F L) as [F1 P1]. cbn [put fold_left] in P1.
      exists l1. rewrite (rep_data _ _ R1), segs_ok by auto. fold (put l1 f) in *. sp; auto.
      * fold (put l1 f) in P1. rewrite P1, zlen_ext by auto. lia.
      * rewrite P1. now apply padded_ext.
      * intros _ _. rewrite P1. now apply zlen_ext.
Qed.
