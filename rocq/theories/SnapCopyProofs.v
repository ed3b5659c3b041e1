(** * Effect-level invariants of the snapshot copier *)
From Verif Require Import Base SnapCopy SnapCopySpec ReconfStatic.

Lemma look_drop : forall {A} n m (l : list (Z * A)),
  look m (drop n l) = if n =? m then None else look m l.
Proof.
  intros A n m l; induction l as [|(x, a) l IH]; cbn [drop filter look].
  - destruct (n =? m); reflexivity.
  - cbn [fst]. destruct (Z.eqb_spec x n) as [->|Hx]; cbn [negb].
    + fold (@drop A n l). rewrite IH. destruct (Z.eqb_spec n m); reflexivity.
    + cbn [look]. fold (@drop A n l). rewrite IH.
      destruct (Z.eqb_spec x m) as [->|]; auto.
      destruct (Z.eqb_spec n m); [congruence|reflexivity].
Qed.

Lemma look_cons : forall {A} n (a : A) m l, look m ((n, a) :: l) = if n =? m then Some a else look m l.
Proof. reflexivity. Qed.

Lemma look_in : forall {A} n (l : list (Z * A)) a, look n l = Some a -> In n (map fst l).
Proof.
  induction l as [|(x, b) l IH]; cbn [look map fst]; intros a H; [discriminate H|].
  destruct (Z.eqb_spec x n) as [->|]; [left; auto|right; eauto].
Qed.

Lemma in_look : forall {A} n (l : list (Z * A)), In n (map fst l) -> exists a, look n l = Some a.
Proof.
  induction l as [|(x, b) l IH]; cbn [look map fst]; intros H; [destruct H|].
  destruct (Z.eqb_spec x n); [eauto|]. destruct H; [congruence|auto].
Qed.

Lemma notin_look : forall {A} n (l : list (Z * A)), ~ In n (map fst l) -> look n l = None.
Proof.
  intros A n l H. destruct (look n l) eqn:E; auto. exfalso; apply H; eapply look_in; eauto.
Qed.

Definition tfile (d : disk) (n : Z) : option Z := look n (d_files (k_temp d)).
Definition lfile (d : disk) (n : Z) : option Z :=
  match k_last d with Some (_, x) => look n (d_files x) | None => None end.

Record wf (d : disk) : Prop := {
  wf_t : forall n i, tfile d n = Some i -> i < k_next d;
  wf_l : forall n i, lfile d n = Some i -> i < k_next d;
  wf_ti : forall n m i, tfile d n = Some i -> tfile d m = Some i -> n = m;
  wf_li : forall n m i, lfile d n = Some i -> lfile d m = Some i -> n = m;
  wf_x : forall n m i, tfile d n = Some i -> lfile d m = Some i -> n = m
}.

Lemma tfile_apply : forall d e n, tfile (apply d e) n =
  match e with
  | EDel x => if x =? n then None else tfile d n
  | ELink x => if (x =? n) && isS (lfile d x) then lfile d x else tfile d n
  | EWrite x _ => match tfile d x with Some _ => tfile d n | None => if x =? n then Some (k_next d) else tfile d n end
  | EMeta _ _ | EDelMeta => tfile d n
  | EWipe | EPub _ => None
  end.
Proof.
  intros d e n; destruct e; unfold tfile, lfile, apply; cbn [k_temp set_temp d_files]; auto.
  - apply look_drop.
  - destruct (k_last d) as [(i, x)|]; cbn [isS];
      [|rewrite andb_false_r; reflexivity].
    destruct (look n0 (d_files x)); cbn [isS]; [|rewrite andb_false_r; reflexivity].
    cbn [set_temp k_temp d_files]. rewrite look_cons. rewrite andb_true_r. reflexivity.
  - destruct (look n0 (d_files (k_temp d))); cbn [k_temp d_files]; [reflexivity|apply look_cons].
Qed.

Lemma klast_apply : forall d e, k_last (apply d e) =
  match e with EPub i => Some (i, k_temp d) | _ => k_last d end.
Proof.
  intros d e; destruct e; unfold apply; cbn [k_last set_temp]; auto.
  - destruct (k_last d) as [(i, x)|] eqn:E; [destruct (look n (d_files x)); cbn [set_temp k_last]; auto|auto].
  - destruct (look n (d_files (k_temp d))); reflexivity.
Qed.

Lemma lfile_apply : forall d e n, lfile (apply d e) n =
  match e with EPub _ => tfile d n | _ => lfile d n end.
Proof.
  intros. unfold lfile, tfile. rewrite klast_apply. destruct e; reflexivity.
Qed.

Lemma next_apply : forall d e, k_next (apply d e) =
  match e with EWrite n _ => match tfile d n with Some _ => k_next d | None => k_next d + 1 end | _ => k_next d end.
Proof.
  intros d e; destruct e; unfold apply, tfile; cbn [k_next set_temp]; auto.
  - destruct (k_last d) as [(i, x)|]; [destruct (look n (d_files x))|]; reflexivity.
  - destruct (look n (d_files (k_temp d))); reflexivity.
Qed.

Lemma ino_apply : forall d e j, k_ino (apply d e) j =
  match e with
  | EWrite n b => match tfile d n with Some i => if j =? i then b else k_ino d j
                                     | None => if j =? k_next d then b else k_ino d j end
  | _ => k_ino d j end.
Proof.
  intros d e j; destruct e; unfold apply, tfile; cbn [k_ino set_temp]; auto.
  - destruct (k_last d) as [(i, x)|]; [destruct (look n (d_files x))|]; reflexivity.
  - destruct (look n (d_files (k_temp d))); reflexivity.
Qed.

Lemma table_apply : forall d e, table_of (k_temp (apply d e)) =
  match e with EMeta _ t => t | EDelMeta | EWipe | EPub _ => [] | _ => table_of (k_temp d) end.
Proof.
  intros d e; destruct e; unfold apply, table_of; cbn [k_temp set_temp d_meta empty_dir]; auto.
  - destruct (k_last d) as [(i, x)|]; [destruct (look n (d_files x))|]; reflexivity.
  - destruct (look n (d_files (k_temp d))); reflexivity.
Qed.

Lemma wf_apply : forall d e, wf d -> wf (apply d e).
Proof.
  intros d e [Ht Hl Hti Hli Hx].
  assert (Hnt : forall n, tfile d n = Some (k_next d) -> False) by (intros n H; specialize (Ht _ _ H); lia).
  assert (Hnl : forall n, lfile d n = Some (k_next d) -> False) by (intros n H; specialize (Hl _ _ H); lia).
  assert (Hnx : k_next d <= k_next (apply d e)).
  { rewrite next_apply. destruct e; try lia. destruct (tfile d n); lia. }
  constructor.
  - intros n i. rewrite tfile_apply, next_apply. destruct e as [x|x| |x b| | |]; intros H; try (discriminate H); eauto.
    + destruct (x =? n); [discriminate H|eauto].
    + destruct ((x =? n) && isS (lfile d x)); eauto.
    + destruct (tfile d x) eqn:E; [eauto|]. destruct (x =? n); [injection H as <-; lia|].
      specialize (Ht _ _ H); lia.
  - intros n i. rewrite lfile_apply. intros H. destruct e; try (specialize (Hl _ _ H); lia).
    specialize (Ht _ _ H); lia.
  - intros n m i. rewrite !tfile_apply. destruct e as [x|x| |x b| | |]; intros H H'; try (discriminate H); eauto.
    + destruct (x =? n); [discriminate H|]. destruct (x =? m); [discriminate H'|eauto].
    + destruct (lfile d x) eqn:E; cbn [isS] in *; rewrite ?andb_false_r, ?andb_true_r in *; [|eauto].
      destruct (Z.eqb_spec x n), (Z.eqb_spec x m); subst; eauto.
      * injection H as <-. symmetry; eauto.
      * injection H' as <-. eauto.
    + destruct (tfile d x) eqn:E; [eauto|].
      destruct (Z.eqb_spec x n), (Z.eqb_spec x m); subst; auto; try (injection H as <-); try (injection H' as <-);
        try (exfalso; eauto; fail); eauto.
  - intros n m i. rewrite !lfile_apply. destruct e; eauto.
  - intros n m i. rewrite tfile_apply, lfile_apply. destruct e as [x|x| |x b| | |]; intros H H'; try (discriminate H); eauto.
    + destruct (x =? n); [discriminate H|eauto].
    + destruct (Z.eqb_spec x n); cbn [andb] in *; subst; eauto.
      destruct (lfile d n) eqn:E; cbn [isS] in *; eauto. injection H as <-. eauto.
    + destruct (tfile d x) eqn:E; [eauto|]. destruct (x =? n); [injection H as <-; exfalso; eauto|eauto].
Qed.

(** contents of temp and last by name *)
Definition tcont (d : disk) (n : Z) : option (list Z) :=
  match tfile d n with Some i => Some (k_ino d i) | None => None end.
Definition lcont (d : disk) (n : Z) : option (list Z) :=
  match lfile d n with Some i => Some (k_ino d i) | None => None end.

Lemma tcont_eq : forall d n, tcont d n = content d (k_temp d) n.
Proof. reflexivity. Qed.

(** what the temp-part of well-formedness needs *)
Definition wfT (d : disk) : Prop :=
  (forall n i, tfile d n = Some i -> i < k_next d) /\
  (forall n m i, tfile d n = Some i -> tfile d m = Some i -> n = m).

Lemma wf_wfT : forall d, wf d -> wfT d.
Proof. intros d [? ? ? ? ?]; split; auto. Qed.

Definition tl_same (d d' : disk) (n : Z) := tcont d' n = tcont d n.

Lemma tcont_other : forall d e n, wfT d ->
  match e with EDel x | ELink x | EWrite x _ => x <> n | EMeta _ _ | EDelMeta => True | _ => False end ->
  tcont (apply d e) n = tcont d n.
Proof.
  intros d e n [Ht Hi] Hc. unfold tcont. rewrite tfile_apply.
  destruct e as [x|x|i t|x b| | |i]; try (destruct Hc; fail).
  - destruct (Z.eqb_spec x n); [congruence|]. destruct (tfile d n); try rewrite ino_apply; auto.
  - destruct (Z.eqb_spec x n); [congruence|]. cbn [andb]. destruct (tfile d n); try rewrite ino_apply; auto.
  - destruct (tfile d n); auto. 
  - destruct (tfile d x) eqn:E.
    + destruct (tfile d n) eqn:E2; auto. rewrite ino_apply, E.
      destruct (Z.eqb_spec z0 z) as [->|]; auto. exfalso; apply Hc; eauto.
    + destruct (Z.eqb_spec x n); [congruence|]. destruct (tfile d n) eqn:E2; auto.
      rewrite ino_apply, E. specialize (Ht _ _ E2). destruct (Z.eqb_spec z (k_next d)); [lia|reflexivity].
  - destruct (tfile d n); auto.
Qed.

Lemma tcont_write : forall d n b, tcont (apply d (EWrite n b)) n = Some b.
Proof.
  intros. unfold tcont. rewrite tfile_apply. destruct (tfile d n) eqn:E.
  - rewrite ino_apply, E, Z.eqb_refl. reflexivity.
  - rewrite Z.eqb_refl, ino_apply, E, Z.eqb_refl. reflexivity.
Qed.

Lemma tcont_link : forall d n, lcont d n <> None -> tcont (apply d (ELink n)) n = lcont d n.
Proof.
  intros d n H. unfold tcont, lcont in *. rewrite tfile_apply, Z.eqb_refl. cbn [andb].
  destruct (lfile d n); cbn [isS]; [rewrite ino_apply; auto|congruence].
Qed.

Lemma wfT_apply : forall d e, wfT d -> (forall n, e <> ELink n) -> wfT (apply d e).
Proof.
  intros d e [Ht Hi] Hn. split.
  - intros n i. rewrite tfile_apply, next_apply. destruct e as [x|x| |x b| | |]; intros H; try (discriminate H); eauto.
    + destruct (x =? n); [discriminate H|eauto].
    + exfalso; eapply Hn; reflexivity.
    + destruct (tfile d x) eqn:E; [eauto|]. destruct (x =? n); [injection H as <-; lia|].
      specialize (Ht _ _ H); lia.
  - intros n m i. rewrite !tfile_apply. destruct e as [x|x| |x b| | |]; intros H H'; try (discriminate H); eauto.
    + destruct (x =? n); [discriminate H|]. destruct (x =? m); [discriminate H'|eauto].
    + exfalso; eapply Hn; reflexivity.
    + destruct (tfile d x) eqn:E; [eauto|].
      destruct (Z.eqb_spec x n), (Z.eqb_spec x m); subst; auto; try (injection H as <-); try (injection H' as <-).
      * specialize (Ht _ _ H'). lia.
      * specialize (Ht _ _ H). lia.
      * eauto.
Qed.

(** The last snapshot: nobody but a write through a shared inode changes it. *)
Lemma lcont_same : forall d e n, wf d ->
  match e with EWrite x _ => tfile d x = None \/ tfile d x <> lfile d x | EPub _ => False | _ => True end ->
  lcont (apply d e) n = lcont d n.
Proof.
  intros d e n [Ht Hl Hti Hli Hx] Hc. unfold lcont. rewrite lfile_apply.
  destruct e as [x|x|i t|x b| | |i]; try (destruct Hc; fail);
    try (destruct (lfile d n); try rewrite ino_apply; auto; fail).
  destruct (lfile d n) eqn:E; auto. rewrite ino_apply. destruct (tfile d x) eqn:E2.
  - destruct (Z.eqb_spec z z0) as [->|]; auto.
    pose proof (Hx _ _ _ E2 E) as ->. destruct Hc as [Hc|Hc]; congruence.
  - specialize (Hl _ _ E). destruct (Z.eqb_spec z (k_next d)); [lia|reflexivity].
Qed.

Section T.
Variable truth : truth_fn.

(** An in-memory or on-disk table is backed by the temp directory. *)
Definition W (t : table) (d : disk) : Prop :=
  forall n m c, look n t = Some m -> m_ref m = false -> m_ck m = Some c -> tcont d n = Some (truth n c).

Definition lastgood (d : disk) : Prop :=
  forall i x, k_last d = Some (i, x) -> good_dir truth d x.

Lemma W_good : forall d, W (table_of (k_temp d)) d <-> good_dir truth d (k_temp d).
Proof. intros d; split; intros H n m c; apply H. Qed.

Lemma W_apply : forall t d e, wfT d -> W t d ->
  match e with
  | EDel x | ELink x | EWrite x _ => (forall m, look x t = Some m -> m_ref m = true)
  | EMeta _ _ | EDelMeta => True | _ => False end -> W t (apply d e).
Proof.
  intros t d e Hw HW Hc n m c H Hr Hck. rewrite tcont_other; eauto.
  destruct e as [x|x|i t'|x b| | |i]; auto; intros ->; specialize (Hc _ H); congruence.
Qed.

(** last_unchanged in terms of lcont *)
Lemma lcont_content : forall d i x n, k_last d = Some (i, x) -> lcont d n = content d x n.
Proof. intros d i x n H. unfold lcont, lfile, content. rewrite H. reflexivity. Qed.

Definition lsame (d d' : disk) : Prop := k_last d' = k_last d /\ forall n, lcont d' n = lcont d n.

Lemma lsame_spec : forall d d', lsame d d' -> last_unchanged d d'.
Proof.
  intros d d' (H & Hc). split; auto. intros i x n E.
  rewrite <- (lcont_content d i x n E), <- (lcont_content d' i x n); auto. congruence.
Qed.

Lemma lastgood_same : forall d d', lsame d d' -> lastgood d -> lastgood d'.
Proof.
  intros d d' (H & Hc) Hg i x E n m c H1 H2 H3.
  rewrite <- (lcont_content d' i x n E), Hc, (lcont_content d i x n) by congruence.
  apply (Hg i x) with m; auto. congruence.
Qed.

Lemma lsame_refl : forall d, lsame d d.
Proof. split; auto. Qed.
Lemma lsame_trans : forall a b c, lsame a b -> lsame b c -> lsame a c.
Proof. intros a b c (H1 & H2) (H3 & H4). split; [congruence|]. intros; rewrite H4; auto. Qed.

(** One effect: what is needed for it to keep everything in order. *)
Definition safe_eff (d : disk) (e : eff) : Prop :=
  match e with
  | EWrite n _ => tfile d n = None \/ tfile d n <> lfile d n
  | EMeta _ t => W t d
  | EPub _ => W (table_of (k_temp d)) d
  | _ => True
  end.

Definition step_u (u : bool) (d : disk) (e : eff) : bool :=
  match touched e with Some n => u || isS (look n (table_of (k_temp d))) | None => false end.

Definition OK (d : disk) (u : bool) : Prop :=
  wf d /\ lastgood d /\ (u = false -> W (table_of (k_temp d)) d).

Lemma OK_apply : forall d u e, OK d u -> safe_eff d e -> OK (apply d e) (step_u u d e).
Proof.
  intros d u e (Hw & Hl & Ht) Hs. split; [apply wf_apply; auto|]. split.
  - destruct e as [x|x|i t|x b| | |i]; try (apply lastgood_same with d; auto; split;
      [rewrite klast_apply; auto|intros n'; apply lcont_same; auto]; fail).
    intros j y E. rewrite klast_apply in E. injection E as <- <-.
    intros n m c H1 H2 H3. apply (Hs n m c H1 H2) in H3.
    rewrite <- H3. unfold content, tcont, tfile. destruct (look n (d_files (k_temp d))); auto.
  - rewrite table_apply. unfold step_u.
    assert (Hn : W [] (apply d e)) by (intros ? ? ? HH; discriminate HH).
    destruct e as [x|x|i t|x b| | |i]; cbn [touched]; auto.
    + intros H. apply orb_false_iff in H as (Hu & H). specialize (Ht Hu). apply W_apply; auto using wf_wfT.
      intros m E. rewrite E in H. discriminate H.
    + intros H. apply orb_false_iff in H as (Hu & H). specialize (Ht Hu). apply W_apply; auto using wf_wfT.
      intros m E. rewrite E in H. discriminate H.
    + intros H. apply orb_false_iff in H as (Hu & H). specialize (Ht Hu). apply W_apply; auto using wf_wfT.
      intros m E. rewrite E in H. discriminate H.
Qed.

(** All prefixes of a trace (given newest first). *)
Fixpoint after (d0 : disk) (tr : list eff) : disk :=
  match tr with [] => d0 | e :: r => apply (after d0 r) e end.
Fixpoint unset (d0 : disk) (tr : list eff) : bool :=
  match tr with [] => false | e :: r => step_u (unset d0 r) (after d0 r) e end.
Fixpoint npub (tr : list eff) : bool :=
  match tr with [] => true | e :: r => negb (publishes e) && npub r end.

Definition OKt (d0 : disk) (tr : list eff) : Prop :=
  OK (after d0 tr) (unset d0 tr) /\ (npub tr = true -> lsame d0 (after d0 tr)).
Fixpoint allok (d0 : disk) (tr : list eff) : Prop :=
  OKt d0 tr /\ match tr with [] => True | _ :: r => allok d0 r end.

Lemma allok_OKt : forall d0 tr, allok d0 tr -> OKt d0 tr.
Proof. intros d0 tr; destruct tr; intros [H _]; exact H. Qed.

Lemma allok_cons : forall d0 tr e, allok d0 tr -> safe_eff (after d0 tr) e -> allok d0 (e :: tr).
Proof.
  intros d0 tr e H Hs. pose proof (allok_OKt _ _ H) as (HO & HL). cbn [allok]. split; [|exact H].
  split; cbn [after unset npub]. { apply OK_apply; auto. }
  intros Hn. apply andb_true_iff in Hn as (Hp & Hn). apply lsame_trans with (after d0 tr); auto.
  destruct HO as (Hw & _). destruct e as [x|x|i t|x b| | |i]; try discriminate Hp; split;
    try (rewrite klast_apply; reflexivity); intros n'; apply lcont_same; auto.
Qed.

Lemma unsettled_snoc : forall tr u d e,
  unsettled_from u d (tr ++ [e]) = step_u (unsettled_from u d tr) (apply_all d tr) e.
Proof.
  induction tr as [|a tr IH]; intros; cbn [app unsettled_from apply_all fold_left]; [reflexivity|].
  apply IH.
Qed.

Lemma after_apply_all : forall tr d0, after d0 tr = apply_all d0 (rev tr).
Proof.
  induction tr as [|e tr IH]; intros; cbn [after rev]; [reflexivity|].
  unfold apply_all. rewrite fold_left_app. cbn [fold_left]. rewrite IH. reflexivity.
Qed.

Lemma unset_unsettled : forall tr d0, unset d0 tr = unsettled d0 (rev tr).
Proof.
  induction tr as [|e tr IH]; intros; cbn [unset rev]; [reflexivity|].
  unfold unsettled. rewrite unsettled_snoc, IH, after_apply_all. reflexivity.
Qed.

Lemma allok_suffix : forall d0 a b, allok d0 (a ++ b) -> allok d0 b.
Proof.
  induction a as [|e a IH]; intros b H; [exact H|]. apply IH. cbn [app allok] in H. apply H.
Qed.

Lemma npub_spec : forall tr, npub tr = true <-> forall i, ~ In (EPub i) tr.
Proof.
  induction tr as [|e tr IH]; cbn [npub]; [split; auto|].
  rewrite andb_true_iff, IH. split.
  - intros (H & Hn) i [->|Hi]; [discriminate H|eapply Hn; eauto].
  - intros H. split; [|intros i Hi; eapply H; right; eauto].
    destruct e; auto. exfalso; eapply H; left; reflexivity.
Qed.

Lemma allok_prefix : forall d0 tr k, allok d0 tr ->
  OK (apply_all d0 (firstn k (rev tr))) (unsettled d0 (firstn k (rev tr))) /\
  ((forall i, ~ In (EPub i) (firstn k (rev tr))) -> lsame d0 (apply_all d0 (firstn k (rev tr)))).
Proof.
  intros d0 tr k H.
  assert (Hs : exists a b, tr = a ++ b /\ firstn k (rev tr) = rev b).
  { exists (rev (skipn k (rev tr))), (rev (firstn k (rev tr))). split; [|symmetry; apply rev_involutive].
    rewrite <- rev_app_distr, firstn_skipn, rev_involutive. reflexivity. }
  destruct Hs as (a & b & -> & ->). apply allok_suffix in H. apply allok_OKt in H as (HO & HL).
  rewrite <- after_apply_all, <- unset_unsettled. split; auto.
  intros Hn. apply HL, npub_spec. intros i Hi. apply (Hn i), in_rev. rewrite rev_involutive; auto.
Qed.

End T.
