(** Generic list lemmas used by the proofs. *)
From Verif Require Import Base.

Lemma memb_In : forall p l, memb p l = true <-> In p l.
Proof.
  intros p l; unfold memb; rewrite existsb_exists; split.
  - intros [x [Hx He]]. apply Z.eqb_eq in He. subst; auto.
  - intros H. exists p. split; auto. apply Z.eqb_refl.
Qed.

Lemma memb_false : forall p l, memb p l = false <-> ~ In p l.
Proof.
  intros p l. rewrite <- memb_In. destruct (memb p l); split; intros; congruence.
Qed.

Lemma zlen_nonneg : forall {A} (l : list A), 0 <= zlen l.
Proof. intros; unfold zlen; lia. Qed.

Lemma zlen_nil : forall {A}, zlen (@nil A) = 0.
Proof. reflexivity. Qed.

Lemma zlen_cons : forall {A} (x : A) l, zlen (x :: l) = zlen l + 1.
Proof. intros; unfold zlen; cbn [length]; lia. Qed.

Lemma zlen_app : forall {A} (l m : list A), zlen (l ++ m) = zlen l + zlen m.
Proof. intros; unfold zlen; rewrite app_length; lia. Qed.

Lemma zlen_map : forall {A B} (f : A -> B) l, zlen (map f l) = zlen l.
Proof. intros; unfold zlen; rewrite map_length; reflexivity. Qed.

Lemma zlen_0_nil : forall {A} (l : list A), zlen l = 0 -> l = [].
Proof. intros A [|x l]; auto. rewrite zlen_cons. pose proof (zlen_nonneg l). lia. Qed.

Lemma zlen_firstn : forall {A} (l : list A) n,
  zlen (firstn n l) = Z.min (Z.of_nat n) (zlen l).
Proof. intros. unfold zlen. rewrite firstn_length. lia. Qed.

Lemma zlen_skipn : forall {A} (l : list A) n,
  zlen (skipn n l) = Z.max 0 (zlen l - Z.of_nat n).
Proof. intros. unfold zlen. rewrite skipn_length. lia. Qed.

Lemma zlen_rev : forall {A} (l : list A), zlen (rev l) = zlen l.
Proof. intros. unfold zlen. rewrite rev_length. reflexivity. Qed.

Lemma znth_some_bound : forall {A} (l : list A) i x,
  znth l i = Some x -> 0 <= i < zlen l.
Proof.
  unfold znth, zlen; intros A l i x H.
  destruct (Z.ltb_spec i 0); try discriminate.
  assert (nth_error l (Z.to_nat i) <> None) by congruence.
  apply nth_error_Some in H1. lia.
Qed.

Lemma znth_in_bound : forall {A} (l : list A) i,
  0 <= i < zlen l -> exists x, znth l i = Some x.
Proof.
  unfold znth, zlen; intros A l i H.
  destruct (Z.ltb_spec i 0); try lia.
  destruct (nth_error l (Z.to_nat i)) eqn:E; eauto.
  apply nth_error_None in E. lia.
Qed.

Lemma znth_none : forall {A} (l : list A) i,
  znth l i = None <-> i < 0 \/ zlen l <= i.
Proof.
  intros A l i. split.
  - intros H. destruct (Z.ltb_spec i 0); auto. right.
    destruct (Z_lt_le_dec i (zlen l)); auto.
    destruct (znth_in_bound l i); try lia. congruence.
  - intros H. destruct (znth l i) eqn:E; auto.
    apply znth_some_bound in E. lia.
Qed.

Lemma znth_app1 : forall {A} (l m : list A) i,
  i < zlen l -> znth (l ++ m) i = znth l i.
Proof.
  unfold znth, zlen; intros. destruct (Z.ltb_spec i 0); auto.
  apply nth_error_app1. lia.
Qed.

Lemma znth_app2 : forall {A} (l m : list A) i,
  zlen l <= i -> znth (l ++ m) i = znth m (i - zlen l).
Proof.
  unfold znth, zlen; intros. destruct (Z.ltb_spec i 0); try lia.
  destruct (Z.ltb_spec (i - Z.of_nat (length l)) 0); try lia.
  rewrite nth_error_app2 by lia. f_equal. lia.
Qed.

Lemma znth_cons_0 : forall {A} (x : A) l, znth (x :: l) 0 = Some x.
Proof. reflexivity. Qed.

Lemma znth_cons_pos : forall {A} (x : A) l i,
  0 < i -> znth (x :: l) i = znth l (i - 1).
Proof.
  unfold znth; intros. destruct (Z.ltb_spec i 0); try lia.
  destruct (Z.ltb_spec (i - 1) 0); try lia.
  replace (Z.to_nat i) with (S (Z.to_nat (i - 1))) by lia. reflexivity.
Qed.

Lemma nth_error_skipn : forall {A} n (l : list A) k,
  nth_error (skipn n l) k = nth_error l (n + k).
Proof.
  induction n; intros; cbn; auto. destruct l; cbn; auto. destruct k; auto.
Qed.

Lemma nth_error_firstn : forall {A} n (l : list A) k,
  (k < n)%nat -> nth_error (firstn n l) k = nth_error l k.
Proof.
  induction n; intros; try lia. destruct l; cbn; auto. destruct k; cbn; auto.
  apply IHn. lia.
Qed.

Lemma znth_skipn : forall {A} n (l : list A) i,
  0 <= i -> znth (skipn n l) i = znth l (i + Z.of_nat n).
Proof.
  unfold znth; intros. destruct (Z.ltb_spec i 0); try lia.
  destruct (Z.ltb_spec (i + Z.of_nat n) 0); try lia.
  rewrite nth_error_skipn. f_equal. lia.
Qed.

Lemma znth_firstn : forall {A} n (l : list A) i,
  i < Z.of_nat n -> znth (firstn n l) i = znth l i.
Proof.
  unfold znth; intros. destruct (Z.ltb_spec i 0); auto.
  apply nth_error_firstn. lia.
Qed.

Lemma znth_In : forall {A} (l : list A) i x, znth l i = Some x -> In x l.
Proof.
  unfold znth; intros. destruct (i <? 0); try discriminate.
  eapply nth_error_In; eauto.
Qed.

Lemma In_znth : forall {A} (l : list A) x, In x l -> exists i, znth l i = Some x.
Proof.
  intros A l x H. apply In_nth_error in H. destruct H as [n H].
  exists (Z.of_nat n). unfold znth. destruct (Z.ltb_spec (Z.of_nat n) 0); try lia.
  rewrite Nat2Z.id. exact H.
Qed.

Lemma znth_ext : forall {A} (l m : list A),
  zlen l = zlen m -> (forall i, 0 <= i < zlen l -> znth l i = znth m i) -> l = m.
Proof.
  induction l; intros m Hl Hn.
  - symmetry in Hl. rewrite zlen_nil in Hl. apply zlen_0_nil in Hl. auto.
  - destruct m. { rewrite zlen_cons, zlen_nil in Hl. pose proof (zlen_nonneg l). lia. }
    rewrite !zlen_cons in Hl.
    pose proof (zlen_nonneg l).
    assert (H0 := Hn 0). rewrite !znth_cons_0 in H0.
    rewrite zlen_cons in *.
    assert (Some a = Some a0) by (apply H0; lia). inversion H1; subst.
    f_equal. apply IHl; try lia.
    intros i Hi. specialize (Hn (i + 1)). rewrite !znth_cons_pos in Hn by lia.
    replace (i + 1 - 1) with i in Hn by lia. apply Hn. lia.
Qed.

Lemma NoDup_filter : forall {A} (f : A -> bool) l, NoDup l -> NoDup (filter f l).
Proof.
  induction 1; cbn; try constructor.
  destruct (f x); auto. constructor; auto.
  rewrite filter_In. tauto.
Qed.

Lemma znth_nil : forall {A} i, znth (@nil A) i = None.
Proof. intros. unfold znth. destruct (i <? 0); auto. destruct (Z.to_nat i); auto. Qed.

(** Push [zlen] through list constructors, everywhere. *)
Ltac zl :=
  repeat first
  [ match goal with
    | |- context [@zlen ?A []] => change (@zlen A []) with 0
    | H : context [@zlen ?A []] |- _ => change (@zlen A []) with 0 in H
    end
  | rewrite zlen_cons | rewrite zlen_app | rewrite zlen_map
  | match goal with
    | H : context [zlen (_ :: _)] |- _ => rewrite zlen_cons in H
    | H : context [zlen (_ ++ _)] |- _ => rewrite zlen_app in H
    | H : context [zlen (map _ _)] |- _ => rewrite zlen_map in H
    end ].
