From Verif Require Import Base BaseLemmas LogEntry LogRef.

(** Entries of a contiguous list carry their own index. *)
Fixpoint contig (f : Z) (l : list entry) : Prop :=
  match l with [] => True | e :: l' => e_index e = f /\ contig (f + 1) l' end.

Lemma contig_app : forall a f b, contig f (a ++ b) <-> contig f a /\ contig (f + zlen a) b.
Proof.
  induction a as [|e a IH]; intros f b; cbn.
  - replace (f + zlen []) with f by (zl; lia). tauto.
  - rewrite IH. zl. replace (f + 1 + zlen a) with (f + (zlen a + 1)) by lia. tauto.
Qed.

Lemma contig_znth : forall l f k e, contig f l -> znth l k = Some e -> e_index e = f + k.
Proof.
  induction l as [|x l IH]; intros f k e H Hk. rewrite znth_nil in Hk; discriminate.
  destruct H as [H1 H2]. pose proof (znth_some_bound _ _ _ Hk).
  destruct (Z.eq_dec k 0).
  - subst k. rewrite znth_cons_0 in Hk. inversion Hk; subst. lia.
  - rewrite znth_cons_pos in Hk by lia. apply (IH _ _ _ H2) in Hk. lia.
Qed.

Lemma contig_skipn : forall n l f, contig f l -> contig (f + Z.of_nat n) (skipn n l).
Proof.
  induction n; intros l f H.
  - replace (f + Z.of_nat 0) with f by lia. auto.
  - destruct l; cbn; auto. destruct H as [_ H]. apply IHn in H.
    replace (f + Z.of_nat (S n)) with (f + 1 + Z.of_nat n) by lia. auto.
Qed.

Lemma contig_firstn : forall n l f, contig f l -> contig f (firstn n l).
Proof. induction n; intros [|x l] f H; cbn; auto. destruct H; split; auto. Qed.

Definition r_wf (r : rlog) : Prop := 0 < r_first r /\ contig (r_first r) (r_list r).

Lemma r_get_index : forall r i e, contig (r_first r) (r_list r) -> r_get r i = Some e -> e_index e = i.
Proof. unfold r_get. intros. pose proof (contig_znth _ _ _ _ H H0). lia. Qed.

Lemma r_get_none : forall r i, r_get r i = None <-> i < r_first r \/ r_last r < i.
Proof. intros. unfold r_get, r_last. rewrite znth_none. lia. Qed.

Lemma contig_nil_any : forall f, contig f []. Proof. exact (fun _ => I). Qed.

Lemma skipn_all_nil : forall {A} n (l : list A), zlen l <= Z.of_nat n -> skipn n l = [].
Proof. intros. apply skipn_all2. unfold zlen in H. lia. Qed.
