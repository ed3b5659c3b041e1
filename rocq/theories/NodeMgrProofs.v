From Coq Require Import Permutation.
From Verif Require Import Base NodeMgr NodeMgrSpec.

Lemma ep_eqb_eq a b : ep_eqb a b = true <-> a = b.
Proof.
  destruct a as [i p], b as [j q]. unfold ep_eqb; cbn. rewrite andb_true_iff, !Z.eqb_eq.
  split; [intros [-> ->]|intros [= -> ->]]; auto.
Qed.

Lemma ni_eqb_same a b : ni_eqb a b = true <-> same_id a b.
Proof.
  unfold ni_eqb, pi_eqb, same_id. rewrite !andb_true_iff, !Z.eqb_eq, ep_eqb_eq. tauto.
Qed.
Lemma ni_eqb_false a b : ni_eqb a b = false <-> ~ same_id a b.
Proof. rewrite <- ni_eqb_same. destruct (ni_eqb a b); split; intros; congruence. Qed.

Lemma same_id_sym a b : same_id a b -> same_id b a.
Proof. unfold same_id. intuition congruence. Qed.

Section P.
Variable ids : ptr -> nodeid.

Definition rep (R : list ptr) : maps :=
  mkMaps (map (fun n => (ids n, n)) R) (map (fun n => (ni_group (ids n), n)) R).

Definition distinct (R : list ptr) : Prop :=
  NoDup R /\ forall m n, In m R -> In n R -> same_id (ids m) (ids n) -> m = n.

Lemma rep_inj R R' : rep R = rep R' -> R = R'.
Proof.
  intros H. assert (H1 : map snd (m_node (rep R)) = map snd (m_node (rep R'))) by (rewrite H; auto).
  cbn in H1. rewrite !map_map in H1. cbn in H1. now rewrite !map_id in H1.
Qed.

Lemma find_rep k R :
  match map_find k (m_node (rep R)) with
  | Some n => In n R /\ same_id (ids n) k
  | None => forall n, In n R -> ~ same_id (ids n) k
  end.
Proof.
  unfold map_find, rep; cbn. induction R as [|a R IH]; cbn.
  - intros n [].
  - destruct (ni_eqb (ids a) k) eqn:E; cbn.
    + apply ni_eqb_same in E. auto.
    + apply ni_eqb_false in E.
      destruct (find _ _) as [kv|]; [destruct IH; auto|].
      intros n [<-|Hn]; auto.
Qed.

Lemma find_unique k R n : distinct R -> In n R -> same_id (ids n) k -> map_find k (m_node (rep R)) = Some n.
Proof.
  intros [_ D] Hn Hs. pose proof (find_rep k R) as H.
  destruct (map_find k (m_node (rep R))) as [m|].
  - destruct H as [Hm Hs']. f_equal. apply D; auto.
    unfold same_id in *. intuition congruence.
  - exfalso. eapply H; eauto.
Qed.

Lemma add_rep n R : 
  (exists m, In m R /\ same_id (ids m) (ids n)) /\ add_node (ids n) n (rep R) = (rep R, false)
  \/ (forall m, In m R -> ~ same_id (ids m) (ids n)) /\ add_node (ids n) n (rep R) = (rep (R ++ [n]), true).
Proof.
  unfold add_node. pose proof (find_rep (ids n) R) as H.
  destruct (map_find (ids n) (m_node (rep R))) as [m|].
  - left. split; eauto.
  - right. split; auto. unfold rep; cbn. rewrite !map_app. auto.
Qed.

Lemma distinct_add n R : distinct R -> (forall m, In m R -> ~ same_id (ids m) (ids n)) -> distinct (R ++ [n]).
Proof.
  intros [ND D] F. split.
  - assert (~ In n R) as Hn. { intros Hn. apply (F n Hn). unfold same_id; auto. }
    clear -ND Hn. induction R; cbn; [repeat constructor; auto|].
    inversion ND; subst. constructor.
    + rewrite in_app_iff; cbn. intros [H|[H|[]]]; [auto|]. subst. apply Hn. left; auto.
    + apply IHR; auto. intros H; apply Hn; right; auto.
  - intros a b Ha Hb S. rewrite in_app_iff in *; cbn in *.
    destruct Ha as [Ha|[<-|[]]], Hb as [Hb|[<-|[]]]; auto.
    + exfalso; eapply F; eauto.
    + exfalso; eapply F; eauto. apply same_id_sym; auto.
Qed.

Lemma distinct_rem n R : distinct R -> distinct (filter (fun x => negb (x =? n)) R).
Proof.
  intros [ND D]. split; [apply NoDup_filter; auto|].
  intros a b Ha Hb. apply filter_In in Ha, Hb. destruct Ha, Hb. apply D; auto.
Qed.

Lemma erase_rep n R : NoDup R -> In n R ->
  erase_group (ni_group (ids n)) n (m_group (rep R)) = Some (m_group (rep (filter (fun x => negb (x =? n)) R))).
Proof.
  unfold rep; cbn. induction R as [|a R IH]; intros ND Hn; [destruct Hn|].
  inversion ND; subst. cbn. destruct (a =? n) eqn:E.
  - apply Z.eqb_eq in E; subst. rewrite Z.eqb_refl. cbn. f_equal.
    f_equal. clear -H1. induction R; cbn; auto.
    destruct (a =? n) eqn:E; [apply Z.eqb_eq in E; subst; exfalso; apply H1; left; auto|].
    cbn. rewrite <- IHR at 1; auto. intros H; apply H1; right; auto.
  - destruct Hn as [->|Hn]; [rewrite Z.eqb_refl in E; discriminate|].
    rewrite andb_false_r. rewrite IH by auto. cbn. auto.
Qed.

Lemma nodes_rem n R : distinct R -> In n R ->
  filter (fun kv => negb (ni_eqb (fst kv) (ids n))) (m_node (rep R)) = m_node (rep (filter (fun x => negb (x =? n)) R)).
Proof.
  intros [_ D] Hn. unfold rep; cbn.
  assert (G : forall L, incl L R ->
    filter (fun kv => negb (ni_eqb (fst kv) (ids n))) (map (fun n => (ids n, n)) L)
    = map (fun n => (ids n, n)) (filter (fun x => negb (x =? n)) L)).
  { induction L as [|a L IH]; intros I; cbn; auto.
    assert (ni_eqb (ids a) (ids n) = (a =? n)) as ->.
    { destruct (a =? n) eqn:E.
      - apply Z.eqb_eq in E; subst. apply ni_eqb_same. unfold same_id; auto.
      - apply ni_eqb_false. intros S. apply D in S; auto; [subst; rewrite Z.eqb_refl in E; discriminate|].
        apply I; left; auto. }
    rewrite IH by (intros x Hx; apply I; right; auto).
    destruct (a =? n); auto. }
  apply G. apply incl_refl.
Qed.

Lemma remove_rep n R : distinct R ->
  ~ In n R /\ remove_node (ids n) n (rep R) = (rep R, false)
  \/ In n R /\ remove_node (ids n) n (rep R) = (rep (filter (fun x => negb (x =? n)) R), true).
Proof.
  intros D. destruct (in_dec Z.eq_dec n R) as [Hn|Hn].
  - right. split; auto. unfold remove_node.
    rewrite (find_unique (ids n) R n) by (auto; unfold same_id; auto).
    rewrite Z.eqb_refl. cbn [negb].
    rewrite erase_rep by (auto; apply D). rewrite nodes_rem by auto. reflexivity.
  - left. split; auto. unfold remove_node. pose proof (find_rep (ids n) R) as H.
    destruct (map_find (ids n) (m_node (rep R))) as [m|]; auto.
    destruct (m =? n) eqn:E; auto. apply Z.eqb_eq in E; subst. tauto.
Qed.

(** What one successful operation does to the registered nodes. *)
Definition opR (o : mop) (R : list ptr) : list ptr :=
  match o with MAdd n => R ++ [n] | MRemove n => filter (fun x => negb (x =? n)) R end.
Definition opOk (o : mop) (R : list ptr) : Prop :=
  match o with MAdd n => forall m, In m R -> ~ same_id (ids m) (ids n) | MRemove n => In n R end.

Lemma apply_rep o R : distinct R ->
  (~ opOk o R /\ apply_op ids o (rep R) = (rep R, false))
  \/ (opOk o R /\ apply_op ids o (rep R) = (rep (opR o R), true) /\ distinct (opR o R)).
Proof.
  intros D. destruct o as [n|n]; cbn [apply_op opR opOk].
  - destruct (add_rep n R) as [[(m & Hm & S) E]|[F E]]; [left|right].
    + split; auto. intros H. eapply H; eauto.
    + split; [|split]; auto using distinct_add.
  - destruct (remove_rep n R D) as [[F E]|[F E]]; [left|right]; auto.
    split; [|split]; auto using distinct_rem.
Qed.
End P.
