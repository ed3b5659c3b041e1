(** Prefixes of logs, the disk queue as a path of logs, and logs made of leaders' logs. *)
From Verif Require Import Base BaseLemmas LogEntry Node.

Definition prefix {A} (a b : list A) : Prop := exists c, b = a ++ c.

Lemma prefix_refl : forall {A} (a : list A), prefix a a.
Proof. intros. exists []. rewrite app_nil_r. reflexivity. Qed.
Lemma prefix_nil : forall {A} (a : list A), prefix [] a.
Proof. intros. exists a. reflexivity. Qed.
Lemma prefix_trans : forall {A} (a b c : list A), prefix a b -> prefix b c -> prefix a c.
Proof. intros A a b c [x ->] [y ->]. exists (x ++ y). rewrite app_assoc. reflexivity. Qed.
Lemma prefix_app : forall {A} (a b : list A), prefix a (a ++ b).
Proof. intros. exists b. reflexivity. Qed.
Lemma prefix_app_r : forall {A} (a b c : list A), prefix a b -> prefix a (b ++ c).
Proof. intros A a b c [x ->]. exists (x ++ c). rewrite app_assoc. reflexivity. Qed.
Lemma prefix_firstn : forall {A} n (l : list A), prefix (firstn n l) l.
Proof. intros. exists (skipn n l). rewrite firstn_skipn. reflexivity. Qed.
Lemma prefix_len : forall {A} (a b : list A), prefix a b -> zlen a <= zlen b.
Proof. intros A a b [x ->]. rewrite zlen_app. pose proof (zlen_nonneg x). lia. Qed.
Lemma prefix_In : forall {A} (a b : list A) x, prefix a b -> In x a -> In x b.
Proof. intros A a b x [y ->] H. apply in_or_app; auto. Qed.
Lemma prefix_comparable : forall {A} (a b c : list A),
  prefix a c -> prefix b c -> zlen a <= zlen b -> prefix a b.
Proof.
  intros A a b c [x Hx] [y Hy] H. subst c. revert b y Hy H.
  induction a; intros b y Hy H; [apply prefix_nil|].
  destruct b. { rewrite zlen_cons in H. unfold zlen in H at 2. cbn in H. pose proof (zlen_nonneg a0). lia. }
  inversion Hy; subst. destruct (IHa _ _ H2) as [z ->]. { rewrite !zlen_cons in H. lia. }
  exists z. reflexivity.
Qed.
Lemma prefix_eq : forall {A} (a b c : list A),
  prefix a c -> prefix b c -> zlen a = zlen b -> a = b.
Proof.
  intros A a b c H1 H2 H3. destruct (prefix_comparable a b c H1 H2) as [x ->]; [lia|].
  rewrite zlen_app in H3. destruct x; [rewrite app_nil_r; auto|].
  rewrite zlen_cons in H3. pose proof (zlen_nonneg x). lia.
Qed.
Lemma prefix_firstn_eq : forall {A} (a b : list A) k, prefix a b -> k = zlen a -> firstn (Z.to_nat k) b = a.
Proof.
  intros A a b k [x ->] ->. unfold zlen. rewrite Nat2Z.id. rewrite firstn_app, Nat.sub_diag, firstn_all.
  cbn. rewrite app_nil_r. reflexivity.
Qed.
Lemma prefix_znth : forall {A} (a b : list A) i x, prefix a b -> znth a i = Some x -> znth b i = Some x.
Proof.
  intros A a b i x [y ->] H. pose proof (znth_some_bound _ _ _ H). rewrite znth_app1; [auto|lia].
Qed.
Lemma prefix_firstn_le : forall {A} (l : list A) i j, (i <= j)%nat -> prefix (firstn i l) (firstn j l).
Proof.
  intros A l i j H. replace (firstn i l) with (firstn i (firstn j l)); [apply prefix_firstn|].
  rewrite firstn_firstn. f_equal. lia.
Qed.
Lemma lent_dec : forall a b : lent, {a = b} + {a <> b}.
Proof. decide equality; apply Z.eq_dec. Qed.
Lemma prefix_dec : forall a b : list lent, prefix a b \/ ~ prefix a b.
Proof.
  intros a b. destruct (list_eq_dec lent_dec (firstn (length a) b) a) as [E|E].
  - left. rewrite <- E. apply prefix_firstn.
  - right. intros H. apply E. rewrite <- (Nat2Z.id (length a)). apply prefix_firstn_eq; auto.
Qed.
Lemma prefix_snoc : forall {A} (P a : list A) e, prefix P (a ++ [e]) -> prefix P a \/ P = a ++ [e].
Proof.
  intros A P a e H. destruct (Z_le_gt_dec (zlen P) (zlen a)).
  - left. eapply prefix_comparable; eauto. apply prefix_app.
  - right. eapply prefix_eq; [exact H|apply prefix_refl|].
    pose proof (prefix_len _ _ H). rewrite zlen_app, zlen_cons in *. unfold zlen in *. cbn in *. lia.
Qed.

(** term_at *)
Lemma term_at_split : forall L i, term_at L i <> 0 ->
  exists a e b, L = a ++ e :: b /\ zlen a = i - 1 /\ l_term e = term_at L i.
Proof.
  intros L i H. unfold term_at in *. destruct (znth L (i - 1)) as [e|] eqn:E; [|congruence].
  pose proof (znth_some_bound _ _ _ E). unfold znth in E. destruct (Z.ltb_spec (i - 1) 0); [lia|].
  destruct (nth_error_split _ _ E) as [a [b [-> Hl]]]. exists a, e, b. repeat split. unfold zlen. lia.
Qed.
Lemma term_at_mid : forall a e b, term_at (a ++ e :: b) (zlen a + 1) = l_term e.
Proof.
  intros. unfold term_at. replace (zlen a + 1 - 1) with (zlen a) by lia.
  rewrite znth_app2 by lia. rewrite Z.sub_diag, znth_cons_0. reflexivity.
Qed.
Lemma term_at_mid' : forall a e b i, i = zlen a + 1 -> term_at (a ++ e :: b) i = l_term e.
Proof. intros; subst; apply term_at_mid. Qed.
Lemma term_at_0 : forall L, term_at L 0 = 0.
Proof. reflexivity. Qed.
Lemma term_at_prefix : forall a b i, prefix a b -> 1 <= i <= zlen a -> term_at a i = term_at b i.
Proof.
  intros a b i [x ->] H. unfold term_at. rewrite znth_app1 by lia. reflexivity.
Qed.
Lemma term_at_app1 : forall a b i, i <= zlen a -> term_at (a ++ b) i = term_at a i.
Proof.
  intros a b i H. unfold term_at. destruct (Z_lt_le_dec (i - 1) 0).
  - unfold znth. destruct (Z.ltb_spec (i - 1) 0); [reflexivity|lia].
  - rewrite znth_app1 by lia. reflexivity.
Qed.
Lemma term_at_in : forall L i, 1 <= i <= zlen L -> exists a e b, L = a ++ e :: b /\ zlen a = i - 1 /\ l_term e = term_at L i.
Proof.
  intros L i H. unfold term_at. destruct (znth_in_bound L (i - 1)) as [e E]; [lia|]. rewrite E.
  unfold znth in E. destruct (Z.ltb_spec (i - 1) 0); [lia|].
  destruct (nth_error_split _ _ E) as [a [b [-> Hl]]]. exists a, e, b. repeat split. unfold zlen. lia.
Qed.

(** Logs made of leaders' logs: every entry and all before it are what the leader of its
    term had. *)
Definition wfl (ll : Z -> list lent) (L : list lent) : Prop :=
  forall a e b, L = a ++ e :: b -> prefix (a ++ [e]) (ll (l_term e)).
Definition llext (ll ll' : Z -> list lent) : Prop := forall t, prefix (ll t) (ll' t).
Definition posl (L : list lent) : Prop := forall e, In e L -> 1 <= l_term e.

Lemma llext_refl : forall ll, llext ll ll.
Proof. intros ll t. apply prefix_refl. Qed.
Lemma wfl_ext : forall ll ll' L, wfl ll L -> llext ll ll' -> wfl ll' L.
Proof. intros ll ll' L H E a e b HL. eapply prefix_trans; [eapply H; eauto|apply E]. Qed.
Lemma wfl_nil : forall ll, wfl ll [].
Proof. intros ll a e b H. destruct a; discriminate. Qed.
Lemma wfl_prefix : forall ll a b, wfl ll b -> prefix a b -> wfl ll a.
Proof.
  intros ll a b H [x ->] y e z ->. eapply H with (b := z ++ x). rewrite <- app_assoc. reflexivity.
Qed.
Lemma wfl_app : forall ll t L es, wfl ll L -> (forall e, In e es -> l_term e = t) ->
  prefix (L ++ es) (ll t) -> wfl ll (L ++ es).
Proof.
  intros ll t L es H Ht Hp a e b E.
  destruct (Z_lt_le_dec (zlen a) (zlen L)).
  - assert (prefix (a ++ [e]) L).
    { apply prefix_comparable with (c := L ++ es); [rewrite E; exists b; rewrite <- app_assoc; reflexivity|apply prefix_app|].
      rewrite zlen_app, zlen_cons. unfold zlen in *; cbn. lia. }
    destruct H0 as [x Hx]. eapply H with (b := x). rewrite Hx, <- app_assoc. reflexivity.
  - assert (prefix L a).
    { apply prefix_comparable with (c := L ++ es); [apply prefix_app|rewrite E; apply prefix_app|lia]. }
    destruct H0 as [x ->]. rewrite <- app_assoc in E. apply app_inv_head in E.
    rewrite (Ht e). 2:{ rewrite E. apply in_or_app. right; left; reflexivity. }
    eapply prefix_trans; [|exact Hp]. exists b. rewrite E, <- !app_assoc. reflexivity.
Qed.

(** Two such logs with the same term at a position agree up to there. *)
Lemma wfl_match : forall ll L1 L2 i, wfl ll L1 -> wfl ll L2 ->
  term_at L1 i <> 0 -> term_at L1 i = term_at L2 i ->
  exists x, zlen x = i /\ prefix x L1 /\ prefix x L2.
Proof.
  intros ll L1 L2 i H1 H2 H0 E.
  destruct (term_at_split L1 i H0) as [a [e [b [E1 [Z1 T1]]]]].
  rewrite E in H0. destruct (term_at_split L2 i H0) as [a' [e' [b' [E2 [Z2 T2]]]]].
  exists (a ++ [e]).
  assert (a ++ [e] = a' ++ [e']).
  { eapply prefix_eq with (c := ll (l_term e)).
    - eapply H1; eauto.
    - replace (l_term e) with (l_term e') by congruence. eapply H2; eauto.
    - rewrite !zlen_app, !zlen_cons. unfold zlen; cbn. unfold zlen in *. lia. }
  split; [rewrite zlen_app, zlen_cons; unfold zlen in *; cbn; lia|]. split.
  - subst L1. exists b. rewrite <- app_assoc. reflexivity.
  - rewrite H. subst L2. exists b'. rewrite <- app_assoc. reflexivity.
Qed.

(** The disk queue as a path of logs. *)
Definition dstep (d : list lent) (o : dop) : list lent :=
  match o with DApp e => d ++ [e] | DTrunc k => firstn (Z.to_nat k) d | _ => d end.
Fixpoint fin (d : list lent) (q : list dop) : list lent :=
  match q with [] => d | o :: q' => fin (dstep d o) q' end.
Fixpoint Sts (P : list lent -> Prop) (d : list lent) (q : list dop) : Prop :=
  P d /\ match q with [] => True | o :: q' => Sts P (dstep d o) q' end.
Definition data (o : dop) : Prop := match o with DApp _ | DTrunc _ => True | _ => False end.

Lemma fin_app : forall q1 d q2, fin d (q1 ++ q2) = fin (fin d q1) q2.
Proof. induction q1; intros; cbn; auto. Qed.
Lemma Sts_fin : forall P q d, Sts P d q -> P (fin d q).
Proof. induction q; cbn; intros d [H1 H2]; auto. Qed.
Lemma Sts_hd : forall P q d, Sts P d q -> P d.
Proof. destruct q; cbn; tauto. Qed.
Lemma Sts_app : forall P q1 d q2, Sts P d (q1 ++ q2) <-> Sts P d q1 /\ Sts P (fin d q1) q2.
Proof.
  induction q1; intros; cbn.
  - split; [intros H; split; [split; [eapply Sts_hd; eauto|exact I]|exact H]|tauto].
  - rewrite IHq1. tauto.
Qed.
Lemma Sts_snoc : forall P d q o, Sts P d q -> P (dstep (fin d q) o) -> Sts P d (q ++ [o]).
Proof. intros. apply Sts_app. split; auto. cbn. split; [eapply Sts_fin; eauto|]. split; auto. Qed.
Lemma Sts_impl : forall (P Q : list lent -> Prop) q d, (forall L, P L -> Q L) -> Sts P d q -> Sts Q d q.
Proof. induction q; cbn; intros d H [H1 H2]; split; auto. Qed.
Lemma fin_map_app : forall es d, fin d (map DApp es) = d ++ es.
Proof.
  induction es; intros; cbn; [rewrite app_nil_r; reflexivity|]. rewrite IHes, <- app_assoc. reflexivity.
Qed.
Lemma Sts_map_app : forall (P : list lent -> Prop) es d,
  (forall a b, es = a ++ b -> P (d ++ a)) -> Sts P d (map DApp es).
Proof.
  induction es; intros d H; cbn.
  - split; auto. specialize (H [] [] eq_refl). rewrite app_nil_r in H. exact H.
  - split. { specialize (H [] (a :: es) eq_refl). rewrite app_nil_r in H. exact H. }
    apply IHes. intros x y E. rewrite <- app_assoc. cbn. apply (H (a :: x) y). cbn. congruence.
Qed.
Lemma Sts_split : forall P q1 o q2 d, Sts P d (q1 ++ o :: q2) -> Sts P (fin d q1) (o :: q2).
Proof. intros. apply Sts_app in H. tauto. Qed.

(** What an AppendEntries request carries. *)
Definition slice (F : list lent) (prev pt : Z) (es : list lent) : Prop :=
  exists a b, F = a ++ es ++ b /\ zlen a = prev /\ pt = term_at F prev.

Lemma slice_ext : forall F F' prev pt es, slice F prev pt es -> prefix F F' -> slice F' prev pt es.
Proof.
  intros F F' prev pt es [a [b [-> [<- ->]]]] [x ->]. exists a, (b ++ x).
  split; [rewrite <- !app_assoc; reflexivity|]. split; auto.
  rewrite !term_at_app1; rewrite ?zlen_app; auto; pose proof (zlen_nonneg b); pose proof (zlen_nonneg es); lia.
Qed.

Lemma skip_same_spec : forall ll L F es a b i j rest,
  wfl ll L -> wfl ll F -> posl F -> F = a ++ es ++ b -> prefix a L -> i = zlen a + 1 ->
  skip_same L i es = (j, rest) ->
  exists same, es = same ++ rest /\ j = i + zlen same /\ prefix (a ++ same) L /\
    (rest = [] \/ exists e r, rest = e :: r /\ term_at L j <> l_term e).
Proof.
  intros ll L F. induction es as [|e es]; intros a b i j rest HL HF Hpos EF Ha Hi H.
  - cbn in H. inversion H; subst. exists []. rewrite (app_nil_r a).
    split; [reflexivity|]. split; [unfold zlen; cbn; lia|]. auto.
  - cbn [skip_same] in H. destruct (Z.eqb_spec (term_at L i) (l_term e)) as [E|E].
    + assert (He : In e F) by (subst F; apply in_or_app; right; left; reflexivity).
      assert (Hm : exists x, zlen x = i /\ prefix x L /\ prefix x F).
      { eapply wfl_match; eauto. { specialize (Hpos e He). lia. }
        rewrite E. subst F i. symmetry. apply term_at_mid. }
      destruct Hm as [x [X1 [X2 X3]]].
      assert (x = a ++ [e]).
      { eapply prefix_eq; [exact X3| |rewrite zlen_app, zlen_cons; unfold zlen in *; cbn; lia].
        subst F. exists (es ++ b). rewrite <- app_assoc. reflexivity. }
      subst x.
      destruct (IHes (a ++ [e]) b (i + 1) j rest) as [same [S1 [S2 [S3 S4]]]]; auto.
      { subst F. rewrite <- app_assoc. reflexivity. }
      { rewrite zlen_app, zlen_cons. unfold zlen in *; cbn. lia. }
      exists (e :: same). split; [cbn; congruence|]. split; [rewrite zlen_cons; lia|].
      split; auto. rewrite <- app_assoc in S3. exact S3.
    + inversion H; subst. exists []. rewrite (app_nil_r a).
      split; [reflexivity|]. split; [unfold zlen; cbn; lia|]. split; [auto|]. right. eauto.
Qed.

Lemma follow_spec : forall ll n F prev pt es,
  wfl ll (n_log n) -> wfl ll F -> posl F -> posl (n_log n) ->
  slice F prev pt es -> term_at (n_log n) prev = pt ->
  let n' := follow_append prev es n in
  exists ops, n' = set_log (n_log n') (n_q n ++ ops) n /\ fin (n_log n) ops = n_log n' /\
    Sts (wfl ll) (n_log n) ops /\
    (forall P, prefix P (n_log n) -> prefix P F -> Sts (prefix P) (n_log n) ops) /\
    prefix (firstn (Z.to_nat (prev + zlen es)) F) (n_log n') /\
    (forall e, In e (n_log n') -> In e (n_log n) \/ In e F) /\
    (forall o, In o ops -> data o).
Proof.
  intros ll n F prev pt es HL HF HpF HpL [a [b [EF [Za Ept]]]] Hm n'.
  set (L := n_log n) in *.
  assert (Ha : prefix a L).
  { destruct (Z.eq_dec pt 0) as [E0|E0].
    - assert (prev = 0).
      { destruct (Z_le_gt_dec 1 prev).
        - exfalso. destruct (term_at_in F prev) as [x [e [y [X1 [X2 X3]]]]].
          { subst F. rewrite zlen_app. pose proof (zlen_nonneg (es ++ b)). lia. }
          assert (1 <= l_term e) by (apply HpF; rewrite X1; apply in_or_app; right; left; reflexivity).
          lia.
        - pose proof (zlen_nonneg a). lia. }
      rewrite H in Za. apply zlen_0_nil in Za. subst a. apply prefix_nil.
    - destruct (wfl_match ll L F prev) as [x [X1 [X2 X3]]]; auto; try congruence.
      replace a with x; auto. eapply prefix_eq; [exact X3|subst F; apply prefix_app|lia]. }
  assert (Hfi : firstn (Z.to_nat (prev + zlen es)) F = a ++ es).
  { apply prefix_firstn_eq; [subst F; exists b; rewrite <- app_assoc; reflexivity|rewrite zlen_app; lia]. }
  rewrite Hfi. subst n'. unfold follow_append. fold L.
  destruct (skip_same L (prev + 1) es) as [j rest] eqn:E.
  destruct (skip_same_spec ll L F es a b (prev + 1) j rest) as [same [S1 [S2 [S3 S4]]]]; auto; [lia|].
  assert (Pas : prefix (a ++ es) F) by (subst F; exists b; rewrite <- app_assoc; reflexivity).
  destruct rest as [|e r].
  - exists []. rewrite app_nil_r in *. subst same. split; [destruct n; reflexivity|].
    split; [reflexivity|]. split; [cbn; auto|]. split; [intros; cbn; auto|].
    split; [exact S3|]. split; [auto|intros o []].
  - destruct S4 as [S4|[e' [r' [S4 S5]]]]; [discriminate|]. inversion S4; subst e' r'. clear S4.
    assert (ZS : zlen (a ++ same) = j - 1) by (rewrite zlen_app; lia).
    assert (PS : prefix (a ++ same) F).
    { subst F es. exists ((e :: r) ++ b). rewrite <- !app_assoc. reflexivity. }
    assert (Hst : Sts (wfl ll) (a ++ same) (map DApp (e :: r))).
    { apply Sts_map_app. intros x y Exy. eapply wfl_prefix; [exact HF|]. eapply prefix_trans; [|exact Pas].
      exists y. rewrite S1, Exy, <- !app_assoc. reflexivity. }
    assert (Hin : forall z, In z ((a ++ same) ++ e :: r) -> In z L \/ In z F).
    { intros z Hz. right. eapply prefix_In; [exact Pas|]. rewrite S1, app_assoc. exact Hz. }
    assert (HpP : forall P, prefix P L -> prefix P F -> prefix P (a ++ same)).
    { intros P P1 P2. destruct (Z_le_gt_dec (zlen P) (zlen (a ++ same))).
      - eapply prefix_comparable; [exact P2|exact PS|auto].
      - exfalso. apply S5. transitivity (term_at F j).
        + transitivity (term_at P j); [symmetry|]; apply term_at_prefix; auto;
            pose proof (zlen_nonneg same); pose proof (zlen_nonneg a); lia.
        + subst F es. rewrite <- app_assoc. rewrite app_assoc. cbn. apply term_at_mid'. lia. }
    destruct (Z.leb_spec j (zlen L)) as [Hj|Hj]; cbn [n_log set_log].
    + rewrite (prefix_firstn_eq (a ++ same) L) by (auto; lia).
      exists (DTrunc (j - 1) :: map DApp (e :: r)). split; [reflexivity|].
      cbn [fin dstep Sts]. rewrite (prefix_firstn_eq (a ++ same) L) by (auto; lia).
      split; [apply (fin_map_app (e :: r))|]. split; [split; auto|].
      split. { intros P P1 P2. split; auto. apply (Sts_map_app _ (e :: r)). intros x y _. apply prefix_app_r. auto. }
      split. { rewrite S1, app_assoc. apply prefix_refl. }
      split; [exact Hin|]. intros o [<-|Ho]; [exact I|]. apply (in_map_iff DApp (e :: r)) in Ho. destruct Ho as [x [<- _]]. exact I.
    + assert (EL : a ++ same = L).
      { eapply prefix_eq; [exact S3|apply prefix_refl|]. pose proof (prefix_len _ _ S3). lia. }
      rewrite EL in *. exists (map DApp (e :: r)). split; [reflexivity|].
      split; [apply (fin_map_app (e :: r))|]. split; [exact Hst|].
      split. { intros P P1 P2. apply Sts_map_app. intros x y _. apply prefix_app_r. auto. }
      split. { rewrite S1, app_assoc, EL. apply prefix_refl. }
      split; [exact Hin|]. intros o Ho. apply (in_map_iff DApp (e :: r)) in Ho. destruct Ho as [x [<- _]]. exact I.
Qed.
