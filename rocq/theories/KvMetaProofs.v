From Verif Require Import Base KvMeta KvMetaSpec.
From Coq Require Import Permutation.

Lemma look_app g a b x : look g (a ++ b) x = look g b (look g a x).
Proof. revert x. induction a as [|o a IH]; intros x; cbn; auto. destruct o; auto. Qed.
Lemma stored_snoc g db ops : stored g (db ++ [ops]) = look g ops (stored g db).
Proof. unfold stored. rewrite concat_app. cbn. rewrite app_nil_r. apply look_app. Qed.

Definition puts (ts : list ktask) : list kop := map (fun t => KPut (t_grp t) (t_val t)) ts.
Lemma look_puts_none g ts : forall x, (forall t, In t ts -> t_grp t <> g) -> look g (puts ts) x = x.
Proof.
  induction ts as [|t ts IH]; intros x H; cbn; auto. destruct (t_grp t =? g) eqn:E; [apply Z.eqb_eq in E; exfalso; apply (H t); [left; auto|auto]|].
  apply IH. intros u Hu. apply H. right; auto.
Qed.
Lemma grp_unique ts t u : NoDup (map t_grp ts) -> In t ts -> In u ts -> t_grp t = t_grp u -> t = u.
Proof.
  induction ts as [|x ts IH]; intros N Ht Hu E; [destruct Ht|]. cbn in N. apply NoDup_cons_iff in N. destruct N as [N1 N2].
  destruct Ht as [->|Ht], Hu as [->|Hu]; auto.
  - exfalso. apply N1. rewrite E. apply in_map. auto.
  - exfalso. apply N1. rewrite <- E. apply in_map. auto.
Qed.
Lemma look_puts_one ts t x : NoDup (map t_grp ts) -> In t ts -> look (t_grp t) (puts ts) x = Some (t_val t).
Proof.
  revert x. induction ts as [|u ts IH]; intros x N H; [destruct H|]. cbn. pose proof N as N0. cbn in N. apply NoDup_cons_iff in N. destruct N as [N1 N2].
  destruct H as [->|H].
  - rewrite Z.eqb_refl. apply look_puts_none. intros v Hv E. apply N1. rewrite <- E. apply in_map; auto.
  - apply IH; auto.
Qed.

(** The trace seen by one group. *)
Lemma follow_app g a b : follow g (a ++ b) = fold_left (pstep g) b (follow g a).
Proof. unfold follow. apply fold_left_app. Qed.
Lemma ans_idle g w ts : forall vs, fold_left (pstep g) (map (kanswer w) ts) (vs, None) = (vs, None).
Proof.
  induction ts as [|t ts IH]; intros vs; cbn [map fold_left]; auto. replace (pstep g (vs, None) (kanswer w t)) with ((vs, None) : poss); [apply IH|].
  unfold kanswer. destruct (t_init t); [destruct (kok w)|]; cbn; auto; destruct (t_grp t =? g); auto.
Qed.
Lemma ans_other g w ts : forall vs j v, (forall t, In t ts -> t_grp t <> g /\ t_id t <> j) -> fold_left (pstep g) (map (kanswer w) ts) (vs, Some (j, v)) = (vs, Some (j, v)).
Proof.
  induction ts as [|t ts IH]; intros vs j v H; cbn [map fold_left]; auto. destruct (H t) as [H1 H2]; [left; auto|].
  assert (E1 : (t_grp t =? g) = false) by (apply Z.eqb_neq; auto). assert (E2 : (t_id t =? j) = false) by (apply Z.eqb_neq; auto).
  replace (pstep g (vs, Some (j, v)) (kanswer w t)) with ((vs, Some (j, v)) : poss).
  - apply IH. intros u Hu. apply H. right; auto.
  - unfold kanswer. destruct (t_init t); [destruct (kok w)|]; cbn; rewrite ?E1, ?E2; reflexivity.
Qed.
Lemma ans_own w t vs : pstep (t_grp t) (vs, Some (t_id t, t_val t)) (kanswer w t) = (if kok w then [Some (t_val t)] else vs, None).
Proof. unfold kanswer. destruct (t_init t), (kok w); cbn; rewrite ?Z.eqb_refl; reflexivity. Qed.

(** [Q]: the calls under way. *)
Record KI (power : bool) (h : list kout) (s : kst) (Q : list ktask) : Prop := mkKI {
  n_ids : NoDup (map t_id Q);
  n_grps : NoDup (map t_grp Q);
  n_cur : forall t, In t Q -> snd (follow (t_grp t) h) = Some (t_id t, t_val t) /\ may_hold (t_grp t) h (Some (t_val t));
  n_back : forall g i v, snd (follow g h) = Some (i, v) -> exists t, In t Q /\ t_grp t = g /\ t_id t = i /\ t_val t = v;
  n_dur : (k_dur s <= length (k_db s))%nat;
  n_may : forall g n, (n <= length (k_db s))%nat -> (if power then k_dur s <= n else n = length (k_db s))%nat -> may_hold g h (stored g (firstn n (k_db s))) }.

Lemma firstn_snoc {A} n (l : list A) x : (n <= length l)%nat -> firstn n (l ++ [x]) = firstn n l.
Proof. intros H. rewrite firstn_app. replace (n - length l)%nat with 0%nat by lia. cbn. apply app_nil_r. Qed.

Lemma NoDup_app_r {A} (a b : list A) : NoDup (a ++ b) -> NoDup b.
Proof. induction a as [|x a IH]; cbn; auto. rewrite NoDup_cons_iff. tauto. Qed.
Lemma NoDup_app_l {A} (a b : list A) : NoDup (a ++ b) -> NoDup a.
Proof. induction a as [|x a IH]; cbn; [constructor|]. rewrite !NoDup_cons_iff, in_app_iff. tauto. Qed.
Lemma NoDup_app_d {A} (a b : list A) x : NoDup (a ++ b) -> In x a -> In x b -> False.
Proof. induction a as [|y a IH]; cbn; [tauto|]. rewrite NoDup_cons_iff, in_app_iff. intros [N1 N2] [->|H] Hb; [tauto|auto]. Qed.

Lemma run_tasks_KI sync power h s ts Q w s' o : sync = true \/ power = false -> KI power h s (ts ++ Q) -> run_tasks sync ts w s = (s', o) ->
  KI power (h ++ o) s' Q /\ k_q s' = k_q s.
Proof.
  intros SP [NI NG CU BK DU MA] H. unfold run_tasks in H. injection H as <- <-. fold (puts ts). rewrite map_app in NI, NG.
  assert (TD : forall t u, In t ts -> In u Q -> t_grp t <> t_grp u /\ t_id t <> t_id u).
  { intros t u Ht Hu. split; intros E.
    - apply (NoDup_app_d _ _ (t_grp t) NG); [apply in_map; auto|rewrite E; apply in_map; auto].
    - apply (NoDup_app_d _ _ (t_id t) NI); [apply in_map; auto|rewrite E; apply in_map; auto]. }
  (* what the answers do to a group *)
  assert (FO : forall g, (forall t, In t ts -> t_grp t <> g) -> follow g (h ++ map (kanswer w) ts) = follow g h).
  { intros g Hg. rewrite follow_app. destruct (follow g h) as [vs [[j v]|]] eqn:F; [|apply ans_idle]. apply ans_other. intros t Ht. split; auto. intros E.
    destruct (BK g j v) as (u & U1 & U2 & U3 & U4); [rewrite F; reflexivity|]. apply in_app_iff in U1. destruct U1 as [U1|U1].
    - exact (Hg u U1 U2).
    - destruct (TD t u Ht U1) as [_ X]. congruence. }
  assert (FT : forall t, In t ts -> follow (t_grp t) (h ++ map (kanswer w) ts) = (if kok w then [Some (t_val t)] else fst (follow (t_grp t) h), None)).
  { intros t Ht. rewrite follow_app. destruct (CU t) as [C1 C2]; [apply in_app_iff; auto|]. destruct (follow (t_grp t) h) as [vs cur] eqn:F. cbn in C1. subst cur.
    destruct (in_split _ _ Ht) as (a & b & E). rewrite E, map_app. cbn [map]. rewrite fold_left_app. cbn [fold_left].
    rewrite ans_other.
    - rewrite ans_own, ans_idle. reflexivity.
    - intros u Hu. rewrite E, !map_app in NI, NG. cbn in NI, NG. apply NoDup_app_l in NI, NG.
      split; intros X.
      + apply (NoDup_app_d _ _ (t_grp u) NG); [apply in_map; auto|left; auto].
      + apply (NoDup_app_d _ _ (t_id u) NI); [apply in_map; auto|left; auto]. }
  assert (DEC : forall g, (exists t, In t ts /\ t_grp t = g) \/ (forall t, In t ts -> t_grp t <> g)).
  { intros g. destruct (existsb (fun t => t_grp t =? g) ts) eqn:X.
    - apply existsb_exists in X. destruct X as (t & X1 & X2). apply Z.eqb_eq in X2. left. eauto.
    - right. intros t Ht E. assert (existsb (fun t => t_grp t =? g) ts = true) by (apply existsb_exists; exists t; split; auto; apply Z.eqb_eq; auto). congruence. }
  split; [|unfold kwrite; destruct w; reflexivity].
  constructor.
  - eapply NoDup_app_r; eauto.
  - eapply NoDup_app_r; eauto.
  - intros u Hu. rewrite (FO (t_grp u)) by (intros t Ht; apply (TD t u Ht Hu)). unfold may_hold. rewrite (FO (t_grp u)) by (intros t Ht; apply (TD t u Ht Hu)).
    apply CU. apply in_app_iff; auto.
  - intros g i v Hf. destruct (DEC g) as [(t & T1 & <-)|N]; [rewrite (FT t T1) in Hf; discriminate Hf|]. rewrite (FO g N) in Hf. destruct (BK g i v Hf) as (u & U1 & U2).
    apply in_app_iff in U1. destruct U1 as [U1|U1]; [exfalso; apply (N u U1); tauto|]. exists u. auto.
  - unfold kwrite. destruct w; cbn [k_db k_dur]; auto; rewrite app_length; cbn; destruct sync; cbn; lia.
  - intros g n Hn Hlo. unfold kwrite in Hn, Hlo. unfold may_hold.
    assert (NGt : NoDup (map t_grp ts)) by (eapply NoDup_app_l; eauto).
    (* the value after the write *)
    assert (NEW : w <> KFail -> In (stored g (k_db s ++ [puts ts])) (fst (follow g (h ++ map (kanswer w) ts)))).
    { intros Hw. rewrite stored_snoc. destruct (DEC g) as [(t & T1 & <-)|N].
      - rewrite (look_puts_one ts t _ NGt T1), (FT t T1). destruct (kok w); cbn; [auto|]. apply CU. apply in_app_iff; auto.
      - rewrite (look_puts_none g ts _ N), (FO g N). specialize (MA g (length (k_db s))). rewrite firstn_all in MA. apply MA; auto. destruct power; auto. }
    (* an older value, when it may come back *)
    assert (OLD : kok w = false -> (n <= length (k_db s))%nat -> (if power then k_dur s <= n else n = length (k_db s))%nat ->
                  In (stored g (firstn n (k_db s))) (fst (follow g (h ++ map (kanswer w) ts)))).
    { intros Hw H1 H2. specialize (MA g n H1 H2). destruct (DEC g) as [(t & T1 & <-)|N]; [rewrite (FT t T1), Hw; exact MA|rewrite (FO g N); exact MA]. }
    destruct w; cbn [k_db k_dur] in Hn, Hlo; unfold kwrite; cbn [k_db k_dur kok andb] in *.
    + assert (n = length (k_db s ++ [puts ts])).
      { destruct SP as [-> | ->]; [cbn in Hlo|exact Hlo]. rewrite app_length in *. cbn in *. destruct power; lia. }
      subst n. rewrite firstn_all. apply NEW. discriminate.
    + apply OLD; auto.
    + rewrite app_length in Hn. cbn in Hn. destruct (Nat.eq_dec n (length (k_db s) + 1)) as [->|Nn].
      * replace (length (k_db s) + 1)%nat with (length (k_db s ++ [puts ts])) by (rewrite app_length; cbn; lia). rewrite firstn_all. apply NEW. discriminate.
      * rewrite firstn_snoc by lia. apply OLD; auto; [lia|]. destruct power; [auto|]. rewrite app_length in Hlo. cbn in Hlo. lia.
Qed.

Lemma kloop_KI sync power bs its : sync = true \/ power = false -> forall cur rs h s s' o Q, KI power h s (cur ++ its ++ Q) ->
  kloop sync bs its cur rs s = (s', o) -> KI power (h ++ o) s' Q /\ k_q s' = k_q s.
Proof.
  intros SP. induction its as [|t its IH]; intros cur rs h s s' o Q I H; cbn [kloop] in H.
  - cbn in I. destruct cur as [|c cur]; [injection H as <- <-; rewrite app_nil_r; auto|]. eapply run_tasks_KI; eauto.
  - destruct (Nat.eqb (length cur) bs).
    + destruct (run_tasks sync cur (hd KOk rs) s) as [s1 o1] eqn:E1. destruct (kloop sync bs its [t] (tl rs) s1) as [s2 o2] eqn:E2. injection H as <- <-.
      destruct (run_tasks_KI _ _ _ _ _ _ _ _ _ SP I E1) as [I1 Q1]. destruct (IH [t] _ _ _ _ _ _ I1 E2) as [I2 Q2]. rewrite app_assoc. split; auto. congruence.
    + eapply IH; [|exact H]. rewrite <- app_assoc. exact I.
Qed.

Lemma kbusy_false g s : kbusy g s = false -> forall t, In t (k_q s) -> t_grp t <> g.
Proof.
  intros H t Ht E. assert (kbusy g s = true) by (unfold kbusy; apply existsb_exists; exists t; split; auto; apply Z.eqb_eq; auto). congruence.
Qed.
Lemma kdup_false i s : kdup i s = false -> forall t, In t (k_q s) -> t_id t <> i.
Proof.
  intros H t Ht E. assert (kdup i s = true) by (unfold kdup; apply existsb_exists; exists t; split; auto; apply Z.eqb_eq; auto). congruence.
Qed.
Lemma idle_cur power h s g : KI power h s (k_q s) -> kbusy g s = false -> snd (follow g h) = None.
Proof.
  intros I B. destruct (snd (follow g h)) as [[i v]|] eqn:E; auto. destruct (n_back _ _ _ _ I g i v E) as (t & A & B1 & _). exfalso. exact (kbusy_false g s B t A B1).
Qed.

(** A call for an idle group that is not queued: only the possible values may change, and only by growing or by the write. *)
Lemma KI_weaken power h o s s' Q : KI power h s Q ->
  (forall g, follow g (h ++ o) = follow g h \/
             ((forall t, In t Q -> t_grp t <> g) /\ snd (follow g (h ++ o)) = None)) ->
  (k_dur s' <= length (k_db s'))%nat ->
  (forall g n, (n <= length (k_db s'))%nat -> (if power then k_dur s' <= n else n = length (k_db s'))%nat -> may_hold g (h ++ o) (stored g (firstn n (k_db s')))) ->
  KI power (h ++ o) s' Q.
Proof.
  intros [NI NG CU BK DU MA] F D M. constructor; auto.
  - intros t Ht. unfold may_hold. destruct (F (t_grp t)) as [->|[X _]]; [apply CU; auto|]. exfalso. exact (X t Ht eq_refl).
  - intros g i v Hf. destruct (F g) as [E|[X Y]]; [rewrite E in Hf; eauto|congruence].
Qed.

Lemma enqueue_KI power h s Q t o : KI power h s Q -> (forall u, In u Q -> t_grp u <> t_grp t /\ t_id u <> t_id t) ->
  (forall g, g <> t_grp t -> follow g (h ++ o) = follow g h) ->
  follow (t_grp t) (h ++ o) = (fst (follow (t_grp t) h) ++ [Some (t_val t)], Some (t_id t, t_val t)) ->
  KI power (h ++ o) s (Q ++ [t]).
Proof.
  intros [NI NG CU BK DU MA] U F1 F2.
  assert (SN : forall {A} (l : list A) x, NoDup l -> ~ In x l -> NoDup (l ++ [x])).
  { intros A l x N Hx. apply (Permutation_NoDup (Permutation_cons_append l x)). constructor; auto. }
  constructor; auto.
  - rewrite map_app. apply SN; auto. intros X. apply in_map_iff in X. destruct X as (u & E & Hu). apply (proj2 (U u Hu)). auto.
  - rewrite map_app. apply SN; auto. intros X. apply in_map_iff in X. destruct X as (u & E & Hu). apply (proj1 (U u Hu)). auto.
  - intros u Hu. apply in_app_iff in Hu. unfold may_hold. destruct Hu as [Hu|[<-|[]]].
    + rewrite F1 by (apply U; auto). apply CU; auto.
    + rewrite F2. cbn. split; auto. apply in_app_iff. right. left. auto.
  - intros g i v Hf. destruct (Z.eq_dec g (t_grp t)) as [->|N].
    + rewrite F2 in Hf. cbn in Hf. injection Hf as <- <-. exists t. rewrite in_app_iff. cbn. auto.
    + rewrite F1 in Hf by auto. destruct (BK g i v Hf) as (u & A & B). exists u. rewrite in_app_iff. auto.
  - intros g n H1 H2. specialize (MA g n H1 H2). unfold may_hold in *. destruct (Z.eq_dec g (t_grp t)) as [->|N]; [rewrite F2; cbn; apply in_app_iff; auto|rewrite F1; auto].
Qed.

Lemma kstep_KI sync power bs h s e s' o : sync = true \/ power = false -> KI power h s (k_q s) -> kstep true sync power bs s e = Some (s', o) -> KI power (h ++ o) s' (k_q s').
Proof.
  intros SP I H. destruct e as [id g v ok|id g rd ok|id g w|n rs| |n]; cbn [kstep] in H.
  - destruct (kbusy g s) eqn:B; [discriminate H|]. cbn [andb orb] in H. destruct (kdup id s) eqn:D; [discriminate H|].
    pose proof (idle_cur _ _ _ g I B) as C0. destruct (follow g h) as [vs cur] eqn:F. cbn in C0. subst cur. destruct ok; injection H as <- <-.
    + cbn [k_q]. assert (I2 : KI power (h ++ [OAsked id g v]) s (k_q s ++ [mkKT id g v false])).
      { apply enqueue_KI; auto.
        - intros u Hu. cbn. split; [eapply kbusy_false; eauto|eapply kdup_false; eauto].
        - intros g' N. rewrite follow_app. cbn. destruct (follow g' h) as [a b]. cbn in N |- *. replace (g =? g') with false by (symmetry; apply Z.eqb_neq; auto). reflexivity.
        - cbn. rewrite follow_app, F. cbn. rewrite Z.eqb_refl. reflexivity. }
      destruct I2 as [A1 A2 A3 A4 A5 A6]. constructor; auto.
    + apply (KI_weaken power h _ s s); auto.
      * intros g'. destruct (Z.eq_dec g' g) as [->|N].
        -- right. split; [eapply kbusy_false; eauto|]. rewrite follow_app, F. cbn. rewrite Z.eqb_refl. cbn. rewrite !Z.eqb_refl. reflexivity.
        -- left. rewrite follow_app. cbn. destruct (follow g' h) as [a b] eqn:G. cbn. replace (g =? g') with false by (symmetry; apply Z.eqb_neq; auto).
           destruct b as [[j w]|]; cbn; auto. replace (id =? j) with false; auto. symmetry. apply Z.eqb_neq. intros ->.
           destruct (n_back _ _ _ _ I g' j w) as (t & T1 & T2 & T3 & _); [rewrite G; reflexivity|]. exact (kdup_false j s D t T1 T3).
      * apply (n_dur _ _ _ _ I).
      * intros g' n H1 H2. pose proof (n_may _ _ _ _ I g' n H1 H2) as M. unfold may_hold in *. rewrite follow_app. cbn. destruct (follow g' h) as [a b] eqn:G. cbn in M |- *.
        destruct (g =? g') eqn:E; cbn; rewrite ?Z.eqb_refl; [cbn; apply in_app_iff; auto|].
        destruct b as [[j w]|]; cbn; auto. destruct (id =? j); auto.
  - destruct (kbusy g s) eqn:B; [discriminate H|]. cbn [andb orb] in H. destruct (kdup id s) eqn:D; [discriminate H|].
    pose proof (idle_cur _ _ _ g I B) as C0. destruct (follow g h) as [vs cur] eqn:F. cbn in C0. subst cur.
    assert (NOP : forall o, (forall g', follow g' (h ++ o) = follow g' h) -> KI power (h ++ o) s (k_q s)).
    { intros o0 E. apply (KI_weaken power h o0 s s); auto; [apply (n_dur _ _ _ _ I)|]. intros g' n H1 H2. unfold may_hold. rewrite E. apply (n_may _ _ _ _ I); auto. }
    destruct rd; cbn [negb] in H.
    2: { injection H as <- <-. apply NOP. intros g'. rewrite follow_app. cbn. destruct (follow g' h) as [a b] eqn:G. cbn. destruct (g =? g') eqn:E; auto. apply Z.eqb_eq in E. subst g'.
         assert (b = None) by congruence. subst b. reflexivity. }
    destruct (stored g (k_db s)) as [v|] eqn:S.
    { injection H as <- <-. apply NOP. intros g'. rewrite follow_app. cbn. destruct (follow g' h) as [a b] eqn:G. cbn. destruct (g =? g') eqn:E; auto. apply Z.eqb_eq in E. subst g'.
      assert (b = None) by congruence. subst b. reflexivity. }
    destruct ok; injection H as <- <-.
    + cbn [k_q]. assert (I2 : KI power (h ++ [OGet id g; OInit id g]) s (k_q s ++ [mkKT id g KINIT true])).
      { apply enqueue_KI; auto.
        - intros u Hu. cbn. split; [eapply kbusy_false; eauto|eapply kdup_false; eauto].
        - intros g' N. rewrite follow_app. cbn. destruct (follow g' h) as [a b]. cbn in N |- *. replace (g =? g') with false by (symmetry; apply Z.eqb_neq; auto). reflexivity.
        - cbn. rewrite follow_app, F. cbn. rewrite Z.eqb_refl. reflexivity. }
      destruct I2 as [A1 A2 A3 A4 A5 A6]. constructor; auto.
    + apply (KI_weaken power h _ s s); auto.
      * intros g'. destruct (Z.eq_dec g' g) as [->|N].
        -- right. split; [eapply kbusy_false; eauto|]. rewrite follow_app, F. cbn. rewrite Z.eqb_refl. cbn. rewrite !Z.eqb_refl. reflexivity.
        -- left. rewrite follow_app. cbn. destruct (follow g' h) as [a b] eqn:G. assert (EE : (g =? g') = false) by (apply Z.eqb_neq; auto). cbn. rewrite EE. cbn. rewrite EE. reflexivity.
      * apply (n_dur _ _ _ _ I).
      * intros g' n H1 H2. pose proof (n_may _ _ _ _ I g' n H1 H2) as M. unfold may_hold in *. rewrite follow_app. cbn. destruct (follow g' h) as [a b] eqn:G. cbn in M |- *.
        destruct (g =? g') eqn:E; cbn; rewrite ?E, ?Z.eqb_refl; cbn; [apply in_app_iff; auto|auto].
  - destruct (kbusy g s) eqn:B; [discriminate H|]. cbn [andb] in H. injection H as <- <-.
    replace (k_q (kwrite sync [KRem g] w s)) with (k_q s) by (unfold kwrite; destruct w; reflexivity).
    assert (FG : forall c, follow g (h ++ [ODel id g c]) = (if c =? 0 then [None] else fst (follow g h) ++ [None], None)).
    { intros c. rewrite follow_app. cbn. destruct (follow g h). cbn. rewrite Z.eqb_refl. reflexivity. }
    assert (FO : forall c g', g' <> g -> follow g' (h ++ [ODel id g c]) = follow g' h).
    { intros c g' N. rewrite follow_app. cbn. destruct (follow g' h). cbn. replace (g =? g') with false by (symmetry; apply Z.eqb_neq; auto). reflexivity. }
    assert (ST : forall g', stored g' (k_db s ++ [[KRem g]]) = if g =? g' then None else stored g' (k_db s)).
    { intros g'. rewrite stored_snoc. cbn. reflexivity. }
    assert (OLD : forall c g' n, c <> 0 -> (n <= length (k_db s))%nat -> (if power then k_dur s <= n else n = length (k_db s))%nat -> may_hold g' (h ++ [ODel id g c]) (stored g' (firstn n (k_db s)))).
    { intros c g' n Hc H1 H2. pose proof (n_may _ _ _ _ I g' n H1 H2) as M. unfold may_hold in *. destruct (Z.eq_dec g' g) as [->|N].
      - rewrite FG. replace (c =? 0) with false by (symmetry; apply Z.eqb_neq; auto). cbn. apply in_app_iff; auto.
      - rewrite (FO c g' N). exact M. }
    assert (NEW : forall c g', may_hold g' (h ++ [ODel id g c]) (stored g' (k_db s ++ [[KRem g]]))).
    { intros c g'. rewrite ST. unfold may_hold. destruct (g =? g') eqn:E.
      - apply Z.eqb_eq in E. subst g'. rewrite FG. destruct (c =? 0); cbn; [auto|apply in_app_iff; cbn; auto].
      - apply Z.eqb_neq in E. rewrite (FO c g') by auto. pose proof (n_may _ _ _ _ I g' (length (k_db s))) as M. rewrite firstn_all in M. apply M; auto.
        pose proof (n_dur _ _ _ _ I). destruct power; auto. }
    apply (KI_weaken power h _ s); auto.
    + intros g'. destruct (Z.eq_dec g' g) as [->|N]; [right|left; apply FO; auto]. split; [eapply kbusy_false; eauto|]. rewrite FG. reflexivity.
    + pose proof (n_dur _ _ _ _ I). unfold kwrite. destruct w; cbn [k_db k_dur]; auto; rewrite app_length; cbn; destruct sync; cbn; lia.
    + intros g' n H1 H2. unfold kwrite in *. destruct w; cbn [k_db k_dur kok andb] in *.
      * assert (n = length (k_db s ++ [[KRem g]])).
        { destruct SP as [-> | ->]; [cbn in H2|exact H2]. rewrite app_length in *. cbn in *. destruct power; lia. }
        subst n. rewrite firstn_all. apply NEW.
      * apply OLD; auto. discriminate.
      * rewrite app_length in H1. cbn in H1. destruct (Nat.eq_dec n (length (k_db s) + 1)) as [->|Nn].
        -- replace (length (k_db s) + 1)%nat with (length (k_db s ++ [[KRem g]])) by (rewrite app_length; cbn; lia). rewrite firstn_all. apply NEW.
        -- rewrite firstn_snoc by lia. apply OLD; [discriminate|lia|]. destruct power; [auto|]. rewrite app_length in H2. cbn in H2. lia.
  - destruct (kloop sync bs (firstn n (k_q s)) [] rs (mkK (k_db s) (k_dur s) (skipn n (k_q s)))) as [s1 o1] eqn:E. injection H as <- <-.
    assert (I2 : KI power h (mkK (k_db s) (k_dur s) (skipn n (k_q s))) ([] ++ firstn n (k_q s) ++ skipn n (k_q s))).
    { cbn [app]. rewrite firstn_skipn. destruct I as [A1 A2 A3 A4 A5 A6]. constructor; auto. }
    destruct (kloop_KI _ _ _ _ SP _ _ _ _ _ _ _ I2 E) as [I3 Q3]. cbn in Q3. rewrite Q3. exact I3.
  - injection H as <- <-. assert (FK : forall g, follow g (h ++ [OKilled (map t_id (k_q s))]) = (fst (follow g h), None)) by (intros g; rewrite follow_app; cbn; destruct (follow g h); reflexivity).
    constructor; cbn; try constructor.
    + destruct H.
    + destruct H.
    + intros g i v Hf. rewrite FK in Hf. discriminate Hf.
    + apply (n_dur _ _ _ _ I).
    + intros g n H1 H2. unfold may_hold. rewrite FK. apply (n_may _ _ _ _ I g n H1 H2).
  - destruct power; [|discriminate H]. cbn [andb] in H. destruct (Nat.leb (k_dur s) n) eqn:L1; [|discriminate H]. destruct (Nat.leb n (length (k_db s))) eqn:L2; [|discriminate H].
    apply Nat.leb_le in L1, L2. cbn in H. injection H as <- <-.
    assert (FK : forall g, follow g (h ++ [OKilled (map t_id (k_q s))]) = (fst (follow g h), None)) by (intros g; rewrite follow_app; cbn; destruct (follow g h); reflexivity).
    constructor; cbn; try constructor.
    + destruct H.
    + destruct H.
    + intros g i v Hf. rewrite FK in Hf. discriminate Hf.
    + rewrite firstn_length. lia.
    + intros g m H1 H2. unfold may_hold. rewrite FK, firstn_firstn. rewrite firstn_length in H1. replace (Nat.min m n) with m by lia. apply (n_may _ _ _ _ I g m); lia.
Qed.

Lemma krun_KI sync power bs es : sync = true \/ power = false -> forall h s s' o, KI power h s (k_q s) -> krun true sync power bs s es = Some (s', o) -> KI power (h ++ o) s' (k_q s').
Proof.
  intros SP. induction es as [|e es IH]; intros h s s' o I H; cbn [krun] in H.
  - injection H as <- <-. rewrite app_nil_r. auto.
  - destruct (kstep true sync power bs s e) as [[s1 o1]|] eqn:E1; [|discriminate H]. destruct (krun true sync power bs s1 es) as [[s2 o2]|] eqn:E2; [|discriminate H].
    injection H as <- <-. rewrite app_assoc. eapply IH; [|exact E2]. eapply kstep_KI; eauto.
Qed.
Lemma kinit_KI power : KI power [] kinit [].
Proof.
  constructor; cbn; [constructor|constructor|intros ? []|discriminate|auto|].
  - intros g n H1 H2. replace n with 0%nat by lia. unfold may_hold. cbn. auto.
Qed.

(** Every call ends once. *)
Lemma kloop_ended sync bs its : forall cur rs s s' o, kloop sync bs its cur rs s = (s', o) -> k_ended o = map t_id (cur ++ its) /\ k_asked o = [].
Proof.
  assert (A : forall w ts, k_ended (map (kanswer w) ts) = map t_id ts /\ k_asked (map (kanswer w) ts) = []).
  { intros w ts. induction ts as [|t ts [IH1 IH2]]; cbn; auto. unfold kanswer at 1 3. destruct (t_init t); [destruct (kok w)|]; cbn; split; f_equal; auto. }
  induction its as [|t its IH]; intros cur rs s s' o H; cbn [kloop] in H.
  - rewrite app_nil_r. destruct cur as [|c cur]; [injection H as <- <-; auto|]. unfold run_tasks in H. injection H as <- <-. apply (A (hd KOk rs) (c :: cur)).
  - destruct (Nat.eqb (length cur) bs).
    + destruct (run_tasks sync cur (hd KOk rs) s) as [s1 o1] eqn:E1. destruct (kloop sync bs its [t] (tl rs) s1) as [s2 o2] eqn:E2. injection H as <- <-.
      destruct (IH _ _ _ _ _ E2) as [B1 B2]. unfold run_tasks in E1. injection E1 as <- <-. destruct (A (hd KOk rs) cur) as [A1 A2].
      unfold k_ended, k_asked in *. rewrite !flat_map_app, A1, A2, B1, B2, !map_app. split; reflexivity.
    + destruct (IH _ _ _ _ _ H) as [B1 B2]. rewrite <- app_assoc in B1. auto.
Qed.
Lemma kloop_q sync bs its : forall cur rs s s' o, kloop sync bs its cur rs s = (s', o) -> k_q s' = k_q s.
Proof.
  assert (A : forall ops w s, k_q (kwrite sync ops w s) = k_q s) by (intros ops w s; unfold kwrite; destruct w; reflexivity).
  induction its as [|t its IH]; intros cur rs s s' o H; cbn [kloop] in H.
  - destruct cur as [|c cur]; [injection H as <- <-; auto|]. unfold run_tasks in H. injection H as <- <-. apply A.
  - destruct (Nat.eqb (length cur) bs); [|eauto]. destruct (run_tasks sync cur (hd KOk rs) s) as [s1 o1] eqn:E1. destruct (kloop sync bs its [t] (tl rs) s1) as [s2 o2] eqn:E2. injection H as <- <-.
    rewrite (IH _ _ _ _ _ E2). unfold run_tasks in E1. injection E1 as <- <-. apply A.
Qed.
Lemma kstep_ended serial sync power bs s e s' o : kstep serial sync power bs s e = Some (s', o) ->
  Permutation (map t_id (k_q s) ++ k_asked o) (k_ended o ++ map t_id (k_q s')).
Proof.
  intros H. destruct e as [id g v ok|id g rd ok|id g w|n rs| |n]; cbn [kstep] in H.
  - destruct (_ || _); [discriminate H|]. destruct ok; injection H as <- <-; cbn; [rewrite map_app; cbn; auto|]. apply Permutation_sym, Permutation_cons_append.
  - destruct (_ || _); [discriminate H|]. destruct rd; cbn [negb] in H; [|injection H as <- <-; cbn; apply Permutation_sym, Permutation_cons_append].
    destruct (stored g (k_db s)); [injection H as <- <-; cbn; apply Permutation_sym, Permutation_cons_append|].
    destruct ok; injection H as <- <-; cbn; [rewrite map_app; cbn; auto|]. apply Permutation_sym, Permutation_cons_append.
  - destruct (_ && _); [discriminate H|]. injection H as <- <-. cbn. rewrite app_nil_r. unfold kwrite. destruct w; auto.
  - destruct (kloop sync bs (firstn n (k_q s)) [] rs (mkK (k_db s) (k_dur s) (skipn n (k_q s)))) as [s1 o1] eqn:E. injection H as <- <-.
    destruct (kloop_ended _ _ _ _ _ _ _ _ E) as [A1 A2]. rewrite A1, A2, (kloop_q _ _ _ _ _ _ _ _ E), app_nil_r. cbn. rewrite <- map_app, firstn_skipn. auto.
  - injection H as <- <-. cbn. rewrite !app_nil_r. auto.
  - destruct (_ && _ && _); [|discriminate H]. injection H as <- <-. cbn. rewrite !app_nil_r. auto.
Qed.
