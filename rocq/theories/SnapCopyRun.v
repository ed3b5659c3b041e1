(** * Run-level invariants of the snapshot copier *)
From Verif Require Import Base SnapCopy SnapCopySpec ReconfStatic SnapCopyProofs.

Section R.
Variable truth : truth_fn.
Variable d0 : disk.

Definition Bs (s : st) : Prop := s_d s = after d0 (s_tr s) /\ allok truth d0 (s_tr s).

Lemma Bs_emit : forall s e, Bs s -> safe_eff truth (s_d s) e -> Bs (emit e s).
Proof.
  intros s e (H1 & H2) Hs. split; cbn [emit s_d s_tr after].
  - rewrite H1. reflexivity.
  - apply allok_cons; auto. rewrite <- H1. exact Hs.
Qed.

Lemma Bs_wf : forall s, Bs s -> wf (s_d s).
Proof. intros s (H1 & H2). apply allok_OKt in H2 as ((H & _) & _). rewrite H1; exact H. Qed.
Lemma Bs_lg : forall s, Bs s -> lastgood truth (s_d s).
Proof. intros s (H1 & H2). apply allok_OKt in H2 as ((_ & H & _) & _). rewrite H1; exact H. Qed.
Lemma Bs_wfT : forall s, Bs s -> wfT (s_d s).
Proof. intros; apply wf_wfT, Bs_wf; auto. Qed.

Lemma Bs_set : forall s t, Bs s -> Bs (set_tab t s).
Proof. intros s t H; exact H. Qed.
Lemma Bs_idx : forall s t, Bs s -> Bs (set_idx t s).
Proof. intros s t H; exact H. Qed.
Lemma Bs_werr : forall s t, Bs s -> Bs (set_werr t s).
Proof. intros s t H; exact H. Qed.
Lemma Bs_fail : forall s, Bs s -> Bs (fail s).
Proof. intros s H; exact H. Qed.

Lemma klast_emit : forall s e, publishes e = false -> k_last (s_d (emit e s)) = k_last (s_d s).
Proof. intros s e H. cbn [emit s_d]. rewrite klast_apply. destruct e; auto. discriminate H. Qed.

(** in-memory table vs disk *)
Definition Wm (s : st) : Prop := W truth (s_tab s) (s_d s).
Definition Ab (rm : list Z) (s : st) : Prop :=
  forall n, look n (s_tab s) = None -> tfile (s_d s) n = None \/ In n rm.

Lemma emits_del_Bs : forall l s, Bs s ->
  Bs (emits (map (fun x => match x with Some n => EDel n | None => EDelMeta end) l) s).
Proof.
  induction l as [|x l IH]; intros s H; cbn [map emits]; auto.
  apply IH, Bs_emit; auto. destruct x; exact I.
Qed.
Lemma emits_del_klast : forall l s,
  k_last (s_d (emits (map (fun x => match x with Some n => EDel n | None => EDelMeta end) l) s)) = k_last (s_d s).
Proof.
  induction l as [|x l IH]; intros s; cbn [map emits]; auto.
  rewrite IH. apply klast_emit. destruct x; reflexivity.
Qed.

Lemma destroy_Bs : forall o s, Bs s -> Bs (fst (destroy o s)).
Proof.
  intros (l, b) s H. unfold destroy; cbn [fst snd]. destruct b; cbn [fst].
  - apply Bs_emit; [apply emits_del_Bs; auto|exact I].
  - apply emits_del_Bs; auto.
Qed.
Lemma destroy_klast : forall o s, k_last (s_d (fst (destroy o s))) = k_last (s_d s).
Proof.
  intros (l, b) s. unfold destroy; cbn [fst snd]. destruct b; cbn [fst].
  - rewrite klast_emit by reflexivity. apply emits_del_klast.
  - apply emits_del_klast.
Qed.
Lemma destroy_empty : forall o s, snd (destroy o s) = true -> k_temp (s_d (fst (destroy o s))) = empty_dir.
Proof.
  intros (l, b) s. unfold destroy; cbn [fst snd]. destruct b; cbn [snd]; intros H; [reflexivity|discriminate H].
Qed.

Lemma try_del_Bs : forall b n s, Bs s -> Bs (try_del b n s).
Proof. intros b n s H. unfold try_del. destruct b; auto. apply Bs_emit; auto. exact I. Qed.

(** ** writer init *)
Lemma init_del_frame : forall ok names s,
  s_tab (init_del ok names s) = s_tab s /\ s_idx (init_del ok names s) = s_idx s /\
  s_werr (init_del ok names s) = s_werr s /\ s_ok (init_del ok names s) = s_ok s /\
  k_last (s_d (init_del ok names s)) = k_last (s_d s).
Proof.
  induction names as [|n r IH]; intros s; cbn [init_del]; [sp; auto|].
  specialize (IH (if isS (look n (s_tab s)) then s else try_del (ok n) n s)).
  destruct IH as (I1 & I2 & I3 & I4 & I5). rewrite I1, I2, I3, I4, I5.
  destruct (isS (look n (s_tab s))); [sp; auto|]. unfold try_del. destruct (ok n); [|sp; auto].
  sp; auto.
Qed.

Lemma init_del_ok : forall ok names s, (forall n, ok n = true) -> Bs s -> Wm s ->
  (forall n, look n (s_tab s) = None -> tfile (s_d s) n = None \/ In n names) ->
  Bs (init_del ok names s) /\ Wm (init_del ok names s) /\ Ab [] (init_del ok names s).
Proof.
  intros ok names s Hok. revert s. induction names as [|n r IH]; intros s HB HW HA; cbn [init_del].
  - sp; auto. 
  - destruct (look n (s_tab s)) as [m|] eqn:E; cbn [isS].
    + apply IH; auto. intros x Hx. destruct (HA x Hx) as [H|[->|H]]; auto. congruence.
    + rewrite Hok. unfold try_del. apply IH.
      * apply Bs_emit; auto. exact I.
      * apply W_apply; auto using Bs_wfT. intros m Hm. cbn [emit s_tab] in Hm. congruence.
      * intros x Hx. cbn [emit s_d s_tab] in *. rewrite tfile_apply.
        destruct (Z.eqb_spec n x); auto. destruct (HA x Hx) as [H|[H|H]]; auto. congruence.
Qed.

Lemma init_del_Bs : forall ok names s, Bs s -> Bs (init_del ok names s).
Proof.
  induction names as [|n r IH]; intros s H; cbn [init_del]; auto. apply IH.
  destruct (isS _); auto. apply try_del_Bs; auto.
Qed.

Lemma create_ok : forall fe od oi odel s s', create fe od oi odel s = (s', true) ->
  (forall n, odel n = true) -> Bs s -> (fe = false -> W truth (table_of (k_temp (s_d s))) (s_d s)) ->
  Bs s' /\ Wm s' /\ Ab [] s' /\ s_werr s' = 0 /\ s_ok s' = s_ok s /\ k_last (s_d s') = k_last (s_d s) /\
  (fe = true -> s_tab s' = []).
Proof.
  intros fe od oi odel s s' H Hd HB HW. unfold create in H.
  assert (Hmid : forall s1, Bs s1 -> k_last (s_d s1) = k_last (s_d s) -> s_ok s1 = s_ok s ->
    W truth (table_of (k_temp (s_d s1))) (s_d s1) -> (fe = true -> d_meta (k_temp (s_d s1)) = None) ->
    writer_init oi odel s1 = Some s' ->
    Bs s' /\ Wm s' /\ Ab [] s' /\ s_werr s' = 0 /\ s_ok s' = s_ok s /\ k_last (s_d s') = k_last (s_d s) /\
    (fe = true -> s_tab s' = [])).
  { intros s1 HB1 HK HO HW1 HM Hi. unfold writer_init in Hi. destruct oi; [|discriminate Hi].
    destruct (match d_meta (k_temp (s_d s1)) with Some p => p | None => (0, []) end) as [i t] eqn:Ep.
    injection Hi as <-.
    assert (Et : t = table_of (k_temp (s_d s1))).
    { unfold table_of. destruct (d_meta (k_temp (s_d s1))) as [(i', t')|]; congruence. }
    set (s2 := set_werr 0 (set_idx i (set_tab t s1))).
    assert (B2 : Bs s2) by exact HB1.
    assert (W2 : Wm s2) by (unfold Wm, s2; cbn [set_werr set_idx set_tab s_tab s_d]; rewrite Et; exact HW1).
    pose proof (init_del_frame odel (map fst (d_files (k_temp (s_d s1)))) s2) as (F1 & F2 & F3 & F4 & F5).
    destruct (init_del_ok odel (map fst (d_files (k_temp (s_d s1)))) s2 Hd B2 W2) as (A1 & A2 & A3).
    { intros n _. unfold tfile. destruct (look n (d_files (k_temp (s_d s2)))) eqn:El; auto.
      right. eapply look_in; eauto. }
    split; [exact A1|]. split; [exact A2|]. split; [exact A3|]. rewrite F1, F3, F4, F5.
    sp; auto. intros Hf. unfold s2; cbn [set_werr set_idx set_tab s_tab]. rewrite Et.
    unfold table_of. rewrite HM; auto. }
  destruct (exists_dir (k_temp (s_d s)) && fe) eqn:Ex.
  - destruct (destroy od s) as [s1 go] eqn:Ed. destruct go; [|discriminate H].
    destruct (writer_init oi odel s1) as [s2|] eqn:Ei; [|discriminate H]. injection H as ->.
    pose proof (destroy_Bs od s HB) as B1. pose proof (destroy_klast od s) as K1.
    pose proof (destroy_empty od s) as E1. rewrite Ed in B1, K1, E1. cbn [fst snd] in *.
    specialize (E1 eq_refl).
    assert (O1 : s_ok s1 = s_ok s).
    { assert (Hoe : forall es u, s_ok (emits es u) = s_ok u)
        by (induction es as [|e es IHe]; intros u; cbn [emits]; auto; rewrite IHe; reflexivity).
      unfold destroy in Ed. destruct (snd od); [|discriminate Ed]. injection Ed as <-. cbn [emit s_ok]. apply Hoe. }
    eapply Hmid; eauto.
    + rewrite E1. intros ? ? ? HH; discriminate HH.
    + rewrite E1. reflexivity.
  - destruct (writer_init oi odel s) as [s2|] eqn:Ei; [|discriminate H]. injection H as ->.
    assert (HM : fe = true -> d_meta (k_temp (s_d s)) = None).
    { intros ->. rewrite andb_true_r in Ex. unfold exists_dir in Ex. apply orb_false_iff in Ex as (Ex & _).
      destruct (d_meta (k_temp (s_d s))); [discriminate Ex|reflexivity]. }
    eapply Hmid; eauto. destruct fe; [|auto]. unfold table_of. rewrite HM by auto.
    intros ? ? ? HH; discriminate HH.
Qed.

Lemma create_Bs : forall fe od oi odel s, Bs s -> Bs (fst (create fe od oi odel s)).
Proof.
  intros fe od oi odel s H. unfold create.
  assert (Hw : forall s1 s2, Bs s1 -> writer_init oi odel s1 = Some s2 -> Bs s2).
  { intros s1 s2 H1 Hi. unfold writer_init in Hi. destruct oi; [|discriminate Hi].
    destruct (match d_meta (k_temp (s_d s1)) with Some p => p | None => (0, []) end) as [i t].
    injection Hi as <-. apply init_del_Bs. exact H1. }
  pose proof (destroy_Bs od s H) as Hd.
  destruct (exists_dir (k_temp (s_d s)) && fe).
  - destruct (destroy od s) as [s1 go]; cbn [fst] in Hd. destruct go; [|exact Hd].
    destruct (writer_init oi odel s1) eqn:E; cbn [fst]; eauto.
  - destruct (writer_init oi odel s) eqn:E; cbn [fst]; eauto.
Qed.

(** ** filter_before_copy *)
Lemma fl_existing_ok : forall rt names rm s rm' s',
  fl_existing rt names rm s = (rm', s') -> Bs s -> Wm s -> Ab rm s ->
  (forall n, In n rm -> look n (s_tab s) = None /\ look n rt = None) ->
  (forall n, look n (s_tab s) <> None -> look n rt <> None \/ In n names) ->
  Bs s' /\ Wm s' /\ Ab rm' s' /\ s_d s' = s_d s /\ s_idx s' = s_idx s /\ s_werr s' = s_werr s /\ s_ok s' = s_ok s /\
  (forall n, In n rm' -> look n (s_tab s') = None /\ look n rt = None) /\
  (forall n, look n (s_tab s') <> None -> look n rt <> None).
Proof.
  intros rt; induction names as [|n r IH]; intros rm s rm' s' H HB HW HA HR HN; cbn [fl_existing] in H.
  - injection H as <- <-. sp; auto. intros n Hn. destruct (HN n Hn) as [|[]]; auto.
  - destruct (look n rt) as [m|] eqn:E; cbn [isS] in H.
    + eapply IH in H; eauto. intros x Hx. destruct (HN x Hx) as [?|[->|?]]; auto; left; congruence.
    + eapply IH in H; eauto.
      * intros x y c Hx. cbn [set_tab s_tab] in Hx. rewrite look_drop in Hx.
        destruct (n =? x); [discriminate Hx|]. eapply HW; eauto.
      * intros x Hx. cbn [set_tab s_tab s_d] in *. rewrite look_drop in Hx.
        destruct (Z.eqb_spec n x) as [->|]; [right; apply in_or_app; right; left; auto|].
        destruct (HA x Hx); auto. right; apply in_or_app; auto.
      * intros x Hx. cbn [set_tab s_tab]. rewrite look_drop. apply in_app_or in Hx as [Hx|[<-|[]]].
        -- destruct (HR x Hx). destruct (n =? x); auto.
        -- rewrite Z.eqb_refl. auto.
      * intros x. cbn [set_tab s_tab]. rewrite look_drop. destruct (Z.eqb_spec n x); [congruence|].
        intros Hx. destruct (HN x Hx) as [?|[?|?]]; auto; congruence.
Qed.

Definition matched (RT : table) (t : table) (rest : list Z) : Prop :=
  forall n lm, look n t = Some lm -> In n rest \/
    (exists m, look n RT = Some m /\ m_ck lm = m_ck m /\ m_ck m <> None).

Record Q (RT : table) (rest : list Z) (last : option (Z * dir)) (rm : list Z) (s : st) : Prop := {
  q_B : Bs s;
  q_W : Wm s;
  q_A : Ab rm s;
  q_R : forall n m, In n rm -> look n (s_tab s) = Some m -> m_ref m = true;
  q_N : forall n, In n rm -> ~ In n rest;
  q_M : matched RT (s_tab s) rest;
  q_L : last = None \/ last = k_last (s_d s)
}.

Lemma W_drop : forall t n d, W truth t d -> W truth (drop n t) d.
Proof.
  intros t n d H x m c Hx. rewrite look_drop in Hx. destruct (n =? x); [discriminate Hx|]. eapply H; eauto.
Qed.

Lemma pop_back_in : forall n rm x, In x (pop_back n rm) -> In x rm.
Proof.
  intros n rm x. unfold pop_back. destruct (rev rm) as [|y r] eqn:E; auto.
  destruct (y =? n); auto. intros H. apply in_rev in H. rewrite rev_involutive in H || idtac.
  apply in_rev. rewrite E. right. exact H.
Qed.

Lemma pop_back_keep : forall n rm x, In x rm -> x <> n -> In x (pop_back n rm).
Proof.
  intros n rm x. unfold pop_back. intros H Hx. destruct (rev rm) as [|y r] eqn:E; auto.
  destruct (Z.eqb_spec y n); auto. apply in_rev in H. rewrite E in H. destruct H as [H|H]; [congruence|].
  apply in_rev in H. auto.
Qed.

(** The look into the last snapshot.  [rm0] is to_remove before this name; the
    name itself may have been pushed. *)
Lemma fl_last_ok : forall o RT last n m rest rm0 push rm s rm' s',
  fl_last o last n (m_ck m) rm s = (rm', s') ->
  Bs s -> Wm s -> Ab rm s -> look n (s_tab s) = None ->
  rm = rm0 ++ (if push : bool then [n] else []) -> ~ In n rm0 -> ~ In n rest ->
  (forall x y, In x rm0 -> look x (s_tab s) = Some y -> m_ref y = true) ->
  (forall x, In x rm0 -> ~ In x rest) -> matched RT (s_tab s) rest ->
  (last = None \/ last = k_last (s_d s)) -> look n RT = Some m -> m_ck m <> None ->
  Q RT rest last rm' s' /\ s_idx s' = s_idx s /\ s_werr s' = s_werr s /\ s_ok s' = s_ok s /\
  k_last (s_d s') = k_last (s_d s).
Proof.
  intros o RT last n m rest rm0 push rm s rm' s' H HB HW HA Hn Hrm Hn0 Hnr HR HN HM HL HRT Hck.
  assert (Hsame : Q RT rest last rm s).
  { constructor; auto.
    - intros x y Hx Hy. subst rm. apply in_app_or in Hx as [Hx|Hx]; eauto.
      destruct push; [destruct Hx as [<-|[]]; congruence|destruct Hx].
    - intros x Hx. subst rm. apply in_app_or in Hx as [Hx|Hx]; eauto.
      destruct push; [destruct Hx as [<-|[]]; auto|destruct Hx]. }
  unfold fl_last in H. destruct last as [(li, l)|]; [|injection H as <- <-; sp; auto].
  change (dir_table l) with (table_of l) in H.
  destruct (look n (table_of l)) as [lm|] eqn:El; [|injection H as <- <-; sp; auto].
  destruct (ck_eq (m_ck lm) (m_ck m)) eqn:Ec; [|injection H as <- <-; sp; auto].
  assert (Eck : m_ck lm = m_ck m).
  { unfold ck_eq in Ec. destruct (m_ck lm), (m_ck m); try discriminate Ec. apply Z.eqb_eq in Ec; congruence. }
  destruct HL as [HL|HL]; [discriminate HL|].
  destruct (m_ref lm) eqn:Er.
  - (* a reference: only the table changes *)
    unfold add_file in H. rewrite Hn in H. cbn [isS fst] in H. injection H as <- <-.
    split; [|sp; auto]. destruct Hsame. constructor; cbn [set_tab s_tab s_d]; auto.
    + intros x y c Hx Hxr. cbn [set_tab s_tab] in Hx. rewrite look_cons in Hx.
      destruct (Z.eqb_spec n x) as [->|]; [congruence|]. eapply HW; eauto.
    + intros x Hx. cbn [set_tab s_tab] in Hx. rewrite look_cons in Hx.
      destruct (n =? x); [discriminate Hx|auto].
    + intros x y Hx. rewrite look_cons. destruct (Z.eqb_spec n x); [congruence|eauto].
    + intros x y. rewrite look_cons. destruct (Z.eqb_spec n x) as [->|]; [|apply HM].
      intros HH; injection HH as <-. right. exists m. sp; auto.
  - set (s1 := try_del (o_del1 o n) n s) in H.
    assert (B1 : Bs s1) by (apply try_del_Bs; auto).
    assert (T1 : s_tab s1 = s_tab s) by (unfold s1, try_del; destruct (o_del1 o n); reflexivity).
    assert (K1 : k_last (s_d s1) = k_last (s_d s)).
    { unfold s1, try_del. destruct (o_del1 o n); auto. }
    assert (F1 : s_idx s1 = s_idx s /\ s_werr s1 = s_werr s /\ s_ok s1 = s_ok s)
      by (unfold s1, try_del; destruct (o_del1 o n); sp; reflexivity).
    assert (W1 : Wm s1).
    { unfold s1, try_del. destruct (o_del1 o n); auto. apply W_apply; auto using Bs_wfT.
      intros y Hy. cbn [emit s_tab] in Hy. congruence. }
    assert (A1 : Ab rm s1).
    { intros x Hx. rewrite T1 in Hx. destruct (HA x Hx); auto. left.
      unfold s1, try_del. destruct (o_del1 o n); auto. cbn [emit s_d]. rewrite tfile_apply.
      destruct (n =? x); auto. }
    clearbody s1. destruct F1 as (F1 & F2 & F3).
    destruct (o_link o n && negb (isS (look n (d_files (k_temp (s_d s1))))) && isS (look n (d_files l))) eqn:Eo.
    + rewrite !andb_true_iff in Eo. destruct Eo as ((_ & Eo1) & Eo2).
      assert (Hlf : isS (lfile (s_d s1) n) = true) by (unfold lfile; rewrite K1, <- HL; exact Eo2).
      assert (Hc : tcont (apply (s_d s1) (ELink n)) n = lcont (s_d s1) n).
      { apply tcont_link. unfold lcont. destruct (lfile (s_d s1) n); [discriminate|discriminate Hlf]. }
      rewrite (lcont_content _ li l) in Hc by congruence.
      set (s2 := emit (ELink n) s1) in H.
      assert (B2 : Bs s2) by (apply Bs_emit; auto; exact I).
      assert (W2 : W truth (s_tab s) (s_d s2)).
      { unfold s2. cbn [emit s_d]. apply W_apply; auto using Bs_wfT; [rewrite <- T1; exact W1|].
        intros y Hy; congruence. }
      assert (C2 : forall c, m_ck lm = Some c -> tcont (s_d s2) n = Some (truth n c)).
      { intros c Hcc. unfold s2; cbn [emit s_d]. rewrite Hc.
        apply (Bs_lg s1 B1 li l) with lm; auto. congruence. }
      assert (T2 : s_tab s2 = s_tab s) by exact T1.
      assert (K2 : k_last (s_d s2) = k_last (s_d s)) by (unfold s2; rewrite klast_emit; auto).
      assert (A2 : forall x, x <> n -> tfile (s_d s2) x = tfile (s_d s1) x).
      { intros x Hx. unfold s2; cbn [emit s_d]. rewrite tfile_apply.
        destruct (Z.eqb_spec n x); [congruence|reflexivity]. }
      assert (F4 : s_idx s2 = s_idx s /\ s_werr s2 = s_werr s /\ s_ok s2 = s_ok s) by (sp; auto).
      clearbody s2. unfold add_file in H. rewrite T2, Hn in H. cbn [isS fst] in H.
      injection H as <- <-. destruct F4 as (F4 & F5 & F6).
      split; [|sp; auto]. constructor; cbn [set_tab s_tab s_d]; auto.
      * intros x y c Hx Hxr Hxc. cbn [set_tab s_tab s_d] in *. rewrite look_cons in Hx.
        destruct (Z.eqb_spec n x) as [->|]; [injection Hx as <-; auto|]. eapply W2; eauto.
      * intros x Hx. cbn [set_tab s_tab s_d] in *. rewrite look_cons in Hx.
        destruct (Z.eqb_spec n x); [discriminate Hx|]. rewrite A2 by auto.
        rewrite <- T1 in Hx. destruct (A1 x Hx); auto. right. apply pop_back_keep; auto.
      * intros x y Hx. rewrite look_cons. destruct (Z.eqb_spec n x) as [->|].
        -- exfalso. subst rm. destruct push.
           ++ unfold pop_back in Hx. rewrite rev_app_distr in Hx. cbn [rev app] in Hx.
              rewrite Z.eqb_refl, rev_involutive in Hx. auto.
           ++ apply pop_back_in in Hx. rewrite app_nil_r in Hx. auto.
        -- apply pop_back_in in Hx. subst rm. apply in_app_or in Hx as [Hx|Hx]; [eauto|].
           destruct push; [destruct Hx as [<-|[]]; congruence|destruct Hx].
      * intros x Hx. apply pop_back_in in Hx. apply (q_N _ _ _ _ _ Hsame); auto.
      * intros x y. rewrite look_cons. destruct (Z.eqb_spec n x) as [->|]; [|apply HM].
        intros HH; injection HH as <-. right. exists m. sp; auto.
      * right. congruence.
    + injection H as <- <-. split; [|sp; auto]. destruct Hsame. constructor; auto.
      * rewrite T1; auto.
      * rewrite T1; auto.
      * right; congruence.
Qed.

Lemma fl_remote_ok : forall o RT last rt rm s rm' s',
  fl_remote o last rt rm s = (rm', s') -> NoDup (map fst rt) ->
  (forall n m, In (n, m) rt -> look n RT = Some m) ->
  Q RT (map fst rt) last rm s ->
  Q RT [] last rm' s' /\ s_idx s' = s_idx s /\ s_werr s' = s_werr s /\ s_ok s' = s_ok s /\
  k_last (s_d s') = k_last (s_d s).
Proof.
  intros o RT last; induction rt as [|(n, m) rt IH]; intros rm s rm' s' H Hnd Hin HQ; cbn [fl_remote] in H.
  - injection H as <- <-. sp; auto.
  - destruct (fl_remote1 o last n m rm s) as [rm1 s1] eqn:E1.
    cbn [map fst] in *. inversion Hnd as [|? ? Hni Hnd']; subst.
    assert (Hgoal : Q RT (map fst rt) last rm1 s1 /\ s_idx s1 = s_idx s /\ s_werr s1 = s_werr s /\ s_ok s1 = s_ok s /\
                    k_last (s_d s1) = k_last (s_d s)).
    { clear H IH. destruct HQ as [qB qW qA qR qN qM qL].
      assert (Hm : look n RT = Some m) by (apply Hin; left; auto).
      assert (Hnrm : ~ In n rm) by (intros Hx; apply (qN n Hx); left; auto).
      unfold fl_remote1 in E1. destruct (m_ck m) as [c|] eqn:Ec.
      - destruct (look n (s_tab s)) as [lm|] eqn:El.
        + destruct (ck_eq (m_ck lm) (Some c)) eqn:Ek.
          * injection E1 as <- <-. sp; auto. constructor; auto.
            -- intros x Hx Hx'. apply (qN x Hx). right; auto.
            -- intros x y Hx. destruct (Z.eq_dec x n) as [->|Hxn].
               ++ right. exists m. assert (y = lm) by congruence. subst y. sp; auto; [|congruence].
                  unfold ck_eq in Ek. destruct (m_ck lm); [|discriminate Ek].
                  apply Z.eqb_eq in Ek. congruence.
               ++ destruct (qM x y Hx) as [[?|?]|?]; auto. congruence.
          * rewrite <- Ec in E1.
            eapply (fl_last_ok o RT last n m (map fst rt) rm true) in E1; eauto.
            -- apply W_drop; auto.
            -- intros x. cbn [set_tab s_tab s_d]. rewrite look_drop. destruct (Z.eqb_spec n x) as [->|].
               ++ intros _. right; apply in_or_app; right; left; auto.
               ++ intros Hx. destruct (qA x Hx); auto. right; apply in_or_app; auto.
            -- cbn [set_tab s_tab]. rewrite look_drop, Z.eqb_refl. reflexivity.
            -- intros x y Hx. cbn [set_tab s_tab]. rewrite look_drop. destruct (n =? x); [discriminate|eauto].
            -- intros x Hx Hx'. apply (qN x Hx). right; auto.
            -- intros x y. cbn [set_tab s_tab]. rewrite look_drop. destruct (Z.eqb_spec n x); [discriminate|].
               intros Hx. destruct (qM x y Hx) as [[?|?]|?]; auto. congruence.
            -- congruence.
        + rewrite <- Ec in E1.
          eapply (fl_last_ok o RT last n m (map fst rt) rm false) in E1; eauto.
          * rewrite app_nil_r. reflexivity.
          * intros x Hx Hx'. apply (qN x Hx). right; auto.
          * intros x y Hx. destruct (qM x y Hx) as [[?|?]|?]; auto. congruence.
          * congruence.
      - injection E1 as <- <-. cbn [set_tab s_idx s_werr s_ok s_d]. sp; auto. constructor; cbn [set_tab s_tab s_d]; auto.
        + apply W_drop; auto.
        + intros x. cbn [set_tab s_tab s_d]. rewrite look_drop. destruct (Z.eqb_spec n x) as [->|].
          * intros _. right; apply in_or_app; right; left; auto.
          * intros Hx. destruct (qA x Hx); auto. right; apply in_or_app; auto.
        + intros x y Hx. rewrite look_drop. destruct (Z.eqb_spec n x); [discriminate|].
          apply in_app_or in Hx as [Hx|[Hx|[]]]; [eauto|congruence].
        + intros x Hx. apply in_app_or in Hx as [Hx|[<-|[]]]; auto. intros Hx'. apply (qN x Hx). right; auto.
        + intros x y. rewrite look_drop. destruct (Z.eqb_spec n x); [discriminate|].
          intros Hx. destruct (qM x y Hx) as [[?|?]|?]; auto. congruence. }
    destruct Hgoal as (HQ1 & G1 & G2 & G3 & G4).
    eapply IH in H; eauto.
    + destruct H as (H & H1 & H2 & H3 & H4). sp; auto; congruence.
    + intros x y Hx. apply Hin. right; auto.
Qed.

Lemma del_all_ok : forall ok rm s, (forall n, ok n = true) -> Bs s -> Wm s -> Ab rm s ->
  (forall n m, In n rm -> look n (s_tab s) = Some m -> m_ref m = true) ->
  W truth (table_of (k_temp (s_d s))) (s_d s) -> table_of (k_temp (s_d s)) = s_tab s ->
  let s' := del_all ok rm s in
  Bs s' /\ Wm s' /\ Ab [] s' /\ s_tab s' = s_tab s /\ s_idx s' = s_idx s /\ s_werr s' = s_werr s /\ s_ok s' = s_ok s /\
  k_last (s_d s') = k_last (s_d s).
Proof.
  intros ok rm s Hok. revert s. induction rm as [|n r IH]; intros s HB HW HA HR HT HE; cbn [del_all].
  - cbv zeta. sp; auto.
  - rewrite Hok. unfold try_del. set (s1 := emit (EDel n) s).
    assert (T1 : s_tab s1 = s_tab s) by reflexivity.
    destruct (IH s1) as (I1 & I2 & I3 & I4 & I5 & I6 & I7 & I8).
    + apply Bs_emit; auto. exact I.
    + apply W_apply; auto using Bs_wfT. intros m Hm. rewrite T1 in Hm. apply (HR n m); auto. left; auto.
    + intros x Hx. unfold s1; cbn [emit s_d]. rewrite tfile_apply. destruct (Z.eqb_spec n x); auto.
      destruct (HA x Hx) as [?|[?|?]]; auto. congruence.
    + intros x m Hx. rewrite T1. apply HR. right; auto.
    + unfold s1; cbn [emit s_d]. rewrite table_apply. apply W_apply; auto using Bs_wfT.
      rewrite HE. intros m Hm. apply (HR n m); auto. left; auto.
    + unfold s1; cbn [emit s_d s_tab]. rewrite table_apply. exact HE.
    + cbv zeta. split; [exact I1|]. split; [exact I2|]. split; [exact I3|].
      rewrite I4, I5, I6, I7, I8. unfold s1. cbn [emit s_tab s_idx s_werr s_ok]. sp; auto.
Qed.

Lemma sync_ok : forall b s s' r, sync b s = (s', r) -> Bs s -> Wm s ->
  Bs s' /\ Wm s' /\ s_tab s' = s_tab s /\ s_idx s' = s_idx s /\ s_ok s' = s_ok s /\ r = b /\
  (forall n, tfile (s_d s') n = tfile (s_d s) n) /\ (forall n, tcont (s_d s') n = tcont (s_d s) n) /\
  k_last (s_d s') = k_last (s_d s) /\
  (b = true -> s_werr s' = s_werr s /\ d_meta (k_temp (s_d s')) = Some (s_idx s, s_tab s)) /\
  (b = false -> s_werr s' <> 0 /\ s_d s' = s_d s).
Proof.
  intros b s s' r H HB HW. unfold sync in H. destruct b.
  - injection H as <- <-. split; [apply Bs_emit; auto|]. 
    split; [apply W_apply; auto using Bs_wfT|].
    cbn [emit s_tab s_idx s_ok s_werr]. sp; auto.
    intros HH; discriminate HH.
  - destruct (Z.eqb_spec (s_werr s) 0); injection H as <- <-; cbn [set_werr s_tab s_idx s_ok s_werr s_d];
      sp; auto; try discriminate; intros _; split; auto; discriminate.
Qed.

Lemma filter_before_copy_ok : forall o RT last s s' ok,
  filter_before_copy o RT last s = (s', ok) -> deletes_ok o -> NoDup (map fst RT) ->
  Bs s -> Wm s -> Ab [] s -> (last = None \/ last = k_last (s_d s)) ->
  Bs s' /\ s_ok s' = s_ok s /\ k_last (s_d s') = k_last (s_d s) /\
  (ok = true -> Wm s' /\ Ab [] s' /\ s_werr s' = s_werr s /\ matched RT (s_tab s') []).
Proof.
  intros o RT last s s' ok H (Hd1 & Hd2) Hnd HB HW HA HL. unfold filter_before_copy in H.
  destruct (fl_existing RT (map fst (s_tab s)) [] s) as [rm1 s1] eqn:E1.
  destruct (fl_remote o last RT rm1 s1) as [rm2 s2] eqn:E2.
  destruct (sync (o_sync1 o) s2) as [s3 k] eqn:E3.
  eapply fl_existing_ok in E1; eauto.
  2:{ intros n []. }
  2:{ intros n Hn. right. destruct (look n (s_tab s)) eqn:E; [eapply look_in; eauto|congruence]. }
  destruct E1 as (B1 & W1 & A1 & D1 & I1 & R1 & O1 & RR1 & N1).
  assert (Hlook : forall n m, In (n, m) RT -> look n RT = Some m).
  { clear -Hnd. induction RT as [|(x, y) RT IH]; intros n m Hi; [destruct Hi|]. cbn [map fst] in Hnd.
    inversion Hnd; subst. cbn [look]. destruct Hi as [Hi|Hi].
    - injection Hi as -> ->. rewrite Z.eqb_refl. reflexivity.
    - destruct (Z.eqb_spec x n) as [->|]; auto. exfalso. apply H1. apply in_map_iff. exists (n, m). auto. }
  eapply fl_remote_ok in E2; eauto.
  2:{ constructor; auto.
      - intros n m Hn Hm. destruct (RR1 n Hn). congruence.
      - intros n Hn Hi. destruct (RR1 n Hn). apply in_look in Hi as (a & Ha). congruence.
      - intros n m Hn. left. destruct (look n RT) eqn:E; [eapply look_in; eauto|].
        exfalso. apply (N1 n); congruence.
      - rewrite D1; auto. }
  destruct E2 as ([qB qW qA qR qN qM qL] & I2 & R2 & O2 & K2).
  eapply sync_ok in E3; eauto.
  destruct E3 as (B3 & W3 & T3 & I3 & O3 & Ek & F3 & C3 & K3 & Y3 & N3). subst k.
  destruct (o_sync1 o) eqn:Es; injection H as <- <-.
  - destruct (Y3 eq_refl) as (R3 & M3).
    destruct (del_all_ok (o_del2 o) rm2 s3) as (X1 & X2 & X3 & X4 & X5 & X6 & X7 & X8); auto.
    + intros n Hn. rewrite T3 in Hn. rewrite F3. auto.
    + intros n m Hn. rewrite T3. eauto.
    + unfold table_of. rewrite M3, <- T3. exact W3.
    + unfold table_of. rewrite M3. auto.
    + sp; auto; try congruence.
      intros _. sp; auto; try congruence. rewrite X4, T3. exact qM.
  - sp; auto; try congruence.
Qed.

End R.
