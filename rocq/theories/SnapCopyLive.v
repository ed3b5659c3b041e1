(** * Completion and resumption of the copy *)
From Verif Require Import Base SnapCopy SnapCopySpec ReconfStatic SnapCopyProofs SnapCopyRun SnapCopyFrame SnapCopyMain.

(** Every call succeeds. *)
Definition all_ok (o : orac) : Prop :=
  o_meta o = true /\ o_init o = true /\ o_open2 o = true /\ o_sync1 o = true /\ snd (o_dest0 o) = true /\
  o_sync2 o = true /\ (forall n, o_mkdir o n = true) /\ (forall n, o_sess o n = true) /\
  (forall n, o_fetch o n = true) /\ (forall n, o_sync3 o n = true) /\ o_sync4 o = true /\ o_rename o = true.

Lemma copy_file_live : forall o r n m s, all_ok o -> s_ok s = true -> s_ok (copy_file o r n m s) = true.
Proof.
  intros o r n m s (_ & _ & _ & _ & _ & _ & Hm & Hs & Hf & H3 & _) Hok. unfold copy_file.
  destruct (look n (s_tab s)) eqn:El; cbn [isS]; auto. rewrite Hm, Hs, Hf. cbn [negb].
  unfold add_file. cbn [emit s_tab]. rewrite tab_emits, El. cbn [isS negb]. rewrite H3. unfold sync.
  cbn [emit set_tab s_ok].
  assert (Hoe : forall es u, s_ok (emits es u) = s_ok u)
    by (induction es as [|e es IHe]; intros u; cbn [emits]; auto; rewrite IHe; reflexivity).
  rewrite Hoe. exact Hok.
Qed.

Lemma copy_loop_live : forall o r l s, all_ok o -> s_ok s = true -> s_ok (copy_loop o r l s) = true.
Proof.
  intros o r; induction l as [|(n, m) l IH]; intros s Ho Hok; cbn [copy_loop]; auto.
  rewrite Hok. apply IH; auto. apply copy_file_live; auto.
Qed.

Lemma create_live : forall fe od odel s, snd od = true -> snd (create fe od true odel s) = true.
Proof.
  intros fe od odel s H. unfold create, writer_init.
  destruct (exists_dir (k_temp (s_d s)) && fe).
  - unfold destroy. rewrite H.
    destruct (match d_meta _ with Some p => p | None => (0, []) end); reflexivity.
  - destruct (match d_meta _ with Some p => p | None => (0, []) end); reflexivity.
Qed.

Lemma filter_step_live : forall o flt r d, all_ok o ->
  exists s, filter_step o flt r (start d) = (s, true) /\ s_ok s = true.
Proof.
  intros o flt r d (_ & Hi & _ & H1 & Hd & H2 & _). unfold filter_step.
  pose proof (create_live (negb flt) (o_dest0 o) (o_initdel o) (start d) Hd) as Hc. rewrite Hi.
  destruct (create (negb flt) (o_dest0 o) true (o_initdel o) (start d)) as [s1 w1] eqn:E1; cbn [snd] in Hc. subst w1.
  apply create_Fr0 in E1 as ((F1 & _) & _). cbn [negb].
  assert (HP : exists s2, (if flt then
      let (sf, ok) := filter_before_copy o (r_tab r) (last_reader (o_open o) (s_d s1)) s1 in
      if ok then (sf, true)
      else create true (o_dest2 o) (o_init2 o) (o_initdel o)
             (fst (close false true true (o_dest1 o) (set_werr (-1) sf)))
      else (s1, true)) = (s2, true) /\ s_ok s2 = true).
  { destruct flt; [|exists s1; split; auto].
    destruct (filter_before_copy o (r_tab r) (last_reader (o_open o) (s_d s1)) s1) as [sf ok] eqn:Ef.
    assert (ok = true).
    { unfold filter_before_copy in Ef. destruct (fl_existing _ _ _ _) as [rm1 sa]. destruct (fl_remote _ _ _ _ _) as [rm2 sb].
      rewrite H1 in Ef. unfold sync in Ef. injection Ef as _ <-. reflexivity. }
    subst ok. apply filter_before_copy_Fr in Ef as ((G1 & _) & _). exists sf. split; auto. rewrite G1, F1; reflexivity. }
  destruct HP as (s2 & HP & O2). cbv zeta. rewrite HP. cbn [negb]. rewrite H2. unfold sync.
  eexists. split; [reflexivity|]. exact O2.
Qed.

Lemma filter_step_idx : forall o flt r s s', filter_step o flt r s = (s', true) -> s_idx s' = r_idx r.
Proof. intros o flt r s s' H. apply filter_step_Fr in H as (_ & _ & _ & H). apply H; auto. Qed.

Theorem copy_live : forall o flt cf r d, all_ok o -> r_idx r <> last_index d ->
  npub (s_tr (fst (copy o flt cf r d))) = false /\ s_ok (fst (copy o flt cf r d)) = true /\
  (r_idx r <> 0 -> exists l, snd (copy o flt cf r d) = Some (r_idx r, l) /\
                             k_last (s_d (fst (copy o flt cf r d))) = Some (r_idx r, l)).
Proof.
  intros o flt cf r d Ho Hi. destruct (filter_step_live o flt r d Ho) as (s1 & E1 & O1).
  pose proof Ho as (Hm & _ & Ho2 & _ & _ & _ & _ & _ & _ & _ & H4 & Hre).
  assert (HC : exists s2, npub (s_tr s2) = true /\ s_ok s2 = true /\ s_idx s2 = r_idx r /\
     fst (copy o flt cf r d) = emit (EPub (r_idx r)) (emit (EMeta (r_idx r) (s_tab s2)) s2)).
  { unfold copy. rewrite Hm, E1. cbn [fst].
    pose proof (filter_step_Fr _ _ _ _ _ _ E1) as (N1 & K1 & _ & Y1). destruct (Y1 eq_refl) as (I1 & W1).
    specialize (W1 O1). cbn [start s_tr s_d npub] in *. unfold copy_with_writer.
    set (s2 := if s_ok s1 && cf then copy_loop o r (r_tab r) s1 else s1).
    assert (F2 : s_ok s2 = true /\ s_idx s2 = r_idx r /\ npub (s_tr s2) = true /\ k_last (s_d s2) = k_last d /\ s_werr s2 = 0).
    { unfold s2. destruct (s_ok s1 && cf); [|sp; auto].
      pose proof (copy_loop_live o r (r_tab r) s1 Ho O1) as Hl.
      pose proof (copy_loop_Fr o r (r_tab r) s1) as (A1 & A2 & A3 & A4). destruct (A4 Hl).
      sp; congruence. }
    clearbody s2. destruct F2 as (A1 & A2 & A3 & A4 & A5). exists s2. rewrite A1. cbn [negb andb].
    assert (Hne : (r_idx r =? last_index (apply (s_d s2) (EMeta (r_idx r) (s_tab s2)))) = false).
    { apply Z.eqb_neq. unfold last_index. rewrite klast_apply, A4. exact Hi. }
    unfold close. rewrite A5, H4, Hre. cbn [Z.eqb negb]. unfold sync.
    cbn [emit s_idx s_d negb]. rewrite A2, Hne. cbn [negb andb Z.eqb E_EIO s_ok].
    sp; auto. }
  destruct HC as (s2 & N2 & O2 & I2 & HC).
  assert (HS : snd (copy o flt cf r d) =
               if s_ok (fst (copy o flt cf r d)) then last_reader (o_open2 o) (s_d (fst (copy o flt cf r d))) else None)
    by reflexivity.
  rewrite HS, HC. cbn [emit s_tr npub publishes negb andb s_ok s_d]. sp; auto.
  intros Hz. rewrite O2, Ho2. unfold last_reader. rewrite klast_apply. cbn [apply set_temp k_temp d_meta isS].
  destruct (Z.eqb_spec (r_idx r) 0); [congruence|]. eexists; split; reflexivity.
Qed.

(** ** Resumption: a file the temp table lists with the remote checksum is not
    downloaded again *)
Fixpoint noW (n : Z) (tr : list eff) : Prop :=
  match tr with [] => True | EWrite x _ :: r => x <> n /\ noW n r | _ :: r => noW n r end.

Lemma noW_spec : forall n tr, noW n tr <-> forall b, ~ In (EWrite n b) tr.
Proof.
  induction tr as [|e tr IH]; [cbn; split; auto|].
  assert (H : (forall b, ~ In (EWrite n b) (e :: tr)) <-> (forall b, e <> EWrite n b) /\ (forall b, ~ In (EWrite n b) tr)).
  { split; [intros H; split; intros b Hb; apply (H b); [left|right]; auto|].
    intros (H1 & H2) b [->|Hb]; [eapply H1; eauto|eapply H2; eauto]. }
  rewrite H, <- IH. destruct e as [x|x|i t|x b| | |i]; cbn [noW]; split; intros Hx; try (destruct Hx; auto; fail);
    try (split; [discriminate|auto]; fail).
  - destruct Hx as (Hx & Hy). split; auto. intros b' HH. injection HH as -> ->. congruence.
  - destruct Hx as (Hx & Hy). split; auto. intros ->. eapply Hx; reflexivity.
Qed.

(** the state keeps n listed and did not write it *)
Definition Kp (n : Z) (lm : fmeta) (s : st) : Prop := look n (s_tab s) = Some lm /\ noW n (s_tr s).

Lemma Kp_emit : forall n lm s e, Kp n lm s -> (forall b, e <> EWrite n b) -> Kp n lm (emit e s).
Proof.
  intros n lm s e (H1 & H2) He. split; auto. cbn [emit s_tr]. destruct e; cbn [noW]; auto.
  split; auto. intros ->. eapply He; reflexivity.
Qed.
Lemma Kp_try : forall n lm b x s, Kp n lm s -> Kp n lm (try_del b x s).
Proof. intros. unfold try_del. destruct b; auto. Qed.

Lemma Kp_sync : forall n lm b s, Kp n lm s -> Kp n lm (fst (sync b s)).
Proof.
  intros n lm b s H. unfold sync. destruct b; cbn [fst]; [apply Kp_emit; auto; discriminate|].
  destruct (s_werr s =? 0); exact H.
Qed.

Lemma Kp_add : forall n lm x y s, Kp n lm s -> Kp n lm (fst (add_file x y s)).
Proof.
  intros n lm x y s (H1 & H2). unfold add_file. destruct (look x (s_tab s)) eqn:E; cbn [isS fst]; [split; auto|].
  split; auto. cbn [set_tab s_tab]. rewrite look_cons. destruct (Z.eqb_spec x n) as [->|]; congruence.
Qed.

Lemma Kp_drop : forall n lm x s, Kp n lm s -> x <> n -> Kp n lm (set_tab (drop x (s_tab s)) s).
Proof.
  intros n lm x s (H1 & H2) Hx. split; auto. cbn [set_tab s_tab]. rewrite look_drop.
  destruct (Z.eqb_spec x n); congruence.
Qed.

Lemma Kp_fl_existing : forall n lm rt names rm s rm' s', fl_existing rt names rm s = (rm', s') ->
  look n rt <> None -> Kp n lm s -> Kp n lm s'.
Proof.
  intros n lm rt; induction names as [|x r IH]; intros rm s rm' s' H Hn HK; cbn [fl_existing] in H.
  - injection H as <- <-. auto.
  - destruct (look x rt) eqn:E; cbn [isS] in H; apply IH in H; auto. apply Kp_drop; auto. congruence.
Qed.

Lemma Kp_fl_last : forall n lm o last x c rm s rm' s', fl_last o last x c rm s = (rm', s') -> x <> n ->
  Kp n lm s -> Kp n lm s'.
Proof.
  intros n lm o last x c rm s rm' s' H Hx HK. unfold fl_last in H.
  destruct last as [(li, l)|]; [|injection H as <- <-; auto].
  destruct (look x (dir_table l)) as [y|]; [|injection H as <- <-; auto].
  destruct (ck_eq (m_ck y) c); [|injection H as <- <-; auto].
  destruct (m_ref y); [injection H as <- <-; apply Kp_add; auto|].
  destruct (o_link o x && _ && _); injection H as <- <-; [|apply Kp_try; auto].
  apply Kp_add, Kp_emit; [apply Kp_try; auto|discriminate].
Qed.

Lemma Kp_fl_remote : forall n lm o last rt rm s rm' s', fl_remote o last rt rm s = (rm', s') ->
  (forall m, In (n, m) rt -> m_ck m = m_ck lm) -> m_ck lm <> None -> Kp n lm s -> Kp n lm s'.
Proof.
  intros n lm o last; induction rt as [|(x, m) rt IH]; intros rm s rm' s' H Hin Hc HK; cbn [fl_remote] in H.
  - injection H as <- <-. auto.
  - destruct (fl_remote1 o last x m rm s) as [rm1 s1] eqn:E. eapply IH; eauto.
    { intros y Hy. apply Hin. right; auto. }
    clear H IH. unfold fl_remote1 in E. destruct (Z.eq_dec x n) as [->|Hx].
    + rewrite (Hin m (or_introl eq_refl)) in E. destruct (m_ck lm) as [c|] eqn:Ec; [|congruence].
      destruct HK as (HK1 & HK2). rewrite HK1, Ec in E. cbn [ck_eq] in E. rewrite Z.eqb_refl in E.
      injection E as <- <-. split; auto.
    + destruct (m_ck m).
      * destruct (look x (s_tab s)) as [y|].
        -- destruct (ck_eq (m_ck y) (Some z)); [injection E as <- <-; auto|].
           eapply Kp_fl_last in E; eauto. apply Kp_drop; auto.
        -- eapply Kp_fl_last in E; eauto.
      * injection E as <- <-. apply Kp_drop; auto.
Qed.

Lemma Kp_del_all : forall n lm ok rm s, Kp n lm s -> Kp n lm (del_all ok rm s).
Proof. induction rm as [|x r IH]; intros s H; cbn [del_all]; auto. apply IH, Kp_try; auto. Qed.

Lemma noW_emits : forall n es s, (forall e b, In e es -> e <> EWrite n b) -> noW n (s_tr s) -> noW n (s_tr (emits es s)).
Proof.
  induction es as [|e es IH]; intros s He H; cbn [emits]; auto. apply IH.
  - intros x b Hx. apply He. right; auto.
  - cbn [emit s_tr]. destruct e as [x|x|i t|x b| | |i]; cbn [noW]; auto. split; auto.
    intros ->. eapply (He (EWrite n b) b); [left; auto|reflexivity].
Qed.
Lemma noW_destroy : forall n o s, noW n (s_tr s) -> noW n (s_tr (fst (destroy o s))).
Proof.
  intros n o s H. unfold destroy.
  assert (H1 : noW n (s_tr (emits (map (fun x => match x with Some n => EDel n | None => EDelMeta end) (fst o)) s))).
  { apply noW_emits; auto. intros e b He. apply in_map_iff in He as (x & <- & _). destruct x; discriminate. }
  destruct (snd o); cbn [fst]; auto.
Qed.
Lemma noW_init_del : forall n ok names s, noW n (s_tr s) -> noW n (s_tr (init_del ok names s)).
Proof.
  induction names as [|x r IH]; intros s H; cbn [init_del]; auto. apply IH.
  destruct (isS _); auto. unfold try_del. destruct (ok x); auto.
Qed.

Lemma Kp_copy_file : forall n lm o r x m s, Kp n lm s -> Kp n lm (copy_file o r x m s).
Proof.
  intros n lm o r x m s HK. unfold copy_file. destruct (look x (s_tab s)) eqn:E; cbn [isS]; auto.
  assert (Hx : x <> n) by (intros ->; destruct HK; congruence).
  set (s1 := if o_mkdir o x then s else fail s).
  assert (K1 : Kp n lm s1) by (unfold s1; destruct (o_mkdir o x); exact HK).
  clearbody s1. destruct (o_sess o x); cbn [negb]; [|exact K1].
  assert (K2 : Kp n lm (emits (map (EWrite x) ([] :: o_part o x)) s1)).
  { split; [rewrite tab_emits; apply K1|]. apply noW_emits; [|apply K1].
    intros e b He. apply in_map_iff in He as (b' & <- & _). congruence. }
  set (s2 := emits (map (EWrite x) ([] :: o_part o x)) s1) in *. clearbody s2.
  destruct (o_fetch o x); cbn [negb]; [|exact K2].
  assert (K3 : Kp n lm (emit (EWrite x (r_data r x)) s2)) by (apply Kp_emit; auto; congruence).
  pose proof (Kp_add n lm x m _ K3) as K4.
  destruct (add_file x m (emit (EWrite x (r_data r x)) s2)) as [s4 a]; cbn [fst] in K4.
  destruct a; cbn [negb]; [|exact K4].
  pose proof (Kp_sync n lm (o_sync3 o x) s4 K4) as K5.
  destruct (sync (o_sync3 o x) s4) as [s5 ok]; cbn [fst] in K5. destruct ok; exact K5.
Qed.
Lemma Kp_copy_loop : forall n lm o r l s, Kp n lm s -> Kp n lm (copy_loop o r l s).
Proof.
  intros n lm o r; induction l as [|(x, m) l IH]; intros s H; cbn [copy_loop]; auto.
  destruct (s_ok s); auto. apply IH, Kp_copy_file; auto.
Qed.

Theorem copy_resume : forall o cf r d n m lm c,
  NoDup (map fst (r_tab r)) -> o_sync1 o = true ->
  look n (table_of (k_temp d)) = Some lm -> look n (r_tab r) = Some m ->
  m_ck lm = Some c -> m_ck m = Some c ->
  noW n (s_tr (fst (copy o true cf r d))).
Proof.
  intros o cf r d n m lm c Hnd H1 Hl Hm Hlc Hmc. unfold copy. cbn [fst].
  destruct (o_meta o); [|exact I].
  destruct (filter_step o true r (start d)) as [s1 w] eqn:E.
  assert (HK : if w then Kp n lm s1 else noW n (s_tr s1)).
  { unfold filter_step in E. cbn [negb] in E.
    destruct (create false (o_dest0 o) (o_init o) (o_initdel o) (start d)) as [sa wa] eqn:Ea.
    assert (Ka : if wa then Kp n lm sa else noW n (s_tr sa)).
    { unfold create in Ea. rewrite andb_false_r in Ea. unfold writer_init in Ea. destruct (o_init o).
      - destruct (match d_meta (k_temp (s_d (start d))) with Some p => p | None => (0, []) end) as [i t] eqn:Et.
        injection Ea as <- <-. split.
        + pose proof (init_del_frame (o_initdel o) (map fst (d_files (k_temp d))) (set_werr 0 (set_idx i (set_tab t (start d))))) as (F & _).
          cbn [start s_d] in *. rewrite F. cbn [set_werr set_idx set_tab s_tab].
          unfold table_of in Hl. destruct (d_meta (k_temp d)) as [(i', t')|]; [|discriminate Hl]. congruence.
        + apply noW_init_del. exact I.
      - injection Ea as <- <-. exact I. }
    destruct wa; cbn [negb] in E; [|injection E as <- <-; exact Ka].
    destruct (filter_before_copy o (r_tab r) (last_reader (o_open o) (s_d sa)) sa) as [sf ok] eqn:Ef.
    unfold filter_before_copy in Ef.
    destruct (fl_existing (r_tab r) (map fst (s_tab sa)) [] sa) as [rm1 s2] eqn:E2.
    destruct (fl_remote o (last_reader (o_open o) (s_d sa)) (r_tab r) rm1 s2) as [rm2 s3] eqn:E3.
    rewrite H1 in Ef. unfold sync in Ef. injection Ef as <- <-.
    eapply Kp_fl_existing in E2; eauto; [|congruence].
    eapply Kp_fl_remote in E3; eauto; [| |congruence].
    2:{ intros y Hy. apply in_look_nd in Hy; auto. congruence. }
    assert (K4 : Kp n lm (del_all (o_del2 o) rm2 (emit (EMeta (s_idx s3) (s_tab s3)) s3))).
    { apply Kp_del_all, Kp_emit; auto. discriminate. }
    set (s4 := del_all (o_del2 o) rm2 (emit (EMeta (s_idx s3) (s_tab s3)) s3)) in *. clearbody s4.
    cbn [negb] in E.
    pose proof (Kp_sync n lm (o_sync2 o) (set_idx (r_idx r) s4) K4) as K5.
    destruct (sync (o_sync2 o) (set_idx (r_idx r) s4)) as [s5 ok5]; cbn [fst] in K5.
    destruct ok5; injection E as <- <-; exact K5. }
  destruct w; [|exact HK]. unfold copy_with_writer.
  set (s2 := if s_ok s1 && cf then copy_loop o r (r_tab r) s1 else s1).
  assert (K2 : Kp n lm s2) by (unfold s2; destruct (s_ok s1 && cf); auto; apply Kp_copy_loop; auto).
  clearbody s2.
  set (s3 := if negb (s_ok s2) && (s_werr s2 =? 0) then set_werr (-1) s2 else s2).
  assert (K3 : Kp n lm s3) by (unfold s3; destruct (negb (s_ok s2) && (s_werr s2 =? 0)); exact K2).
  clearbody s3.
  assert (K4 : noW n (s_tr (fst (close true (o_sync4 o) (o_rename o) (o_dest3 o) s3)))).
  { unfold close. pose proof (Kp_sync n lm (o_sync4 o) s3 K3) as K4.
    destruct (sync (o_sync4 o) s3) as [s4 ok]; cbn [fst] in K4.
    destruct (negb (s_werr s3 =? 0)); [cbn [fst]; rewrite andb_false_r; apply K3|].
    destruct (negb ok); [cbn [fst]; rewrite andb_false_r; apply K4|].
    destruct (s_idx s4 =? last_index (s_d s4)); [cbn [fst]; rewrite andb_false_r; apply K4|].
    destruct (o_rename o); [cbn [fst]; rewrite andb_false_r; apply (Kp_emit _ _ _ _ K4); discriminate|].
    cbn [fst]; rewrite andb_false_r; apply K4. }
  destruct (close true (o_sync4 o) (o_rename o) (o_dest3 o) s3) as [s4 c4]; cbn [fst] in K4.
  destruct (negb c4 && s_ok s4); exact K4.
Qed.
