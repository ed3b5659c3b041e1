(** * What the copier's steps leave alone; the downloaded files *)
From Verif Require Import Base SnapCopy SnapCopySpec ReconfStatic SnapCopyProofs SnapCopyRun.

Definition Fr (s s' : st) : Prop :=
  s_idx s' = s_idx s /\ s_werr s' = s_werr s /\ s_ok s' = s_ok s /\
  npub (s_tr s') = npub (s_tr s) /\ k_last (s_d s') = k_last (s_d s).

Lemma Fr_refl : forall s, Fr s s.
Proof. intros s; unfold Fr; sp; reflexivity. Qed.
Lemma Fr_trans : forall a b c, Fr a b -> Fr b c -> Fr a c.
Proof.
  intros a b c (A1 & A2 & A3 & A4 & A5) (B1 & B2 & B3 & B4 & B5). unfold Fr. sp; congruence.
Qed.
Lemma Fr_emit : forall s e, publishes e = false -> Fr s (emit e s).
Proof.
  intros s e H. unfold Fr. sp; try reflexivity.
  - cbn [emit s_tr npub]. rewrite H. reflexivity.
  - apply klast_emit; auto.
Qed.
Lemma Fr_emits : forall es s, (forall e, In e es -> publishes e = false) -> Fr s (emits es s).
Proof.
  induction es as [|e es IH]; intros s H; cbn [emits]; [apply Fr_refl|].
  apply Fr_trans with (emit e s); [apply Fr_emit, H; left; auto|apply IH; intros x Hx; apply H; right; auto].
Qed.
Lemma Fr_set_tab : forall s t, Fr s (set_tab t s).
Proof. intros s t; unfold Fr; sp; reflexivity. Qed.

Lemma tab_emits : forall es s, s_tab (emits es s) = s_tab s.
Proof. induction es as [|e es IH]; intros s; cbn [emits]; auto. rewrite IH; reflexivity. Qed.

Lemma try_del_Fr : forall b n s, Fr s (try_del b n s).
Proof. intros b n s; unfold try_del; destruct b; [apply Fr_emit; reflexivity|apply Fr_refl]. Qed.

Lemma add_file_Fr : forall n m s, Fr s (fst (add_file n m s)).
Proof. intros n m s; unfold add_file; destruct (isS _); [apply Fr_refl|apply Fr_set_tab]. Qed.

Lemma destroy_Fr : forall o s, Fr s (fst (destroy o s)).
Proof.
  intros (l, b) s. unfold destroy; cbn [fst snd].
  assert (H : Fr s (emits (map (fun x => match x with Some n => EDel n | None => EDelMeta end) l) s)).
  { apply Fr_emits. intros e He. apply in_map_iff in He as (x & <- & _). destruct x; reflexivity. }
  destruct b; cbn [fst]; auto.
Qed.

Lemma init_del_Fr : forall ok names s, Fr s (init_del ok names s).
Proof.
  induction names as [|n r IH]; intros s; cbn [init_del]; [apply Fr_refl|].
  eapply Fr_trans; [|apply IH]. destruct (isS _); [apply Fr_refl|apply try_del_Fr].
Qed.

Definition Fr0 (s s' : st) : Prop :=
  s_ok s' = s_ok s /\ npub (s_tr s') = npub (s_tr s) /\ k_last (s_d s') = k_last (s_d s).
Lemma Fr_Fr0 : forall s s', Fr s s' -> Fr0 s s'.
Proof. intros s s' (A1 & A2 & A3 & A4 & A5); unfold Fr0; sp; auto. Qed.
Lemma Fr0_trans : forall a b c, Fr0 a b -> Fr0 b c -> Fr0 a c.
Proof. intros a b c (A1 & A2 & A3) (B1 & B2 & B3). unfold Fr0. sp; congruence. Qed.

Lemma writer_init_Fr0 : forall oi odel s s', writer_init oi odel s = Some s' -> Fr0 s s' /\ s_werr s' = 0.
Proof.
  intros oi odel s s' H. unfold writer_init in H. destruct oi; [|discriminate H].
  destruct (match d_meta (k_temp (s_d s)) with Some p => p | None => (0, []) end) as [i t].
  injection H as <-.
  pose proof (init_del_Fr odel (map fst (d_files (k_temp (s_d s)))) (set_werr 0 (set_idx i (set_tab t s)))) as HF.
  destruct HF as (A1 & A2 & A3 & A4 & A5). unfold Fr0. sp; auto.
Qed.

Lemma create_Fr0 : forall fe od oi odel s s' w, create fe od oi odel s = (s', w) ->
  Fr0 s s' /\ (w = true -> s_werr s' = 0).
Proof.
  intros fe od oi odel s s' w H. unfold create in H.
  assert (Hd : Fr0 s (fst (destroy od s))) by apply Fr_Fr0, destroy_Fr.
  assert (Hr : Fr0 s s) by (unfold Fr0; sp; auto).
  destruct (exists_dir (k_temp (s_d s)) && fe).
  - destruct (destroy od s) as [s1 go]; cbn [fst] in Hd. destruct go.
    + destruct (writer_init oi odel s1) as [s2|] eqn:E; injection H as <- <-.
      * apply writer_init_Fr0 in E as (E & E'). split; auto. exact (Fr0_trans _ _ _ Hd E).
      * split; auto. intros HH; discriminate HH.
    + injection H as <- <-. split; auto. intros HH; discriminate HH.
  - destruct (writer_init oi odel s) as [s2|] eqn:E; injection H as <- <-.
    + apply writer_init_Fr0 in E as (E & E'). split; auto.
    + split; auto. intros HH; discriminate HH.
Qed.

Lemma fl_existing_Fr : forall rt names rm s rm' s', fl_existing rt names rm s = (rm', s') -> Fr s s'.
Proof.
  intros rt; induction names as [|n r IH]; intros rm s rm' s' H; cbn [fl_existing] in H.
  - injection H as <- <-. apply Fr_refl.
  - destruct (isS (look n rt)); apply IH in H; auto.
Qed.

Lemma fl_last_Fr : forall o last n c rm s rm' s', fl_last o last n c rm s = (rm', s') -> Fr s s'.
Proof.
  intros o last n c rm s rm' s' H. unfold fl_last in H.
  destruct last as [(li, l)|]; [|injection H as <- <-; apply Fr_refl].
  destruct (look n (dir_table l)) as [lm|]; [|injection H as <- <-; apply Fr_refl].
  destruct (ck_eq (m_ck lm) c); [|injection H as <- <-; apply Fr_refl].
  destruct (m_ref lm); [injection H as <- <-; apply add_file_Fr|].
  destruct (o_link o n && _ && _); injection H as <- <-; [|apply try_del_Fr].
  eapply Fr_trans; [apply (try_del_Fr (o_del1 o n) n)|].
  eapply Fr_trans; [|apply add_file_Fr]. apply Fr_emit; reflexivity.
Qed.

Lemma fl_remote_Fr : forall o last rt rm s rm' s', fl_remote o last rt rm s = (rm', s') -> Fr s s'.
Proof.
  intros o last; induction rt as [|(n, m) rt IH]; intros rm s rm' s' H; cbn [fl_remote] in H.
  - injection H as <- <-. apply Fr_refl.
  - destruct (fl_remote1 o last n m rm s) as [rm1 s1] eqn:E. apply IH in H.
    eapply Fr_trans; [|exact H]. unfold fl_remote1 in E. destruct (m_ck m).
    + destruct (look n (s_tab s)) as [lm|].
      * destruct (ck_eq (m_ck lm) (Some z)); [injection E as <- <-; apply Fr_refl|].
        apply fl_last_Fr in E. eapply Fr_trans; [|exact E]. apply Fr_set_tab.
      * apply fl_last_Fr in E. exact E.
    + injection E as <- <-. apply Fr_set_tab.
Qed.

Lemma del_all_Fr : forall ok rm s, Fr s (del_all ok rm s).
Proof.
  induction rm as [|n r IH]; intros s; cbn [del_all]; [apply Fr_refl|].
  eapply Fr_trans; [apply try_del_Fr|apply IH].
Qed.

Lemma sync_Fr : forall b s s' r, sync b s = (s', r) ->
  r = b /\ Fr0 s s' /\ s_idx s' = s_idx s /\ s_tab s' = s_tab s /\ (b = true -> s_werr s' = s_werr s) /\
  (b = false -> s_werr s' <> 0 /\ s_d s' = s_d s).
Proof.
  intros b s s' r H. unfold sync in H. destruct b.
  - injection H as <- <-. sp; auto; try discriminate; apply Fr_Fr0, Fr_emit; reflexivity.
  - destruct (Z.eqb_spec (s_werr s) 0); injection H as <- <-; sp; auto; try discriminate;
      try (unfold Fr0; sp; reflexivity); intros _; split; auto; discriminate.
Qed.

Lemma filter_before_copy_Fr : forall o RT last s s' ok,
  filter_before_copy o RT last s = (s', ok) -> Fr0 s s' /\ (ok = true -> s_werr s' = s_werr s).
Proof.
  intros o RT last s s' ok H. unfold filter_before_copy in H.
  destruct (fl_existing RT (map fst (s_tab s)) [] s) as [rm1 s1] eqn:E1.
  destruct (fl_remote o last RT rm1 s1) as [rm2 s2] eqn:E2.
  destruct (sync (o_sync1 o) s2) as [s3 k] eqn:E3.
  apply fl_existing_Fr in E1. apply fl_remote_Fr in E2. apply sync_Fr in E3 as (Ek & F3 & _ & _ & R3 & _).
  pose proof (Fr_trans _ _ _ E1 E2) as F12.
  assert (F : Fr0 s s3) by (eapply Fr0_trans; [apply Fr_Fr0; exact F12|exact F3]).
  destruct k; injection H as <- <-.
  - pose proof (del_all_Fr (o_del2 o) rm2 s3) as Fd. split.
    + eapply Fr0_trans; [exact F|apply Fr_Fr0; exact Fd].
    + intros _. destruct Fd as (_ & D2 & _). destruct F12 as (_ & D3 & _). rewrite D2, R3 by auto. exact D3.
  - split; auto. intros HH; discriminate HH.
Qed.

(** close: either it publishes, or the last snapshot stays *)
Lemma close_cases : forall keep os ore od s s' c, close keep os ore od s = (s', c) ->
  s_ok s' = s_ok s /\
  ( (s_werr s = 0 /\ os = true /\ ore = true /\ s_idx s <> last_index (s_d s) /\ c = true /\
     s' = emit (EPub (s_idx s)) (emit (EMeta (s_idx s) (s_tab s)) s))
  \/
    (npub (s_tr s') = npub (s_tr s) /\ k_last (s_d s') = k_last (s_d s) /\
     (s_werr s = 0 -> os = true -> s_idx s = last_index (s_d s) \/ c = false)) ).
Proof.
  intros keep os ore od s s' c H. unfold close in H.
  destruct (Z.eqb_spec (s_werr s) 0) as [Hw|Hw]; cbn [negb] in H.
  - unfold sync in H. destruct os; cbn [negb] in H.
    + set (s1 := emit (EMeta (s_idx s) (s_tab s)) s) in *.
      assert (F1 : Fr s s1) by (apply Fr_emit; reflexivity).
      assert (L1 : last_index (s_d s1) = last_index (s_d s)).
      { unfold last_index. destruct F1 as (_ & _ & _ & _ & F5). rewrite F5. reflexivity. }
      assert (I1 : s_idx s1 = s_idx s) by reflexivity.
      assert (O1 : s_ok s1 = s_ok s) by reflexivity.
      destruct F1 as (_ & _ & _ & N1 & K1).
      rewrite L1, I1 in H.
      destruct (Z.eqb_spec (s_idx s) (last_index (s_d s))) as [He|He].
      * cbn [Z.eqb E_EEXIST E_EIO negb andb] in H.
        destruct keep; cbn [negb] in H; injection H as <- <-.
        -- split; auto; try (right; sp; auto).
        -- pose proof (destroy_Fr od s1) as (_ & _ & D3 & D4 & D5). split; [congruence|]. right; sp; try congruence. auto.
      * destruct ore.
        -- cbn [Z.eqb E_EIO negb andb] in H. injection H as <- <-. split; [reflexivity|]. left. sp; auto.
        -- cbn [Z.eqb E_EIO negb andb] in H.
           destruct keep; cbn [negb] in H; injection H as <- <-.
           ++ split; auto; try (right; sp; auto).
           ++ pose proof (destroy_Fr od s1) as (_ & _ & D3 & D4 & D5). split; [congruence|]. right; sp; try congruence. auto.
    + rewrite Hw in H. cbn [Z.eqb E_EIO negb andb] in H.
      set (s1 := set_werr (-1) s) in *.
      assert (F1 : npub (s_tr s1) = npub (s_tr s) /\ k_last (s_d s1) = k_last (s_d s) /\ s_ok s1 = s_ok s) by (sp; reflexivity).
      destruct F1 as (N1 & K1 & O1).
      destruct keep; cbn [negb] in H; injection H as <- <-.
      * split; auto; right; sp; auto; discriminate.
      * pose proof (destroy_Fr od s1) as (_ & _ & D3 & D4 & D5). split; [congruence|]. right; sp; try congruence.
  - destruct (negb (s_werr s =? 0) && negb keep) eqn:E; injection H as <- <-.
    + pose proof (destroy_Fr od s) as (_ & _ & D3 & D4 & D5). split; auto. right; sp; auto. congruence.
    + split; auto. right; sp; auto; congruence.
Qed.

Lemma filter_step_Fr : forall o flt r s s' w, filter_step o flt r s = (s', w) ->
  npub (s_tr s') = npub (s_tr s) /\ k_last (s_d s') = k_last (s_d s) /\
  (w = false -> s_ok s' = false) /\
  (w = true -> s_idx s' = r_idx r /\ (s_ok s' = true -> s_werr s' = 0)).
Proof.
  intros o flt r s s' w H. unfold filter_step in H.
  destruct (create (negb flt) (o_dest0 o) (o_init o) (o_initdel o) s) as [s1 w1] eqn:E1.
  apply create_Fr0 in E1 as ((F1 & F2 & F3) & R1).
  destruct w1; cbn [negb] in H.
  2:{ injection H as <- <-. cbn [fail s_tr s_d s_ok]. sp; auto; discriminate. }
  specialize (R1 eq_refl).
  set (P := if flt then _ else (s1, true)) in H.
  assert (HP : npub (s_tr (fst P)) = npub (s_tr s) /\ k_last (s_d (fst P)) = k_last (s_d s) /\
               (snd P = true -> s_werr (fst P) = 0)).
  { unfold P. destruct flt; [|cbn [fst snd]; sp; auto].
    destruct (filter_before_copy o (r_tab r) (last_reader (o_open o) (s_d s1)) s1) as [sf ok] eqn:Ef.
    apply filter_before_copy_Fr in Ef as ((G1 & G2 & G3) & G4).
    destruct ok; cbn [fst snd].
    - sp; try congruence. intros _. rewrite G4; auto.
    - destruct (close false true true (o_dest1 o) (set_werr (-1) sf)) as [sc c] eqn:Ec; cbn [fst].
      apply close_cases in Ec as (_ & Hc). cbn [set_werr s_werr s_tr s_d] in Hc.
      destruct Hc as [(Hc & _)|(C1 & C2 & _)]; [discriminate Hc|].
      destruct (create true (o_dest2 o) (o_init2 o) (o_initdel o) sc) as [s2 w2] eqn:E2; cbn [fst snd].
      apply create_Fr0 in E2 as ((K1 & K2 & K3) & K4). sp; auto; congruence. }
  destruct P as [s2 w2]; cbn [fst snd] in HP. destruct HP as (P1 & P2 & P3).
  destruct w2; cbn [negb] in H.
  2:{ injection H as <- <-. cbn [fail s_tr s_d s_ok]. sp; auto; discriminate. }
  specialize (P3 eq_refl).
  destruct (sync (o_sync2 o) (set_idx (r_idx r) s2)) as [s4 ok] eqn:E4.
  apply sync_Fr in E4 as (Ek & (G1 & G2 & G3) & G4 & G5 & G6 & G7). cbn [set_idx s_tr s_d s_idx s_werr s_tab s_ok] in *.
  destruct ok; injection H as <- <-.
  - sp; try congruence. intros _. split; [congruence|]. intros _. rewrite G6 by congruence. exact P3.
  - cbn [fail s_tr s_d s_ok s_idx s_werr]. sp; try congruence. intros _. split; [congruence|]. discriminate.
Qed.

(** ** copy_file *)
Definition X (r : remote) (s : st) : Prop :=
  forall n lm, look n (s_tab s) = Some lm ->
    exists m, look n (r_tab r) = Some m /\ m_ck lm = m_ck m /\
      (m_ref lm = false -> tcont (s_d s) n = Some (r_data r n)).

Lemma emits_write_other : forall bs n x s, wfT (s_d s) -> n <> x ->
  wfT (s_d (emits (map (EWrite n) bs) s)) /\ tcont (s_d (emits (map (EWrite n) bs) s)) x = tcont (s_d s) x.
Proof.
  induction bs as [|b bs IH]; intros n x s Hw Hx; cbn [map emits]; auto.
  destruct (IH n x (emit (EWrite n b) s)) as (H1 & H2); auto.
  - cbn [emit s_d]. apply wfT_apply; auto. discriminate.
  - split; auto. rewrite H2. cbn [emit s_d]. apply tcont_other; auto.
Qed.
Lemma emits_write_wfT : forall bs n s, wfT (s_d s) -> wfT (s_d (emits (map (EWrite n) bs) s)).
Proof. intros. apply (emits_write_other bs n (n + 1)); auto. lia. Qed.

(** The step as a case analysis. *)
Lemma copy_file_cases : forall o r n m s s', copy_file o r n m s = s' ->
  (look n (s_tab s) <> None /\ s' = s) \/
  (look n (s_tab s) = None /\ s_ok s' = false /\ s_idx s' = s_idx s /\
     npub (s_tr s') = npub (s_tr s) /\ k_last (s_d s') = k_last (s_d s) /\ s_tab s' = s_tab s) \/
  (look n (s_tab s) = None /\ s_tab s' = (n, m) :: s_tab s /\ s_idx s' = s_idx s /\
     npub (s_tr s') = npub (s_tr s) /\ k_last (s_d s') = k_last (s_d s) /\
     (s_ok s' = true -> s_werr s' = s_werr s) /\
     s_d s' = (if o_sync3 o n then apply (s_d (emit (EWrite n (r_data r n)) (emits (map (EWrite n) ([] :: o_part o n)) s)))
                                          (EMeta (s_idx s) ((n, m) :: s_tab s))
               else s_d (emit (EWrite n (r_data r n)) (emits (map (EWrite n) ([] :: o_part o n)) s)))).
Proof.
  intros o r n m s s' H. unfold copy_file in H.
  destruct (look n (s_tab s)) as [y|] eqn:E; cbn [isS] in H; [left; split; [discriminate|auto]|right].
  set (s1 := if o_mkdir o n then s else fail s) in H.
  assert (F1 : s_d s1 = s_d s /\ s_tr s1 = s_tr s /\ s_idx s1 = s_idx s /\ s_werr s1 = s_werr s /\ s_tab s1 = s_tab s)
    by (unfold s1; destruct (o_mkdir o n); sp; reflexivity).
  clearbody s1. destruct F1 as (D1 & R1 & I1 & W1 & T1).
  destruct (o_sess o n); cbn [negb] in H.
  2:{ left. subst s'. cbn [fail s_ok s_idx s_tr s_d s_tab]. sp; auto; congruence. }
  assert (Hsd : forall es, s_d (emits es s1) = s_d (emits es s)).
  { clear -D1. intros es. revert s1 s D1. induction es as [|e es IH]; intros s1 s D1; cbn [emits]; auto.
    apply IH. cbn [emit s_d]. congruence. }
  specialize (Hsd (map (EWrite n) ([] :: o_part o n))).
  assert (F2 : Fr s1 (emits (map (EWrite n) ([] :: o_part o n)) s1)).
  { apply Fr_emits. intros e He. apply in_map_iff in He as (b & <- & _). reflexivity. }
  pose proof (tab_emits (map (EWrite n) ([] :: o_part o n)) s1) as T2.
  set (s2 := emits (map (EWrite n) ([] :: o_part o n)) s1) in *. clearbody s2.
  destruct F2 as (F21 & F22 & F23 & F24 & F25).
  destruct (o_fetch o n); cbn [negb] in H.
  2:{ left. subst s'. cbn [fail s_ok s_idx s_tr s_d s_tab]. sp; congruence. }
  right. cbn [emit s_d] in *. unfold add_file in H. cbn [emit s_tab s_d] in H. rewrite T2, T1, E in H. cbn [isS negb] in H.
  cbn [set_tab] in H.
  match type of H with context [sync _ ?q] => set (s3 := q) in H end.
  assert (F3 : s_d s3 = apply (s_d s2) (EWrite n (r_data r n)) /\ s_tab s3 = (n, m) :: s_tab s /\ s_idx s3 = s_idx s /\
    s_werr s3 = s_werr s /\ npub (s_tr s3) = npub (s_tr s)).
  { sp; cbn; try congruence. }
  clearbody s3. destruct F3 as (D3 & T3 & I3 & W3 & N3).
  assert (K3 : k_last (s_d s3) = k_last (s_d s)) by (rewrite D3, klast_apply; congruence).
  destruct (sync (o_sync3 o n) s3) as [s5 ok] eqn:E5.
  assert (D5 : s_d s5 = if o_sync3 o n then apply (s_d s3) (EMeta (s_idx s) ((n, m) :: s_tab s)) else s_d s3).
  { unfold sync in E5. destruct (o_sync3 o n); [injection E5 as <- <-; cbn [emit s_d]; congruence|].
    destruct (s_werr s3 =? 0); injection E5 as <- <-; reflexivity. }
  apply sync_Fr in E5 as (Ek & (G1 & G2 & G3) & G4 & G5 & G6 & G7).
  rewrite D3, Hsd in D5. subst s'. split; auto.
  destruct ok; cbn [fail s_ok s_idx s_tr s_d s_tab s_werr]; (sp; try congruence).
  intros _. rewrite G6 by congruence. exact W3.
Qed.

Lemma copy_file_X : forall o r n m s, wfT (s_d s) -> X r s -> look n (r_tab r) = Some m -> m_ref m = false ->
  let s' := copy_file o r n m s in
  s_ok s = true -> s_ok s' = true ->
  wfT (s_d s') /\ X r s' /\ s_werr s' = s_werr s /\ look n (s_tab s') <> None /\
  (forall x, look x (s_tab s) <> None -> look x (s_tab s') <> None) /\
  (forall x lm, look x (s_tab s') = Some lm -> look x (s_tab s) = Some lm \/ look x (r_tab r) = Some lm).
Proof.
  intros o r n m s Hw HX Hm Hr s' Hok Hok'. subst s'.
  destruct (copy_file_cases o r n m s _ eq_refl) as [(Hl & ->)|[(_ & Ho & _)|(Hn & HT & _ & _ & _ & Hwe & HD)]].
  - sp; auto.
  - congruence.
  - set (s' := copy_file o r n m s) in *. clearbody s'.
    set (s2 := emits (map (EWrite n) ([] :: o_part o n)) s) in *.
    assert (W2 : wfT (s_d s2)) by (apply emits_write_wfT; auto).
    assert (O2 : forall x, n <> x -> tcont (s_d s2) x = tcont (s_d s) x)
      by (intros x Hx; apply emits_write_other; auto).
    clearbody s2. cbn [emit s_d] in HD.
    assert (W3 : wfT (apply (s_d s2) (EWrite n (r_data r n)))) by (apply wfT_apply; auto; discriminate).
    assert (Hc : forall x, tcont (s_d s') x = tcont (apply (s_d s2) (EWrite n (r_data r n))) x).
    { intros x. rewrite HD. destruct (o_sync3 o n); auto. }
    split. { rewrite HD. destruct (o_sync3 o n); auto. }
    split.
    { intros x lm Hx. rewrite HT, look_cons in Hx. rewrite Hc. destruct (Z.eqb_spec n x) as [->|Hnx].
      - injection Hx as <-. exists m. sp; auto. intros _. apply tcont_write.
      - destruct (HX x lm Hx) as (m' & A1 & A2 & A3). exists m'. sp; auto. intros Hf.
        rewrite tcont_other, O2; auto. }
    split; [auto|]. rewrite HT. sp.
    + rewrite look_cons, Z.eqb_refl. discriminate.
    + intros x Hx. rewrite look_cons. destruct (n =? x); [discriminate|auto].
    + intros x lm. rewrite look_cons. destruct (Z.eqb_spec n x) as [->|]; auto.
      intros HH; injection HH as <-. auto.
Qed.

Lemma copy_file_Fr : forall o r n m s, let s' := copy_file o r n m s in
  s_idx s' = s_idx s /\ npub (s_tr s') = npub (s_tr s) /\ k_last (s_d s') = k_last (s_d s) /\
  (s_ok s' = true -> s_werr s' = s_werr s).
Proof.
  intros o r n m s s'. subst s'.
  destruct (copy_file_cases o r n m s _ eq_refl) as [(Hl & ->)|[(_ & Ho & H1 & H2 & H3 & _)|(Hn & HT & H1 & H2 & H3 & Hwe & HD)]].
  - sp; auto.
  - sp; auto. congruence.
  - sp; auto.
Qed.

Lemma copy_loop_Fr : forall o r l s, let s' := copy_loop o r l s in
  s_idx s' = s_idx s /\ npub (s_tr s') = npub (s_tr s) /\ k_last (s_d s') = k_last (s_d s) /\
  (s_ok s' = true -> s_werr s' = s_werr s /\ s_ok s = true).
Proof.
  intros o r; induction l as [|(n, m) l IH]; intros s; cbn [copy_loop].
  - cbv zeta. sp; auto.
  - destruct (s_ok s) eqn:Eo; [|cbv zeta; sp; auto; congruence].
    pose proof (copy_file_Fr o r n m s) as (F1 & F2 & F3 & F4).
    destruct (IH (copy_file o r n m s)) as (I1 & I2 & I3 & I4).
    cbv zeta. sp; try congruence. intros H. destruct (I4 H) as (J1 & J2). split; auto. rewrite J1; auto.
Qed.

Lemma copy_loop_X : forall o r l s, wfT (s_d s) -> X r s ->
  (forall n m, In (n, m) l -> look n (r_tab r) = Some m /\ m_ref m = false) ->
  let s' := copy_loop o r l s in s_ok s' = true ->
  wfT (s_d s') /\ X r s' /\
  (forall x, look x (s_tab s) <> None \/ In x (map fst l) -> look x (s_tab s') <> None) /\
  (forall x lm, look x (s_tab s') = Some lm -> look x (s_tab s) = Some lm \/ look x (r_tab r) = Some lm).
Proof.
  intros o r; induction l as [|(n, m) l IH]; intros s Hw HX Hin; cbn [copy_loop].
  - cbv zeta. intros _. sp; auto. intros x [?|[]]; auto.
  - destruct (s_ok s) eqn:Eo; [|cbv zeta; congruence]. cbv zeta. intros Hok.
    destruct (Hin n m (or_introl eq_refl)) as (Hm & Hr).
    assert (Hok1 : s_ok (copy_file o r n m s) = true) by (apply copy_loop_Fr in Hok; apply Hok).
    destruct (copy_file_X o r n m s Hw HX Hm Hr Eo Hok1) as (A1 & A2 & A3 & A4 & A5 & A6).
    destruct (IH (copy_file o r n m s)) as (B1 & B2 & B3 & B4); auto.
    { intros x y Hx. apply Hin; right; auto. }
    sp; auto.
    + intros x Hx. apply B3. cbn [map fst] in Hx. destruct Hx as [Hx|[->|Hx]]; auto.
    + intros x lm Hx. destruct (B4 x lm Hx) as [Hx'|]; auto.
Qed.
