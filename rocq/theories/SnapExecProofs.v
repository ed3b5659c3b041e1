From Verif Require Import Base BaseLemmas BallotBox SnapExec SnapExecSpec.

Definition saving_st (s : sx) : Prop := s_saving s = true /\ s_loading s = false /\ s_copier s = false /\ s_ds s = None.
Definition thr_ok (s : sx) : Prop :=
  match s_thr s with
  | [] => s_saving s = false /\ s_loading s = false /\ s_copier s = false /\ s_ds s = None
  | [t] =>
      match t with
      | TSave _ => saving_st s
      | TSave1 _ st ret idx _ => saving_st s /\ (ret = 0 -> s_last s < idx) /\ (st <> 0 -> ret <> 0)
      | TSave2 _ st ret idx _ => saving_st s /\ (ret = 0 -> s_last s = idx) /\ (st <> 0 -> ret <> 0)
      | TSave3 _ st ret idx _ => saving_st s /\ (ret = 0 -> s_last s = idx) /\ (st <> 0 -> ret <> 0)
      | TJoin id idx _ | TJoined id idx _ =>
          s_saving s = false /\ s_loading s = false /\ s_copier s = true /\ exists r, s_ds s = Some (id, r) /\ r_idx r = idx /\ s_last s < idx
      | TFsmLoad =>
          s_saving s = false /\ s_loading s = true /\ s_copier s = false /\ exists id r, s_ds s = Some (id, r) /\ r_idx r = fst (s_lmeta s) /\ s_last s < fst (s_lmeta s)
      | TLoaded m code =>
          s_saving s = false /\ s_loading s = true /\ s_copier s = false /\ exists id r, s_ds s = Some (id, r) /\ m = Some id /\ (if code =? 0 then s_last s = r_idx r else s_last s < r_idx r)
      end
  | _ => False
  end.
Definition joins (l : list thread) : Z := zlen (filter (fun t => match t with TJoin _ _ _ => true | _ => false end) l).
Definition sinv (s : sx) : Prop :=
  (s_down s = true -> s_stopped s = true) /\ s_tasks s = zlen (s_arr s) + joins (s_thr s) /\ s_jobs s = zlen (s_thr s) /\ thr_ok s.

(** What the snapshots recorded by a step do to the last index. *)
Definition lead (s : sx) : bool := match s_thr s with [TSave2 _ _ ret _ _] => ret =? 0 | _ => false end.
Definition rec_ok (s s' : sx) (o : list sout) : Prop :=
  s_last s <= s_last s' /\
  match recorded o with
  | [] => lead s' = true -> s_last s < s_last s' \/ lead s = true
  | [i] => i = s_last s' /\ lead s' = false /\ (s_last s < s_last s' \/ (lead s = true))
  | _ => False
  end.

Lemma one_thr : forall s k t, sinv s -> nth_error (s_thr s) k = Some t -> s_thr s = [t] /\ k = O.
Proof.
  intros s k t [_ [_ [_ H]]] E. unfold thr_ok in H. destruct (s_thr s) as [|x [|y l]]; [destruct k; discriminate| |destruct H].
  destruct k as [|k]; [injection E as ->; auto|destruct k; discriminate].
Qed.
Lemma remove_len : forall A k (l : list A) x, nth_error l k = Some x -> zlen (replace_nth k [] l) = zlen l - 1.
Proof.
  induction k as [|k IH]; intros [|y l] x H; try discriminate; cbn [replace_nth app]; rewrite !zlen_cons; [lia|]. rewrite (IH _ _ H). lia.
Qed.
Lemma recorded_user : forall d c, recorded (user d c) = [].
Proof. intros [d|] c; reflexivity. Qed.
Lemma recorded_app : forall a b, recorded (a ++ b) = recorded a ++ recorded b.
Proof. intros. apply flat_map_app. Qed.

Ltac sproj := cbn [s_last s_lterm s_term s_saving s_loading s_lmeta s_stopped s_down s_copier s_ds s_jobs s_tasks s_next s_arr s_thr set_thr] in *.

Definition sgood (s s' : sx) (o : list sout) : Prop := sinv s' /\ s_last s <= s_last s'.

Lemma sinv_same : forall s s', sinv s -> s_last s' = s_last s -> s_saving s' = s_saving s -> s_loading s' = s_loading s -> s_lmeta s' = s_lmeta s -> s_copier s' = s_copier s -> s_ds s' = s_ds s -> s_thr s' = s_thr s ->
  (s_down s' = true -> s_stopped s' = true) -> s_tasks s' = zlen (s_arr s') + joins (s_thr s') -> s_jobs s' = s_jobs s -> sinv s'.
Proof.
  intros s s' [H1 [H2 [H3 H4]]] E1 E2 E3 E4 E5 E6 E7 E8 E9 E10. split; auto. split; auto. split; [rewrite E10, E7; exact H3|].
  unfold thr_ok, saving_st in *. rewrite E1, E2, E3, E4, E5, E6, E7. exact H4.
Qed.

Ltac leadt Th := first [left; reflexivity | right; unfold lead; sproj; rewrite ?Th; reflexivity].
Definition no_back (s : sx) (e : sev) : Prop :=
  match e with
  | EvTerm t => s_term s <= t
  | EvSave1 k _ _ _ => exists d, nth_error (s_thr s) k = Some (TSave d)
  | EvSave2 k _ _ => exists d a b c e, nth_error (s_thr s) k = Some (TSave1 d a b c e)
  | EvSave3 k => exists d a b c e, nth_error (s_thr s) k = Some (TSave2 d a b c e)
  | EvSave4 k => exists d a b c e, nth_error (s_thr s) k = Some (TSave3 d a b c e)
  | EvRegister k _ => exists r, nth_error (s_arr s) k = Some r
  | EvJoined k => exists a b c, nth_error (s_thr s) k = Some (TJoin a b c)
  | EvCopied k _ => exists a b c, nth_error (s_thr s) k = Some (TJoined a b c)
  | EvLoad1 k _ => nth_error (s_thr s) k = Some TFsmLoad
  | EvLoad2 k => exists m c, nth_error (s_thr s) k = Some (TLoaded m c)
  | _ => True
  end.
(** A successful answer says that the snapshot is there. *)
Definition resp_ok (s' : sx) (o : list sout) : Prop := forall r t, In (OResp r (AResp true t)) o -> r_idx r <= s_last s' /\ t = r_term r.

Lemma resp_nil : forall s, resp_ok s []. Proof. intros s r t []. Qed.
Lemma resp_user : forall s d c, resp_ok s (user d c).
Proof. intros s [d|] c r t; cbn; [intros [K|[]]; discriminate|tauto]. Qed.

Lemma idle : forall s, thr_ok s -> s_ds s = None -> s_saving s = false -> s_thr s = [].
Proof.
  intros s H Ds Sv. unfold thr_ok, saving_st in H. rewrite Ds, Sv in H. destruct (s_thr s) as [|t [|? ?]]; auto; [|destruct H]. exfalso.
  destruct t; repeat match goal with K : _ /\ _ |- _ => destruct K | K : exists _, _ |- _ => destruct K end; discriminate.
Qed.
Lemma copier_on : forall s x, thr_ok s -> s_ds s = Some x -> s_loading s = false -> s_copier s = true.
Proof.
  intros s x H Ds Ld. unfold thr_ok, saving_st in H. rewrite Ds, Ld in H. destruct (s_thr s) as [|t [|? ?]]; [destruct H as [_ [_ [_ ?]]]; discriminate| |destruct H].
  destruct t; repeat match goal with K : _ /\ _ |- _ => destruct K | K : exists _, _ |- _ => destruct K end; auto; discriminate.
Qed.
Lemma sstep_ok : forall s e, sinv s -> no_back s e -> exists s' o, sstep s e = Some (s', o) /\ sinv s' /\ rec_ok s s' o /\ resp_ok s' o.
Proof.
  intros s e I N. pose proof I as [D [Tk [Jb TH]]].
  assert (Rsame : forall s' o, s_last s' = s_last s -> recorded o = [] -> s_thr s' = s_thr s \/ lead s' = false -> rec_ok s s' o).
  { intros s' o E E2 E3. unfold rec_ok; rewrite E, E2; split; [lia|]. intros K. right. destruct E3 as [E3|E3]; [|congruence]. unfold lead in *. rewrite <- E3. exact K. }
  destruct e; cbn [sstep no_back] in *.
  - (* do_snapshot *)
    unfold do_snapshot. eexists _, _. split; [rewrite <- surjective_pairing; reflexivity|].
    assert (U : forall o, recorded o = [] -> resp_ok s o -> sinv s /\ rec_ok s s o /\ resp_ok s o) by (intros; split; auto; split; auto; apply Rsame; auto).
    destruct (s_stopped s) eqn:St; cbn [fst snd]; [apply U; [apply recorded_user|apply resp_user]|].
    destruct (s_ds s) eqn:Ds; cbn [fst snd]; [apply U; [apply recorded_user|apply resp_user]|].
    destruct (s_saving s) eqn:Sv; cbn [fst snd]; [apply U; [apply recorded_user|apply resp_user]|].
    destruct (applied - s_last s <? gap); cbn [fst snd]; [apply U; [apply recorded_user|apply resp_user]|].
    destruct (negb made); cbn [fst snd].
    { apply U; [rewrite recorded_app, recorded_user; reflexivity|]. intros r t K. apply in_app_or in K. destruct K as [K|[K|[]]]; [exact (resp_user s done X_EIO r t K)|discriminate]. }
    destruct (s_down s) eqn:Dn; [specialize (D eq_refl); congruence|]. cbn [fst snd].
    assert (Th : s_thr s = []) by (apply idle; auto).
    rewrite Th in *. split; [|split; [apply Rsame; [reflexivity|reflexivity|leadt Th]|apply resp_nil]].
    split; [sproj; congruence|]. split; [sproj; rewrite Tk; reflexivity|]. split; [sproj; rewrite Jb; reflexivity|]. unfold thr_ok, saving_st in *. sproj. cbn [app]. rewrite Th in TH. tauto.
  - destruct N as [d N]. destruct (one_thr _ _ _ I N) as [Th ->]. unfold save_done1. rewrite N. eexists _, _. split; [reflexivity|].
    split; [|split; [apply Rsame; [reflexivity|reflexivity|leadt Th]|apply resp_nil]]. rewrite Th in *. split; [exact D|]. split; [exact Tk|]. split; [exact Jb|]. unfold thr_ok, saving_st in *. sproj. rewrite Th in TH. cbn [replace_nth app].
    split; [exact TH|]. destruct (Z.eqb_spec st 0).
    + destruct (Z.leb_spec idx (s_last s)); split; intros; auto; try lia; discriminate.
    + split; intros; auto; congruence.
  - destruct N as [d [st [ret [idx [term N]]]]]. destruct (one_thr _ _ _ I N) as [Th ->]. unfold save_done2. rewrite N. cbv zeta. eexists _, _. split; [reflexivity|].
    set (ret2 := if closed then if ret =? 0 then if meta_ok then 0 else X_EIO else ret else X_EIO).
    unfold thr_ok, saving_st in TH. rewrite Th in TH. destruct TH as [T1 [T2 T3]].
    assert (R2 : ret2 = 0 -> ret = 0). { unfold ret2, X_EIO. destruct closed, (Z.eqb_spec ret 0), meta_ok; intros; auto; discriminate. }
    assert (R3 : st <> 0 -> ret2 <> 0) by (intros H K; exact (T3 H (R2 K))).
    destruct (Z.eqb_spec ret2 0) as [E|E].
    + assert (Lt : s_last s < idx) by auto. split; [|split].
      * rewrite Th in *. split; [exact D|]. split; [exact Tk|]. split; [exact Jb|]. unfold thr_ok, saving_st in *. sproj. rewrite ?Th. cbn [replace_nth app]. auto.
      * unfold rec_ok. sproj. split; [lia|]. intros _. left. lia.
      * apply resp_nil.
    + split; [|split; [|apply resp_nil]].
      * rewrite Th in *. split; [exact D|]. split; [exact Tk|]. split; [exact Jb|]. unfold thr_ok, saving_st in *. sproj. rewrite ?Th. cbn [replace_nth app]. split; [exact T1|]. split; auto. intros K. congruence.
      * apply Rsame; [reflexivity|reflexivity|]. right. unfold lead; sproj; rewrite Th; cbn [replace_nth app]; apply Z.eqb_neq; exact E.
  - destruct N as [d [st [ret [idx [term N]]]]]. destruct (one_thr _ _ _ I N) as [Th ->]. unfold save_done3. rewrite N. eexists _, _. split; [reflexivity|].
    unfold thr_ok, saving_st in TH. rewrite Th in TH. destruct TH as [T1 [T2 T3]]. split; [|split].
    + rewrite Th in *. split; [exact D|]. split; [exact Tk|]. split; [exact Jb|]. unfold thr_ok, saving_st. sproj. rewrite ?Th. cbn [replace_nth app]. auto.
    + unfold rec_ok. sproj. split; [lia|]. destruct (Z.eqb_spec ret 0) as [E|E]; cbn; [|unfold lead; sproj; rewrite Th; cbn; discriminate]. split; [symmetry; auto|]. unfold lead. sproj. rewrite Th. cbn [replace_nth app]. split; auto. right. apply Z.eqb_eq. exact E.
    + destruct (ret =? 0); intros r t K; cbn in K; intuition discriminate.
  - destruct N as [d [st [ret [idx [term N]]]]]. destruct (one_thr _ _ _ I N) as [Th ->]. unfold save_done4. rewrite N. eexists _, _. split; [reflexivity|].
    unfold thr_ok, saving_st in TH. rewrite Th in TH. destruct TH as [T1 [T2 T3]]. split; [|split].
    + rewrite Th in *. split; [exact D|]. split; [exact Tk|]. split; [sproj; rewrite Jb; reflexivity|]. unfold thr_ok. sproj. rewrite ?Th. cbn [replace_nth app]. tauto.
    + apply Rsame; [reflexivity| |leadt Th]. rewrite recorded_app, recorded_user. destruct (ret =? X_EIO); reflexivity.
    + intros r t K. apply in_app_or in K. destruct K as [K|K]; [destruct (ret =? X_EIO); cbn in K; intuition discriminate|exact (resp_user s _ _ r t K)].
  - (* install *)
    unfold install. eexists _, _. split; [rewrite <- surjective_pairing; reflexivity|]. destruct admitted; cbn [fst snd].
    + split; [|split; [apply Rsame; [reflexivity|reflexivity|leadt Th]|apply resp_nil]]. apply (sinv_same s); auto. sproj. rewrite Tk, zlen_app. change (zlen [r]) with 1. lia.
    + split; [exact I|]. split; [apply Rsame; [reflexivity|reflexivity|leadt Th]|]. intros r0 t [K|[]]. discriminate.
  - (* register *)
    destruct N as [r N]. unfold register. rewrite N. cbv zeta. pose proof (remove_len _ _ _ _ N) as Len. set (arr := replace_nth k [] (s_arr s)) in *.
    assert (Ref : forall a o, recorded o = [] -> (forall r0 t, In (OResp r0 (AResp true t)) o -> False) -> (forall t, a = AResp true t -> r_idx r <= s_last s /\ t = r_term r) ->
      exists s' o', refuse r arr s a o = Some (s', o') /\ sinv s' /\ rec_ok s s' o' /\ resp_ok s' o').
    { intros a o Ho Hr Ha. eexists _, _. split; [reflexivity|]. split; [|split].
      - apply (sinv_same s); auto. sproj. lia.
      - apply Rsame; [reflexivity| |leadt Th]. rewrite recorded_app, Ho. reflexivity.
      - intros r0 t K. sproj. apply in_app_or in K. destruct K as [K|[K|[]]]; [destruct (Hr _ _ K)|]. injection K as -> ->. apply Ha. reflexivity. }
    destruct (s_stopped s) eqn:St; [apply (Ref _ []); auto; discriminate|]. 
    destruct (Z.eqb_spec (r_term r) (s_term s)) as [Et|Et]; cbn [negb]; [|apply (Ref _ []); auto; discriminate].
    destruct (Z.leb_spec (r_idx r) (s_last s)) as [Hi|Hi]; [apply (Ref _ []); auto; intros t K; injection K as <-; auto|].
    destruct (s_saving s) eqn:Sv; [apply (Ref _ []); auto; discriminate|]. 
    destruct (s_ds s) as [[id m]|] eqn:Ds.
    + destruct (Z.eqb_spec (r_idx m) (r_idx r)) as [Ei|Ei].
      * eexists _, _. split; [reflexivity|]. split; [|split].
        -- split; [exact D|]. split; [sproj; lia|]. split; [exact Jb|]. unfold thr_ok, saving_st in *. sproj. rewrite Ds in TH. rewrite Sv in *.
           destruct (s_thr s) as [|t [|? ?]]; auto; [destruct TH as [_ [_ [_ ?]]]; discriminate|].
           destruct t; try (destruct TH as [TH _]; discriminate TH); try (destruct TH as [[TH _] _]; discriminate TH).
           ++ destruct TH as [T1 [T2 [T3 [r0 [T4 [T5 T6]]]]]]. injection T4 as <- <-. repeat split; auto. exists r. repeat split; auto. congruence.
           ++ destruct TH as [T1 [T2 [T3 [r0 [T4 [T5 T6]]]]]]. injection T4 as <- <-. repeat split; auto. exists r. repeat split; auto. congruence.
           ++ destruct TH as [T1 [T2 [T3 [i0 [r0 [T4 [T5 T6]]]]]]]. injection T4 as <- <-. repeat split; auto. exists id, r. repeat split; auto. congruence.
           ++ destruct TH as [T1 [T2 [T3 [i0 [r0 [T4 [T5 T6]]]]]]]. injection T4 as <- <-. repeat split; auto. exists id, r. repeat split; auto. rewrite <- Ei. exact T6.
        -- apply Rsame; [reflexivity|reflexivity|leadt Th].
        -- intros r0 t [K|[]]. discriminate.
      * destruct (r_idx r <? r_idx m); [apply (Ref _ []); auto; discriminate|]. destruct (s_loading s) eqn:Ld; [apply (Ref _ []); auto; discriminate|]. 
        assert (Cp : s_copier s = true) by (eapply copier_on; eauto).
        rewrite Cp. apply (Ref _ [OCancel]); auto; try discriminate. intros r0 t [K|[]]. discriminate.
    + assert (Th : s_thr s = []) by (apply idle; auto).
      unfold thr_ok in TH. rewrite Th in TH. destruct TH as [T1 [T2 [T3 T4]]]. destruct (s_copier s) eqn:Cp; [discriminate|]. 
      destruct copying; [|apply (Ref _ []); auto; discriminate].
      eexists _, _. split; [reflexivity|]. split; [|split].
      * rewrite Th in *. split; [exact D|]. split; [sproj; rewrite Tk in *; cbn [app]; change (joins [TJoin (s_next s) (r_idx r) (r_sterm r)]) with 1; change (joins []) with 0 in *; lia|]. split; [sproj; rewrite Jb; reflexivity|].
        unfold thr_ok. sproj. cbn [app]. repeat split; auto. exists r. auto.
      * apply Rsame; [reflexivity|reflexivity|leadt Th].
      * apply resp_nil.
  - destruct N as [id [idx [term N]]]. destruct (one_thr _ _ _ I N) as [Th ->]. unfold joined. rewrite N. unfold thr_ok in TH. rewrite Th in TH. destruct TH as [T1 [T2 [T3 T4]]]. rewrite T3. eexists _, _. split; [reflexivity|].
    split; [|split; [apply Rsame; [reflexivity|reflexivity|leadt Th]|apply resp_nil]]. rewrite Th in *. split; [exact D|]. split; [sproj; change (joins [TJoin id idx term]) with 1 in Tk; cbn [replace_nth app]; change (joins [TJoined id idx term]) with 0; lia|]. split; [exact Jb|].
    unfold thr_ok. sproj. rewrite ?Th. cbn [replace_nth app]. auto.
  - destruct N as [id [idx [term N]]]. destruct (one_thr _ _ _ I N) as [Th ->]. unfold load_downloading. rewrite N. unfold thr_ok in TH. rewrite Th in TH. destruct TH as [T1 [T2 [T3 [r [T4 [T5 T6]]]]]]. rewrite T4, T3, Z.eqb_refl. cbn [negb].
    assert (F : forall a o, recorded o = [] -> (forall r0 t, In (OResp r0 (AResp true t)) o -> False) -> (forall t, a <> AResp true t) ->
      exists s' o', copy_failed 0 r s a o = Some (s', o') /\ sinv s' /\ rec_ok s s' o' /\ resp_ok s' o').
    { intros a o Ho Hr Ha. eexists _, _. split; [reflexivity|]. split; [|split].
      - rewrite Th in *. split; [exact D|]. split; [exact Tk|]. split; [sproj; rewrite Jb; reflexivity|]. unfold thr_ok. sproj. rewrite ?Th. cbn [replace_nth app]. auto.
      - apply Rsame; [reflexivity| |leadt Th]. rewrite recorded_app, Ho. reflexivity.
      - intros r0 t K. apply in_app_or in K. destruct K as [K|[K|[]]]; [destruct (Hr _ _ K)|]. injection K as _ K. exfalso. exact (Ha t K). }
    destruct c.
    + apply F; try discriminate; destruct (code =? X_EIO); auto; intros r0 t K; cbn in K; intuition discriminate.
    + apply F; auto; discriminate.
    + eexists _, _. split; [reflexivity|]. split; [|split; [apply Rsame; [reflexivity|reflexivity|leadt Th]|apply resp_nil]].
      rewrite Th in *. split; [exact D|]. split; [exact Tk|]. split; [exact Jb|]. unfold thr_ok. sproj. rewrite ?Th. cbn [replace_nth app]. repeat split; auto. exists id, r. auto.
  - destruct (one_thr _ _ _ I N) as [Th ->]. unfold load_done1. rewrite N. unfold thr_ok in TH. rewrite Th in TH. destruct TH as [T1 [T2 [T3 [id [r [T4 [T5 T6]]]]]]]. rewrite T2. cbn [negb]. cbv zeta. rewrite T4. cbn [option_map fst].
    destruct (Z.eqb_spec code 0) as [E|E].
    + eexists _, _. split; [reflexivity|]. split; [|split].
      * rewrite Th in *. split; [exact D|]. split; [exact Tk|]. split; [exact Jb|]. unfold thr_ok. sproj. rewrite ?Th. cbn [replace_nth app]. repeat split; auto. exists id, r. rewrite E, Z.eqb_refl. auto.
      * unfold rec_ok. sproj. split; [lia|]. cbn. split; auto. split; [|left; auto]. unfold lead. sproj. rewrite Th. reflexivity.
      * intros r0 t [K|[]]. discriminate.
    + eexists _, _. split; [reflexivity|]. split; [|split; [apply Rsame; [reflexivity|reflexivity|leadt Th]|apply resp_nil]].
      rewrite Th in *. split; [exact D|]. split; [exact Tk|]. split; [exact Jb|]. unfold thr_ok. sproj. rewrite ?Th. cbn [replace_nth app]. repeat split; auto. exists id, r. apply Z.eqb_neq in E. rewrite E. repeat split; auto. congruence.
  - destruct N as [m [code N]]. destruct (one_thr _ _ _ I N) as [Th ->]. unfold load_done2. rewrite N. cbv zeta. unfold thr_ok in TH. rewrite Th in TH. destruct TH as [T1 [T2 [T3 [id [r [T4 [-> T6]]]]]]]. rewrite T4, Z.eqb_refl.
    eexists _, _. split; [reflexivity|]. split; [|split].
    + rewrite Th in *. split; [exact D|]. split; [exact Tk|]. split; [sproj; rewrite Jb; reflexivity|]. unfold thr_ok. sproj. rewrite ?Th. cbn [replace_nth app]. auto.
    + apply Rsame; [reflexivity|reflexivity|leadt Th].
    + intros r0 t [K|[]]. destruct (code =? 0); [|discriminate]. injection K as <- <-. sproj. split; [lia|auto].
  - unfold interrupt. destruct (Z.ltb_spec t (s_term s)); [lia|]. cbv zeta. sproj.
    assert (F : forall o, recorded o = [] -> (forall r t0, ~ In (OResp r (AResp true t0)) o) -> exists s' o', Some (mkSx (s_last s) (s_lterm s) t (s_saving s) (s_loading s) (s_lmeta s) (s_stopped s) (s_down s) (s_copier s) (s_ds s) (s_jobs s) (s_tasks s) (s_next s) (s_arr s) (s_thr s), o) = Some (s', o') /\ sinv s' /\ rec_ok s s' o' /\ resp_ok s' o').
    { intros o Ho Hr. eexists _, _. split; [reflexivity|]. split; [apply (sinv_same s); auto|]. split; [apply Rsame; auto|]. intros r t0 K. exfalso. exact (Hr _ _ K). }
    destruct (s_ds s) as [[id r]|] eqn:Ds; [|apply F; auto]. destruct (s_loading s) eqn:Ld; [apply F; auto|].
    assert (Cp : s_copier s = true) by (eapply copier_on; eauto).
    rewrite Cp in *. apply F; auto. intros r0 t0 [K|[]]. discriminate.
  - unfold shutdown, interrupt. sproj. destruct (Z.ltb_spec (s_term s) (s_term s)); [lia|]. cbv zeta. sproj.
    assert (F : forall o, recorded o = [] -> (forall r t0, ~ In (OResp r (AResp true t0)) o) -> exists s' o', Some (mkSx (s_last s) (s_lterm s) (s_term s) (s_saving s) (s_loading s) (s_lmeta s) true (s_down s) (s_copier s) (s_ds s) (s_jobs s) (s_tasks s) (s_next s) (s_arr s) (s_thr s), o) = Some (s', o') /\ sinv s' /\ rec_ok s s' o' /\ resp_ok s' o').
    { intros o Ho Hr. eexists _, _. split; [reflexivity|]. split; [apply (sinv_same s); auto|]. split; [apply Rsame; auto|]. intros r t0 K. exfalso. exact (Hr _ _ K). }
    destruct (s_ds s) as [[id r]|] eqn:Ds; [|apply F; auto]. destruct (s_loading s) eqn:Ld; [apply F; auto|].
    assert (Cp : s_copier s = true) by (eapply copier_on; eauto).
    rewrite Cp in *. apply F; auto. intros r0 t0 [K|[]]. discriminate.
  - eexists _, _. split; [reflexivity|]. split; [apply (sinv_same s); auto|]. split; [apply Rsame; auto|apply resp_nil].
Qed.

Lemma sinit_inv : forall a b c, sinv (sinit a b c).
Proof. intros. split; [discriminate|]. split; [reflexivity|]. split; [reflexivity|]. cbn. auto. Qed.
Lemma Some_no_back : forall s e x, sstep s e = Some x -> no_back s e.
Proof.
  intros s e x H. destruct e; cbn [sstep no_back] in *; auto.
  - unfold save_done1 in H. destruct (nth_error (s_thr s) k) as [[]|]; try discriminate; eauto.
  - unfold save_done2 in H. destruct (nth_error (s_thr s) k) as [[]|]; try discriminate; eauto 10.
  - unfold save_done3 in H. destruct (nth_error (s_thr s) k) as [[]|]; try discriminate; eauto 10.
  - unfold save_done4 in H. destruct (nth_error (s_thr s) k) as [[]|]; try discriminate; eauto 10.
  - unfold register in H. destruct (nth_error (s_arr s) k); try discriminate; eauto.
  - unfold joined in H. destruct (nth_error (s_thr s) k) as [[]|]; try discriminate; eauto.
  - unfold load_downloading in H. destruct (nth_error (s_thr s) k) as [[]|]; try discriminate; eauto.
  - unfold load_done1 in H. destruct (nth_error (s_thr s) k) as [[]|]; try discriminate; eauto.
  - unfold load_done2 in H. destruct (nth_error (s_thr s) k) as [[]|]; try discriminate; eauto.
  - unfold interrupt in H. destruct (Z.ltb_spec t (s_term s)); [discriminate|lia].
Qed.
Lemma sstep_good : forall s e s' o, sinv s -> sstep s e = Some (s', o) -> sinv s' /\ rec_ok s s' o /\ resp_ok s' o.
Proof.
  intros s e s' o I H. destruct (sstep_ok s e I (Some_no_back _ _ _ H)) as [s1 [o1 [H1 H2]]]. rewrite H in H1. injection H1 as <- <-. exact H2.
Qed.
Lemma slife_inv : forall a b c s h os, slife a b c s h os -> sinv s.
Proof. intros a b c s h os L. induction L; [apply sinit_inv|]. apply (sstep_good _ _ _ _ IHL) in H. apply H. Qed.

Lemma last_cons_any : forall m (d e : Z) z, last (z :: m) d = last (z :: m) e.
Proof. induction m as [|w m IH]; intros; [reflexivity|]. change (last (w :: m) d = last (w :: m) e). apply IH. Qed.
Lemma increasing_snoc : forall l a x, increasing a l -> last l a < x -> increasing a (l ++ [x]).
Proof.
  induction l as [|y l IH]; intros a x H K; [cbn in *; auto|]. destruct H as [H1 H2]. split; auto. apply IH; auto. destruct l as [|z l]; [exact K|]. change (last (z :: l) a < x) in K. rewrite (last_cons_any l y a z). exact K.
Qed.

(** The snapshots recorded grow, and do not pass the last index. *)
Lemma slife_recorded : forall a b c s h os, slife a b c s h os ->
  increasing a (recorded os) /\ last (recorded os) a <= s_last s /\ (lead s = true -> last (recorded os) a < s_last s).
Proof.
  intros a b c s h os L. induction L.
  - cbn. split; auto. split; [lia|discriminate].
  - pose proof (slife_inv _ _ _ _ _ _ L) as I. destruct (sstep_good _ _ _ _ I H) as [I' [[R1 R2] _]]. destruct IHL as [J1 [J2 J3]]. rewrite recorded_app.
    destruct (recorded o) as [|i [|? ?]] eqn:E; [| |destruct R2].
    + rewrite app_nil_r. split; auto. split; [lia|]. intros Le. destruct (R2 Le) as [R3|R3]; [lia|]. specialize (J3 R3). lia.
    + destruct R2 as [R2 [R3 R4]]. subst i. rewrite last_last. split; [|split; [lia|congruence]].
      apply increasing_snoc; auto. destruct R4 as [R4|R4]; [lia|]. specialize (J3 R4). lia.
Qed.

(** * Who is owed an answer *)
Lemma remove_perm : forall A k (l : list A) x, nth_error l k = Some x -> Permutation l (x :: replace_nth k [] l).
Proof.
  induction k as [|k IH]; intros [|y l] x H; try discriminate; cbn [replace_nth app]; [injection H as ->; reflexivity|]. rewrite (IH _ _ H) at 1. apply perm_swap.
Qed.
Definition received1 (e : sev) : list rpc := match e with EvInstall r _ => [r] | _ => [] end.
Definition given1 (e : sev) : list closure := match e with EvSnapshot (Some c) _ _ _ => [c] | _ => [] end.
Definition pendc (s : sx) : list closure := flat_map save_closure (s_thr s).
Lemma answered_user : forall d c, answered (user d c) = []. Proof. intros [d|] c; reflexivity. Qed.
Lemma answered_app : forall a b, answered (a ++ b) = answered a ++ answered b. Proof. intros. apply flat_map_app. Qed.
Lemma run_app : forall a b, run (a ++ b) = run a ++ run b. Proof. intros. apply flat_map_app. Qed.
Lemma run_user : forall d c, run (user d c) = match d with Some c => [c] | None => [] end. Proof. intros [d|] c; reflexivity. Qed.

Lemma sstep_acct : forall s e s' o, sinv s -> sstep s e = Some (s', o) ->
  Permutation (held s ++ received1 e) (answered o ++ held s') /\ Permutation (pendc s ++ given1 e) (run o ++ pendc s').
Proof.
  intros s e s' o I H. pose proof I as [D [_ [_ TH]]].
  assert (Hsame : s_arr s' = s_arr s -> s_ds s' = s_ds s -> held s' = held s) by (intros E1 E2; unfold held; rewrite E1, E2; reflexivity).
  assert (Csame : s_thr s' = s_thr s -> pendc s' = pendc s) by (intros E1; unfold pendc; rewrite E1; reflexivity).
  destruct e; cbn [sstep received1 given1] in *; rewrite ?app_nil_r.
  - injection H as H. unfold do_snapshot in H.
    assert (X : forall code o1, answered o1 = [] -> run o1 = [] -> (s, user done code ++ o1) = (s', o) -> Permutation (held s) (answered o ++ held s') /\ Permutation (pendc s ++ match done with Some c => [c] | None => [] end) (run o ++ pendc s')).
    { intros code o1 A1 A2 K. injection K as <- <-. rewrite answered_app, run_app, answered_user, run_user, A1, A2, !app_nil_r. cbn [app]. split; auto. apply Permutation_app_comm. }
    assert (X0 : forall code, (s, user done code) = (s', o) -> Permutation (held s) (answered o ++ held s') /\ Permutation (pendc s ++ match done with Some c => [c] | None => [] end) (run o ++ pendc s')).
    { intros code K. apply (X code []); auto. rewrite app_nil_r. exact K. }
    destruct (s_stopped s) eqn:St; [exact (X0 _ H)|]. destruct (s_ds s) eqn:Ds0; [exact (X0 _ H)|]. destruct (s_saving s); [exact (X0 _ H)|]. destruct (_ <? gap); [exact (X0 _ H)|]. destruct (negb made); [exact (X X_EIO [OErr X_EIO] eq_refl eq_refl H)|].
    destruct (s_down s); [specialize (D eq_refl); congruence|]. injection H as <- <-. split; [unfold held; sproj; rewrite Ds0; reflexivity|]. unfold pendc. sproj. rewrite flat_map_app. cbn. rewrite app_nil_r. destruct done; reflexivity.
  - destruct (Some_no_back _ (EvSave1 k st idx term) _ H) as [d N]. destruct (one_thr _ _ _ I N) as [T1 ->]. unfold save_done1 in H. rewrite N, T1 in H. injection H as <- <-. split; [reflexivity|]. unfold pendc. sproj. rewrite T1. cbn. destruct d; reflexivity.
  - destruct (Some_no_back _ (EvSave2 k meta_ok closed) _ H) as [d [st1 [ret [idx1 [term1 N]]]]]. destruct (one_thr _ _ _ I N) as [T1 ->]. unfold save_done2 in H. rewrite N, T1 in H. cbv zeta in H. injection H as <- <-. unfold pendc, held. destruct (_ =? 0); sproj; rewrite T1; cbn; split; try reflexivity; destruct d; reflexivity.
  - destruct (Some_no_back _ (EvSave3 k) _ H) as [d [st1 [ret [idx1 [term1 N]]]]]. destruct (one_thr _ _ _ I N) as [T1 ->]. unfold save_done3 in H. rewrite N, T1 in H. injection H as <- <-. unfold pendc, held. sproj. rewrite T1. destruct (ret =? 0); cbn; split; try reflexivity; destruct d; reflexivity.
  - destruct (Some_no_back _ (EvSave4 k) _ H) as [d [st1 [ret [idx1 [term1 N]]]]]. destruct (one_thr _ _ _ I N) as [T1 ->]. unfold save_done4 in H. rewrite N, T1 in H. injection H as <- <-. unfold pendc, held. sproj. rewrite T1, answered_app, answered_user, run_app, run_user. destruct (ret =? X_EIO); cbn; split; try reflexivity; destruct d; reflexivity.
  - injection H as H. unfold install in H. destruct admitted; injection H as <- <-; [|split; [apply Permutation_app_comm|reflexivity]]. split; [|reflexivity]. unfold held. sproj. cbn. rewrite <- !app_assoc. apply Permutation_app_head. apply Permutation_app_comm.
  - unfold register in H. destruct (nth_error (s_arr s) k) as [r|] eqn:N; [|discriminate]. cbv zeta in H. pose proof (remove_perm _ _ _ _ N) as P.
    assert (Ref : forall a o1, answered o1 = [] -> run o1 = [] -> refuse r (replace_nth k [] (s_arr s)) s a o1 = Some (s', o) -> Permutation (held s) (answered o ++ held s') /\ Permutation (pendc s) (run o ++ pendc s')).
    { intros a o1 A1 A2 K. unfold refuse in K. injection K as <- <-. rewrite answered_app, run_app, A1, A2. split; [|reflexivity]. unfold held. sproj. rewrite P at 1. reflexivity. }
    destruct (s_stopped s); [exact (Ref _ [] eq_refl eq_refl H)|]. destruct (negb _); [exact (Ref _ [] eq_refl eq_refl H)|]. destruct (_ <=? _); [exact (Ref _ [] eq_refl eq_refl H)|]. destruct (s_saving s); [exact (Ref _ [] eq_refl eq_refl H)|].
    destruct (s_ds s) as [[id m]|] eqn:Ds.
    + destruct (_ =? _).
      * injection H as <- <-. split; [|reflexivity]. unfold held. sproj. rewrite Ds. cbn [answered flat_map app]. rewrite P at 1. cbn [app]. rewrite <- Permutation_cons_append. rewrite perm_swap. apply perm_skip. apply Permutation_cons_append.
      * destruct (_ <? _); [exact (Ref _ [] eq_refl eq_refl H)|]. destruct (s_loading s); [exact (Ref _ [] eq_refl eq_refl H)|]. destruct (s_copier s); [exact (Ref _ [OCancel] eq_refl eq_refl H)|discriminate].
    + destruct (s_copier s); [discriminate|]. destruct copying; [|exact (Ref _ [] eq_refl eq_refl H)]. injection H as <- <-. unfold held, pendc. sproj. rewrite Ds, app_nil_r. cbn [answered run flat_map app]. split; [rewrite P at 1; apply Permutation_cons_append|]. rewrite flat_map_app. cbn. rewrite app_nil_r. reflexivity.
  - destruct (Some_no_back _ (EvJoined k) _ H) as [d [st1 [ret N]]]. destruct (one_thr _ _ _ I N) as [T1 ->]. unfold joined in H. rewrite N, T1 in H. destruct (s_copier s); [|discriminate]. injection H as <- <-. unfold pendc, held. sproj. rewrite T1. split; reflexivity.
  - destruct (Some_no_back _ (EvCopied k c) _ H) as [d [st1 [ret N]]]. destruct (one_thr _ _ _ I N) as [T1 ->]. unfold load_downloading in H. rewrite N in H. destruct (s_ds s) as [[id r]|] eqn:Ds; [|discriminate]. destruct (negb _); [discriminate|]. destruct (negb _); [discriminate|].
    cbv zeta in H. unfold pendc, held. rewrite T1, Ds.
    assert (F : forall a o1, answered o1 = [] -> run o1 = [] -> copy_failed 0 r s a o1 = Some (s', o) -> Permutation (s_arr s ++ [r]) (answered o ++ s_arr s' ++ match s_ds s' with Some (_, r) => [r] | None => [] end) /\ Permutation (flat_map save_closure [TJoined d st1 ret]) (run o ++ flat_map save_closure (s_thr s'))).
    { intros a o1 A1 A2 K. unfold copy_failed in K. injection K as <- <-. rewrite answered_app, run_app, A1, A2. sproj. rewrite T1. cbn. rewrite app_nil_r. split; [|reflexivity]. symmetry. apply Permutation_cons_append. }
    destruct c; [destruct (code =? X_EIO); [exact (F _ [OErr X_EIO] eq_refl eq_refl H)|exact (F _ [] eq_refl eq_refl H)]|exact (F _ [] eq_refl eq_refl H)|].
    injection H as <- <-. sproj. rewrite ?T1, ?Ds. cbn. split; reflexivity.
  - destruct (one_thr _ _ _ I (Some_no_back _ (EvLoad1 k code) _ H)) as [T1 ->]. unfold load_done1 in H. rewrite T1 in H. cbn [nth_error] in H. destruct (negb _); [discriminate|]. cbv zeta in H. destruct (code =? 0); injection H as <- <-; unfold pendc, held; sproj; rewrite T1; split; reflexivity.
  - destruct (Some_no_back _ (EvLoad2 k) _ H) as [m [code N]]. destruct (one_thr _ _ _ I N) as [T1 ->]. unfold load_done2 in H. rewrite T1 in H. cbn [nth_error] in H. cbv zeta in H. unfold pendc, held.
    destruct m as [id|], (s_ds s) as [[id' r]|]; try discriminate; [destruct (id =? id'); [|discriminate]|]; injection H as <- <-; sproj; rewrite ?T1; cbn; rewrite ?app_nil_r; split; try reflexivity. symmetry. apply Permutation_cons_append.
  - unfold interrupt in H. destruct (t <? s_term s); [discriminate|]. cbv zeta in H. sproj. destruct (s_ds s) as [x|] eqn:Ds; [destruct (s_loading s); [|destruct (s_copier s); [|discriminate]]|]; injection H as <- <-; unfold held, pendc; sproj; rewrite Ds; split; reflexivity.
  - unfold shutdown, interrupt in H. sproj. destruct (s_term s <? s_term s); [discriminate|]. cbv zeta in H. sproj. destruct (s_ds s) as [x|] eqn:Ds; [destruct (s_loading s); [|destruct (s_copier s); [|discriminate]]|]; injection H as <- <-; unfold held, pendc; sproj; rewrite Ds; split; reflexivity.
  - injection H as <- <-. split; reflexivity.
Qed.

Lemma slife_acct : forall a b c s h os, slife a b c s h os -> Permutation (received h) (answered os ++ held s) /\ Permutation (given h) (run os ++ pendc s).
Proof.
  intros a b c s h os L. induction L; [split; reflexivity|]. destruct (sstep_acct _ _ _ _ (slife_inv _ _ _ _ _ _ L) H) as [P1 P2]. destruct IHL as [Q1 Q2].
  assert (E1 : received (h ++ [e]) = received h ++ received1 e) by (unfold received; rewrite flat_map_app; cbn; rewrite app_nil_r; reflexivity).
  assert (E2 : given (h ++ [e]) = given h ++ given1 e) by (unfold given; rewrite flat_map_app; cbn; rewrite app_nil_r; reflexivity).
  rewrite E1, E2, answered_app, run_app, <- !app_assoc, <- P1, <- P2, !app_assoc. split; apply Permutation_app_tail; assumption.
Qed.

(** * A whole save *)
Lemma saving_thr : forall s, sinv s -> s_saving s = true -> exists t, s_thr s = [t] /\ is_save t = true /\ s_ds s = None.
Proof.
  intros s [_ [_ [_ H]]] Sv. unfold thr_ok, saving_st in H. destruct (s_thr s) as [|t [|? ?]]; [destruct H; congruence| |destruct H]. exists t. split; auto.
  destruct t; try (destruct H as [H _]; congruence); cbn; split; auto; tauto.
Qed.
Lemma save_saving : forall s k t, sinv s -> nth_error (s_thr s) k = Some t -> is_save t = true -> s_saving s = true.
Proof.
  intros s k t I N Sv. destruct (one_thr _ _ _ I N) as [Th _]. destruct I as [_ [_ [_ H]]]. unfold thr_ok, saving_st in H. rewrite Th in H.
  destruct t; try discriminate; tauto.
Qed.
Lemma other_step : forall s e s' o, sinv s -> s_saving s = true -> of_save e = false -> sstep s e = Some (s', o) ->
  s_saving s' = true /\ s_thr s' = s_thr s /\ s_last s' = s_last s /\ s_lterm s' = s_lterm s /\ recorded o = [].
Proof.
  intros s e s' o I Sv Ne H. destruct (saving_thr s I Sv) as [t [Th [Is Ds]]]. destruct e; try discriminate; cbn [sstep] in H.
  - injection H as H. unfold do_snapshot in H. rewrite Ds, Sv in H. destruct (s_stopped s); injection H as <- <-; rewrite recorded_user; auto.
  - injection H as H. unfold install in H. destruct admitted; injection H as <- <-; cbn; auto.
  - unfold register in H. destruct (nth_error (s_arr s) k) as [r|]; [|discriminate]. cbv zeta in H. rewrite Ds, Sv in H. unfold refuse in H.
    destruct (s_stopped s); [injection H as <- <-; cbn; auto|]. destruct (negb _); [injection H as <- <-; cbn; auto|]. destruct (_ <=? _); injection H as <- <-; cbn; auto.
  - unfold joined in H. rewrite Th in H. destruct k as [|k]; [|destruct k; discriminate]. cbn [nth_error] in H. destruct t; discriminate.
  - unfold load_downloading in H. rewrite Th in H. destruct k as [|k]; [|destruct k; discriminate]. cbn [nth_error] in H. destruct t; discriminate.
  - unfold load_done1 in H. rewrite Th in H. destruct k as [|k]; [|destruct k; discriminate]. cbn [nth_error] in H. destruct t; discriminate.
  - unfold load_done2 in H. rewrite Th in H. destruct k as [|k]; [|destruct k; discriminate]. cbn [nth_error] in H. destruct t; discriminate.
  - unfold interrupt in H. destruct (t0 <? s_term s); [discriminate|]. cbv zeta in H. sproj. rewrite Ds in H. injection H as <- <-; cbn; auto.
  - unfold shutdown, interrupt in H. sproj. destruct (s_term s <? s_term s); [discriminate|]. cbv zeta in H. sproj. rewrite Ds in H. injection H as <- <-; cbn; auto.
  - injection H as <- <-; cbn; auto.
Qed.
Lemma others_save : forall s s', others s s' -> sinv s -> s_saving s = true ->
  sinv s' /\ s_saving s' = true /\ s_thr s' = s_thr s /\ s_last s' = s_last s /\ s_lterm s' = s_lterm s.
Proof.
  intros s s' O. induction O; intros I Sv; auto. destruct (other_step _ _ _ _ I Sv H H0) as [A [B [C [D _]]]].
  destruct (IHO (proj1 (sstep_good _ _ _ _ I H0)) A) as [J1 [J2 [J3 [J4 J5]]]]. repeat split; try apply J1; auto; congruence.
Qed.
