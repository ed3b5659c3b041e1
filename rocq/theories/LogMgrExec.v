(** Running the log manager on concrete histories (used by the examples and refutations only). *)
From Verif Require Import Base BaseLemmas LogEntry LogRef LogRefProofs ConfMgr ConfMgrSpec ConfMgrProofs BallotBox LogMgr LogMgrSpec LogMgrProofs LogMgrProofs2 LogMgrProofs3 LogMgrProofs4 LogMgrProofs5 LogMgrProofs6 LogMgrProofs7.

Fixpoint gexec (mb : Z) (s : lmgr) (evs : list gev) : option (list (gev * list gout) * lmgr) :=
  match evs with
  | [] => Some ([], s)
  | e :: evs' => match gstep mb s e with
                 | None => None
                 | Some (s', o) => match gexec mb s' evs' with Some (h, s2) => Some ((e, o) :: h, s2) | None => None end
                 end
  end.
Lemma gexec_ran : forall mb r cm evs h s h' s', ran mb r cm h s -> gexec mb s evs = Some (h', s') -> ran mb r cm (h ++ h') s'.
Proof.
  intros mb r cm evs. induction evs as [|e evs IH]; intros h s h' s' R H; cbn [gexec] in H.
  - injection H as <- <-. rewrite app_nil_r. auto.
  - destruct (gstep mb s e) as [[s1 o]|] eqn:S; [|discriminate]. destruct (gexec mb s1 evs) as [[h2 s2]|] eqn:X; [|discriminate]. injection H as <- <-.
    replace (h ++ (e, o) :: h2) with ((h ++ [(e, o)]) ++ h2) by (rewrite <- app_assoc; auto). eapply IH; eauto. econstructor; eauto.
Qed.
Fixpoint legal_all (mb : Z) (x : slog) (s : lmgr) (evs : list gev) : Prop :=
  match evs with
  | [] => True
  | e :: evs' => LogMgrSpec.legal x (g_applied s) e /\
                 match gstep mb s e with Some (s', o) => legal_all mb (spec_step x (e, o)) s' evs' | None => True end
  end.
Lemma exec_legal : forall mb r cm evs h s h' s', ran mb r cm h s -> all_legal mb r cm h -> gexec mb s evs = Some (h', s') ->
  legal_all mb (spec_run r h) s evs -> all_legal mb r cm (h ++ h').
Proof.
  intros mb r cm evs. induction evs as [|e evs IH]; intros h s h' s' R A H L; cbn [gexec] in H.
  - injection H as <- <-. rewrite app_nil_r. auto.
  - destruct (gstep mb s e) as [[s1 o]|] eqn:S; [|discriminate]. destruct (gexec mb s1 evs) as [[h2 s2]|] eqn:X; [|discriminate]. injection H as <- <-.
    replace (h ++ (e, o) :: h2) with ((h ++ [(e, o)]) ++ h2) by (rewrite <- app_assoc; auto).
    cbn [legal_all] in L. destruct L as [L1 L2]. rewrite S in L2. eapply IH; eauto.
    + econstructor; eauto.
    + intros h1 e1 o1 h3 s3 Q R3. destruct (exists_last (l := (e1, o1) :: h3)) as [q [z Qz]]; [congruence|]. rewrite Qz, app_assoc in Q.
      apply last_snoc_eq in Q. destruct Q as [Q1 Q2]. destruct q as [|y q].
      * injection Qz as Q3 Q4. try subst z. injection Q3 as -> ->. rewrite app_nil_r in Q1. subst h1. rewrite <- (ran_det _ _ _ _ _ R _ R3). auto.
      * injection Qz as Q3 Q4. subst y. eapply (A h1 e1 o1 q); eauto.
    + rewrite spec_run_snoc. auto.
Qed.
Definition errs (h : list (gev * list gout)) : bool := existsb (fun x => existsb (fun y => match y with GErr _ => true | _ => false end) (snd x)) h.
Lemma errs_healthy : forall h, errs h = false -> healthy h.
Proof.
  intros h H e o c H1 H2. assert (X : errs h = true); [|congruence]. apply existsb_exists. exists (e, o). split; auto. apply existsb_exists. exists (GErr c). auto.
Qed.
Fixpoint idsb (es : list entry) : bool := match es with [] => true | e :: es' => forallb (fun e' => id_ltb (e_id e) (e_id e')) es' && idsb es' end.
Lemma idsb_ok : forall es, idsb es = true -> ids_increase es.
Proof.
  induction es as [|e es IH]; intros H; cbn in *; auto. apply andb_prop in H. destruct H as [H1 H2]. split; auto.
  intros e' He. rewrite forallb_forall in H1. apply (proj1 (id_ltb_lt _ _)). auto.
Qed.
Lemma exec_good : forall mb r cm evs h s, good_start r cm -> gexec mb (g_init r cm) evs = Some (h, s) -> errs h = false -> idsb (ever r h) = true ->
  legal_all mb (mkSL r (mkId 0 0)) (g_init r cm) evs -> good_run mb r cm h s.
Proof.
  intros mb r cm evs h s G X E I L. assert (R0 := R0 mb r cm).
  assert (I' := idsb_ok _ I).
  split; auto. split; [exact (gexec_ran _ _ _ _ _ _ _ _ R0 X)|]. split; [|split; [apply errs_healthy; auto|split; auto]].
  - apply (exec_legal mb r cm evs [] (g_init r cm) h s); auto. intros h1 e o h2 s1 Q. destruct h1; discriminate.
  - unfold ever in I'. apply incr_app in I'. apply I'.
Qed.
Fixpoint risingb (t : Z) (es : list entry) : bool := match es with [] => true | e :: es' => (t <=? e_term e) && risingb (e_term e) es' end.
Fixpoint consecb (i : Z) (es : list entry) : bool := match es with [] => true | e :: es' => (e_index e =? i) && consecb (i + 1) es' end.
Lemma risingb_ok : forall es t, risingb t es = true -> rising t es.
Proof. induction es as [|e es IH]; intros t H; cbn in *; auto. apply andb_prop in H. destruct H as [H1 H2]. apply Z.leb_le in H1. auto. Qed.
Lemma consecb_ok : forall es i, consecb i es = true -> consecutive i es.
Proof. induction es as [|e es IH]; intros i H; cbn in *; auto. apply andb_prop in H. destruct H as [H1 H2]. apply Z.eqb_eq in H1. auto. Qed.
Definition legalb (x : slog) (applied : logid) (e : gev) : bool :=
  match e with
  | VAppend _ [] => true
  | VAppend _ (e0 :: es) =>
      risingb 1 (e0 :: es) && forallb (fun e => li_term (sl_snap x) <=? e_term e) (e0 :: es) &&
      (if e_index e0 =? 0 then forallb (fun e => forallb (fun e' => e_term e' <=? e_term e) (r_list (sl_log x))) (e0 :: es)
       else consecb (e_index e0) (e0 :: es) && (r_first (sl_log x) <=? e_index e0) && (r_term (sl_log x) (e_index e0 - 1) <=? e_term e0))
  | VSnapshot i t _ _ =>
      (1 <=? t) && (r_first (sl_log x) - 1 <=? i) && (li_term (sl_snap x) <=? t) &&
      (if id_gtb (mkId i t) applied then li_index applied <=? i else i <=? li_index applied)
  | VApplied id => id_ltb id applied || (li_index applied <=? li_index id)
  | VLastId _ => match r_list (sl_log x) with [] => r_last (sl_log x) =? li_index (sl_snap x) | _ => true end
  | _ => true
  end.
Lemma legalb_ok : forall x a e, legalb x a e = true -> LogMgrSpec.legal x a e.
Proof.
  intros x a e H. destruct e as [c [|e0 es]|i t cf old| |id|k|c'|rid i|rid i|rid| |ok|n|]; cbn [legalb LogMgrSpec.legal legal_batch] in *; auto.
  - apply andb_prop in H. destruct H as [H H3]. apply andb_prop in H. destruct H as [H1 H2]. split; [apply risingb_ok; auto|]. rewrite forallb_forall in H2.
    split; [intros e He _; apply Z.leb_le; auto|]. destruct (e_index e0 =? 0).
    + rewrite forallb_forall in H3. intros e e' He He'. specialize (H3 _ He). rewrite forallb_forall in H3. apply Z.leb_le. auto.
    + apply andb_prop in H3. destruct H3 as [H3 H5]. apply andb_prop in H3. destruct H3 as [H3 H4]. split; [apply consecb_ok; auto|]. split; apply Z.leb_le; auto.
  - apply andb_prop in H. destruct H as [H H4]. apply andb_prop in H. destruct H as [H H3]. apply andb_prop in H. destruct H as [H1 H2].
    apply Z.leb_le in H1, H2, H3. sp; auto; intros Q; rewrite Q in H4; apply Z.leb_le; auto.
  - intros Q. rewrite Q in H. apply Z.leb_le. auto.
  - intros Q. rewrite Q in H. apply Z.eqb_eq. auto.
Qed.
Fixpoint legal_allb (mb : Z) (x : slog) (s : lmgr) (evs : list gev) : bool :=
  match evs with
  | [] => true
  | e :: evs' => legalb x (g_applied s) e && match gstep mb s e with Some (s', o) => legal_allb mb (spec_step x (e, o)) s' evs' | None => true end
  end.
Lemma legal_allb_ok : forall mb evs x s, legal_allb mb x s evs = true -> legal_all mb x s evs.
Proof.
  intros mb evs. induction evs as [|e evs IH]; intros x s H; cbn in *; auto. apply andb_prop in H. destruct H as [H1 H2]. split; [apply legalb_ok; auto|].
  destruct (gstep mb s e) as [[s' o]|]; auto.
Qed.
Definition outs (mb : Z) (r : rlog) (cm : cmgr) (evs : list gev) : list (list gout) := match gexec mb (g_init r cm) evs with Some (h, _) => map snd h | None => [] end.
