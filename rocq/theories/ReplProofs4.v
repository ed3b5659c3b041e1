From Verif Require Import Base BaseLemmas LogEntry Repl ReplSpec ReplProofs ReplProofs2 ReplProofs3.

Definition noreq (o : list rout) : Prop := reqs o = [].
Lemma noreq_no : forall o k p t es cm, reqs o = [] -> ~ In (OReq k p t es cm) o.
Proof. intros o k p t es cm H K. assert (X : In (k, p, zlen es) (reqs o)) by (apply reqs_in; eauto). rewrite H in X. destruct X. Qed.

(** * What one step does *)
Definition mf_same (s s' : rep) : Prop := min_flying s' <= min_flying s /\ r_succ s' = r_succ s.
Definition caught_now (v : renv) (s' : rep) (margin : Z) : Prop := r_succ s' = true /\ v_last v <= min_flying s' - 1 + margin.
Record Step (c : rcfg) (s : rep) (e : revt) (v : renv) (s' : rep) (o : list rout) : Prop := mkStep {
  st_inv : r_dead s' = true \/ Inv s';
  st_mf : mf_same s s' \/
    (exists call last p n, e = EvResp call (Resp true (c_term c) last) /\ In (call, p, n) (r_sent s) /\
       min_flying s' = p + n + 1 /\ (0 < n -> In (OCommit (min_flying s) (p + n)) o /\ min_flying s <= p + 1) /\ (n <= 0 -> min_flying s' = min_flying s)) \/
    (exists i, e = EvInstalled i true /\ min_flying s' = i + 1);
  st_nk : nocheck o;
  st_req : forall k p t es cm, In (OReq k p t es cm) o -> min_flying s' <= p + 1;
  st_tn : In (OTimeoutNow false) o -> exists i, (e = EvTransfer i \/ (i = r_tni s /\ 0 < i /\ e <> EvStopTransfer /\ forall j, e <> EvTransfer j)) /\ i < min_flying s' /\ r_succ s' = true;
  st_tni : r_tni s' = 0 \/ e = EvTransfer (r_tni s') \/ (r_tni s' = r_tni s /\ e <> EvStopTransfer /\ forall j, e <> EvTransfer j);
  st_caught : forall k, In (OCaught k 0) o ->
    (exists m t, e = EvCatch k m t /\ caught_now v s' m) \/
    (exists kk, r_catch s = Some kk /\ k_id kk = k /\ (caught_now v s' (k_margin kk) \/ (k_set kk = true /\ k_code kk = 0)));
  st_catch : forall k, r_catch s' = Some k -> r_catch s = Some k \/ (exists t, e = EvCatch (k_id k) (k_margin k) t /\ k_set k = false) \/
    (exists kk, r_catch s = Some kk /\ k_id kk = k_id k /\ k_margin kk = k_margin k /\ (k_set k = true -> k_code k = 0 -> caught_now v s' (k_margin k))) }.

(** notify *)
Record Note (v : renv) (code : Z) (s s' : rep) (o : list rout) : Prop := mkNote {
  n_out : forall x, In x o -> exists k cd, x = OCaught k cd;
  n_caught : forall k, In (OCaught k 0) o -> exists kk, r_catch s = Some kk /\ k_id kk = k /\
     ((code = 0 /\ v_last v <= min_flying s - 1 + k_margin kk) \/ (k_set kk = true /\ k_code kk = 0));
  n_catch : forall k, r_catch s' = Some k -> r_catch s = Some k \/
     (exists kk, r_catch s = Some kk /\ k_id kk = k_id k /\ k_margin kk = k_margin k /\ k_code k = code /\ v_last v <= min_flying s - 1 + k_margin kk) }.
Lemma is_catchup_true : forall v m s, is_catchup v m s = true -> v_last v <= min_flying s - 1 + m.
Proof. intros v m s H. unfold is_catchup in H. apply andb_true_iff in H. destruct H as [_ H]. apply negb_true_iff, Z.ltb_ge in H. lia. Qed.
Lemma notify_note : forall v code b s s' o, notify v code b s = (s', o) -> Note v code s s' o.
Proof.
  intros v code b s s' o H. unfold notify, run_catch in H. destruct (r_catch s) as [kk|] eqn:C.
  2:{ inj H. constructor; [intros x []|intros k []|intros k K; rewrite C in K; discriminate]. }
  destruct (negb (code =? R_ETIMEDOUT) && negb (code =? R_EPERM)) eqn:B.
  - destruct (is_catchup v (k_margin kk) s) eqn:I; cbn [negb] in H.
    2:{ inj H. constructor; [intros x []|intros k []|intros k K; left; congruence]. }
    apply is_catchup_true in I.
    destruct (k_set kk) eqn:S. { inj H. constructor; [intros x []|intros k []|intros k K; left; congruence]. }
    match type of H with context[if ?b0 then _ else _] => destruct b0 end.
    + inj H. constructor; [intros x []|intros k []|]. rs. intros k K. injection K as <-. right. exists kk. auto.
    + inj H. constructor; rs; [intros x [<-|[]]; eauto| |intros; discriminate].
      cbn [k_code k_id]. intros k [K|[]]. injection K as <- ->. exists kk. auto.
  - inj H. constructor; rs; [intros x [<-|[]]; eauto| |intros; discriminate].
    intros k [K|[]]. destruct (k_set kk) eqn:S.
    + injection K as <- K. exists kk. auto.
    + cbn [k_code k_id] in K. injection K as <- ->. exists kk. split; auto. split; auto. left. split; auto.
      exfalso. apply andb_false_iff in B. unfold R_ETIMEDOUT, R_EPERM in B. destruct B as [B|B]; apply negb_false_iff, Z.eqb_eq in B; lia.
Qed.
Lemma note_not : forall v code s s' o x, Note v code s s' o -> (forall k cd, x <> OCaught k cd) -> ~ In x o.
Proof. intros v code s s' o x N H K. destruct (n_out _ _ _ _ _ N _ K) as (k & cd & ->). eapply H; eauto. Qed.

(** * after_success *)
Record After (v : renv) (s s' : rep) (o : list rout) : Prop := mkAfter {
  a_inv : Inv s'; a_mf : min_flying s' = min_flying s; a_succ : r_succ s' = true; a_dead : r_dead s' = r_dead s;
  a_nk : nocheck o; a_req : forall k p t es cm, In (OReq k p t es cm) o -> min_flying s' <= p + 1;
  a_tn : In (OTimeoutNow false) o -> 0 < r_tni s /\ r_tni s < min_flying s;
  a_tni : r_tni s' = 0 \/ r_tni s' = r_tni s;
  a_caught : forall k, In (OCaught k 0) o -> exists kk, r_catch s = Some kk /\ k_id kk = k /\ (v_last v <= min_flying s - 1 + k_margin kk \/ (k_set kk = true /\ k_code kk = 0));
  a_catch : forall k, r_catch s' = Some k -> r_catch s = Some k \/
     (exists kk, r_catch s = Some kk /\ k_id kk = k_id k /\ k_margin kk = k_margin k /\ v_last v <= min_flying s - 1 + k_margin kk) }.
Lemma chk_out : forall n b x, In x (chk n b) -> (forall k cd, x <> OCaught k cd) /\ (forall b, x <> OTimeoutNow b).
Proof. intros n [] x H; [destruct H|]. destruct H as [<-|[]]. split; discriminate. Qed.
Lemma install_out : forall v s s' o, install v s = (s', o) -> forall x, In x o -> (forall k cd, x <> OCaught k cd) /\ (forall b, x <> OTimeoutNow b).
Proof.
  intros v s s' o H x K. unfold install in H. destruct (v_snap v); [inj H; destruct K|..];
  (destruct (r_reader s); [inj H; destruct K|]); cbn in H; inj H; try destruct K; subst; try tauto; split; discriminate.
Qed.
Lemma send_empty_out : forall v s s' o, send_empty v s = (s', o) -> forall x, In x o -> (forall k cd, x <> OCaught k cd) /\ (forall b, x <> OTimeoutNow b).
Proof.
  intros v s s' o H x K. unfold send_empty in H. destruct (fill v (r_next s - 1) false) as [[[p t]|] o0] eqn:Fl.
  - destruct (fill_prev _ _ _ _ _ Fl) as [-> _]. unfold fill in Fl. destruct (_ && _) in Fl; cbn [negb] in Fl; [discriminate|]. injection Fl as _ <-. injection H as _ <-.
    cbn [app] in K. apply in_app_iff in K. destruct K as [K|K]; [eapply chk_out; eauto|].
    apply in_app_iff in K. destruct K as [K|K]; [eapply chk_out; eauto|]. destruct K as [<-|[]]; split; discriminate.
  - destruct (install v s) as [s2 o2] eqn:Ei. injection H as _ <-. apply in_app_iff in K. destruct K as [K|K].
    + unfold fill in Fl. destruct (_ && _) in Fl; cbn [negb] in Fl; [|discriminate]. injection Fl as <-. eapply chk_out; eauto.
    + eapply install_out; eauto.
Qed.
Lemma send_entries_out : forall c v s s' o, send_entries c v s = (s', o) -> forall x, In x o ->
  (forall k cd, x <> OCaught k cd) /\ (forall b, x <> OTimeoutNow b).
Proof.
  assert (Inst : forall v s s' o, install v s = (s', o) -> forall x, In x o -> (forall k cd, x <> OCaught k cd) /\ (forall b, x <> OTimeoutNow b)).
  { intros v s s' o H x K. unfold install in H. destruct (v_snap v); [inj H; destruct K|..];
    (destruct (r_reader s); [inj H; destruct K|]); cbn in H; inj H; try destruct K; subst; try tauto; split; discriminate. }
  assert (Fl : forall v p r o, fill v p false = (r, o) -> forall x, In x o -> (forall k cd, x <> OCaught k cd) /\ (forall b, x <> OTimeoutNow b)).
  { intros v p r o H x K. unfold fill in H. destruct (_ && _); cbn [negb] in H; injection H as _ <-; [|destruct K]. unfold chk in K. destruct (_ <? _); [destruct K|]. destruct K as [<-|[]]; split; discriminate. }
  intros c v s s' o H x K. unfold send_entries in H. destruct (_ || _ || _); [inj H; destruct K|].
  destruct (fill v (r_next s - 1) false) as [[[p t]|] o0] eqn:F; assert (F' := Fl _ _ _ _ F).
  2:{ destruct (install v (reset_next s)) as [s1 o1] eqn:E. inj H. apply in_app_iff in K. destruct K as [K|K]; eauto. }
  destruct (prepare _ _ _ _ _ _) as [[es ro] rc]. destruct es as [|e es].
  - rsi H. destruct (_ <? v_first v).
    + destruct (install v (reset_next (set_ro ro s))) as [s1 o1] eqn:E. inj H. apply in_app_iff in K. destruct K as [K|K]; eauto.
    + destruct (rc =? R_EREADONLY); inj H; auto.
  - inj H. apply in_app_iff in K. destruct K as [K|[<-|[]]]; auto. split; discriminate.
Qed.
Lemma after_spec : forall c v s s' o, after_success c v s = (s', o) -> Stream s -> Corr s -> After v s s' o.
Proof.
  intros c v s s' o H St Co. unfold after_success, timeout_now in H.
  destruct (notify v 0 false (set_succ true s)) as [s1 o1] eqn:E1.
  destruct (notify_still _ _ _ _ _ _ E1) as ((U & Q1 & Q2 & Q3) & X1 & X2 & _ & X3). assert (N := notify_note _ _ _ _ _ _ E1). assert (Nk := notify_nk _ _ _ _ _ _ E1).
  assert (U' : upd s s1) by exact U. assert (M1 := upd_mf _ _ U'). assert (R1 := proj1 (notify_sent _ _ _ _ _ _ E1)).
  rewrite M1 in H.
  assert (Go : forall s2 o2 s3 o3, send_entries c v s2 = (s3, o3) -> upd s1 s2 -> r_succ s2 = true -> r_dead s2 = r_dead s -> r_catch s2 = r_catch s1 -> r_tni s2 = 0 \/ r_tni s2 = r_tni s ->
     (forall x, In x o2 -> x = OTimeoutNow false /\ 0 < r_tni s /\ r_tni s < min_flying s) -> After v s s3 (o1 ++ o2 ++ o3)).
  { intros s2 o2 s3 o3 E3 U2 Y1 Y2 Y3 Y4 Y5. destruct (send_entries_inv _ _ _ _ _ E3) as (I & [K1 K2 K3 K4 K5] & Nk3 & Rq).
    { eapply upd_stream; [exact U2|]. eapply upd_stream; eauto. } { eapply upd_corr; [exact U2|]. eapply upd_corr; eauto. }
    assert (Out := send_entries_out _ _ _ _ _ E3). assert (M2 := upd_mf _ _ U2).
    constructor; auto; try congruence.
    - apply nk_app; auto. apply nk_app; auto. split; intros Z; apply Y5 in Z; destruct Z as [Z _]; discriminate.
    - intros k p t es cm Z. apply in_app_iff in Z. destruct Z as [Z|Z]; [exfalso; eapply noreq_no; eauto|]. apply in_app_iff in Z. destruct Z as [Z|Z]; [apply Y5 in Z; destruct Z as [Z _]; discriminate|eauto].
    - intros Z. apply in_app_iff in Z. destruct Z as [Z|Z]; [exfalso; eapply note_not; eauto; discriminate|]. apply in_app_iff in Z. destruct Z as [Z|Z]; [apply Y5 in Z; tauto|]. apply Out in Z. destruct Z as [_ Z]. destruct (Z false); auto.
    - intros k Z. apply in_app_iff in Z. destruct Z as [Z|Z].
      + destruct (n_caught _ _ _ _ _ N _ Z) as (kk & C1 & C2 & C3). exists kk. split; auto. split; auto. destruct C3 as [[_ C3]|C3]; auto.
      + exfalso. apply in_app_iff in Z. destruct Z as [Z|Z]; [apply Y5 in Z; destruct Z as [Z _]; discriminate|]. apply Out in Z. destruct Z as [Z _]. destruct (Z k 0); auto.
    - intros k Z. rewrite K4, Y3 in Z. destruct (n_catch _ _ _ _ _ N _ Z) as [C|(kk & C1 & C2 & C3 & C4 & C5)]; auto. right. exists kk. auto. }
  rsi X1. rsi X2. rsi X3. rewrite X2 in H.
  destruct ((0 <? r_tni s) && (r_tni s <? min_flying s)) eqn:B.
  - destruct (send_entries _ _ _) as [s3 o3] eqn:E3. inj H. apply andb_true_iff in B. destruct B as [B1 B2].
    apply (Go (set_tni 0 s1) [OTimeoutNow false] s' o3); auto; [repeat split|]. intros x [<-|[]]. split; [auto|lia].
  - destruct (send_entries _ _ _) as [s3 o3] eqn:E3. inj H. apply (Go s1 [] s' o3); auto; [repeat split|]. intros x [].
Qed.

(** * pop_acked *)
Lemma in_flight_in : forall l first call, in_flight first call l = true -> exists i n, In (i, n, call) l.
Proof.
  induction l as [|[[i n] k] l IH]; intros first call H; cbn in H; [discriminate|]. destruct (first <? i); [discriminate|].
  destruct (Z.eqb_spec k call) as [->|]; [exists i, n; left; auto|]. destruct (IH _ _ H) as (i' & n' & K). exists i', n'. right; auto.
Qed.
Lemma chain_split : forall l i j a n k, chain i l j -> In (a, n, k) l -> exists l1 l2, l = l1 ++ (a, n, k) :: l2 /\ chain i l1 a /\ 0 < n /\ chain (a + n) l2 j.
Proof.
  intros l i j a n k C H. apply in_split in H. destruct H as (l1 & l2 & ->). apply chain_app in C. destruct C as (m & C1 & C2).
  cbn [chain] in C2. destruct C2 as (-> & N & C2). exists l1, l2. auto.
Qed.
Lemma pop_chain : forall l1 a n k l2 i j sz, chain i l1 a -> 0 < n -> chain (a + n) l2 j -> j - i = sz ->
  pop_acked a (l1 ++ (a, n, k) :: l2) sz = (l2, j - (a + n)).
Proof.
  induction l1 as [|[[a1 n1] k1] l1 IH]; intros a n k l2 i j sz C1 N C2 E; cbn [app pop_acked].
  - cbn in C1. subst i. rewrite Z.leb_refl. destruct l2 as [|[[a2 n2] k2] l2]; cbn [pop_acked].
    + f_equal. lia.
    + destruct C2 as (-> & N2 & C2). destruct (Z.leb_spec (a + n) a); [lia|]. f_equal. lia.
  - destruct C1 as (-> & N1 & C1). assert (X := chain_le _ _ _ C1). destruct (Z.leb_spec i a); [|lia]. eapply IH; eauto. lia.
Qed.
