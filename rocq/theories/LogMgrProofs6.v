(** Lemmas for LogManager, part 6: the disk thread keeps the invariant; the whole step. *)
From Verif Require Import Base BaseLemmas LogEntry LogRef LogRefProofs ConfMgr ConfMgrSpec ConfMgrProofs BallotBox LogMgr LogMgrSpec LogMgrProofs LogMgrProofs2 LogMgrProofs3 LogMgrProofs4 LogMgrProofs5.

Lemma buf_appends : forall b, buf_entries b = appends (map toK b).
Proof. induction b as [|[[c es] all] b IH]; cbn; auto. unfold buf_entries in *. cbn. rewrite IH. auto. Qed.
Lemma endlid_buf : forall b lid, endlid lid (map toK b) = match buf_entries b with [] => lid | e :: l => e_id (last l e) end.
Proof.
  induction b as [|[[c es] all] b IH]; intros lid; cbn; auto. unfold endlid, buf_entries in *. cbn. rewrite IH.
  destruct es as [|e es]; cbn; auto. destruct (flat_map (fun x => snd (fst x)) b) as [|z l] eqn:R.
  - rewrite app_nil_r. auto.
  - f_equal. rewrite <- (last_cons l z e). symmetry. apply last_app_ne. congruence.
Qed.
Lemma play_buf : forall b st Q L, play st (map toK b ++ Q) L ->
  play (mkR (r_first st) (r_list st ++ buf_entries b)) Q L /\
  forall c es all e, In (c, es, all) b -> In e all -> r_term (mkR (r_first st) (r_list st ++ buf_entries b)) (e_index e) = e_term e.
Proof.
  induction b as [|[[c es] all] b IH]; intros st Q L H.
  - cbn in *. rewrite app_nil_r. destruct st. split; auto. intros ? ? ? ? [].
  - cbn in H. inversion H as [|? ? ? ? ? ? C A Pl| | | |]; subst. cbn [fst snd] in *. apply IH in Pl. cbn [r_first r_list] in Pl.
    destruct Pl as [P1 P2]. unfold buf_entries in *. cbn [flat_map fst snd]. rewrite app_assoc. split; auto.
    intros c' es' all' e [Q1|Hin] He; [|eapply P2; eauto]. injection Q1 as <- <- <-. destruct (A e He) as [A1 A2].
    apply r_term_app_l; auto.
Qed.
Lemma sfxok_app_r : forall P Q, sfxok (P ++ Q) -> sfxok Q.
Proof. induction P; cbn; intros; auto. apply IHP. tauto. Qed.

Definition no_err (o : list gout) : Prop := forall c, ~ In (GErr c) o.
Lemma GI_flush : forall E x s n lid b s1 lid1 o, GI E x s -> g_run s = Some (lid, b) -> flush n lid b s = (s1, lid1, o) -> no_err o ->
  s1 = set_thread (g_q s) (g_run s) (mkR (r_first (g_st s)) (r_list (g_st s) ++ buf_entries b)) false s /\
  (forall c code, In (GDone c code) o -> code = 0 /\ exists es all, In (c, es, all) b) /\
  (forall c id, ~ In (GLast c id) o) /\ (forall r e, ~ In (GRead r e) o) /\ (forall r e, ~ In (GTerm r e) o) /\ accepted o = [] /\
  (forall c es all e, In (c, es, all) b -> In e all -> r_term (g_st s1) (e_index e) = e_term e) /\
  GI E x (with_run (g_q s) (Some (lid1, [])) s1).
Proof.
  intros E x s n lid b s1 lid1 o G R H N.
  assert (K : s1 = set_thread (g_q s) (g_run s) (mkR (r_first (g_st s)) (r_list (g_st s) ++ buf_entries b)) false s /\ lid1 = endlid lid (map toK b) /\
              (b = [] /\ o = [] \/ o = GStored (buf_entries b) :: map (fun x => GDone (fst (fst x)) 0) b)).
  { rewrite endlid_buf. unfold flush in H. destruct b as [|x0 b0].
    - injection H as <- <- <-. cbn. rewrite app_nil_r. sp; auto. destruct s as [? ? ? ? ? ? ? er ? ? ? ? ? st]. cbn in *. unfold set_thread; cbn.
      assert (er = false) by apply (i_err _ _ _ G). subst. destruct st; auto.
    - remember (x0 :: b0) as b. clear Heqb. rewrite (i_err _ _ _ G) in H.
      destruct (s_append (g_st s) (buf_entries b) n) as [st done] eqn:SA.
      destruct (Z.eqb_spec (zlen done) (zlen (buf_entries b))) as [Z|Z].
      + cbn [negb orb] in H. injection H as <- <- <-. destruct (s_append_all _ _ _ _ _ SA Z) as [-> ->]. sp; auto.
        destruct (buf_entries b) as [|e l]; auto. rewrite last_cons. auto.
      + cbn [negb orb] in H. injection H as <- <- <-. exfalso. apply (N G_EIO). cbn. auto. }
  destruct K as [-> [-> Ho]]. split; auto. clear H.
  split. { destruct Ho as [[-> ->]| ->]; [intros ? ? []|]. intros c code [X|Hin]; [discriminate|]. apply in_map_iff in Hin. destruct Hin as [[[c' es] all] [Q Hin]].
    injection Q as <- <-. split; auto. cbn. eauto. }
  assert (Hm : forall b, accepted (map (fun x0 : closure * list entry * list entry => GDone (fst (fst x0)) 0) b) = []) by (induction b0; cbn; auto).
  assert (Hx : (forall c id, ~ In (GLast c id) o) /\ (forall r e, ~ In (GRead r e) o) /\ (forall r e, ~ In (GTerm r e) o) /\ accepted o = []).
  { destruct Ho as [[-> ->]| ->]; [sp; auto|]. cbn. rewrite Hm. sp; auto; intros a a' [X|Hin]; try discriminate; apply in_map_iff in Hin; destruct Hin as [? [? ?]]; discriminate. }
  destruct Hx as [X1 [X2 [X3 X4]]]. do 4 (split; auto). clear X1 X2 X3 X4 Ho N Hm.
  set (lid1 := endlid lid (map toK b)).
  set (s' := with_run _ _ _). assert (Hp : pend s' = g_q s) by reflexivity. assert (Hc : curlid s' = lid1) by reflexivity.
  assert (Hp0 : pend s = map toK b ++ g_q s) by (unfold pend; rewrite R; auto). assert (Hc0 : curlid s = lid) by (unfold curlid; rewrite R; auto).
  assert (Ha0 : appends (pend s) = buf_entries b ++ appends (g_q s)) by (rewrite Hp0, appends_app, buf_appends; auto).
  assert (Hsub : forall e, In e (appends (g_q s)) -> In e (appends (pend s))) by (intros e He; rewrite Ha0; apply in_or_app; auto).
  assert (Hbs : forall d, below d (appends (pend s)) -> below d (appends (g_q s))) by (intros d Hd e He; apply Hd; auto).
  assert (Hincs : exists sto, E = sto ++ buf_entries b ++ appends (g_q s)) by (destruct (i_ever _ _ _ G) as [sto Hs]; exists sto; rewrite <- Ha0; auto).
  assert (Hpl := i_play _ _ _ G). rewrite Hp0 in Hpl. apply play_buf in Hpl.
  split; [apply Hpl|].
  constructor; rewrite ?Hp, ?Hc; try (exact (i_first _ _ _ G)); try apply G.
  - destruct (i_mem _ _ _ G) as [pre [P1 P2]]. exists pre. split; auto. intros e He Hin. apply (P2 e He). auto.
  - apply Hpl.
  - destruct Hincs as [sto ->]. exists (sto ++ buf_entries b). rewrite app_assoc. auto.
  - assert (F0 := i_floor _ _ _ G). rewrite Hc0 in F0. intros d [<-|[<-|Hd]].
    + split; [apply F0; left; auto|]. apply Hbs. apply F0. left; auto.
    + subst lid1. rewrite endlid_buf. destruct (buf_entries b) as [|e l] eqn:B.
      * split; [apply F0; right; left; auto|]. apply Hbs. apply F0. right; left; auto.
      * destruct Hincs as [sto Hs]. assert (I := i_inc _ _ _ G). rewrite Hs in I. rewrite <- (last_cons l e e). split.
        -- right. exists (last (e :: l) e). split; [|left; auto]. rewrite Hs. apply in_or_app. right. apply in_or_app. left. apply last_in. congruence.
        -- apply incr_app in I. destruct I as [_ [I _]]. apply incr_last_below; [auto|congruence].
    + split; [apply F0; right; right; auto|]. apply Hbs. apply F0. right; right; auto.
  - assert (X := i_sfx _ _ _ G). rewrite Hp0 in X. eapply sfxok_app_r; eauto.
  - intros k t Hin. apply (i_sfxid _ _ _ G). rewrite Hp0. apply in_or_app; auto.
  - assert (X := i_lok _ _ _ G). rewrite Hp0, Hc0 in X. apply lastok_app in X. apply X.
  - intros Hne. assert (X := i_end _ _ _ G Hne). rewrite Hp0, Hc0, endlid_app in X. exact X.
  - change (g_disk s') with (g_disk s). subst lid1. rewrite endlid_buf. intros Hl.
    assert (F0 := i_floor _ _ _ G (g_disk s) ltac:(left; auto)). assert (C0 := i_cur _ _ _ G). rewrite Hc0, Hp0 in C0.
    destruct (buf_entries b) as [|e l] eqn:B.
    + specialize (C0 Hl). destruct b as [|[[c es] all] b]; auto. cbn in C0. destruct es; [tauto|]. unfold buf_entries in B. discriminate.
    + exfalso. destruct F0 as [_ F0]. rewrite Ha0 in F0. apply (id_lt_irr (g_disk s)).
      eapply id_lt_trans; [|exact Hl]. apply F0. rewrite <- (last_cons l e e). apply in_or_app. left. apply last_in. congruence.
  - reflexivity.
Qed.

(** One task taken from the queue with nothing buffered. *)
Lemma GI_task : forall E x s lid t q s', GI E x s -> g_run s = Some (lid, []) -> g_q s = t :: q ->
  (match t with KAppend _ (_ :: _) _ => False | _ => True end) ->
  g_first s' = g_first s -> g_last s' = g_last s -> g_mem s' = g_mem s -> g_snap s' = g_snap s -> g_virt s' = g_virt s ->
  g_disk s' = g_disk s -> g_applied s' = g_applied s -> g_err s' = g_err s -> g_cm s' = g_cm s -> g_clear s' = g_clear s ->
  g_q s' = q -> g_run s' = Some (lid_task lid t, []) ->
  g_st s' = match t with KPrefix k => s_prefix (g_st s) k | KSuffix k _ => r_truncate_suffix (g_st s) k | KReset n => r_reset n | _ => g_st s end ->
  GI E x s' /\ match t with KAppend _ _ all => forall e, In e all -> r_term (g_st s') (e_index e) = e_term e
                          | KLast _ w => w = lid /\ li_term w <> 0 | _ => True end.
Proof.
  intros E x s lid t q s' G R Q Ht H1 H2 H3 H4 H5 H6 H7 H8 H9 H10 H11 H12 H13.
  assert (Hp : pend s' = q) by (unfold pend; rewrite H12, H11; auto). assert (Hc : curlid s' = lid_task lid t) by (unfold curlid; rewrite H12; auto).
  assert (Hp0 : pend s = t :: q) by (unfold pend; rewrite R, Q; auto). assert (Hc0 : curlid s = lid) by (unfold curlid; rewrite R; auto).
  assert (Ha0 : appends (pend s) = appends q) by (rewrite Hp0; cbn; destruct t as [? [|? ?] ?| | | |]; tauto || auto).
  assert (Hpl := i_play _ _ _ G). assert (Hlk := i_lok _ _ _ G). rewrite Hp0 in Hpl, Hlk. rewrite Hc0 in Hlk. destruct Hlk as [Hlk1 Hlk2].
  assert (Hsx := i_sfx _ _ _ G). rewrite Hp0 in Hsx. destruct Hsx as [Hsx1 Hsx2].
  assert (Hst : play (g_st s') q (sl_log x)).
  { rewrite H13. inversion Hpl; subst; auto.
    - destruct es; [|tauto]. rewrite app_nil_r in H18. destruct (g_st s); auto.
    - rewrite s_prefix_cut by auto. auto. }
  split.
  - constructor; rewrite ?Hp, ?Hc, ?H1, ?H2, ?H3, ?H4, ?H5, ?H6, ?H7, ?H8, ?H9, ?H10; try apply G; auto.
    + rewrite <- Ha0. apply G.
    + rewrite <- Ha0. apply G.
    + intros d [<-|[<-|Hd]]; rewrite <- Ha0.
      * apply (i_floor _ _ _ G). left; auto.
      * destruct t as [? [|? ?] ?| | |k t|]; try tauto; cbn [lid_task]; try (rewrite <- Hc0; apply (i_floor _ _ _ G); right; left; auto).
        rewrite Ha0. split; auto. apply (i_sfxid _ _ _ G). rewrite Hp0. left; auto.
      * apply (i_floor _ _ _ G). right; right; auto.
    + intros k t' Hin. apply (i_sfxid _ _ _ G). rewrite Hp0. right; auto.
    + intros Hne. assert (X := i_end _ _ _ G Hne). rewrite Hp0, Hc0 in X. exact X.
    + intros Hl. assert (X := i_cur _ _ _ G). rewrite Hp0, Hc0 in X.
      destruct t as [? [|? ?] ?| | |k t|]; try tauto; cbn [lid_task] in Hl; try (apply X in Hl; cbn in Hl; tauto).
      inversion Hpl; subst; auto.
  - destruct t as [? [|? ?] ?| | |k t|]; auto; try tauto. inversion Hpl; subst. intros e He. rewrite H13.
    destruct (H19 e He) as [X _]. rewrite app_nil_r in X. destruct (g_st s); auto.
Qed.

Lemma GI_diskend : forall E x s s' o, GI E x s -> disk_end s = Some (s', o) -> o = [] /\ GI E x s'.
Proof.
  intros E x s s' o G H. unfold disk_end in H. destruct (g_run s) as [[lid [|? ?]]|] eqn:R; try discriminate.
  assert (Hp0 : pend s = g_q s) by (unfold pend; rewrite R; auto). assert (Hc0 : curlid s = lid) by (unfold curlid; rewrite R; auto).
  assert (FL := i_floor _ _ _ G lid ltac:(right; left; auto)).
  destruct (id_ltb lid (g_disk s)) eqn:Lt; injection H as <- <-; split; auto.
  - apply id_ltb_lt in Lt. assert (S0 := i_cur _ _ _ G). rewrite Hc0 in S0. specialize (S0 Lt).
    set (s' := set_disk _ _ _ _). assert (Hp : pend s' = pend s) by (unfold pend; rewrite R; auto). assert (Hc : curlid s' = g_disk s) by reflexivity.
    destruct (starts_lid _ (g_disk s) lid S0) as [Q1 Q2].
    constructor; rewrite ?Hp, ?Hc; try apply G.
    + intros d [<-|[<-|Hd]]; apply (i_floor _ _ _ G); [left|left|right; right]; auto.
    + apply Q2. rewrite <- Hc0. apply G.
    + rewrite Q1, <- Hc0. apply G.
    + auto.
  - set (s' := set_disk _ _ _ _). assert (Hp : pend s' = pend s) by (unfold pend; rewrite R; auto). assert (Hc : curlid s' = lid) by reflexivity.
    constructor; rewrite ?Hp, ?Hc; try apply G.
    + intros d [<-|[<-|Hd]]; [exact FL|exact FL|]. cbn in Hd. apply in_app_or in Hd. destruct Hd as [Hd|[<-|[]]].
      * apply (i_floor _ _ _ G). right; right; auto.
      * apply floor_min. exact FL.
    + rewrite <- Hc0. apply G.
    + rewrite <- Hc0. apply G.
    + intros Hl. destruct (id_lt_irr _ Hl).
Qed.
Lemma GI_diskflush : forall E x s n s' o, GI E x s -> disk_flush n s = Some (s', o) -> no_err o ->
  GI E x s' /\ accepted o = [] /\ (forall c id, ~ In (GLast c id) o) /\ (forall r e, ~ In (GRead r e) o) /\ (forall r e, ~ In (GTerm r e) o) /\
  forall c code, In (GDone c code) o -> code = 0 /\ exists es all, In (KAppend c es all) (pend s) /\ (forall e, In e all -> r_term (g_st s') (e_index e) = e_term e).
Proof.
  intros E x s n s' o G H N. unfold disk_flush in H. destruct (g_run s) as [[lid [|y b]]|] eqn:R; try discriminate.
  destruct (flush n lid (y :: b) s) as [[s1 lid1] o1] eqn:F. injection H as <- <-.
  destruct (GI_flush _ _ _ _ _ _ _ _ _ G R F N) as [K1 [K2 [K3 [K4 [K5 [K6 [K7 K8]]]]]]].
  do 5 (split; auto). intros c code Hin. destruct (K2 _ _ Hin) as [-> [es [all Hb]]]. split; auto. exists es, all. split.
  - unfold pend. rewrite R. apply in_or_app. left. apply in_map_iff. exists (c, es, all). auto.
  - intros e He. exact (K7 _ _ _ _ Hb He).
Qed.
Lemma GI_disktake : forall E x s mb ok s' o, GI E x s -> disk_take mb ok s = Some (s', o) -> no_err o ->
  GI E x s' /\ accepted o = [] /\ (forall c id, In (GLast c id) o -> In (KLast c id) (pend s)) /\ (forall r e, ~ In (GRead r e) o) /\ (forall r e, ~ In (GTerm r e) o) /\
  forall c code, In (GDone c code) o -> code = 0 /\ exists es all, In (KAppend c es all) (pend s) /\ (forall e, In e all -> r_term (g_st s') (e_index e) = e_term e).
Proof.
  intros E x s mb ok s' o G H N. unfold disk_take in H. destruct (g_run s) as [[lid b]|] eqn:R; try discriminate.
  destruct (g_q s) as [|t q] eqn:Q; [discriminate|].
  assert (Ht : forall P, In t P -> True) by auto.
  destruct t as [c [|e es] all|c w|k|k t|m].
  2: { destruct (full mb b); [discriminate|]. injection H as <- <-. split; [|sp; cbn; auto; intros; tauto].
       eapply GI_same; eauto; try reflexivity; cbn.
       - unfold pend. rewrite R, Q. cbn. rewrite map_app, <- app_assoc. auto.
       - unfold curlid. rewrite R. auto. }
  all: destruct b as [|y b]; [|discriminate].
  all: assert (Hin0 : In (hd (KReset 0) (g_q s)) (pend s)) by (unfold pend; rewrite R, Q; left; auto); rewrite Q in Hin0; cbn [hd] in Hin0.
  - injection H as <- <-. edestruct (GI_task E x s lid (KAppend c [] all) q (with_run q (Some (lid, [])) s)) as [G1 G2]; eauto; try reflexivity; try exact I.
    split; auto. cbn. sp; auto; try (intros ? ? [X|[]]; discriminate). intros c' code [X|[]]. injection X as <- <-. split; auto. exists [], all. auto.
  - destruct (_ || _); [|discriminate]. injection H as <- <-.
    edestruct (GI_task E x s lid (KLast c w) q (with_run q (Some (lid, [])) s)) as [G1 G2]; eauto; try reflexivity; try exact I.
    split; auto. cbn. sp; auto; try (intros ? ? [X|[]]; discriminate). intros c' id [X|[]]. injection X as <- <-. destruct G2 as [<- _]. auto.
  - destruct ok; injection H as <- <-; [|destruct (N G_EIO); left; auto].
    edestruct (GI_task E x s lid (KPrefix k) q (set_thread q (Some (lid, [])) (s_prefix (g_st s) k) (g_err s) s)) as [G1 G2]; eauto; try reflexivity; try exact I.
    split; auto. cbn. sp; auto; intros; tauto.
  - destruct ok; injection H as <- <-; [|destruct (N G_EIO); left; auto].
    edestruct (GI_task E x s lid (KSuffix k t) q (set_thread q (Some (mkId k t, [])) (r_truncate_suffix (g_st s) k) (g_err s) s)) as [G1 G2]; eauto; try reflexivity; try exact I.
    split; auto. cbn. sp; auto; intros; tauto.
  - destruct ok; injection H as <- <-; [|destruct (N G_EIO); left; auto].
    edestruct (GI_task E x s lid (KReset m) q (set_thread q (Some (lid, [])) (r_reset m) (g_err s) s)) as [G1 G2]; eauto; try reflexivity; try exact I.
    split; auto. cbn. sp; auto; intros; tauto.
Qed.

Lemma append_out : forall c es s s' o, append_entries c es s = Some (s', o) ->
  (exists code, o = [GDone c code] /\ s' = s) \/ (exists es1, o = [GAccepted c es1]).
Proof.
  intros c es s s' o H. unfold append_entries in H. destruct (g_err s). { injection H as <- <-. eauto. }
  destruct (check_and_resolve_conflict es s) as [[code|s1 es1]|]; [injection H as <- <-; eauto| |discriminate].
  destruct (cm_add_all _ _); [|discriminate]. injection H as <- <-. eauto.
Qed.
Theorem GI_step : forall mb E x s e s' o, GI E x s -> LogMgrSpec.legal x (g_applied s) e -> gstep mb s e = Some (s', o) -> no_err o ->
  ids_increase (E ++ accepted o) -> GI (E ++ accepted o) (spec_step x (e, o)) s'.
Proof.
  intros mb E x s e s' o G L H N I. unfold gstep in H.
  destruct e as [c es|i t cf old| |id|k|c|rid i|rid i|rid| |ok|n|].
  - apply (GI_append E x s); auto.
  - unfold noout in H. destruct (set_snapshot i t cf old s) eqn:S; [|discriminate]. injection H as <- <-. cbn in *. rewrite app_nil_r. apply (GI_snapshot _ _ _ _ _ _ _ _ G L S).
  - unfold noout in H. destruct (clear_bufferred s) eqn:S; [|discriminate]. injection H as <- <-. cbn in *. rewrite app_nil_r. apply (GI_clear_buffered _ _ _ _ G S).
  - injection H as <- <-. cbn. rewrite app_nil_r. apply GI_applied; auto.
  - unfold noout in H. destruct (clear_memory k s) eqn:S; [|discriminate]. injection H as <- <-. cbn in *. rewrite app_nil_r. eapply GI_memclear; eauto.
  - injection H as H. assert (Ha : accepted o = []).
    { unfold last_log_id_flush in H. destruct (_ =? _); injection H as <- <-; auto. }
    rewrite Ha, app_nil_r. change (spec_step x (VLastId c, o)) with x. eapply GI_lastid; eauto.
  - assert (Ha : accepted o = [] /\ GI E x s').
    { unfold get_entry1 in H. destruct (_ || _). { injection H as <- <-. auto. }
      destruct (mem_get (g_mem s) i) as [[e|]|]; [| |discriminate]; injection H as <- <-; split; auto. eapply GI_same; eauto. }
    destruct Ha as [-> Ha]. rewrite app_nil_r. exact Ha.
  - assert (Ha : accepted o = [] /\ GI E x s').
    { unfold get_term1 in H. repeat (match type of H with (if ?a then _ else _) = _ => destruct a end; [injection H as <- <-; auto|]).
      destruct (mem_get (g_mem s) i) as [[e|]|]; [| |discriminate]; injection H as <- <-; split; auto. eapply GI_same; eauto. }
    destruct Ha as [-> Ha]. rewrite app_nil_r. exact Ha.
  - assert (Ha : accepted o = [] /\ GI E x s').
    { unfold read_storage in H. destruct (find_read rid (g_reads s)) as [[i [|]]|]; [| |discriminate].
      - destruct (r_get (g_st s) i); injection H as <- <-; [|destruct (N G_EIO); left; auto]. split; auto. eapply GI_same; eauto.
      - injection H as <- <-. split; auto. eapply GI_same; eauto. }
    destruct Ha as [-> Ha]. rewrite app_nil_r. exact Ha.
  - assert (Ha : accepted o = [] /\ GI E x s').
    { unfold disk_begin in H. destruct (g_run s) eqn:R; [discriminate|]. destruct (g_q s) eqn:Q; [discriminate|]. injection H as <- <-. split; auto.
      eapply GI_same; eauto; try reflexivity; [unfold pend|unfold curlid]; rewrite R; cbn; rewrite ?Q; auto. }
    destruct Ha as [-> Ha]. rewrite app_nil_r. exact Ha.
  - destruct (GI_disktake _ _ _ _ _ _ _ G H N) as [K1 [-> _]]. rewrite app_nil_r. exact K1.
  - destruct (GI_diskflush _ _ _ _ _ _ G H N) as [K1 [-> _]]. rewrite app_nil_r. exact K1.
  - destruct (GI_diskend _ _ _ _ _ G H) as [-> K1]. cbn. rewrite app_nil_r. exact K1.
Qed.
