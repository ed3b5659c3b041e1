(** C61, lemmas: the invariant holds in every history; what a failure finds. *)
From Verif Require Import Base SegSync SegSyncSpec SegSyncProofs SegSyncProofs2 SegSyncProofs3 SegSyncProofs4.

Lemma opens_le a b t : opens a t -> b <= a -> opens b t.
Proof. intros O L g G. specialize (O g G). lia. Qed.
Lemma g_at_some r i : g_first r <= i <= g_last r -> g_at r i <> None.
Proof.
  unfold g_last, g_at, znth, zlen. intros L H. destruct (Z.ltb_spec (i - g_first r) 0); [lia|]. apply nth_error_None in H. lia.
Qed.
Lemma g_at_bound r i : g_at r i <> None -> g_first r <= i <= g_last r.
Proof.
  intros H. unfold g_last, g_at, znth, zlen in *. destruct (Z.ltb_spec (i - g_first r) 0); [congruence|]. apply nth_error_Some in H. lia.
Qed.
Lemma glast_ge r : g_first r - 1 <= g_last r. Proof. unfold g_last. pose proof (zlen_nn (g_ents r)). lia. Qed.

Lemma nth_ext {A} : forall (a b : list A), length a = length b -> (forall i, nth_error a i = nth_error b i) -> a = b.
Proof.
  induction a as [|x a IH]; intros [|y b] L H; try discriminate L; [reflexivity|]. pose proof (H O) as H0. cbn in H0. injection H0 as ->.
  f_equal. apply IH; [injection L; auto|]. intros i. apply (H (S i)).
Qed.
Lemma shows_fun s r1 r2 : shows s r1 -> shows s r2 -> r1 = r2.
Proof.
  intros (A1 & B1 & C1) (A2 & B2 & C2). destruct r1 as [f1 e1], r2 as [f2 e2]. cbn in *. assert (E12 : f2 = f1) by congruence. rewrite E12 in *. clear E12. f_equal.
  unfold g_last in *. cbn in *. assert (L : length e1 = length e2) by (unfold zlen in *; lia). apply nth_ext; [exact L|]. intros i.
  specialize (C1 (f1 + Z.of_nat i)). specialize (C2 (f1 + Z.of_nat i)). rewrite C1 in C2. unfold g_at, znth in C2. cbn in C2.
  destruct (Z.ltb_spec (f1 + Z.of_nat i - f1) 0); [lia|]. replace (Z.to_nat (f1 + Z.of_nat i - f1)) with i in C2 by lia. exact C2.
Qed.

(** init on any directory a failure may lead to. *)
Lemma dinit_any fl st t h : WF fl st t -> exists m d', dinit t h = Some (mkDS m (g_last (abs t)) d' (h ++ [d'])) /\ WFm fl st m d' /\ V m d' /\ abs d' = abs t /\ (forall a, opens a t -> opens a d').
Proof.
  intros [->|[m W]].
  - exists 1, (mkD (Some 1) [] None). split; [reflexivity|]. split; [|split; [constructor; [left; reflexivity|reflexivity]|split; [reflexivity|intros a _ g G; discriminate G]]].
    constructor; cbn; auto; try constructor; try (unfold base; cbn; lia). discriminate.
  - destruct (settle_wf fl st m t W) as (W1 & V1 & A1 & O1). exists m, (settle m t). split; [apply (dinit_wf fl st m t h W)|]. auto.
Qed.
Lemma first_of fl st m d : WFm fl st m d -> g_first (abs d) = m. Proof. intros W. rewrite (abs_of _ _ _ _ W). reflexivity. Qed.
Lemma shows_abs fl st m d h : WFm fl st m d -> V m d -> forall r, shows (mkDS m (g_last (abs d)) d h) r -> r = abs d.
Proof. intros W VV r S. exact (shows_fun _ _ _ S (wf_shows fl st m d h W VV)). Qed.

Lemma inv_shows fl st s v : INV fl st s v -> shows s (v_now v).
Proof.
  intros [W VV A LA _ _ _ _]. destruct s as [m last d h]. cbn [s_first s_last s_d s_h] in *. subst last. rewrite <- A. apply (wf_shows fl st m d h W VV).
Qed.

(** A call leaves its promises within what it may leave when it fails. *)
Definition dur fl st v o t := okT fl st (v_during v o) t /\ g_first (v_now v) <= g_first (abs t).
Lemma ok_during fl st v o t : okT fl st v t -> okT fl st (v_during v o) t.
Proof.
  intros [W M O]. destruct o as [o|]; [|constructor; auto]. constructor; [exact W| |].
  - apply (may_more v); [intros l L; apply in_or_app; auto| |exact M]. cbn [v_during v_now v_acked]. intros i I. split; [|reflexivity]. destruct o; lia.
  - apply (opens_le (v_acked v)); [exact O|]. cbn. destruct o; lia.
Qed.
Lemma during_all fl st s v o : 0 <= fl_max fl -> (st = true -> fl_segs fl = true) -> INV fl st s v -> (forall o', o = Some o' -> d_legal fl st s o') ->
  forall j, let dh := under_way fl s o j in
    (forall t, In t (snd dh) -> okT fl st (v_during v o) t) /\ okT fl st (v_during v o) (fst dh) /\ g_first (v_now v) <= g_first (abs (fst dh)) /\ In (fst dh) (snd dh).
Proof.
  intros MX SG I LG j. cbn zeta. pose proof (i_h _ _ _ _ I) as H. pose proof (i_in _ _ _ _ I) as IN. pose proof (i_abs _ _ _ _ I) as A. unfold under_way.
  destruct o as [o|].
  - destruct (call_ok fl st s v o MX SG I (LG o eq_refl)) as [AL _]. pose proof (along_firstn _ _ _ j AL) as AF. set (p := firstn j (prog fl o s)) in *.
    split; [|split; [|split]].
    + apply sysrun_all; [apply ok_during; auto|intros t T; apply ok_during; auto|]. apply (along_mono (stepped fl st v o)); [intros t [X _]; exact X|exact AF].
    + rewrite sysrun_fst. apply (along_end _ p (s_d s)); [apply ok_during; auto|]. apply (along_mono (stepped fl st v o)); [intros t [X _]; exact X|exact AF].
    + rewrite sysrun_fst. apply (along_end (fun t => g_first (v_now v) <= g_first (abs t)) p (s_d s)); [rewrite A; lia|]. apply (along_mono (stepped fl st v o)); [intros t [_ X]; exact X|exact AF].
    + apply sysrun_in. exact IN.
  - cbn [fst snd]. split; [exact H|]. split; [auto|]. split; [rewrite A; cbn; lia|exact IN].
Qed.

Lemma step_more v o fl : v_acked v <= g_last (v_now v) ->
  (match o with DAppend (_ :: _) ok => fl_sync fl && ok = false | DAppend [] _ => False | _ => True end) ->
  v_step fl v o = mkV (g_step (v_now v) o) (v_since v ++ [g_step (v_now v) o]) (v_acked (v_during v (Some o))) /\
  (forall i, g_first (g_step (v_now v) o) <= i <= v_acked (v_during v (Some o)) ->
     g_first (v_now v) <= i /\ g_at (v_now v) i = g_at (g_step (v_now v) o) i).
Proof.
  intros AC C. destruct v as [[m ents] since a]. cbn [v_now v_since v_acked] in *. unfold g_last in AC. cbn [g_first g_ents] in AC. destruct o as [[|e es] ok|k|k]; [destruct C| | |].
  - cbn [v_step v_during v_acked v_now v_since]. rewrite C. split; [reflexivity|]. intros i I. cbn [g_step g_first g_ents] in I |- *. split; [lia|]. symmetry. apply g_at_app. lia.
  - split; [reflexivity|]. cbn [v_during v_acked g_step g_first g_ents]. destruct (Z.leb_spec k m); cbn [g_first]; intros i I; [split; [apply I|reflexivity]|]. split; [lia|]. symmetry. apply g_at_skip; lia.
  - split; [reflexivity|]. cbn [v_during v_acked g_step g_first g_ents]. intros i I. split; [lia|]. symmetry. apply g_at_firstn. lia.
Qed.
Lemma moments_sync p d h : snd (sysrun (p ++ [YSync true]) (d, h)) = [vols (p ++ [YSync true]) d].
Proof. rewrite sysrun_app, vols_app. rewrite <- (sysrun_fst p d h). destruct (sysrun p (d, h)) as [d1 h1]. reflexivity. Qed.

Lemma step_ok fl st s v o : 0 <= fl_max fl -> (st = true -> fl_segs fl = true) -> INV fl st s v -> d_legal fl st s o -> INV fl st (dstep fl s o) (v_step fl v o).
Proof.
  intros MX SG I LG. destruct (call_ok fl st s v o MX SG I LG) as [AL (W & VV & A & L)].
  assert (D : dstep fl s o = mkDS (fst (mem o s)) (snd (mem o s)) (vols (prog fl o s) (s_d s)) (snd (sysrun (prog fl o s) (s_d s, s_h s)))).
  { unfold dstep. pose proof (sysrun_fst (prog fl o s) (s_d s) (s_h s)) as E. destruct (sysrun _ _) as [d1 h1]. cbn in E |- *. congruence. }
  assert (HA : forall t, In t (snd (sysrun (prog fl o s) (s_d s, s_h s))) -> okT fl st (v_during v (Some o)) t).
  { apply sysrun_all; [apply ok_during; apply (i_h _ _ _ _ I); apply (i_in _ _ _ _ I)|intros t T; apply ok_during; apply (i_h _ _ _ _ I); exact T|].
    apply (along_mono (stepped fl st v o)); [intros t [X _]; exact X|exact AL]. }
  pose proof (i_ack _ _ _ _ I) as AC.
  assert (INC : In (vols (prog fl o s) (s_d s)) (snd (sysrun (prog fl o s) (s_d s, s_h s)))).
  { rewrite <- (sysrun_fst (prog fl o s) (s_d s) (s_h s)). apply sysrun_in. apply (i_in _ _ _ _ I). }
  assert (GEN : (match o with DAppend (_ :: _) ok => fl_sync fl && ok = false | DAppend [] _ => False | _ => True end) -> INV fl st (dstep fl s o) (v_step fl v o)).
  { intros C. destruct (step_more v o fl AC C) as [E M]. rewrite E, D. constructor; cbn [s_first s_last s_d s_h v_now v_since v_acked]; auto.
    - intros t T. destruct (HA t T) as [W1 M1 O1]. constructor; [exact W1| |exact O1]. apply (may_more (v_during v (Some o))); [auto| |exact M1].
      cbn [v_now v_acked v_during]. intros i Hi. destruct (M i Hi) as [M2 M3]. cbn [v_during v_acked] in Hi. split; [split; [exact M2|apply Hi]|exact M3].
    - destruct v as [[m ents] since a]. cbn [v_now v_acked v_during] in *. unfold g_last in *. destruct o as [es ok|k|k]; cbn [g_step g_first g_ents] in *.
      + rewrite zlen_app'. pose proof (zlen_nn es). lia.
      + destruct (Z.leb_spec k m); cbn [g_first g_ents]; [exact AC|]. rewrite zlen_skipn by lia. lia.
      + destruct LG as [LG _]. pose proof (i_last _ _ _ _ I) as LA. pose proof (first_of _ _ _ _ (i_wf _ _ _ _ I)) as FO. rewrite (i_abs _ _ _ _ I) in FO. unfold g_last in LA. cbn [v_now g_first g_ents] in LA, FO. rewrite zlen_firstn. lia.
    - apply in_or_app. right. left. reflexivity. }
  destruct o as [[|e es] ok|k|k]; [|destruct (fl_sync fl && ok) eqn:C| |]; auto.
  - destruct s as [m last d h]. destruct v as [now since a]. unfold dstep, prog, append_prog, mem. cbn [sysrun s_d s_h s_first s_last fst snd v_step]. rewrite zlen_nil', Z.add_0_r. exact I.
  - apply andb_prop in C. destruct C as [C1 C2]. subst ok. cbn [v_step]. rewrite C1. cbn [andb]. rewrite D.
    assert (P : exists q, prog fl (DAppend (e :: es) true) s = q ++ [YSync true]) by (cbn [prog]; unfold append_prog; rewrite C1; eexists; reflexivity).
    destruct P as [q P]. set (r := g_step (v_now v) (DAppend (e :: es) true)) in *.
    assert (OP : forall g, d_op (vols (prog fl (DAppend (e :: es) true) s) (s_d s)) = Some g -> f_sync g = length (f_es g)).
    { rewrite P, vols_app. intros g G. unfold vols at 1 in G. cbn [fold_left vol on_open d_op] in G. destruct (d_op (vols q (s_d s))) as [g0|]; [|discriminate G]. injection G as <-. reflexivity. }
    set (d' := vols (prog fl (DAppend (e :: es) true) s) (s_d s)) in *.
    assert (HS : snd (sysrun (prog fl (DAppend (e :: es) true) s) (s_d s, s_h s)) = [d']) by (unfold d'; rewrite P; apply moments_sync).
    rewrite HS. constructor; cbn [s_first s_last s_d s_h v_now v_since v_acked]; auto.
    + left. reflexivity.
    + intros t [<-|[]]. constructor; [right; eauto| |].
      * rewrite A. split; [|auto]. exists r. split; [left; reflexivity|]. split; [reflexivity|apply prefix_refl].
      * cbn [v_acked]. intros g G. rewrite (OP g G). pose proof (w_ch _ _ _ _ W) as Ch. rewrite (all_open _ _ G) in Ch. apply chain_app in Ch. destruct Ch as [_ [Ch _]].
        assert (X : abs d' = mkG (g_first r) (g_ents r)) by (rewrite A; fold r; destruct r; reflexivity).
        assert (F1 : fst (mem (DAppend (e :: es) true) s) = g_first r) by (rewrite <- (first_of _ _ _ _ W), A; reflexivity). rewrite F1 in W, VV.
        pose proof (V_end fl st (g_first r) d' (g_ents r) W VV X) as EN. rewrite F1 in Ch. unfold flat in EN. rewrite (all_open _ _ G), flatf_app, zlen_app', flatf_one in EN. unfold g_last, zlen in *. lia.
    + lia.
    + left. reflexivity.
Qed.

Lemma kill_ok fl st s v o j s' r : 0 <= fl_max fl -> (st = true -> fl_segs fl = true) -> INV fl st s v -> (forall o', o = Some o' -> d_legal fl st s o') ->
  dkill fl s o j = Some s' -> shows s' r -> INV fl st s' (mkV r (v_since (v_during v o) ++ [r]) (v_acked (v_during v o))).
Proof.
  intros MX SG I LG K S. destruct (during_all fl st s v o MX SG I LG j) as (H & [W M O] & F & IN). unfold dkill in K. destruct (under_way fl s o j) as [d h] eqn:U. cbn [fst snd] in *.
  destruct (dinit_any fl st d h W) as (m & d' & E & W' & V' & A' & O'). rewrite E in K. injection K as <-. rewrite <- A' in S.
  pose proof (shows_abs fl st m d' _ W' V' r S) as R. rewrite A' in R. subst r. set (v' := v_during v o) in *.
  assert (ND : v_now v' = v_now v) by (unfold v'; destruct o; reflexivity).
  assert (AK : v_acked v' <= g_last (v_now v)).
  { pose proof (i_ack _ _ _ _ I). unfold v'. destruct o as [[]|]; cbn; lia. }
  assert (MM : forall i, g_first (abs d) <= i <= v_acked v' -> g_first (v_now v') <= i <= v_acked v' /\ g_at (v_now v') i = g_at (abs d) i).
  { intros i Hi. rewrite ND in *. split; [lia|]. symmetry. destruct M as [_ M]. rewrite ND in M. apply M; lia. }
  constructor; cbn [s_first s_last s_d s_h v_now v_since v_acked]; auto.
  - apply in_or_app. right. left. reflexivity.
  - assert (X : forall t, okT fl st v' t -> okT fl st (mkV (abs d) (v_since v' ++ [abs d]) (v_acked v')) t).
    { intros t [Wt Mt Ot]. constructor; [exact Wt| |exact Ot]. apply (may_more v'); [intros l L; apply in_or_app; auto| |exact Mt]. exact MM. }
    intros t T. apply in_app_or in T. destruct T as [T|[<-|[]]]; [auto|]. constructor; [right; eauto| |apply O'; exact O]. rewrite A'. split; [|auto].
    exists (abs d). split; [apply in_or_app; right; left; reflexivity|]. split; [reflexivity|apply prefix_refl].
  - destruct (Z.le_gt_cases (g_first (abs d)) (v_acked v')) as [L|L]; [|pose proof (glast_ge (abs d)); lia].
    destruct (MM (v_acked v') ltac:(lia)) as [B E2]. apply g_at_bound. rewrite <- E2. apply g_at_some. rewrite ND in *. lia.
  - apply in_or_app. right. left. reflexivity.
Qed.
