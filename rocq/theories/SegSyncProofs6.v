(** C61, lemmas: what a machine failure leaves. *)
From Verif Require Import Base SegSync SegSyncSpec SegSyncProofs SegSyncProofs2 SegSyncProofs3 SegSyncProofs4 SegSyncProofs5.

Lemma cut_names a b : Forall2 cut_file a b -> map f_first b = map f_first a /\ map f_last b = map f_last a.
Proof. induction 1 as [|g g' a b (n & _ & ->) _ [IH1 IH2]]; cbn; [auto|]. rewrite IH1, IH2. auto. Qed.
Lemma check_cut a b : Forall2 cut_file a b -> forall m last, (check_names m last a = None <-> check_names m last b = None) /\
  forall ka kb, check_names m last a = Some ka -> check_names m last b = Some kb -> Forall2 cut_file ka kb.
Proof.
  induction 1 as [|g g' a b C F IH]; intros m last; cbn [check_names].
  - split; [tauto|]. intros ka kb E1 E2. injection E1 as <-. injection E2 as <-. constructor.
  - destruct C as (n & L & E). assert (C : cut_file g g') by (exists n; auto). assert (F1 : f_first g' = f_first g) by (subst g'; reflexivity). assert (F2 : f_last g' = f_last g) by (subst g'; reflexivity).
    rewrite F1, F2. destruct (f_last g <? f_first g); [split; [tauto|discriminate]|]. destruct (negb (last =? -1) && _); [split; [tauto|discriminate]|].
    destruct ((last =? -1) && (m <? f_first g)); [split; [tauto|discriminate]|]. destruct ((last =? -1) && (f_last g <? m)); [apply IH|].
    destruct (IH m (f_last g)) as [I1 I2]. destruct (check_names m (f_last g) a) as [ka'|] eqn:A, (check_names m (f_last g) b) as [kb'|] eqn:B.
    + split; [split; discriminate|]. intros ka kb E1 E2. injection E1 as <-. injection E2 as <-. constructor; auto.
    + destruct I1 as [_ I1]. specialize (I1 eq_refl). discriminate I1.
    + destruct I1 as [I1 _]. specialize (I1 eq_refl). discriminate I1.
    + split; [tauto|discriminate].
Qed.

(** Closed files that have all their entries are as they were. *)
Definition synced (g : sf) : sf := mkF (f_first g) (f_last g) (f_es g) (length (f_es g)).
Lemma cut_full st g g' : cok st g -> cut_file g g' -> full g' = true -> g' = synced g.
Proof.
  intros (_ & L & _) (n & _ & ->) F. unfold full in F. cbn in F. apply Z.eqb_eq in F. unfold f_end in L. unfold zlen in *.
  assert (X : (length (f_es g) <= n)%nat) by (rewrite firstn_length in F; lia). unfold synced. rewrite firstn_all2 by exact X. reflexivity.
Qed.
Lemma cut_strict g g' : cok true g -> cut_file g g' -> g' = synced g.
Proof. intros (_ & _ & _ & S) (n & L & ->). rewrite (S eq_refl) in L. unfold synced. rewrite firstn_all2 by exact L. reflexivity. Qed.
Lemma cut_all st a b : Forall (cok st) a -> Forall2 cut_file a b -> (st = true \/ forallb full b = true) -> b = map synced a.
Proof.
  intros F C. induction C as [|g g' a b C Cs IH]; intros S; [reflexivity|]. cbn [map]. pose proof (Forall_inv F) as F1. apply Forall_inv_tail in F. f_equal.
  - destruct S as [->|S]; [apply cut_strict; auto|]. cbn in S. apply andb_prop in S. apply (cut_full st); auto. apply S.
  - apply IH; [exact F|]. destruct S as [S|S]; [auto|]. cbn in S. apply andb_prop in S. right. apply S.
Qed.
Lemma flat_synced a : flatf (map synced a) = flatf a.
Proof. unfold flatf. rewrite map_map. reflexivity. Qed.
Lemma chain_synced a : forall b, chain b a -> chain b (map synced a).
Proof. induction a as [|g a IH]; intros b C; cbn in *; [auto|]. destruct C. split; auto. Qed.
Lemma cok_synced st a : Forall (cok st) a -> Forall (cok st) (map synced a).
Proof. intros F. apply Forall_forall. intros g I. apply in_map_iff in I. destruct I as (g0 & <- & I). rewrite Forall_forall in F. destruct (F g0 I) as (A & B & _). repeat split; auto. Qed.

Lemma skipn_firstn_z {A} (l : list A) n k : exists r, skipn k l = skipn k (firstn n l) ++ r.
Proof. exists (skipn (k - length (firstn n l)) (skipn n l)). rewrite <- skipn_app, firstn_skipn. reflexivity. Qed.

Lemma cut_ok fl st m T c : WFm fl st m T -> cut_disk T c -> (st = true \/ forallb full (d_cl c) = true) ->
  WFm fl st m c /\ prefix (g_ents (abs c)) (g_ents (abs T)) /\ (forall a i, opens a T -> m <= i <= a -> g_at (abs c) i = g_at (abs T) i) /\
  (forall g, d_op c = Some g -> f_sync g = length (f_es g)).
Proof.
  intros W (CM & CC & CO) S. pose proof (cut_all st _ _ (w_cl _ _ _ _ W) CC S) as EC. pose proof (w_ch _ _ _ _ W) as Ch. pose proof (w_m _ _ _ _ W) as M.
  rewrite (w_meta _ _ _ _ W) in CM.
  assert (GEN : forall op, d_op c = op -> match op with None => d_op T = None | Some g' => exists g n, d_op T = Some g /\ (f_sync g <= n)%nat /\ g' = mkF (f_first g) (f_last g) (firstn n (f_es g)) (length (firstn n (f_es g))) end).
  { intros op <-. destruct (d_op T) as [g|], (d_op c) as [g'|]; try destruct CO; auto. exists g, x. intuition. }
  specialize (GEN _ eq_refl).
  assert (BS : base m c = base m T).
  { unfold base, d_all. rewrite EC. destruct (d_cl T) as [|g0 cl]; [|reflexivity]. destruct (d_op c) as [g'|]; [destruct GEN as (g & n & -> & _ & ->); reflexivity|rewrite GEN; reflexivity]. }
  assert (FL : exists y n, flat c = firstn n (flat T) /\ flat T = flat c ++ y /\ (forall a, opens a T -> forall i, base m T <= i <= a -> i - base m T < Z.of_nat n \/ y = [])).
  { unfold flat, d_all. rewrite EC, !flatf_app, flat_synced. destruct (d_op c) as [g'|] eqn:G.
    - destruct GEN as (g & n & GT & L & ->). rewrite GT, !flatf_one. cbn [f_es]. exists (skipn n (f_es g)), (length (flatf (d_cl T)) + n)%nat. split; [|split].
      + rewrite firstn_app_2. reflexivity.
      + rewrite <- app_assoc, firstn_skipn. reflexivity.
      + intros a O i I. left. specialize (O g GT). unfold d_all in Ch. rewrite GT in Ch. apply chain_app in Ch. destruct Ch as [_ [Ch _]]. unfold zlen in Ch. lia.
    - rewrite GEN. cbn [flatf]. exists [], (length (flatf (d_cl T))). unfold flatf. cbn. rewrite !app_nil_r. split; [symmetry; apply firstn_all|]. split; [reflexivity|auto]. }
  destruct FL as (y & n & F1 & F2 & F3).
  assert (Wc : WFm fl st m c).
  { constructor.
    - exact CM.
    - rewrite BS. exact M.
    - rewrite BS. unfold d_all in Ch |- *. apply chain_app in Ch. apply chain_app. rewrite EC. split; [apply chain_synced; apply Ch|]. rewrite flat_synced.
      destruct Ch as [_ Ch]. destruct (d_op c) as [g'|]; [|exact I]. destruct GEN as (g & k & GT & _ & ->). rewrite GT in Ch. cbn in Ch |- *. split; [apply Ch|exact I].
    - rewrite EC. apply cok_synced. apply (w_cl _ _ _ _ W).
    - intros g' G. rewrite G in GEN. destruct GEN as (g & k & _ & _ & ->). cbn. lia.
    - pose proof (w_sz _ _ _ _ W) as Z. rewrite F2 in Z. apply Forall_app in Z. apply Z. }
  split; [exact Wc|]. rewrite (abs_of _ _ _ _ Wc), (abs_of _ _ _ _ W), BS. cbn [g_ents]. split; [|split].
  - rewrite F1. destruct (skipn_firstn_z (flat T) n (Z.to_nat (m - base m T))) as [r R]. exists r. exact R.
  - intros a i O I. unfold g_at. cbn [g_first g_ents]. rewrite !znth_skipn by lia. destruct (F3 a O i ltac:(lia)) as [X|X].
    + rewrite F1. apply znth_firstn. lia.
    + rewrite F2, X, app_nil_r. reflexivity.
  - intros g' G. rewrite G in GEN. destruct GEN as (g & k & _ & _ & ->). reflexivity.
Qed.

Lemma cut_none c : cut_disk (mkD None [] None) c -> c = mkD None [] None.
Proof.
  intros (M & C & O). destruct c as [mc cl op]. cbn in *. inversion C. subst. destruct op; [destruct O|]. reflexivity.
Qed.

(** What init finds after a machine failure. *)
Definition kept_ok (st : bool) (c : sd) : Prop := st = true \/ forallb full (d_cl c) = true.
Lemma init_cut fl st v t c s' : okT fl st v t -> cut_disk t c -> dinit c [c] = Some s' -> kept_ok st c ->
  exists m d', s' = mkDS m (g_last (abs d')) d' [c; d'] /\ WFm fl st m d' /\ V m d' /\ abs d' = abs c /\ WF fl st c /\ may_find v (abs c) /\
    (forall g, d_op d' = Some g -> f_sync g = length (f_es g)) /\ (forall g, d_op c = Some g -> f_sync g = length (f_es g)).
Proof.
  intros [[->|[m W]] MF O] C D K.
  - apply cut_none in C. subst c. injection D as <-. exists 1, (mkD (Some 1) [] None). split; [reflexivity|].
    split; [constructor; cbn; auto; try constructor; try (unfold base; cbn; lia); discriminate|]. split; [constructor; [left; reflexivity|reflexivity]|]. split; [reflexivity|].
    split; [left; reflexivity|]. split; [exact MF|]. split; intros g G; discriminate G.
  - destruct (cut_ok fl st m t c W C K) as (Wc & P & R & SY). destruct (settle_wf fl st m c Wc) as (W1 & V1 & A1 & _). rewrite (dinit_wf fl st m c [c] Wc) in D. injection D as <-.
    exists m, (settle m c). rewrite A1. split; [reflexivity|]. split; [exact W1|]. split; [exact V1|]. split; [reflexivity|]. split; [right; eauto|]. split; [|split; [|exact SY]].
    + destruct MF as [(l & L1 & L2 & [z L3]) MF2]. pose proof (first_of _ _ _ _ W) as F1. pose proof (first_of _ _ _ _ Wc) as F2. destruct P as [y P]. split.
      * exists l. split; [exact L1|]. split; [congruence|]. exists (y ++ z). rewrite L3, P, app_assoc. reflexivity.
      * intros i I1 I2. rewrite (R (v_acked v) i); [apply MF2; [exact I1|lia]|exact O|lia].
    + intros g G. apply SY. unfold settle in G. cbn in G. destruct (d_op c) as [g0|]; [|discriminate G]. destruct (f_end g0 <? m); [discriminate G|exact G].
Qed.
(** In the non-strict case: init succeeds only if the files it keeps are whole; those it drops do not matter. *)
Lemma forall2_skipn {A B} (R : A -> B -> Prop) n : forall a b, Forall2 R a b -> Forall2 R (skipn n a) (skipn n b).
Proof. induction n as [|n IH]; intros a b F; [exact F|]. destruct F; [constructor|]. cbn. auto. Qed.
Lemma nchain_cut a b : Forall2 cut_file a b -> forall x, nchain x a -> nchain x b.
Proof. induction 1 as [|g g' a b (n & _ & ->) _ IH]; intros x N; cbn in *; [auto|]. destruct N as (N1 & N2 & N3). auto. Qed.
Lemma low_cut m a b : Forall2 cut_file a b -> low m b = low m a.
Proof. induction 1 as [|g g' a b (n & _ & ->) _ IH]; cbn; [auto|]. rewrite IH. reflexivity. Qed.
Lemma init_any fl st v t c s' : okT fl st v t -> cut_disk t c -> dinit c [c] = Some s' -> exists f, shows s' f /\ may_find v f.
Proof.
  intros [[->|[m W]] MF O] C D.
  - destruct (init_cut fl st v _ c s' (mkOk _ _ _ _ (or_introl eq_refl) MF O) C D) as (m & d' & -> & W1 & V1 & A1 & _ & M1 & _); [apply cut_none in C; subst c; right; reflexivity|].
    exists (abs c). split; [rewrite <- A1; apply (wf_shows fl st m d' _ W1 V1)|exact M1].
  - pose proof C as (CM & CC & CO). rewrite (w_meta _ _ _ _ W) in CM. pose proof (w_ch _ _ _ _ W) as Ch. pose proof (w_m _ _ _ _ W) as M. unfold d_all in Ch. apply chain_app in Ch. destruct Ch as [Ch _].
    set (n := low m (d_cl t)). assert (LN : low m (d_cl c) = n) by (apply low_cut; exact CC).
    assert (CK : check_names m (-1) (d_cl c) = Some (skipn n (d_cl c))).
    { rewrite <- LN. apply (check_spec m (d_cl c) (base m t) M). apply (nchain_cut (d_cl t)); [exact CC|]. apply (chain_names st); [apply (w_cl _ _ _ _ W)|exact Ch]. }
    destruct (drop_wf fl st m t n W) as [Wt At]; [apply (low_sub m (d_cl t) st); [apply (w_cl _ _ _ _ W)|exact Ch|lia]|].
    assert (Cd : cut_disk (dropn n t) (dropn n c)) by (split; [cbn; rewrite CM; symmetry; apply (w_meta _ _ _ _ W)|split; [apply forall2_skipn; exact CC|exact CO]]).
    pose proof D as D0. unfold dinit in D0. rewrite CM, CK in D0. destruct (forallb full (skipn n (d_cl c))) eqn:FU; [|discriminate D0].
    assert (OKd : okT fl st v (dropn n t)) by (constructor; [right; eauto|rewrite At; exact MF|exact O]).
    assert (Dd : dinit (dropn n c) [dropn n c] = Some (mkDS (s_first s') (s_last s') (s_d s') [dropn n c; s_d s'])).
    { unfold dinit. cbn [dropn d_meta d_cl d_op]. rewrite CM. assert (C2 : check_names m (-1) (skipn n (d_cl c)) = Some (skipn n (d_cl c))).
      { assert (Wd : WFm fl st m (dropn n c)) by (apply (cut_ok fl st m (dropn n t) (dropn n c) Wt Cd); right; exact FU).
        pose proof (w_ch _ _ _ _ Wd) as Cc. unfold d_all in Cc. apply chain_app in Cc. destruct Cc as [Cc _]. pose proof (w_m _ _ _ _ Wd) as Md.
        change (skipn n (d_cl c)) with (d_cl (dropn n c)) at 1. rewrite (check_spec m _ (base m (dropn n c)) Md); [|apply (chain_names st); [apply (w_cl _ _ _ _ Wd)|exact Cc]].
        cbn [dropn d_cl]. rewrite <- LN at 1 2. rewrite low_skip. cbn [skipn]. rewrite LN. reflexivity. }
      rewrite C2, FU. injection D0 as <-. reflexivity. }
    destruct (init_cut fl st v _ _ _ OKd Cd Dd (or_intror FU)) as (m' & d' & E & W1 & V1 & A1 & _ & M1 & _). exists (abs (dropn n c)). split; [|exact M1].
    destruct s' as [sf sl sd0 sh]. cbn in E. injection E as -> -> -> _. rewrite <- A1. apply (wf_shows fl st m' d' _ W1 V1).
Qed.
Lemma power_ok fl st s v o j c s' r : 0 <= fl_max fl -> (st = true -> fl_segs fl = true) -> INV fl st s v -> (forall o', o = Some o' -> d_legal fl st s o') ->
  dpower fl s o j c -> kept_ok st c -> dinit c [c] = Some s' -> shows s' r -> INV fl st s' (mkV r [r] (match g_ents r with [] => 0 | _ => g_last r end)).
Proof.
  intros MX SG I LG (t & T & C) K D S. destruct (during_all fl st s v o MX SG I LG j) as (H & _). pose proof (H t T) as OK.
  destruct (init_cut fl st _ t c s' OK C D K) as (m & d' & -> & W & VV & A & Wc & MF & SY & SYc). pose proof (shows_abs fl st m d' _ W VV r S) as R. subst r.
  pose proof (w_m _ _ _ _ W) as M. set (a := match g_ents (abs d') with [] => 0 | _ => g_last (abs d') end).
  assert (AE : a = 0 \/ a = m + zlen (g_ents (abs d')) - 1 /\ g_ents (abs d') <> []).
  { unfold a. destruct (g_ents (abs d')) eqn:E; [left; reflexivity|right]. split; [|discriminate]. unfold g_last. rewrite E. rewrite (first_of _ _ _ _ W). reflexivity. }
  assert (OP : forall t m1, WFm fl st m1 t -> abs t = abs d' -> (forall g, d_op t = Some g -> f_sync g = length (f_es g)) -> opens a t).
  { intros t1 m1 W1 A1 S1 g G. rewrite (S1 g G). pose proof (w_ch _ _ _ _ W1) as Ch. pose proof (w_m _ _ _ _ W1) as M1. rewrite (all_open _ _ G) in Ch. apply chain_app in Ch. destruct Ch as [_ [Ch _]].
    pose proof (zlen_nn (flatf (d_cl t1))). destruct AE as [->|[-> NE]]; [lia|]. assert (E1 : m1 = m) by (rewrite <- (first_of _ _ _ _ W1), A1; apply (first_of _ _ _ _ W)). subst m1.
    rewrite <- A1 in NE |- *. rewrite (abs_of _ _ _ _ W1) in NE |- *. cbn [g_ents] in NE |- *. rewrite zlen_skipn by lia.
    assert (X : flat t1 = flatf (d_cl t1) ++ f_es g) by (unfold flat; rewrite (all_open _ _ G), flatf_app, flatf_one; reflexivity). apply zlen_pos in NE. rewrite zlen_skipn in NE by lia.
    rewrite X, zlen_app' in NE |- *. unfold zlen in *. lia. }
  assert (MFd : may_find (mkV (abs d') [abs d'] a) (abs d')) by (split; [exists (abs d'); split; [left; reflexivity|split; [reflexivity|apply prefix_refl]]|auto]).
  constructor; cbn [s_first s_last s_d s_h v_now v_since v_acked]; auto.
  - right. left. reflexivity.
  - intros u [<-|[<-|[]]].
    + constructor; [exact Wc|rewrite <- A; exact MFd|]. cbn [v_acked]. destruct Wc as [->|[mc Wc]]; [intros g G; discriminate G|]. apply (OP c mc Wc); auto.
    + constructor; [right; eauto|exact MFd|]. apply (OP d' m W); auto.
  - fold a. destruct AE as [->|[-> _]]; [pose proof (glast_ge (abs d')); rewrite (first_of _ _ _ _ W) in *; lia|]. unfold g_last. rewrite (first_of _ _ _ _ W). lia.
  - left. reflexivity.
Qed.
Lemma inv_start fl st : INV fl st dst0 (mkV (mkG 1 []) [mkG 1 []] 0).
Proof.
  assert (W : WFm fl st 1 (mkD (Some 1) [] None)) by (constructor; cbn; auto; try constructor; try (unfold base; cbn; lia); discriminate).
  constructor; cbn; auto; try lia.
  - constructor; [left; reflexivity|reflexivity].
  - assert (MF : may_find (mkV (mkG 1 []) [mkG 1 []] 0) (mkG 1 [])) by (split; [exists (mkG 1 []); split; [left; reflexivity|split; [reflexivity|apply prefix_refl]]|auto]).
    intros t [<-|[<-|[]]].
    + constructor; [left; reflexivity|exact MF|intros g G; discriminate G].
    + constructor; [right; eauto|exact MF|intros g G; discriminate G].
  - cbv. discriminate.
Qed.
Lemma reach_inv fl st s v : 0 <= fl_max fl -> (st = true -> fl_segs fl = true) -> reach fl st s v -> INV fl st s v.
Proof.
  intros MX SG. induction 1 as [|s v o R IH LG|s v o j s' r R IH LG K S|s v o j c s' r R IH LG P K D S].
  - apply inv_start.
  - apply step_ok; auto.
  - apply (kill_ok fl st s v o j s' r); auto.
  - apply (power_ok fl st s v o j c s' r); auto.
Qed.
