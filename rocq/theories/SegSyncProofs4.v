(** C61, lemmas: the invariant of all histories. *)
From Verif Require Import Base SegSync SegSyncSpec SegSyncProofs SegSyncProofs2 SegSyncProofs3.

Lemma suffix_ok fl st m a k d h ents (s := mkDS m (m + zlen ents - 1) d h) : st = true -> WFm fl st m d -> V m d -> opens a d -> abs d = mkG m ents -> m - 1 <= k <= m + zlen ents - 1 ->
  let a' := Z.min a k in along (SI fl st m a' k ents) (suffix_prog k s) d /\ FI fl st m a' k ents (vols (suffix_prog k s) d) /\ fst (suffix_mem k s) = m.
Proof.
  intros ST W VV O A K a'. assert (S0 : SI fl st m a' k ents d).
  { constructor; [exact W|intros g G; specialize (O g G); lia|]. exists (length ents). rewrite firstn_all. split; [unfold zlen in K; lia|exact A]. }
  assert (HA' : a' <= k) by (unfold a'; lia). assert (HK : m - 1 <= k) by lia. pose proof (w_m _ _ _ _ W) as M. pose proof (V_end fl st m d ents W VV A) as EN. pose proof (vv_low _ _ VV) as LW. pose proof (w_ch _ _ _ _ W) as C.
  unfold suffix_prog, suffix_mem. cbn [s s_d s_first fst]. destruct (d_op d) as [g|] eqn:G.
  - rewrite (all_open d g G) in C. apply chain_app in C. destruct C as [C1 [C2 _]]. unfold flat in EN. rewrite (all_open d g G), flatf_app, zlen_app', flatf_one in EN.
    destruct (Z.leb_spec (f_first g) k) as [L|L].
    + destruct (Z.leb_spec m k) as [MK|MK].
      * unfold trunc_file. destruct (Z.leb_spec (f_end g) k) as [L2|L2].
        -- cbn [along vols fold_left]. split; [auto|]. split; [|reflexivity]. apply (trunc_none fl st m a' k ents d (f_end g)); auto.
           unfold flat. rewrite (all_open d g G), flatf_app, zlen_app', flatf_one. unfold f_end. lia.
        -- cbn [app along vols fold_left]. assert (FT : FI fl st m a' k ents (vol (YTrunc (Z.to_nat (k + 1 - f_first g))) d)) by (apply trunc_open; auto; lia).
           split; [split; [apply FT|exact I]|]. auto.
      * assert (N : d_cl d = []).
        { destruct (d_cl d) as [|c cl] eqn:Q; [reflexivity|]. exfalso. cbn [low] in LW. destruct (Z.ltb_spec (f_last c) m) as [|X]; [discriminate LW|].
          pose proof (w_cl _ _ _ _ W) as F. rewrite Q in F. apply Forall_inv in F. destruct F as (_ & LL & _). unfold f_end in LL. destruct C1 as [Cc _].
          rewrite flatf_cons, zlen_app' in C2. pose proof (zlen_nn (flatf cl)). lia. }
        cbn [along vols fold_left vol]. rewrite G, N, (w_meta _ _ _ _ W).
        assert (FT : FI fl st m a' k ents (mkD (Some m) [] None)).
        { apply none_left; [|reflexivity|lia]. constructor.
          - constructor; try reflexivity; try (unfold base; cbn; lia); cbn; auto; try constructor. discriminate.
          - intros x Hx. discriminate Hx.
          - exists 0%nat. split; [lia|]. unfold abs. cbn [d_meta]. f_equal. unfold flat, d_all. cbn. apply skipn_nil. }
        split; [split; [apply FT|exact I]|]. auto.
    + destruct (unlink_open fl st m a' k ents HK d g S0 G L) as [S1 _].
      assert (E1 : vol YUnlinkBack d = mkD (d_meta d) (d_cl d) None) by (cbn [vol]; rewrite G; reflexivity). rewrite E1 in S1.
      destruct (from_closed fl st m a' k ents HK HA' ST (mkD (d_meta d) (d_cl d) None) m S1 eq_refl LW eq_refl) as (B1 & B2 & B3).
      { cbn. intros N. rewrite N in C2. unfold flatf in C2. cbn in C2. rewrite zlen_nil' in C2. lia. }
      cbn [d_cl] in B1, B2, B3. cbn [along]. change (vols (YUnlinkBack :: ?q) d) with (vols q (vol YUnlinkBack d)). rewrite E1. split; [split; [exact S1|exact B1]|]. split; [exact B2|].
      destruct (filter _ (d_cl d)); [specialize (B3 eq_refl); lia|reflexivity].
  - destruct (from_closed fl st m a' k ents HK HA' ST d m S0 G LW eq_refl) as (B1 & B2 & B3).
    { intros N. unfold flat, base, d_all in EN. rewrite N, G in EN. unfold flatf in EN. cbn in EN. rewrite zlen_nil' in EN. lia. }
    split; [exact B1|]. split; [exact B2|]. destruct (filter _ (d_cl d)); [specialize (B3 eq_refl); lia|reflexivity].
Qed.

(** * The invariant *)
Record okT (fl : dflags) (st : bool) (v : view) (t : sd) : Prop := mkOk { ok_wf : WF fl st t; ok_may : may_find v (abs t); ok_op : opens (v_acked v) t }.
Record INV (fl : dflags) (st : bool) (s : dst) (v : view) : Prop := mkINV {
  i_wf : WFm fl st (s_first s) (s_d s); i_V : V (s_first s) (s_d s); i_abs : abs (s_d s) = v_now v; i_last : s_last s = g_last (v_now v);
  i_in : In (s_d s) (s_h s); i_h : forall t, In t (s_h s) -> okT fl st v t; i_ack : v_acked v <= g_last (v_now v); i_now : In (v_now v) (v_since v) }.

Lemma g_at_app m x y i : i < m + zlen x -> g_at (mkG m (x ++ y)) i = g_at (mkG m x) i.
Proof. intros L. unfold g_at. cbn. apply znth_app_l. lia. Qed.
Lemma g_at_firstn m x n i : i < m + Z.of_nat n -> g_at (mkG m (firstn n x)) i = g_at (mkG m x) i.
Proof. intros L. unfold g_at. cbn. apply znth_firstn. lia. Qed.
Lemma g_at_skip m k x i : m <= k -> k <= i -> g_at (mkG k (skipn (Z.to_nat (k - m)) x)) i = g_at (mkG m x) i.
Proof. intros L I. unfold g_at. cbn. rewrite znth_skipn by lia. f_equal. lia. Qed.
Lemma prefix_refl x : prefix x x. Proof. exists []. rewrite app_nil_r. reflexivity. Qed.
Lemma may_more v v' f : (forall l, In l (v_since v) -> In l (v_since v')) -> (forall i, g_first (v_now v') <= i <= v_acked v' -> g_first (v_now v) <= i <= v_acked v /\ g_at (v_now v) i = g_at (v_now v') i) ->
  may_find v f -> may_find v' f.
Proof. intros S1 S2 ((l & L1 & L2) & R). split; [exists l; auto|]. intros i I1 I2. destruct (S2 i I1) as [J E]. rewrite <- E. auto. Qed.

Definition stepped fl st v o t := okT fl st (v_during v (Some o)) t /\ g_first (v_now v) <= g_first (abs t).
(** Every moment of a call is one a failure may lead to; and what the directory is at its end. *)
Lemma call_ok fl st s v o : 0 <= fl_max fl -> (st = true -> fl_segs fl = true) -> INV fl st s v -> d_legal fl st s o ->
  along (stepped fl st v o) (prog fl o s) (s_d s) /\
  (let d' := vols (prog fl o s) (s_d s) in WFm fl st (fst (mem o s)) d' /\ V (fst (mem o s)) d' /\ abs d' = g_step (v_now v) o /\ snd (mem o s) = g_last (g_step (v_now v) o)).
Proof.
  intros MX SG [W VV A LA IN H AC NW] LG. destruct s as [m last d h]. cbn [s_first s_last s_d s_h] in *. destruct v as [now since a]. cbn [v_now v_since v_acked] in *.
  destruct now as [m' ents]. assert (m' = m) by (rewrite (abs_of _ _ _ _ W) in A; injection A; auto). subst m'. unfold g_last in *. cbn [g_first g_ents] in *.
  pose proof (ok_op _ _ _ _ (H d IN)) as O. cbn [v_acked] in O. pose proof (w_m _ _ _ _ W) as M. pose proof (V_end fl st m d ents W VV A) as EN.
  destruct o as [es ok|k|k].
  - cbn [prog mem fst snd]. unfold append_prog. destruct es as [|e es].
    + cbn [along vols fold_left g_step g_ents]. rewrite app_nil_r, zlen_nil'. cbn [g_first]. split; [exact I|]. split; [exact W|]. split; [exact VV|]. split; [exact A|]. unfold g_last. cbn. lia.
    + set (b := e :: es) in *. assert (AI0 : AI fl st m a ents [] d) by (constructor; rewrite ?app_nil_r; auto; [apply VV|]; destruct VV as [[X|X] _]; [left; unfold flat; rewrite X; reflexivity|right; lia]).
      destruct (loop_AI fl st m a ents MX SG b [] d last AI0) as (L1 & L2 & L3); [rewrite app_nil_r; lia|lia|exact LG|]. cbn [app] in L1, L2. cbn [s_last s_d].
      destruct (L3 ltac:(discriminate)) as [g G]. set (p := append_loop fl last b d) in *.
      assert (AQ : forall t y, AI fl st m a ents y t -> prefix y b -> stepped fl st (mkV (mkG m ents) since a) (DAppend b ok) t).
      { intros t y [Wt Ot At Et] [z Z]. split; [|rewrite At; cbn; lia]. constructor; [right; eauto| |exact Ot]. rewrite At. cbn [v_during v_now v_since v_acked]. split.
        - exists (mkG m (ents ++ b)). split; [apply in_or_app; right; left; reflexivity|]. split; [reflexivity|]. cbn. exists z. rewrite Z, app_assoc. reflexivity.
        - cbn [v_now v_acked g_first]. intros i I1 _. apply g_at_app. lia. }
      assert (FIN : forall t, AI fl st m a ents b t -> WFm fl st m t /\ V m t /\ abs t = g_step (mkG m ents) (DAppend b ok) /\ last + zlen b = g_last (g_step (mkG m ents) (DAppend b ok))).
      { intros t [Wt Ot At Et Lt Vt]. split; [exact Wt|]. split; [|split; [exact At|unfold g_last; cbn; rewrite zlen_app'; lia]]. constructor; [|exact Lt].
        right. rewrite Et, zlen_app'. unfold b. rewrite zlen_cons'. pose proof (zlen_nn ents). pose proof (zlen_nn es). lia. }
      assert (A1 : along (stepped fl st (mkV (mkG m ents) since a) (DAppend b ok)) p d).
      { apply (along_mono (fun t => exists y, AI fl st m a ents y t /\ prefix y b)); [|exact L1]. intros t (y & Y1 & Y2). eauto. }
      destruct (fl_sync fl).
      * rewrite along_app, vols_app. cbn [along vols fold_left]. fold (vols p d). pose proof (sync_AI fl st m a ents b (vols p d) g ok L2 G) as L4.
        split; [split; [exact A1|split; [apply (AQ _ b L4); apply prefix_refl|exact I]]|]. apply FIN. exact L4.
      * rewrite app_nil_r. split; [exact A1|]. apply FIN. exact L2.
  - cbn [prog mem]. unfold prefix_prog, prefix_mem, g_step. cbn [s_first s_last s_d g_first g_ents]. destruct (Z.leb_spec k m) as [L|L].
    + cbn [along vols fold_left fst snd]. unfold g_last. cbn [g_first g_ents]. auto.
    + cbn [fst snd]. set (r := mkG k (skipn (Z.to_nat (k - m)) ents)).
      destruct (prefix_along fl st m d k (fl_meta fl) ents (stepped fl st (mkV (mkG m ents) since a) (DPrefix k)) W L A) as [P1 P2].
      { intros t Wt At Ot. split; [|rewrite At; cbn; lia]. constructor; [right; eauto| |].
        - rewrite At. cbn [v_during g_step g_first g_ents v_now v_since v_acked]. destruct (Z.leb_spec k m); [lia|]. split.
          + exists r. split; [apply in_or_app; right; left; reflexivity|]. split; [reflexivity|apply prefix_refl].
          + cbn [v_now v_acked g_first]. intros i _ I2. apply g_at_skip; lia.
        - cbn [v_during v_acked]. intros g G. destruct Ot as [Ot|Ot]; rewrite Ot in G; [apply O; exact G|discriminate G]. }
      split; [exact P1|]. rewrite P2. destruct (meta_wf fl st m d k (fl_meta fl) ents W L A) as [W1 A1].
      destruct (settle_wf fl st k _ W1) as (W2 & V2 & A2 & _). split; [exact W2|]. split; [exact V2|]. split; [rewrite A2; exact A1|].
      unfold g_last. cbn [r g_first g_ents]. rewrite zlen_skipn by lia. pose proof (all_low_spec fl st m d k W ltac:(lia)) as AL. destruct (all_low k d).
      * destruct AL as [AL _]. specialize (AL eq_refl). lia.
      * destruct (Z.le_gt_cases (base m d + zlen (flat d)) k) as [X|X]; [destruct AL as [_ AL]; specialize (AL X); discriminate AL|lia].
  - destruct LG as [LG ST]. cbn [s_first s_last] in LG. cbn [prog mem]. rewrite LA in *.
    destruct (suffix_ok fl st m a k d h ents ST W VV O A ltac:(lia)) as (S1 & (S2 & S3 & S4) & S5). split.
    + apply (along_mono (SI fl st m (Z.min a k) k ents)); [|exact S1]. intros t [Wt Ot (n & N1 & At)]. split; [|rewrite At; cbn; lia]. constructor; [right; eauto| |exact Ot].
      rewrite At. split.
      * exists (mkG m ents). split; [apply in_or_app; left; exact NW|]. split; [reflexivity|]. exists (skipn n ents). cbn. rewrite firstn_skipn. reflexivity.
      * cbn [v_during v_now v_acked g_first]. intros i I1 _. apply g_at_firstn. lia.
    + cbn [g_step g_first g_ents]. rewrite S5. split; [apply S2|]. split; [exact S3|]. split; [exact S4|]. cbn [suffix_mem snd]. unfold g_last. cbn [g_first g_ents]. rewrite zlen_firstn. lia.
Qed.
