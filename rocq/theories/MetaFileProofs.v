From Verif Require Import Base BaseLemmas Conf ConfSpec ConfProofs MetaFile MetaFileSpec.

Lemma upd_length : forall l n x, length (upd l n x) = length l.
Proof. induction l; destruct n; cbn; intros; auto. Qed.
Lemma nth_upd_same : forall l n x, (n < length l)%nat -> nth_error (upd l n x) n = Some x.
Proof. induction l; destruct n; cbn; intros; try lia; auto. apply IHl. lia. Qed.
Lemma nth_upd_other : forall l n x k, k <> n -> nth_error (upd l n x) k = nth_error l k.
Proof. induction l; destruct n, k; cbn; intros; auto; try congruence. Qed.

(** *** the length header *)
Lemma be32_parse : forall m, fits m -> parse_file (be32 (zlen m) ++ m) = Some m.
Proof.
  intros m H. unfold fits in H. pose proof (zlen_nonneg m).
  destruct (octets (zlen m)) as [O1 [_ [_ [_ O5]]]]; try lia.
  unfold parse_file, be32. cbn [app]. cbv zeta.
  rewrite (Z.mod_small (zlen m / 16777216) 256) by auto. rewrite O5.
  assert (F : firstn (Z.to_nat (zlen m)) m = m) by (unfold zlen; rewrite Nat2Z.id; apply firstn_all).
  rewrite F, Z.eqb_refl. auto.
Qed.

(** *** invariant *)
Definition dir_ok (sync : bool) (ns : list inode) (vals : list loaded) (d : dirst) : Prop :=
  In (load_dir ns d) vals /\
  (forall n, d_path d = Some n ->
     exists i, nth_error ns n = Some i /\ (sync = true -> i_synced i = true)) /\
  (forall n, d_tmp d = Some n -> (n < length ns)%nat /\ d_path d <> Some n).

Definition Inv (sync : bool) (f : fs) (vals : list loaded) : Prop :=
  In (dir f) (d_hist f) /\
  (forall d, In d (d_hist f) -> dir_ok sync (inodes f) vals d) /\
  (forall n d, d_tmp (dir f) = Some n -> In d (d_hist f) -> d_path d <> Some n).

Lemma inv_init : forall sync, Inv sync fs_init [L_none].
Proof.
  intros. unfold Inv, fs_init; cbn. split; auto. split.
  - intros d [<-|[]]. unfold dir_ok; cbn. split; auto. split; intros; discriminate.
  - intros; discriminate.
Qed.

Lemma inv_weaken : forall sync f vals vals', Inv sync f vals -> incl vals vals' -> Inv sync f vals'.
Proof.
  intros sync f vals vals' [I1 [I2 I3]] Hi. split; auto. split; auto.
  intros d Hd. destruct (I2 d Hd) as [A [B C]]. split; auto.
Qed.

Lemma load_dir_upd : forall ns n x d, d_path d <> Some n -> load_dir (upd ns n x) d = load_dir ns d.
Proof.
  intros. unfold load_dir. destruct (d_path d) as [k|]; auto. rewrite nth_upd_other by congruence; auto.
Qed.

(** Changing the temporary file changes nothing visible. *)
Lemma inv_upd_tmp : forall sync f vals n x,
  Inv sync f vals -> d_tmp (dir f) = Some n ->
  Inv sync (mkFS (upd (inodes f) n x) (dir f) (d_hist f)) vals /\
  load (mkFS (upd (inodes f) n x) (dir f) (d_hist f)) = load f.
Proof.
  intros sync f vals n x [I1 [I2 I3]] Ht. split.
  - split; auto. split; auto. cbn. intros d Hd. destruct (I2 d Hd) as [A [B C]].
    pose proof (I3 n d Ht Hd) as Hne. unfold dir_ok. rewrite load_dir_upd by auto. split; auto. split.
    + intros k Hk. rewrite nth_upd_other by congruence. auto.
    + intros k Hk. rewrite upd_length. auto.
  - unfold load; cbn. apply load_dir_upd. apply I3 with (n := n); auto.
Qed.

Lemma load_dir_app : forall ns x d, (forall n, d_path d = Some n -> exists i, nth_error ns n = Some i) ->
  load_dir (ns ++ [x]) d = load_dir ns d.
Proof.
  intros. unfold load_dir. destruct (d_path d) as [k|]; auto.
  destruct (H k eq_refl) as [i Hi]. rewrite nth_error_app1; auto.
  apply nth_error_Some. congruence.
Qed.

Lemma inv_open : forall sync f vals, Inv sync f vals ->
  Inv sync (op_open f) vals /\ load (op_open f) = load f /\
  exists n, d_tmp (dir (op_open f)) = Some n /\ nth_error (inodes (op_open f)) n = Some (mkI [] false).
Proof.
  intros sync f vals HI. unfold op_open. destruct (d_tmp (dir f)) as [n|] eqn:Et.
  - destruct (inv_upd_tmp sync f vals n (mkI [] false) HI Et) as [A B].
    split; auto. split; auto. exists n. cbn. split; auto. apply nth_upd_same.
    destruct HI as [I1 [I2 _]]. destruct (I2 _ I1) as [_ [_ C]]. apply C in Et. tauto.
  - destruct HI as [I1 [I2 I3]]. cbn.
    assert (HP : forall d, In d (d_hist f) -> forall n, d_path d = Some n -> exists i, nth_error (inodes f) n = Some i).
    { intros d Hd n Hn. destruct (I2 d Hd) as [_ [B _]]. destruct (B n Hn) as [i [Hi _]]. eauto. }
    assert (HK : forall d, In d (d_hist f) -> dir_ok sync (inodes f ++ [mkI [] false]) vals d).
    { intros d Hd. destruct (I2 d Hd) as [A [B C]]. unfold dir_ok.
      rewrite load_dir_app by (apply HP; auto). split; auto. split.
      - intros n Hn. destruct (B n Hn) as [i [Hi Hs]]. exists i. split; auto.
        rewrite nth_error_app1; auto. apply nth_error_Some. congruence.
      - intros n Hn. rewrite app_length. destruct (C n Hn). split; auto. cbn; lia. }
    split; [|split].
    + unfold Inv; cbn. split; auto. split.
      * intros d [<-|Hd]; auto. destruct (HK _ I1) as [A [B C]]. unfold dir_ok; cbn. split; [exact A|].
        split; [exact B|]. intros n Hn. inversion Hn; subst n. rewrite app_length. split; [cbn; lia|].
        intros E. destruct (HP _ I1 _ E) as [i Hi].
        assert (nth_error (inodes f) (length (inodes f)) <> None) by congruence.
        apply nth_error_Some in H. lia.
      * intros n d Hn Hd. inversion Hn; subst n.
        assert (X : forall d, In d (d_hist f) -> d_path d <> Some (length (inodes f))).
        { intros d0 Hd0 E. destruct (HP _ Hd0 _ E) as [i Hi].
          assert (nth_error (inodes f) (length (inodes f)) <> None) by congruence.
          apply nth_error_Some in H. lia. }
        destruct Hd as [<-|Hd]; cbn; auto.
    + unfold load; cbn. unfold load_dir; cbn. fold (load_dir (inodes f ++ [mkI [] false]) (dir f)).
      rewrite load_dir_app; [auto|apply HP; auto].
    + exists (length (inodes f)). split; auto. rewrite nth_error_app2 by lia.
      rewrite Nat.sub_diag. auto.
Qed.

Lemma inv_write : forall sync f vals n i bs, Inv sync f vals -> d_tmp (dir f) = Some n ->
  nth_error (inodes f) n = Some i ->
  Inv sync (op_write f bs) vals /\ load (op_write f bs) = load f /\
  d_tmp (dir (op_write f bs)) = Some n /\
  nth_error (inodes (op_write f bs)) n = Some (mkI (i_data i ++ bs) false).
Proof.
  intros. unfold op_write. rewrite H0, H1.
  destruct (inv_upd_tmp sync f vals n (mkI (i_data i ++ bs) false) H H0). split; auto. split; auto.
  cbn. split; auto. apply nth_upd_same. apply nth_error_Some. congruence.
Qed.

Lemma inv_sync : forall sync f vals n i, Inv sync f vals -> d_tmp (dir f) = Some n ->
  nth_error (inodes f) n = Some i ->
  Inv sync (op_sync f) vals /\ load (op_sync f) = load f /\
  d_tmp (dir (op_sync f)) = Some n /\
  nth_error (inodes (op_sync f)) n = Some (mkI (i_data i) true).
Proof.
  intros. unfold op_sync. rewrite H0, H1.
  destruct (inv_upd_tmp sync f vals n (mkI (i_data i) true) H H0). split; auto. split; auto.
  cbn. split; auto. apply nth_upd_same. apply nth_error_Some. congruence.
Qed.

Lemma save_inv : forall sync m f vals, fits m -> Inv sync f vals -> forall pt,
  match pt with
  | P_done => Inv sync (save_upto sync m pt f) (L_msg m :: vals) /\ load (save_upto sync m pt f) = L_msg m
  | _ => Inv sync (save_upto sync m pt f) vals /\ load (save_upto sync m pt f) = load f
  end.
Proof.
  intros sync m f vals Hm HI.
  destruct (inv_open sync f vals HI) as [A1 [A2 [n [A3 A4]]]].
  destruct (inv_write sync _ vals n _ (be32 (zlen m)) A1 A3 A4) as [B1 [B2 [B3 B4]]].
  destruct (inv_write sync _ vals n _ m B1 B3 B4) as [C1 [C2 [C3 C4]]]. cbn [i_data app] in C4.
  assert (D : Inv sync (if sync then op_sync (op_write (op_write (op_open f) (be32 (zlen m))) m)
                        else op_write (op_write (op_open f) (be32 (zlen m))) m) vals /\
     load (if sync then op_sync (op_write (op_write (op_open f) (be32 (zlen m))) m)
                        else op_write (op_write (op_open f) (be32 (zlen m))) m) = load f /\
     d_tmp (dir (if sync then op_sync (op_write (op_write (op_open f) (be32 (zlen m))) m)
                        else op_write (op_write (op_open f) (be32 (zlen m))) m)) = Some n /\
     exists i, nth_error (inodes (if sync then op_sync (op_write (op_write (op_open f) (be32 (zlen m))) m)
                        else op_write (op_write (op_open f) (be32 (zlen m))) m)) n = Some i /\
       i_data i = be32 (zlen m) ++ m /\ (sync = true -> i_synced i = true)).
  { destruct sync.
    - destruct (inv_sync true _ vals n _ C1 C3 C4) as [D1 [D2 [D3 D4]]].
      split; auto. split; [congruence|]. split; auto. eexists. split; [exact D4|]. split; auto.
    - split; auto. split; [congruence|]. split; auto. eexists. split; [exact C4|]. split; auto; discriminate. }
  destruct D as [D1 [D2 [D3 [i [D4 [D5 D6]]]]]].
  intros pt. unfold save_upto. destruct pt.
  - auto.
  - destruct (inv_write sync _ vals n _ (firstn k (be32 (zlen m))) A1 A3 A4) as [E1 [E2 _]]. split; auto. congruence.
  - destruct (inv_write sync _ vals n _ (firstn k m) B1 B3 B4) as [E1 [E2 _]]. split; auto. congruence.
  - split; auto. congruence.
  - auto.
  - set (g := if sync then _ else _) in *. clearbody g. unfold op_rename. rewrite D3.
    assert (L : load_dir (inodes g) (mkD (Some n) None) = L_msg m).
    { unfold load_dir; cbn. rewrite D4, D5, be32_parse; auto. }
    destruct D1 as [I1 [I2 I3]]. split; [|exact L].
    unfold Inv, set_dir; cbn. split; auto. split.
    + intros d [<-|Hd].
      * unfold dir_ok. rewrite L. cbn. split; auto. split.
        -- intros k Hk. inversion Hk; subst k. eauto.
        -- intros; discriminate.
      * destruct (I2 d Hd) as [P Q]. split; auto. right; auto.
    + intros; discriminate.
Qed.

Lemma inv_flush : forall sync f vals, Inv sync f vals ->
  Inv sync (flush_dir f) [load f] /\ load (flush_dir f) = load f.
Proof.
  intros sync f vals [I1 [I2 I3]]. split; [|reflexivity]. unfold Inv, flush_dir; cbn.
  split; auto. split.
  - intros d [<-|[]]. destruct (I2 _ I1) as [A B]. split; [cbn; auto|exact B].
  - intros n d Ht [<-|[]]. eapply I3; eauto.
Qed.

Lemma scramble_length : forall ns g k, length (scramble ns g k) = length ns.
Proof. induction ns; cbn; intros; auto. Qed.
Lemma scramble_nth : forall ns g k n i, nth_error ns n = Some i -> i_synced i = true ->
  nth_error (scramble ns g k) n = Some (mkI (i_data i) true).
Proof.
  induction ns; destruct n; cbn; intros; try discriminate.
  - inversion H; subst. rewrite H0. auto.
  - eapply IHns; eauto.
Qed.

Lemma inv_power : forall f vals c g, Inv true f vals ->
  exists d, In (load (power_loss f c g)) vals /\ In d (d_hist f) /\
    Inv true (power_loss f c g) [load (power_loss f c g)].
Proof.
  intros f vals c g [I1 [I2 I3]]. unfold power_loss. set (d := nth c (d_hist f) (dir f)).
  assert (Hd : In d (d_hist f)).
  { unfold d. destruct (nth_in_or_default c (d_hist f) (dir f)) as [H|H]; auto. rewrite H; auto. }
  destruct (I2 d Hd) as [A [B C]].
  assert (E : load_dir (scramble (inodes f) g 0) d = load_dir (inodes f) d).
  { unfold load_dir. destruct (d_path d) as [n|] eqn:En; auto.
    destruct (B n eq_refl) as [i [Hi Hs]]. specialize (Hs eq_refl).
    rewrite (scramble_nth _ g 0 _ _ Hi Hs). rewrite Hi. auto. }
  exists d. split; [|split; auto].
  - unfold load; cbn. rewrite E. auto.
  - unfold Inv; cbn. split; auto. split.
    + intros d' [<-|[]]. unfold dir_ok. unfold load; cbn. split; auto. split.
      * intros n Hn. destruct (B n Hn) as [i [Hi Hs]]. specialize (Hs eq_refl).
        eexists. split. apply (scramble_nth _ g 0 _ _ Hi Hs). auto.
      * intros n Hn. rewrite scramble_length. auto.
    + intros n d' Hn [<-|[]]. apply C in Hn. tauto.
Qed.

(** *** runs *)
Definition no_power (es : list fevent) : Prop := forall m pt c g, ~ In (FPower m pt c g) es.

Lemma step_inv : forall sync f vals e, ok_fevent e -> (sync = true \/ no_power [e]) ->
  Inv sync f vals ->
  Inv sync (f_step sync f e)
    (match e with FSave _ _ => load (f_step sync f e) :: vals | _ => [load (f_step sync f e)] end).
Proof.
  intros sync f vals e Hok Hs HI. destruct e as [m pt| |m pt c g]; cbn.
  - pose proof (save_inv sync m f vals Hok HI pt) as H.
    destruct pt; destruct H as [H1 H2]; rewrite H2; auto;
      try (eapply inv_weaken; [exact H1|apply incl_tl, incl_refl]).
  - destruct (inv_flush sync f vals HI) as [H1 H2]. rewrite H2. auto.
  - destruct Hs as [->|Hn]; [|exfalso; eapply Hn; cbn; eauto].
    assert (X : exists v, Inv true (save_upto true m pt f) v).
    { pose proof (save_inv true m f vals Hok HI pt) as H. destruct pt; destruct H; eauto. }
    destruct X as [v X]. destruct (inv_power _ v c g X) as [d [_ [_ H]]]. auto.
Qed.

Lemma run_inv : forall sync es f vals, Forall ok_fevent es -> (sync = true \/ no_power es) ->
  Inv sync f vals -> exists vals', Inv sync (f_run sync f es) vals'.
Proof.
  induction es as [|e es IH]; intros f vals Hok Hs HI; cbn; eauto.
  inversion Hok; subst. eapply IH; auto.
  - destruct Hs as [->|Hn]; auto. right. intros m pt c g Hin. eapply Hn; cbn; eauto.
  - apply step_inv; eauto. destruct Hs as [->|Hn]; auto. right.
    intros m pt c g [E|[]]. eapply Hn; cbn; eauto.
Qed.

Lemma inv_load_ok : forall sync f vals, Inv sync f vals -> In (load f) vals.
Proof. intros sync f vals [I1 [I2 _]]. exact (proj1 (I2 _ I1)). Qed.

(** Since the last barrier, only values visible since then can come back. *)
Lemma run_vals : forall mid f vals, Forall ok_fevent mid -> Inv true f vals ->
  (forall v, In v vals -> v = load f) ->
  exists vals', Inv true (f_run true f mid) vals' /\
    forall v, In v vals' -> exists p, prefix p mid /\ v = load (f_run true f p).
Proof.
  intros mid f vals Hok HI Hv. induction mid as [|e mid IH] using rev_ind.
  - exists vals. split; auto. intros v H. exists []. split; [exists []; auto|cbn; auto].
  - apply Forall_app in Hok. destruct Hok as [Hok He]. inversion He; subst.
    destruct (IH Hok) as [vals' [I1 I2]]. unfold f_run in *. rewrite fold_left_app. cbn [fold_left].
    pose proof (step_inv true _ _ e H1 (or_introl eq_refl) I1) as HS.
    eexists. split; [exact HS|].
    assert (Hlast : forall v, v = load (f_step true (fold_left (f_step true) mid f) e) ->
      exists p, prefix p (mid ++ [e]) /\ v = load (fold_left (f_step true) p f)).
    { intros v ->. exists (mid ++ [e]). split; [exists []; rewrite app_nil_r; auto|].
      rewrite fold_left_app. auto. }
    intros v Hin. destruct e; cbn [In] in Hin.
    + destruct Hin as [Hin|Hin]; [apply Hlast; auto|].
      destruct (I2 v Hin) as [p [[r Hp] Hl]]. exists p. split; auto. exists (r ++ [FSave m pt]).
      rewrite Hp, <- app_assoc. auto.
    + destruct Hin as [Hin|[]]. apply Hlast; auto.
    + destruct Hin as [Hin|[]]. apply Hlast; auto.
Qed.

Lemma barrier_inv : forall pre, Forall ok_fevent pre -> barrier pre ->
  Inv true (f_run true fs_init pre) [load (f_run true fs_init pre)].
Proof.
  intros pre Hok Hb. destruct Hb as [->|[[es' ->]|[es' [m [pt [c [g ->]]]]]]].
  - cbn. apply inv_init.
  - apply Forall_app in Hok. destruct Hok as [Hok _].
    destruct (run_inv true es' fs_init _ Hok (or_introl eq_refl) (inv_init true)) as [v HI].
    unfold f_run in *. rewrite fold_left_app. cbn [fold_left].
    exact (step_inv true _ _ FFlush I (or_introl eq_refl) HI).
  - apply Forall_app in Hok. destruct Hok as [Hok He]. inversion He; subst.
    destruct (run_inv true es' fs_init _ Hok (or_introl eq_refl) (inv_init true)) as [v HI].
    unfold f_run in *. rewrite fold_left_app. cbn [fold_left].
    exact (step_inv true _ _ (FPower m pt c g) H1 (or_introl eq_refl) HI).
Qed.

Lemma power_old_or_new : forall pre mid m pt c g,
  Forall ok_fevent (pre ++ mid) -> fits m -> barrier pre ->
  let f := f_run true fs_init pre in
  let v := load (f_step true (f_run true f mid) (FPower m pt c g)) in
  (exists p, prefix p mid /\ v = load (f_run true f p)) \/ (pt = P_done /\ v = L_msg m).
Proof.
  intros pre mid m pt c g Hok Hm Hb f v.
  apply Forall_app in Hok. destruct Hok as [Hok1 Hok2].
  pose proof (barrier_inv pre Hok1 Hb) as HI. fold f in HI.
  destruct (run_vals mid f _ Hok2 HI) as [vals' [I1 I2]].
  { intros x [<-|[]]; auto. }
  pose proof (save_inv true m _ vals' Hm I1 pt) as HS.
  assert (X : Inv true (save_upto true m pt (f_run true f mid)) (if match pt with P_done => true | _ => false end then L_msg m :: vals' else vals')).
  { destruct pt; tauto. }
  destruct (inv_power _ _ c g X) as [d [Hin _]].
  unfold v. cbn [f_step]. destruct pt; cbv iota in Hin; try (left; apply I2; exact Hin).
  destruct Hin as [Hin|Hin]; [right; split; [reflexivity|symmetry; exact Hin]|left; apply I2; exact Hin].
Qed.

(** *** the meta codec *)
Lemma varint_ok : forall fuel n r, 0 <= n < 128 ^ Z.of_nat (S fuel) ->
  unvarint (varint (S fuel) n ++ r) = Some (n, r).
Proof.
  induction fuel as [|k IH]; intros n r H.
  - change (128 ^ Z.of_nat 1) with 128 in H. cbn [varint].
    destruct (Z.ltb_spec n 128); try lia. cbn [app unvarint]. destruct (Z.ltb_spec n 128); auto. lia.
  - change (varint (S (S k)) n) with (if n <? 128 then [n] else (n mod 128 + 128) :: varint (S k) (n / 128)).
    destruct (Z.ltb_spec n 128).
    + cbn [app unvarint]. destruct (Z.ltb_spec n 128); auto. lia.
    + assert (Hm : 0 <= n mod 128 < 128) by (apply Z.mod_pos_bound; lia).
      cbn [app unvarint]. destruct (Z.ltb_spec (n mod 128 + 128) 128); try lia.
      rewrite IH. f_equal. f_equal. pose proof (Z.div_mod n 128). lia.
      split. apply Z.div_pos; lia. apply Z.div_lt_upper_bound; try lia.
      rewrite Nat2Z.inj_succ, Z.pow_succ_r in H by lia. lia.
Qed.

Lemma print_nat_len : forall fuel n, zlen (print_nat fuel n) <= Z.of_nat fuel.
Proof.
  induction fuel; intros; cbn [print_nat]. zl; lia.
  destruct (n <? 10). zl. lia. zl. specialize (IHfuel (n / 10)). lia.
Qed.

Definition int32 (n : Z) : Prop := -2147483648 <= n < 2147483648.

Lemma print_int_len : forall n, int32 n -> zlen (print_int n) <= 33.
Proof.
  unfold int32, print_int. intros n H.
  assert (L : forall x, 0 <= x <= 2147483648 -> zlen (print_nat (S (Z.to_nat (Z.log2 x))) x) <= 32).
  { intros x Hx. pose proof (print_nat_len (S (Z.to_nat (Z.log2 x))) x).
    assert (Z.log2 x <= 31). { change 31 with (Z.log2 2147483648). apply Z.log2_le_mono. lia. }
    pose proof (Z.log2_nonneg x). lia. }
  destruct (Z.ltb_spec n 0).
  - zl. specialize (L (-n)). lia.
  - specialize (L n). lia.
Qed.

Lemma peer_str_len : forall v, valid_peer v -> int32 (p_port v) -> int32 (p_idx v) ->
  zlen (peer_to_string v) <= 300.
Proof.
  intros v [Hip Hr] Hp Hi. unfold peer_to_string, print_ip.
  destruct (octets (p_ip v) Hip) as [O1 [O2 [O3 [O4 _]]]].
  assert (L : forall n, 0 <= n < 256 -> zlen (print_int n) <= 33)
    by (intros; apply print_int_len; unfold int32; lia).
  pose proof (L _ O1). pose proof (L _ O2). pose proof (L _ O3). pose proof (L _ O4).
  pose proof (print_int_len _ Hp). pose proof (print_int_len _ Hi).
  assert (zlen (print_int (p_role v)) <= 33) by (apply print_int_len; unfold int32; lia).
  zl. lia.
Qed.

Lemma meta_codec : forall t v, 0 <= t < 9223372036854775808 -> valid_peer v ->
  int32 (p_port v) -> int32 (p_idx v) ->
  dec_meta (enc_meta t v) = Some (t, v) /\ fits (enc_meta t v).
Proof.
  intros t v Ht Hv Hp Hi. pose proof (peer_str_len v Hv Hp Hi) as Hl.
  pose proof (zlen_nonneg (peer_to_string v)).
  assert (P1 : 9223372036854775808 < 128 ^ Z.of_nat 10) by (vm_compute; reflexivity).
  assert (V : forall fuel n, zlen (varint fuel n) <= Z.of_nat fuel).
  { induction fuel; intros; cbn [varint]. zl; lia. destruct (n <? 128). zl; lia. zl. specialize (IHfuel (n/128)). lia. }
  split.
  - unfold enc_meta, dec_meta. change (8 =? 8) with true. cbv iota.
    rewrite varint_ok by lia. change (18 =? 18) with true. cbv iota.
    rewrite varint_ok by lia. rewrite Z.eqb_refl. rewrite peer_roundtrip by auto. auto.
  - unfold fits, enc_meta. zl. pose proof (V 10%nat t). pose proof (V 10%nat (zlen (peer_to_string v))). lia.
Qed.
