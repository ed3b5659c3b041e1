(** Snapshots of Compact.v: saving one changes nothing of what the node stands for; loading
    one is receiving the entries it covers and applying them. *)
From Verif Require Import Base BaseLemmas LogEntry Ballot Node LogPrefix Reconf ReconfStatic ReconfInv ReconfGhost ReconfNode ReconfFollow BallotBoxProofs Compact CompactInv CompactSim CompactFollow.
From Verif Require BallotBox ConfCtx.

Section Snap.
Variable conf0 : list peer.
Variable boot : peer -> bool.
Variable dec : Z -> option jconf.
Notation SI := (SI dec).
Notation NI := (NI conf0 boot dec).
Notation SF := (SF conf0 dec).
Notation cm := (cm conf0 dec).
Notation snap_is := (snap_is dec).

(** the first entry of a log is a configuration *)
Lemma first_conf : forall G L, SF G -> wfl (gll G) L -> L <> [] -> confat dec L 1 <> None.
Proof.
  intros G L S W N. destruct L as [|e L]; [congruence|].
  destruct (wfl_at (gll G) (e :: L) 1 W) as [O F]. { rewrite zlen_cons. pose proof (zlen_nonneg L). lia. }
  destruct (G_own_el _ _ _ _ _ S O) as (p & l & Hl & Zl).
  assert (l = []) as -> by (apply zlen_0_nil; pose proof (zlen_nonneg l); lia).
  destruct (s1 _ _ _ S _ _ _ Hl) as (_ & _ & _ & v & es & EL & D & _). cbn [app] in EL.
  unfold PX in F. rewrite EL in F. change (Z.to_nat 1) with 1%nat in F. cbn [firstn] in F. injection F as ->.
  unfold confat. change (1 - 1) with 0. rewrite znth_cons_0. cbn [l_val]. rewrite D. discriminate.
Qed.
Lemma conf_indep : forall G L b b', SF G -> wfl (gll G) L -> L <> [] -> last_conf dec b L = last_conf dec b' L.
Proof. intros G L b b' S W N. apply last_conf_any. exists 1. eapply first_conf; eauto. Qed.

Lemma posl_term : forall L i, posl L -> 1 <= i <= zlen L -> 1 <= term_at L i.
Proof.
  intros L i P B. destruct (term_at_in L i B) as (a & e & b & -> & Za & <-). apply P. apply in_or_app. right. left. reflexivity.
Qed.
Lemma term_pos : forall L i, posl L -> 1 <= i -> term_at L i = 0 -> zlen L < i.
Proof. intros L i P B E. destruct (Z_le_gt_dec i (zlen L)); [|lia]. pose proof (posl_term L i P ltac:(lia)). lia. Qed.
Lemma NI_posl : forall G p a, NI G p a -> posl (r_log a).
Proof. intros G p a N e He. pose proof (i_tm _ _ _ _ _ _ N e He). lia. Qed.

Lemma SI_disk : forall n s v, SI n -> snap_is s (hist n) -> mid n <= p_idx s <= r_applied (core n) ->
  (forall s' b, v = Some (s', b) -> s' = s /\ 0 < p_idx s) ->
  hist (set_save v (set_disk s n)) = hist n /\ SI (set_save v (set_disk s n)).
Proof.
  intros n s v H D B V. destruct (SI_bounds dec n H) as (B1 & B2 & B3 & B4 & B5).
  assert (HH : hist (set_save v (set_disk s n)) = hist n).
  { unfold hist at 1. cbn [set_save set_disk core s_first s_disk]. destruct D as (D1 & _). rewrite D1, firstn_firstn.
    replace (Nat.min (Z.to_nat (s_first n - 1)) (Z.to_nat (p_idx s))) with (Z.to_nat (s_first n - 1)) by lia.
    destruct (zlen_hist dec n H) as [Z0 _]. unfold hist. f_equal.
    set (A := firstn (Z.to_nat (s_first n - 1)) (p_data (s_disk n))) in *.
    rewrite firstn_app. rewrite (firstn_all2 A) by (unfold zlen in *; lia).
    replace (Z.to_nat (s_first n - 1) - length A)%nat with 0%nat by (unfold zlen in *; lia). cbn [firstn]. apply app_nil_r. }
  split; auto. destruct H. constructor; auto; rewrite ?HH; cbn [set_save set_disk core s_first s_virt s_snap s_sconf s_disk s_save s_sm s_aterm]; auto.
  - change (mid (set_save v (set_disk s n))) with (mid n). lia.
  - lia.
  - intros s' b E. destruct (V s' b E) as [-> P]. sp; auto; lia.
Qed.
Lemma SI_nosave : forall n, SI n -> SI (set_save None n) /\ hist (set_save None n) = hist n.
Proof. intros n H. split; [|reflexivity]. destruct H. constructor; auto. intros s b X. discriminate X. Qed.

(** dropping entries that the snapshot in the storage covers *)
Lemma hist_trunc : forall n k n', zlen (firstn (Z.to_nat (s_first n - 1)) (p_data (s_disk n))) = s_first n - 1 ->
  p_data (s_disk n) = firstn (Z.to_nat (p_idx (s_disk n))) (hist n) -> s_first n <= k <= p_idx (s_disk n) + 1 ->
  truncate_prefix k n = Some n' -> hist n' = hist n /\ core n' = set_log (r_log (core n')) (r_sync (core n)) (core n) /\
  s_first n' = k /\ s_virt n' = s_virt n /\ s_snap n' = s_snap n /\ s_sconf n' = s_sconf n /\ s_disk n' = s_disk n /\ s_save n' = s_save n /\ s_sm n' = s_sm n /\ s_aterm n' = s_aterm n.
Proof.
  intros n k n' Z0 D B E. unfold truncate_prefix in E. destruct (Z.ltb_spec k (s_first n)); [lia|]. injection E as <-.
  sp; try reflexivity. unfold hist at 1. cbn [core s_first s_disk set_log r_log].
  rewrite D, firstn_firstn.
  replace (Nat.min (Z.to_nat (k - 1)) (Z.to_nat (p_idx (s_disk n)))) with (Z.to_nat (k - 1)) by lia.
  rewrite <- (firstn_skipn (Z.to_nat (k - 1)) (hist n)) at 2. f_equal. unfold hist.
  set (A := firstn (Z.to_nat (s_first n - 1)) (p_data (s_disk n))) in *.
  rewrite skipn_app. rewrite (skipn_all2 A) by (unfold zlen in *; lia). cbn [app]. f_equal. unfold zlen in *. lia.
Qed.
Lemma absc_mid : forall h k k' c, Z.max (BallotBox.lc (r_box c)) k = Z.max (BallotBox.lc (r_box c)) k' -> absc h k c = absc h k' c.
Proof. intros. unfold absc, mx. rewrite H. reflexivity. Qed.
Lemma abs_of : forall n n', hist n' = hist n -> core n' = set_log (r_log (core n')) (r_sync (core n)) (core n) -> abs n' = absc (hist n) (mid n') (core n).
Proof. intros n n' H C. unfold abs. rewrite H, C. reflexivity. Qed.

Lemma set_snapshot_eq : forall n s n', SI n -> s = s_disk n -> posl (hist n) -> 0 < p_idx s -> set_snapshot s n = Some n' ->
  abs n' = absc (hist n) (p_idx s) (core n) /\ SI n' /\ hist n' = hist n /\ mid n' = p_idx s /\
  s_save n' = s_save n /\ s_sm n' = s_sm n /\ core n' = set_log (r_log (core n')) (r_sync (core n)) (core n).
Proof.
  intros n s n' H ES P L E. destruct (SI_bounds dec n H) as (B1 & B2 & B3 & B4 & B5).
  destruct (zlen_hist dec n H) as [Z0 _].
  pose proof (q_mid _ _ H) as QM. pose proof (q_disk _ _ H) as QD. pose proof (q_data _ _ H) as QA. rewrite <- ES in QM, QD, QA.
  destruct QA as (A1 & A2 & A3 & A4). unfold set_snapshot in E. change (li_index (s_snap n)) with (mid n) in E.
  destruct (Z.leb_spec (p_idx s) (mid n)) as [LE|GT].
  { injection E as <-. sp; auto; try lia.
    - replace (p_idx s) with (mid n) by lia. reflexivity.
    - destruct n as [c ? ? ? ? ? ? ? ?]; destruct c; reflexivity. }
  cbv zeta in E. rewrite (sterm_at dec n (p_idx s) H) in E by lia.
  pose proof (posl_term (hist n) (p_idx s) P ltac:(lia)) as TP.
  destruct (Z.eqb_spec (term_at (hist n) (p_idx s)) 0); [lia|]. rewrite <- A3, Z.eqb_refl in E.
  set (id := mkId (p_idx s) (p_term s)) in *.
  assert (KEY : forall n1 x f', hist n1 = hist n -> core n1 = set_log x (r_sync (core n)) (core n) -> s_first n1 = f' -> 1 <= f' <= p_idx s + 1 ->
     s_snap n1 = id -> s_sconf n1 = p_conf s -> s_disk n1 = s -> s_save n1 = s_save n -> s_sm n1 = s_sm n -> s_aterm n1 = s_aterm n ->
     (li_index (s_virt n1) = 0 \/ (li_index (s_virt n1) = f' - 1 /\ li_term (s_virt n1) = term_at (hist n) (f' - 1))) -> SI n1 /\ mid n1 = p_idx s).
  { intros n1 x f' K1 K2 K3 K4 K5 K6 K7 K8 K9 K10 K11.
    assert (M : mid n1 = p_idx s) by (unfold mid; rewrite K5; reflexivity).
    assert (AP : r_applied (core n1) = r_applied (core n)) by (rewrite K2; reflexivity).
    split; auto. destruct H. constructor; rewrite ?K1, ?M, ?AP, ?K3, ?K5, ?K6, ?K7, ?K8, ?K9, ?K10; auto; try lia.
    - unfold CompactInv.snap_is. sp; auto; try lia.
    - intros _ b. rewrite <- A1. apply A4. lia.
    - intros s' b X. destruct (q_save s' b X) as (Y1 & Y2 & Y3). sp; auto; try lia. intros Hb. rewrite ES. auto. }
  destruct (Z.ltb_spec 0 (mid n)) as [PM|ZM].
  - change (li_index (s_snap n)) with (mid n) in E.
    apply hist_trunc in E; [|exact Z0|cbn [set_virt set_snap s_disk]; rewrite <- ES; exact A1|cbn [set_virt set_snap s_disk s_first]; rewrite <- ES; lia].
    cbn [set_virt set_snap s_first s_virt s_snap s_sconf s_disk s_save s_sm s_aterm core] in E.
    destruct E as (E1 & E2 & E3 & E4 & E5 & E6 & E7 & E8 & E9 & E10). change (hist (set_virt _ _)) with (hist n) in E1.
    destruct (KEY n' _ (mid n + 1) E1 E2 E3 ltac:(lia) E5 E6 (eq_trans E7 (eq_sym ES)) E8 E9 E10) as [S' M'].
    { right. rewrite E4. replace (mid n + 1 - 1) with (mid n) by lia. split; [reflexivity|apply q_mterm with (dec := dec); auto]. }
    sp; auto. rewrite (abs_of n n' E1 E2), M'. reflexivity.
  - injection E as <-. assert (C : core (set_snap id (p_conf s) n) = set_log (r_log (core n)) (r_sync (core n)) (core n)).
    { cbn [set_snap core]. destruct (core n); reflexivity. }
    assert (HH : hist (set_snap id (p_conf s) n) = hist n) by reflexivity.
    destruct (KEY (set_snap id (p_conf s) n) _ (s_first n) HH C eq_refl ltac:(lia) eq_refl eq_refl (eq_sym ES) eq_refl eq_refl eq_refl) as [S' M'].
    { apply (q_virt _ _ H). }
    sp; auto.
Qed.

(** saving *)
Lemma sim_save_start : forall G p n, SF G -> NI G p (abs n) -> SI n -> abs (save_start dec n) = abs n /\ SI (save_start dec n) /\ s_sm (save_start dec n) = s_sm n.
Proof.
  intros G p n S N H. destruct (SI_bounds dec n H) as (B1 & B2 & B3 & B4 & B5). unfold save_start. destruct (s_save n) eqn:Es; [auto|].
  cbv zeta. change (li_index (s_snap n)) with (mid n). destruct (Z.ltb_spec (mid n) (r_applied (core n))) as [L|]; [|auto].
  sp; [reflexivity| |reflexivity]. pose proof (i_wfl _ _ _ _ _ _ N) as W. change (r_log (abs n)) with (hist n) in W.
  assert (CI : forall b b', last_conf dec b (firstn (Z.to_nat (r_applied (core n))) (hist n)) = last_conf dec b' (firstn (Z.to_nat (r_applied (core n))) (hist n))).
  { intros b b'. eapply conf_indep; eauto.
    - eapply wfl_prefix; eauto. apply prefix_firstn.
    - intros X. apply (f_equal zlen) in X. rewrite zlen_firstn_le, zlen_nil in X; lia. }
  assert (H' := H). destruct H'. constructor; auto. cbn [set_save s_save]. intros s b X. injection X as <- <-.
  change (hist (set_save _ n)) with (hist n). change (core (set_save _ n)) with (core n). cbn [p_idx]. sp; try lia; try (intros Y; discriminate Y).
  unfold CompactInv.snap_is. cbn [p_data p_idx p_term p_conf]. sp; auto; try lia.
  intros _ b. rewrite q_sm. apply (conf_at_hist dec n); auto. lia.
Qed.
Lemma sim_save_store : forall n, SI n -> abs (save_store n) = abs n /\ SI (save_store n) /\ s_sm (save_store n) = s_sm n.
Proof.
  intros n H. unfold save_store. destruct (s_save n) as [[s b]|] eqn:Es; [|auto]. destruct b; [auto|].
  change (li_index (s_snap n)) with (mid n). destruct (Z.leb_spec (p_idx s) (mid n)).
  - destruct (SI_nosave n H) as [S1 _]. auto.
  - destruct (q_save _ _ H s false Es) as (D & B & _).
    destruct (SI_disk n s (Some (s, true)) H D ltac:(lia)) as [HH S1].
    { intros s' b X. injection X as <- <-. split; auto. lia. }
    sp; auto. unfold abs. rewrite HH. reflexivity.
Qed.
Lemma sim_save_set : forall G p n n', NI G p (abs n) -> SI n -> save_set n = Some n' -> abs n' = abs n /\ SI n' /\ s_sm n' = s_sm n.
Proof.
  intros G p n n' N H E. unfold save_set in E. destruct (s_save n) as [[s b]|] eqn:Es; [|injection E as <-; auto].
  destruct b; [|injection E as <-; auto].
  destruct (q_save _ _ H s true Es) as (D & B & X). specialize (X eq_refl).
  destruct (set_snapshot s n) as [n1|] eqn:E1; [|discriminate E]. injection E as <-.
  pose proof (NI_posl _ _ _ N) as PL. change (r_log (abs n)) with (hist n) in PL.
  destruct (set_snapshot_eq n s n1 H X PL ltac:(lia) E1) as (A1 & S1 & H1 & M1 & _ & SM & _).
  destruct (SI_nosave n1 S1) as [S2 _]. sp; auto.
  transitivity (abs n1); [reflexivity|]. rewrite A1. unfold abs. apply absc_mid.
  pose proof (i_app _ _ _ _ _ _ N) as AP. unfold lc in AP. change (BallotBox.lc (r_box (abs n))) with (Z.max (BallotBox.lc (r_box (core n))) (mid n)) in AP.
  change (r_applied (abs n)) with (r_applied (core n)) in AP. pose proof (q_mid _ _ H). rewrite <- X in H0. lia.
Qed.
Lemma sim_clear : forall n n', SI n -> clear_buffered n = Some n' -> abs n' = abs n /\ SI n' /\ s_sm n' = s_sm n.
Proof.
  intros n n' H E. destruct (SI_bounds dec n H) as (B1 & B2 & B3 & B4 & B5). unfold clear_buffered in E. change (li_index (s_snap n)) with (mid n) in E.
  destruct (Z.eqb_spec (mid n) 0); [injection E as <-; auto|].
  destruct (zlen_hist dec n H) as [Z0 _]. pose proof (q_mid _ _ H). pose proof (q_data _ _ H) as (D1 & _).
  apply hist_trunc in E; [|exact Z0|exact D1|cbn [set_virt s_first s_disk]; lia].
  cbn [set_virt s_first s_virt s_snap s_sconf s_disk s_save s_sm s_aterm core] in E.
  destruct E as (E1 & E2 & E3 & E4 & E5 & E6 & E7 & E8 & E9 & E10). change (hist (set_virt _ _)) with (hist n) in E1.
  assert (M : mid n' = mid n) by (unfold mid; rewrite E5; reflexivity).
  assert (AP : r_applied (core n') = r_applied (core n)) by (rewrite E2; reflexivity).
  sp; auto.
  - rewrite (abs_of n n' E1 E2), M. reflexivity.
  - destruct H. constructor; rewrite ?E1, ?M, ?AP, ?E3, ?E4, ?E5, ?E6, ?E7, ?E8, ?E9, ?E10; auto; try lia.
    right. replace (mid n + 1 - 1) with (mid n) by lia. split; auto.
Qed.

(** comparing a received snapshot with what is applied *)
Lemma prefix_cmp : forall {A} (X Y P Q : list A), prefix X P -> prefix Y Q -> prefix P Q \/ prefix Q P -> prefix X Y \/ prefix Y X.
Proof.
  intros A X Y P Q HX HY [PQ|QP].
  - assert (X1 : prefix X Q) by (eapply prefix_trans; eauto). destruct (Z.le_ge_cases (zlen X) (zlen Y)); [left|right]; eapply prefix_comparable; eauto.
  - assert (Y1 : prefix Y P) by (eapply prefix_trans; eauto). destruct (Z.le_ge_cases (zlen X) (zlen Y)); [left|right]; eapply prefix_comparable; eauto.
Qed.
Lemma term_mono : forall G X Y, SF G -> wfl (gll G) Y -> prefix X Y -> X <> [] -> term_at X (zlen X) <= term_at Y (zlen Y).
Proof.
  intros G X Y S W P N. assert (WX : wfl (gll G) X) by (eapply wfl_prefix; eauto).
  destruct (wfl_last _ _ _ _ S WX N) as [E O]. eapply (own_le_last _ _ G Y); eauto. rewrite <- E. exact P.
Qed.
Lemma compare_snap : forall G p a t D T0 i0 q l, SF G -> NI G p a -> prefix D (gll G t) -> In (t, q, l) (gel G) ->
  cm G T0 i0 -> T0 <= t -> zlen D <= i0 -> D <> [] ->
  let X := firstn (Z.to_nat (r_applied a)) (r_log a) in
  let gt := id_gtb (mkId (r_applied a) (term_at (r_log a) (r_applied a))) (mkId (zlen D) (term_at D (zlen D))) in
  (gt = true -> prefix D X) /\ (gt = false -> prefix X D).
Proof.
  intros G p a t D T0 i0 q l S N PD HL C LT LI ND X gt.
  assert (LX : zlen X = r_applied a).
  { pose proof (i_app _ _ _ _ _ _ N). pose proof (i_lc _ _ _ _ _ _ N) as [? _]. apply zlen_firstn_le. lia. }
  assert (PC : prefix D (PX (gll G) T0 i0)).
  { eapply prefix_comparable; [exact PD|eapply G_cm_ll; eauto|]. rewrite PX_len; auto. destruct C as [[? _] _]. lia. }
  assert (CMP : prefix X D \/ prefix D X).
  { pose proof (i_app _ _ _ _ _ _ N) as AP. destruct (proj2 (i_lc _ _ _ _ _ _ N)) as [Z0|(T1 & i1 & C1 & L1 & P1)].
    - left. unfold X. replace (r_applied a) with 0 by lia. apply prefix_nil.
    - eapply prefix_cmp; [|exact PC|eapply G_prefixes; [exact S|exact C1|exact C]].
      eapply prefix_trans; [|exact P1]. apply prefix_firstn2. lia. }
  assert (TX : term_at (r_log a) (r_applied a) = term_at X (zlen X)).
  { rewrite LX. unfold X. symmetry. apply term_firstn. lia. }
  assert (WX : wfl (gll G) X) by (eapply wfl_prefix; [apply (i_wfl _ _ _ _ _ _ N)|apply prefix_firstn]).
  assert (WD : wfl (gll G) D) by (eapply wfl_prefix; [apply (G_ll_wfl _ _ _ t S)|exact PD]).
  assert (PP : posl D). { intros e He. eapply (G_ll_pos _ _ _ t S). eapply prefix_In; eauto. }
  assert (Z1 : 1 <= zlen D). { destruct D; [congruence|]. rewrite zlen_cons. pose proof (zlen_nonneg D). lia. }
  pose proof (posl_term D (zlen D) PP ltac:(lia)) as TD.
  unfold gt, id_gtb. cbn [li_index li_term]. rewrite TX. split; intros E.
  - destruct CMP as [H|H]; auto. pose proof (prefix_len _ _ H). destruct X as [|x X0] eqn:EX.
    + change (term_at [] (zlen (@nil lent))) with 0 in E. destruct (Z.eqb_spec 0 (term_at D (zlen D))); [lia|]. apply Z.ltb_lt in E. lia.
    + rewrite <- EX in *. pose proof (term_mono G X D S WD H ltac:(congruence)).
      destruct (Z.eqb_spec (term_at X (zlen X)) (term_at D (zlen D))); apply Z.ltb_lt in E; lia.
  - destruct CMP as [H|H]; auto. pose proof (prefix_len _ _ H). pose proof (term_mono G D X S WX H ND).
    destruct (Z.eqb_spec (term_at X (zlen X)) (term_at D (zlen D))); apply Z.ltb_ge in E; [|lia].
    assert (D = X). { eapply prefix_eq; [exact H|apply prefix_refl|lia]. } subst D. apply prefix_refl.
Qed.
End Snap.
