(** C61, lemmas: the truncations, system call by system call. *)
From Verif Require Import Base SegSync SegSyncSpec SegSyncProofs SegSyncProofs2.

Lemma skipn_skipn' {A} x : forall y (l : list A), skipn x (skipn y l) = skipn (x + y) l.
Proof. induction y as [|y IH]; intros l; [rewrite Nat.add_0_r; reflexivity|]. destruct l as [|a l]; [rewrite !skipn_nil; reflexivity|]. rewrite Nat.add_succ_r. cbn [skipn]. apply IH. Qed.
(** * truncate_prefix *)
Lemma dropn_S n d : dropn n (dropn 1 d) = dropn (S n) d.
Proof. unfold dropn. cbn. destruct (d_cl d); cbn; [rewrite skipn_nil|]; reflexivity. Qed.
Lemma dropn_0 d : dropn 0 d = d. Proof. destruct d. reflexivity. Qed.
Lemma along_front (P : sd -> Prop) n : forall d, (n <= length (d_cl d))%nat -> (forall i, (i <= n)%nat -> P (dropn i d)) ->
  along P (repeat YUnlinkFront n) d /\ vols (repeat YUnlinkFront n) d = dropn n d.
Proof.
  induction n as [|n IH]; intros d L H; [cbn; rewrite dropn_0; auto|]. cbn [repeat along].
  assert (E : vol YUnlinkFront d = dropn 1 d) by (unfold vol, dropn; destruct (d_cl d); [cbn in L; lia|reflexivity]).
  destruct (IH (dropn 1 d)) as [A1 A2]; [unfold dropn; cbn [d_cl]; rewrite skipn_length; lia|intros i Hi; rewrite dropn_S; apply H; lia|].
  change (vols (YUnlinkFront :: repeat YUnlinkFront n) d) with (vols (repeat YUnlinkFront n) (vol YUnlinkFront d)). rewrite E, A2, dropn_S.
  split; [|reflexivity]. split; [apply (H 1%nat); lia|exact A1].
Qed.
Lemma low_len k cl : (low k cl <= length cl)%nat.
Proof. induction cl as [|g cl IH]; cbn; [lia|]. destruct (f_last g <? k); lia. Qed.
Lemma low_all k cl st b : Forall (cok st) cl -> chain b cl -> b <= k -> (low k cl = length cl <-> b + zlen (flatf cl) <= k).
Proof.
  intros F. revert b. induction F as [|g cl (N & L & _) F IH]; intros b C B.
  - unfold flatf. cbn. rewrite zlen_nil'. split; [lia|auto].
  - destruct C as [E C]. rewrite flatf_cons, zlen_app'. unfold f_end in L. cbn [low length]. pose proof (zlen_nn (flatf cl)). destruct (Z.ltb_spec (f_last g) k).
    + specialize (IH _ C ltac:(lia)). rewrite Z.add_assoc, <- IH. lia.
    + split; [lia|intros; lia].
Qed.
Lemma all_low_spec fl st m d k : WFm fl st m d -> m <= k -> (all_low k d = true <-> base m d + zlen (flat d) <= k).
Proof.
  intros W K. pose proof (w_m _ _ _ _ W) as M. pose proof (w_ch _ _ _ _ W) as C. unfold d_all in C. apply chain_app in C. destruct C as [C1 C2].
  pose proof (low_all k (d_cl d) st (base m d) (w_cl _ _ _ _ W) C1 ltac:(lia)) as LA. unfold all_low, flat, d_all. rewrite andb_true_iff, Nat.eqb_eq, LA, flatf_app, zlen_app'.
  destruct (d_op d) as [g|].
  - destruct C2 as [E _]. rewrite flatf_one. unfold f_end. rewrite Z.ltb_lt. pose proof (zlen_nn (f_es g)). split; lia.
  - unfold flatf at 3. cbn. rewrite zlen_nil'. split; [lia|intros; split; [lia|auto]].
Qed.
Lemma base_meta m k d : d_all d <> [] -> base k d = base m d. Proof. unfold base. destruct (d_all d); congruence. Qed.
Lemma meta_wf fl st m d k sy ents : WFm fl st m d -> m < k -> abs d = mkG m ents ->
  WFm fl st k (vol (YMeta k sy) d) /\ abs (vol (YMeta k sy) d) = mkG k (skipn (Z.to_nat (k - m)) ents).
Proof.
  intros W K A. pose proof (w_m _ _ _ _ W) as M. rewrite (abs_of _ _ _ _ W) in A. injection A as A. subst ents. rewrite skipn_skipn'.
  assert (DA : d_all (vol (YMeta k sy) d) = d_all d) by reflexivity.
  assert (BB : base k (vol (YMeta k sy) d) = base m d \/ d_all d = []).
  { unfold base. rewrite DA. destruct (d_all d); auto. }
  split.
  - constructor.
    + reflexivity.
    + destruct BB as [BB|BB]; [lia|]. unfold base. rewrite DA, BB. lia.
    + rewrite DA. destruct BB as [BB|BB]; [rewrite BB; exact (w_ch _ _ _ _ W)|]. rewrite BB. exact I.
    + exact (w_cl _ _ _ _ W).
    + exact (w_op _ _ _ _ W).
    + exact (w_sz _ _ _ _ W).
  - unfold abs. cbn [vol d_meta]. f_equal. destruct BB as [BB|BB].
    + change (mkD (Some k) (d_cl d) (d_op d)) with (vol (YMeta k sy) d). rewrite BB. change (flat (vol (YMeta k sy) d)) with (flat d). f_equal. lia.
    + unfold flat. rewrite DA || idtac. change (d_all (mkD (Some k) (d_cl d) (d_op d))) with (d_all d). rewrite BB. unfold flatf. cbn. rewrite !skipn_nil. reflexivity.
Qed.
Lemma prefix_along fl st m d k sy ents (P : sd -> Prop) : WFm fl st m d -> m < k -> abs d = mkG m ents ->
  (forall t, WFm fl st k t -> abs t = mkG k (skipn (Z.to_nat (k - m)) ents) -> (d_op t = d_op d \/ d_op t = None) -> P t) ->
  let p := YMeta k sy :: repeat YUnlinkFront (low k (d_cl d)) ++ match d_op d with Some _ => if all_low k d then [YUnlinkFront] else [] | None => [] end in
  along P p d /\ vols p d = settle k (vol (YMeta k sy) d).
Proof.
  intros W K A HP p. destruct (meta_wf fl st m d k sy ents W K A) as [W1 A1]. set (d1 := vol (YMeta k sy) d) in *.
  pose proof (all_low_spec fl st m d k W ltac:(lia)) as AL. pose proof (w_m _ _ _ _ W1) as M1.
  pose proof (w_ch _ _ _ _ W1) as C. unfold d_all in C. apply chain_app in C. destruct C as [C1 C2].
  assert (DR : forall i, (i <= low k (d_cl d))%nat -> WFm fl st k (dropn i d1) /\ abs (dropn i d1) = abs d1).
  { intros i Hi. apply drop_wf; [exact W1|]. pose proof (low_sub k (d_cl d1) st (base k d1) (w_cl _ _ _ _ W1) C1 ltac:(lia)) as LS. change (d_cl d1) with (d_cl d) in *.
    replace (firstn i (d_cl d)) with (firstn i (firstn (low k (d_cl d)) (d_cl d))) by (rewrite firstn_firstn; f_equal; lia).
    assert (X : zlen (flatf (firstn i (firstn (low k (d_cl d)) (d_cl d)))) <= zlen (flatf (firstn (low k (d_cl d)) (d_cl d)))).
    { rewrite <- (firstn_skipn i (firstn (low k (d_cl d)) (d_cl d))) at 2. rewrite flatf_app, zlen_app'. pose proof (zlen_nn (flatf (skipn i (firstn (low k (d_cl d)) (d_cl d))))). lia. }
    lia. }
  destruct (along_front P (low k (d_cl d)) d1) as [F1 F2]; [apply low_len| |].
  { intros i Hi. destruct (DR i Hi) as [Wi Ai]. apply HP; [exact Wi|congruence|left; reflexivity]. }
  assert (P1 : P d1) by (apply HP; auto).
  unfold p. cbn [along]. change (vols (YMeta k sy :: ?q) d) with (vols q d1). fold d1.
  assert (GOAL2 : forall q, along P q (dropn (low k (d_cl d)) d1) -> vols q (dropn (low k (d_cl d)) d1) = settle k d1 ->
     (P d1 /\ along P (repeat YUnlinkFront (low k (d_cl d)) ++ q) d1) /\ vols (repeat YUnlinkFront (low k (d_cl d)) ++ q) d1 = settle k d1).
  { intros q Q1 Q2. rewrite along_app, vols_app, F2. auto. }
  apply GOAL2; clear GOAL2; destruct (DR (low k (d_cl d)) (le_n _)) as [Wn An].
  - destruct (d_op d) as [g|] eqn:G; [|exact I]. destruct (all_low k d) eqn:Q; [|exact I].
    unfold all_low in Q. rewrite G in Q. apply andb_true_iff in Q. destruct Q as [Q1 Q2]. apply Nat.eqb_eq in Q1. apply Z.ltb_lt in Q2.
    assert (N : skipn (low k (d_cl d)) (d_cl d) = []) by (apply skipn_all2; lia).
    destruct (drop_open fl st k (dropn (low k (d_cl d)) d1) g Wn) as [W2 A2]; [exact G|exact Q2|exact N|].
    cbn [along vol]. change (d_cl (dropn (low k (d_cl d)) d1)) with (skipn (low k (d_cl d)) (d_cl d)). rewrite N. split; [|exact I].
    change (d_meta (dropn (low k (d_cl d)) d1)) with (Some k). apply HP; [exact W2|rewrite A2, An; exact A1|right; reflexivity].
  - unfold settle. change (d_cl d1) with (d_cl d). change (d_op d1) with (d_op d). destruct (d_op d) as [g|] eqn:G.
    + destruct (all_low k d) eqn:Q.
      * unfold all_low in Q. rewrite G in Q. apply andb_true_iff in Q. destruct Q as [Q1 Q2]. apply Nat.eqb_eq in Q1. rewrite Q2.
        assert (N : skipn (low k (d_cl d)) (d_cl d) = []) by (apply skipn_all2; lia). cbn [vols fold_left vol]. change (d_cl (dropn (low k (d_cl d)) d1)) with (skipn (low k (d_cl d)) (d_cl d)). rewrite N. reflexivity.
      * cbn [vols fold_left]. destruct (Z.ltb_spec (f_end g) k) as [L|L]; [|unfold dropn; change (d_op d1) with (d_op d); rewrite G; reflexivity].
        exfalso. assert (X : false = true); [|discriminate X]. apply AL. unfold flat. rewrite (all_open d g G), flatf_app, zlen_app', flatf_one.
        pose proof (w_ch _ _ _ _ W) as C'. rewrite (all_open d g G) in C'. apply chain_app in C'. destruct C' as [_ [E' _]]. unfold f_end in L. lia.
    + cbn [vols fold_left]. unfold dropn. change (d_op d1) with (d_op d). rewrite G. reflexivity.
Qed.

(** * truncate_suffix *)
Section Suffix.
Variables (fl : dflags) (st : bool) (m a k : Z) (ents : list dent).
Hypotheses (Hk : m - 1 <= k) (Ha : a <= k) (Hst : st = true).
Record SI (d : sd) : Prop := mkSI { si_wf : WFm fl st m d; si_op : opens a d; si_abs : exists n, k + 1 - m <= Z.of_nat n /\ abs d = mkG m (firstn n ents) }.
Lemma si_cut d d' q : SI d -> k + 1 - m <= Z.of_nat q -> WFm fl st m d' -> opens a d' -> abs d' = mkG m (firstn q (g_ents (abs d))) -> SI d'.
Proof.
  intros [W O (n & Ln & A)] Q W' O' A'. constructor; auto. rewrite A in A'. cbn [g_ents] in A'. rewrite firstn_firstn in A'. exists (Nat.min q n). split; [lia|exact A'].
Qed.
(** Removing the last file. *)
Lemma rm_last d d' fs g : SI d -> d_all d = fs ++ [g] -> d_all d' = fs -> d_meta d' = d_meta d -> (forall c, In c (d_cl d') -> In c (d_cl d)) -> (d_op d' = None) -> m <= f_first g ->
  WFm fl st m d' /\ opens a d' /\ abs d' = mkG m (firstn (Z.to_nat (f_first g - m)) (g_ents (abs d))).
Proof.
  intros [W O _] A A' ME CL OP L. pose proof (w_m _ _ _ _ W) as M. pose proof (w_ch _ _ _ _ W) as C. rewrite A in C. apply chain_app in C. destruct C as [C1 [C2 _]].
  assert (FL : flat d = flatf fs ++ f_es g) by (unfold flat; rewrite A, flatf_app, flatf_one; reflexivity).
  assert (FL' : flat d' = flatf fs) by (unfold flat; rewrite A'; reflexivity).
  assert (BS : base m d' = base m d). { unfold base. rewrite A', A. destruct fs; [|reflexivity]. cbn. unfold base in M. rewrite A in M. cbn in M. lia. }
  split; [|split].
  - constructor.
    + rewrite ME. exact (w_meta _ _ _ _ W).
    + rewrite BS. exact M.
    + rewrite BS, A'. exact C1.
    + apply Forall_forall. intros c Hc. pose proof (w_cl _ _ _ _ W) as F. rewrite Forall_forall in F. auto.
    + rewrite OP. discriminate.
    + rewrite FL'. pose proof (w_sz _ _ _ _ W) as F. rewrite FL in F. apply Forall_app in F. apply F.
  - intros x Hx. rewrite OP in Hx. discriminate Hx.
  - rewrite (abs_eq m d' (base m d) (flatf fs)); [|exact BS|exact FL'|rewrite ME; exact (w_meta _ _ _ _ W)]. rewrite (abs_of _ _ _ _ W). cbn [g_ents]. f_equal.
    rewrite FL, firstn_skipn_comm. replace (Z.to_nat (m - base m d) + Z.to_nat (f_first g - m))%nat with (length (flatf fs) + 0)%nat by (unfold zlen in C2; lia).
    rewrite firstn_app_2. cbn. rewrite app_nil_r. reflexivity.
Qed.
Lemma unlink_open d g : SI d -> d_op d = Some g -> k < f_first g -> SI (vol YUnlinkBack d) /\ abs (vol YUnlinkBack d) = mkG m (firstn (Z.to_nat (f_first g - m)) (g_ents (abs d))).
Proof.
  intros H G L. destruct (rm_last d (vol YUnlinkBack d) (d_cl d) g H (all_open d g G)) as (W & O & A); cbn [vol]; rewrite ?G; cbn; auto; try lia.
  { unfold d_all. cbn. apply app_nil_r. }
  cbn [vol] in W, O, A. rewrite G in W, O, A. split; [|exact A]. apply (si_cut d _ (Z.to_nat (f_first g - m))); auto. lia.
Qed.
Lemma unlink_closed d cl g : SI d -> d_op d = None -> d_cl d = cl ++ [g] -> k < f_first g -> SI (mkD (d_meta d) cl None).
Proof.
  intros H G E L. destruct (rm_last d (mkD (d_meta d) cl None) cl g H) as (W & O & A); cbn; auto; try lia.
  { unfold d_all. rewrite G, app_nil_r. exact E. } { unfold d_all. cbn. apply app_nil_r. } { intros c Hc. rewrite E. apply in_or_app. auto. }
  apply (si_cut d _ (Z.to_nat (f_first g - m))); auto. lia.
Qed.
Lemma back_steps gt : forall keep d, SI d -> d_op d = None -> d_cl d = keep ++ gt -> Forall (fun g => k < f_first g) gt ->
  along SI (repeat YUnlinkBack (length gt)) d /\ vols (repeat YUnlinkBack (length gt)) d = mkD (d_meta d) keep None /\ SI (mkD (d_meta d) keep None).
Proof.
  induction gt as [|g gt IH] using rev_ind; intros keep d H G E F.
  - cbn. rewrite app_nil_r in E. destruct d as [dm dc dp]. cbn in *. subst. auto.
  - apply Forall_app in F. destruct F as [F1 F2]. apply Forall_inv in F2. rewrite app_length. cbn [length]. replace (length gt + 1)%nat with (S (length gt)) by lia. cbn [repeat along].
    rewrite app_assoc in E. assert (X : vol YUnlinkBack d = mkD (d_meta d) (keep ++ gt) None) by (cbn [vol]; rewrite G, E, removelast_last; reflexivity).
    pose proof (unlink_closed d (keep ++ gt) g H G E F2) as H1. destruct (IH keep (mkD (d_meta d) (keep ++ gt) None) H1 eq_refl eq_refl F1) as (A1 & A2 & A3).
    change (vols (YUnlinkBack :: ?q) d) with (vols q (vol YUnlinkBack d)). rewrite X. auto.
Qed.
Lemma filter_chain cl : forall b, Forall (cok st) cl -> chain b cl ->
  cl = filter (fun g => f_first g <=? k) cl ++ filter (fun g => k <? f_first g) cl.
Proof.
  assert (X : forall cl b, Forall (cok st) cl -> chain b cl -> k < b -> filter (fun g => f_first g <=? k) cl = [] /\ filter (fun g => k <? f_first g) cl = cl).
  { clear. induction cl as [|g cl IH]; intros b F C L; [auto|]. inversion F as [|? ? (N & _) F']. subst. destruct C as [E C]. cbn [filter]. pose proof (zlen_nn (f_es g)).
    destruct (IH _ F' C ltac:(lia)) as [I1 I2]. destruct (Z.leb_spec (f_first g) k); [lia|]. destruct (Z.ltb_spec k (f_first g)); [|lia]. rewrite I1, I2. auto. }
  induction cl as [|g cl IH]; intros b F C; [reflexivity|]. inversion F as [|? ? K F']. subst. pose proof C as C0. destruct C as [E C]. cbn [filter].
  destruct (Z.leb_spec (f_first g) k).
  - destruct (Z.ltb_spec k (f_first g)); [lia|]. cbn [app]. f_equal. apply (IH _ F' C).
  - destruct (Z.ltb_spec k (f_first g)); [|lia]. pose proof (zlen_nn (f_es g)). destruct (X cl _ F' C ltac:(lia)) as [I1 I2]. rewrite I1, I2. reflexivity.
Qed.

(** The end: exactly the entries up to k. *)
Definition FI (d : sd) : Prop := SI d /\ V m d /\ abs d = mkG m (firstn (Z.to_nat (k + 1 - m)) ents).
Lemma trunc_open d g : SI d -> d_op d = Some g -> f_first g <= k -> k < f_end g -> m <= k -> low m (d_cl d) = O -> FI (vol (YTrunc (Z.to_nat (k + 1 - f_first g))) d).
Proof.
  intros H G L1 L2 MK LW. pose proof H as [W O (n0 & N1 & N2)]. pose proof (w_m _ _ _ _ W) as M. pose proof (w_ch _ _ _ _ W) as C. rewrite (all_open d g G) in C. apply chain_app in C. destruct C as [C1 [C2 _]].
  set (n := Z.to_nat (k + 1 - f_first g)). cbn [vol]. set (f := fun g => mkF (f_first g) (f_last g) (firstn n (f_es g)) (Nat.min n (f_sync g))).
  pose proof (on_open_all f d g G) as DA. pose proof (base_on_open m f d g G eq_refl) as BS. unfold f_end in L2.
  assert (FLd : flat d = flatf (d_cl d) ++ f_es g) by (unfold flat; rewrite (all_open d g G), flatf_app, flatf_one; reflexivity).
  assert (FL : flat (on_open f d) = flatf (d_cl d) ++ firstn n (f_es g)) by (unfold flat; rewrite DA, flatf_app, flatf_one; reflexivity).
  pose proof (w_op _ _ _ _ W g G) as WO. pose proof (O g G) as OG.
  assert (W' : WFm fl st m (on_open f d)).
  { constructor.
    - exact (w_meta _ _ _ _ W).
    - rewrite BS. exact M.
    - rewrite BS, DA. apply chain_app. cbn. auto.
    - exact (w_cl _ _ _ _ W).
    - cbn. rewrite G. cbn. intros x Hx. injection Hx as <-. cbn. rewrite firstn_length. lia.
    - rewrite FL. pose proof (w_sz _ _ _ _ W) as F. rewrite FLd in F. apply Forall_app in F. destruct F as [F1 F2]. apply Forall_app. split; [exact F1|].
      rewrite <- (firstn_skipn n) in F2. apply Forall_app in F2. apply F2. }
  assert (O' : opens a (on_open f d)). { intros x Hx. cbn in Hx. rewrite G in Hx. cbn in Hx. injection Hx as <-. cbn. lia. }
  assert (A' : abs (on_open f d) = mkG m (firstn (Z.to_nat (k + 1 - m)) (g_ents (abs d)))).
  { rewrite (abs_eq m _ _ _ BS FL (w_meta _ _ _ _ W)). rewrite (abs_of _ _ _ _ W). cbn [g_ents]. f_equal. rewrite firstn_skipn_comm, FLd.
    replace (Z.to_nat (m - base m d) + Z.to_nat (k + 1 - m))%nat with (length (flatf (d_cl d)) + n)%nat by (unfold zlen in C2; lia). rewrite firstn_app_2. reflexivity. }
  assert (S' : SI (on_open f d)) by (apply (si_cut d _ (Z.to_nat (k + 1 - m))); auto; lia).
  split; [exact S'|]. split.
  - constructor; [right|exact LW]. rewrite BS, FL, zlen_app', zlen_firstn. unfold zlen in *. lia.
  - rewrite A', N2. cbn [g_ents]. rewrite firstn_firstn. f_equal. f_equal. lia.
Qed.
Lemma firstn_ge (l : list dent) n : zlen l <= Z.of_nat n -> firstn n l = l. Proof. intros H. apply firstn_all2. unfold zlen in H. lia. Qed.
(** Nothing to cut: the last file ends at k. *)
Lemma trunc_none d e : SI d -> V m d -> base m d + zlen (flat d) = e + 1 -> e <= k -> FI d.
Proof.
  intros H VV E L. split; [exact H|]. split; [exact VV|]. destruct H as [W O (n & N1 & A)]. rewrite A. f_equal.
  rewrite (abs_of _ _ _ _ W) in A. injection A as A. apply (f_equal zlen) in A. pose proof (w_m _ _ _ _ W) as M. rewrite zlen_skipn, zlen_firstn in A by lia.
  rewrite <- (firstn_skipn (Z.to_nat (k + 1 - m)) (firstn n ents)). rewrite firstn_firstn. replace (Nat.min (Z.to_nat (k + 1 - m)) n) with (Z.to_nat (k + 1 - m)) by lia.
  rewrite skipn_all2; [apply app_nil_r|]. rewrite firstn_length. unfold zlen in *. lia.
Qed.
Lemma none_left d : SI d -> d_all d = [] -> k + 1 = m -> FI d.
Proof.
  intros H N K. split; [exact H|]. split; [constructor; [auto|]|].
  - unfold d_all in N. destruct (d_cl d); [reflexivity|discriminate N].
  - replace (Z.to_nat (k + 1 - m)) with 0%nat by lia. cbn [firstn]. rewrite (abs_of _ _ _ _ (si_wf _ H)). f_equal. unfold flat. rewrite N. unfold flatf. cbn. apply skipn_nil.
Qed.
Lemma reopen_SI d cl g : SI d -> d_op d = None -> d_cl d = cl ++ [g] -> k < f_end g -> SI (mkD (d_meta d) cl (Some g)).
Proof.
  intros [W O AB] G E L. set (d' := mkD (d_meta d) cl (Some g)). assert (DA : d_all d' = d_all d) by (unfold d_all; cbn; rewrite G, app_nil_r, E; reflexivity).
  assert (BS : base m d' = base m d) by (unfold base; rewrite DA; reflexivity). assert (FL : flat d' = flat d) by (unfold flat; rewrite DA; reflexivity).
  pose proof (w_cl _ _ _ _ W) as F. rewrite E in F. apply Forall_app in F. destruct F as [F1 F2]. apply Forall_inv in F2. destruct F2 as (N & LL & S1 & S2).
  constructor; [constructor| |].
  - exact (w_meta _ _ _ _ W).
  - rewrite BS. exact (w_m _ _ _ _ W).
  - rewrite BS, DA. exact (w_ch _ _ _ _ W).
  - exact F1.
  - cbn. intros x Hx. injection Hx as <-. exact S1.
  - rewrite FL. exact (w_sz _ _ _ _ W).
  - intros x Hx. cbn in Hx. injection Hx as <-. rewrite (S2 Hst). unfold f_end, zlen in L. lia.
  - destruct AB as (n & N1 & A). exists n. split; [exact N1|]. rewrite (abs_eq m d' _ _ BS FL (w_meta _ _ _ _ W)), <- (abs_of _ _ _ _ W). exact A.
Qed.
Lemma low_head cl r : low m (cl ++ r) = O -> low m cl = O.
Proof. destruct cl as [|c cl]; [reflexivity|]. cbn [app low]. destruct (f_last c <? m); congruence. Qed.
(** The closed segments, after an open one beyond k was removed. *)
Lemma from_closed d (sf0 : Z) : SI d -> d_op d = None -> low m (d_cl d) = O -> sf0 = m -> (d_cl d = [] -> k + 1 = m) ->
  let p := repeat YUnlinkBack (high k (d_cl d)) ++ match rev (filter (fun g => f_first g <=? k) (d_cl d)) with g :: _ => if sf0 <=? k then trunc_file k g true else [YUnlinkBack] | [] => [] end in
  along SI p d /\ FI (vols p d) /\ (filter (fun g => f_first g <=? k) (d_cl d) = [] -> k + 1 = m).
Proof.
  intros H G LW -> NK p. pose proof (si_wf _ H) as W. pose proof (w_m _ _ _ _ W) as M. pose proof (w_ch _ _ _ _ W) as C. unfold d_all in C. rewrite G, app_nil_r in C.
  pose proof (w_cl _ _ _ _ W) as F. pose proof (filter_chain (d_cl d) (base m d) F C) as FC.
  set (keep := filter (fun g => f_first g <=? k) (d_cl d)) in *. set (gt := filter (fun g => k <? f_first g) (d_cl d)) in *.
  assert (FG : Forall (fun g => k < f_first g) gt) by (apply Forall_forall; intros x Hx; apply filter_In in Hx; destruct Hx as [_ Hx]; apply Z.ltb_lt in Hx; exact Hx).
  assert (FK : Forall (fun g => f_first g <= k) keep) by (apply Forall_forall; intros x Hx; apply filter_In in Hx; destruct Hx as [_ Hx]; apply Z.leb_le in Hx; exact Hx).
  destruct (back_steps gt keep d H G FC FG) as (B1 & B2 & B3).
  assert (KE : keep = [] -> k + 1 = m).
  { intros K0. rewrite K0 in FC. cbn [app] in FC. destruct (d_cl d) as [|c cl] eqn:Dc; [apply NK; reflexivity|]. rewrite <- FC in FG. apply Forall_inv in FG.
    destruct C as [C _]. lia. }
  unfold p. change (high k (d_cl d)) with (length gt). rewrite along_app, vols_app, B2.
  set (d2 := mkD (d_meta d) keep None) in *. assert (DA2 : d_all d2 = keep) by (unfold d_all; cbn; apply app_nil_r).
  assert (LW2 : low m keep = O) by (rewrite FC in LW; apply low_head in LW; exact LW).
  pose proof (si_wf _ B3) as W2. pose proof (w_ch _ _ _ _ W2) as C2. rewrite DA2 in C2. pose proof (w_m _ _ _ _ W2) as M2.
  destruct (rev keep) as [|g r] eqn:R.
  - assert (K0 : keep = []) by (apply (f_equal (@rev _)) in R; rewrite rev_involutive in R; exact R). cbn [along vols fold_left].
    split; [auto|]. split; [|auto]. apply none_left; [exact B3|rewrite DA2; exact K0|auto].
  - apply (f_equal (@rev _)) in R. rewrite rev_involutive in R. cbn [rev] in R. set (ks := rev r) in *.
    assert (GK : f_first g <= k) by (rewrite R in FK; apply Forall_app in FK; destruct FK as [_ FK]; apply Forall_inv in FK; exact FK).
    rewrite R in C2. apply chain_app in C2. destruct C2 as [C2a [C2b _]].
    destruct (Z.leb_spec m k) as [MK|MK].
    + unfold trunc_file. destruct (Z.leb_spec (f_end g) k) as [L|L].
      * cbn [along vols fold_left]. split; [auto|]. split; [|auto]. apply (trunc_none d2 (f_end g)); auto.
        -- constructor; [|exact LW2]. right. unfold flat. rewrite DA2, R, flatf_app, zlen_app', flatf_one.
           destruct ks as [|c ks'] eqn:Q.
           ++ cbn [app] in R. rewrite R in LW2. cbn [low] in LW2. destruct (Z.ltb_spec (f_last g) m) as [|X]; [discriminate LW2|].
              pose proof (w_cl _ _ _ _ W2) as F2. cbn in F2. rewrite R in F2. apply Forall_inv in F2. destruct F2 as (_ & LL & _). unfold f_end in LL. unfold flatf in *. cbn in *. rewrite zlen_nil' in *. lia.
           ++ rewrite R in LW2. cbn [app low] in LW2. destruct (Z.ltb_spec (f_last c) m) as [|X]; [discriminate LW2|].
              pose proof (w_cl _ _ _ _ W2) as F2. cbn in F2. rewrite R in F2. apply Forall_inv in F2. destruct F2 as (_ & LL & _). unfold f_end in LL.
              destruct C2a as [Cc _]. rewrite flatf_cons, zlen_app'. pose proof (zlen_nn (flatf ks')). pose proof (zlen_nn (f_es g)). lia.
        -- unfold flat. rewrite DA2, R, flatf_app, zlen_app', flatf_one. unfold f_end. lia.
      * cbn [app along vols fold_left].
        assert (RO : vol YReopen d2 = mkD (d_meta d) ks (Some g)).
        { cbn [vol]. unfold d2. cbn [d_cl d_meta]. rewrite R, rev_app_distr, removelast_last. reflexivity. }
        pose proof (reopen_SI d2 ks g B3 eq_refl R L) as S2. rewrite RO. change (d_meta d2) with (d_meta d) in S2.
        assert (FT : FI (vol (YTrunc (Z.to_nat (k + 1 - f_first g))) (mkD (d_meta d) ks (Some g)))).
        { apply trunc_open; auto. cbn. rewrite R in LW2. apply low_head in LW2. exact LW2. }
        split; [split; [exact B1|split; [exact S2|split; [apply FT|exact I]]]|]. split; [exact FT|auto].
    + cbn [along vols fold_left].
      assert (KS : ks = []).
      { destruct ks as [|c ks']; [reflexivity|]. exfalso. rewrite R in LW2. cbn [app low] in LW2. destruct (Z.ltb_spec (f_last c) m) as [|X]; [discriminate LW2|].
        pose proof (w_cl _ _ _ _ W2) as F2. cbn in F2. rewrite R in F2. apply Forall_inv in F2. destruct F2 as (_ & LL & _). unfold f_end in LL.
        destruct C2a as [Cc _]. rewrite flatf_cons, zlen_app' in C2b. pose proof (zlen_nn (flatf ks')). lia. }
      rewrite KS in R. cbn [app] in R.
      assert (UB : vol YUnlinkBack d2 = mkD (d_meta d) [] None) by (cbn [vol]; unfold d2; cbn; rewrite R; reflexivity). rewrite UB.
      assert (FT : FI (mkD (d_meta d) [] None)).
      { apply none_left; [|reflexivity|lia]. constructor.
        - constructor; [exact (w_meta _ _ _ _ W)| | | | |]; try (unfold base; cbn; lia); cbn; auto; try constructor. discriminate.
        - intros x Hx. discriminate Hx.
        - exists 0%nat. split; [lia|]. unfold abs. cbn [d_meta]. rewrite (w_meta _ _ _ _ W). f_equal. unfold flat, d_all. cbn. apply skipn_nil. }
      split; [split; [exact B1|split; [apply FT|exact I]]|]. split; [exact FT|auto].
Qed.
End Suffix.
