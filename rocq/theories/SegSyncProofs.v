(** C61, lemmas: well-formed directories, what they show, init. *)
From Verif Require Import Base SegSync SegSyncSpec.

Lemma zlen_nil' {A} : zlen (@nil A) = 0. Proof. reflexivity. Qed.
Lemma zlen_cons' {A} (x : A) l : zlen (x :: l) = zlen l + 1. Proof. unfold zlen. cbn [length]. lia. Qed.
Lemma zlen_app' {A} (a b : list A) : zlen (a ++ b) = zlen a + zlen b. Proof. unfold zlen. rewrite app_length. lia. Qed.
Lemma zlen_nn {A} (l : list A) : 0 <= zlen l. Proof. unfold zlen. lia. Qed.
Lemma zlen_pos {A} (l : list A) : l <> [] -> 0 < zlen l. Proof. destruct l; [congruence|]. intros _. rewrite zlen_cons'. pose proof (zlen_nn l). lia. Qed.
Lemma znth_app_l {A} (a b : list A) i : i < zlen a -> znth (a ++ b) i = znth a i.
Proof. intros L. unfold znth, zlen in *. destruct (i <? 0) eqn:E; auto. apply Z.ltb_ge in E. apply nth_error_app1. lia. Qed.
Lemma znth_app_r {A} (a b : list A) i : zlen a <= i -> znth (a ++ b) i = znth b (i - zlen a).
Proof.
  intros L. unfold znth, zlen in *. destruct (i <? 0) eqn:E; [apply Z.ltb_lt in E; lia|]. apply Z.ltb_ge in E.
  destruct (i - Z.of_nat (length a) <? 0) eqn:E2; [apply Z.ltb_lt in E2; lia|]. rewrite nth_error_app2 by lia. f_equal. lia.
Qed.
Lemma znth_none {A} (l : list A) i : i < 0 \/ zlen l <= i -> znth l i = None.
Proof. intros H. unfold znth, zlen in *. destruct (i <? 0) eqn:E; auto. apply Z.ltb_ge in E. apply nth_error_None. lia. Qed.
Lemma nth_error_skipn {A} n : forall (l : list A) i, nth_error (skipn n l) i = nth_error l (n + i).
Proof. induction n as [|n IH]; intros l i; [reflexivity|]. destruct l as [|x l]; [destruct i; reflexivity|]. cbn [skipn plus nth_error]. apply IH. Qed.
Lemma nth_error_firstn {A} n : forall (l : list A) i, (i < n)%nat -> nth_error (firstn n l) i = nth_error l i.
Proof. induction n as [|n IH]; intros l i L; [lia|]. destruct l as [|x l]; [destruct i; reflexivity|]. destruct i; [reflexivity|]. cbn. apply IH. lia. Qed.
Lemma znth_skipn {A} (l : list A) k i : 0 <= k -> 0 <= i -> znth (skipn (Z.to_nat k) l) i = znth l (k + i).
Proof.
  intros K I. unfold znth. destruct (i <? 0) eqn:E; [apply Z.ltb_lt in E; lia|]. destruct (k + i <? 0) eqn:E2; [apply Z.ltb_lt in E2; lia|].
  rewrite nth_error_skipn. f_equal. lia.
Qed.
Lemma znth_firstn {A} (l : list A) n i : i < Z.of_nat n -> znth (firstn n l) i = znth l i.
Proof. intros H. unfold znth. destruct (i <? 0) eqn:E; auto. apply Z.ltb_ge in E. apply nth_error_firstn. lia. Qed.
Lemma zlen_skipn {A} (l : list A) k : 0 <= k -> zlen (skipn (Z.to_nat k) l) = Z.max 0 (zlen l - k).
Proof. intros K. unfold zlen. rewrite skipn_length. lia. Qed.
Lemma zlen_firstn {A} (l : list A) n : zlen (firstn n l) = Z.min (Z.of_nat n) (zlen l).
Proof. unfold zlen. rewrite firstn_length. lia. Qed.

(** Files that follow each other. *)
Fixpoint chain (b : Z) (fs : list sf) : Prop := match fs with [] => True | g :: r => f_first g = b /\ chain (b + zlen (f_es g)) r end.
Definition flatf (fs : list sf) : list dent := concat (map f_es fs).
Definition flat (d : sd) : list dent := flatf (d_all d).
Definition base (m : Z) (d : sd) : Z := match d_all d with g :: _ => f_first g | [] => m end.
Definition abs (d : sd) : glog := match d_meta d with None => mkG 1 [] | Some m => mkG m (skipn (Z.to_nat (m - base m d)) (flat d)) end.

Definition cok (st : bool) (f : sf) : Prop := f_es f <> [] /\ f_last f = f_end f /\ (f_sync f <= length (f_es f))%nat /\ (st = true -> f_sync f = length (f_es f)).
Definition esz (fl : dflags) (st : bool) (e : dent) : Prop := 0 < snd e /\ (st = true -> snd e <= fl_max fl).
Record WFm (fl : dflags) (st : bool) (m : Z) (d : sd) : Prop := mkWF {
  w_meta : d_meta d = Some m; w_m : 1 <= base m d <= m; w_ch : chain (base m d) (d_all d); w_cl : Forall (cok st) (d_cl d);
  w_op : forall g, d_op d = Some g -> (f_sync g <= length (f_es g))%nat; w_sz : Forall (esz fl st) (flat d) }.
Definition WF fl st d := d = mkD None [] None \/ exists m, WFm fl st m d.
(** Between calls. *)
Record V (m : Z) (d : sd) : Prop := mkVV { vv_end : d_all d = [] \/ m < base m d + zlen (flat d); vv_low : low m (d_cl d) = O }.
Definition opens (a : Z) (d : sd) : Prop := forall g, d_op d = Some g -> a < f_first g + Z.of_nat (f_sync g).

Lemma flatf_app a b : flatf (a ++ b) = flatf a ++ flatf b.
Proof. unfold flatf. rewrite map_app, concat_app. reflexivity. Qed.
Lemma flatf_cons g r : flatf (g :: r) = f_es g ++ flatf r. Proof. reflexivity. Qed.
Lemma flatf_one g : flatf [g] = f_es g. Proof. unfold flatf. cbn. apply app_nil_r. Qed.
Lemma chain_app a : forall b c, chain b (a ++ c) <-> chain b a /\ chain (b + zlen (flatf a)) c.
Proof.
  induction a as [|g a IH]; intros b c; cbn [app chain].
  - unfold flatf. cbn. rewrite zlen_nil', Z.add_0_r. tauto.
  - rewrite flatf_cons, zlen_app', IH, Z.add_assoc. tauto.
Qed.
Lemma abs_of fl st m d : WFm fl st m d -> abs d = mkG m (skipn (Z.to_nat (m - base m d)) (flat d)).
Proof. intros W. unfold abs. rewrite (w_meta _ _ _ _ W). reflexivity. Qed.

(** get_entry finds what the files hold. *)
Lemma chain_get fs : forall b i, chain b fs -> b <= i < b + zlen (flatf fs) ->
  exists g r, filter (fun g => (f_first g <=? i) && (i <=? f_end g)) fs = g :: r /\ znth (f_es g) (i - f_first g) = znth (flatf fs) (i - b).
Proof.
  induction fs as [|g fs IH]; intros b i C I.
  - unfold flatf in I. cbn in I. rewrite zlen_nil' in I. lia.
  - destruct C as [E C]. rewrite flatf_cons, zlen_app' in I. cbn [filter]. unfold f_end. rewrite flatf_cons.
    destruct (Z.leb_spec (f_first g) i); [|lia]. destruct (Z.leb_spec i (f_first g + zlen (f_es g) - 1)).
    + cbn [andb]. eexists. eexists. split; [reflexivity|]. rewrite znth_app_l by lia. f_equal. lia.
    + cbn [andb]. destruct (IH (b + zlen (f_es g)) i C ltac:(lia)) as (g' & r & F & Z). exists g', r. split; [exact F|]. rewrite Z, znth_app_r by lia. f_equal. lia.
Qed.
Lemma wf_shows fl st m d h : WFm fl st m d -> V m d -> shows (mkDS m (g_last (abs d)) d h) (abs d).
Proof.
  intros W [E _]. rewrite (abs_of _ _ _ _ W). unfold shows, g_last. cbn [s_first s_last g_first g_ents]. split; [reflexivity|]. split; [reflexivity|].
  intros i. unfold d_get, g_at, g_last. cbn [s_first s_last s_d g_first g_ents]. pose proof (w_m _ _ _ _ W) as B. pose proof (w_ch _ _ _ _ W) as C. rewrite zlen_skipn by lia.
  destruct (Z.ltb_spec i m); cbn [orb]; [rewrite znth_none by lia; reflexivity|].
  destruct (Z.ltb_spec (m + Z.max 0 (zlen (flat d) - (m - base m d)) - 1) i).
  - rewrite znth_none; [reflexivity|]. right. rewrite zlen_skipn by lia. lia.
  - assert (X : m < base m d + zlen (flat d)) by lia. destruct (chain_get (d_all d) (base m d) i C) as (g & r & F & Z); [fold (flat d); lia|].
    rewrite F, Z. fold (flat d). rewrite znth_skipn by lia. f_equal. lia.
Qed.

(** init. *)
Fixpoint nchain (b : Z) (cl : list sf) : Prop := match cl with [] => True | g :: r => f_first g = b /\ b <= f_last g /\ nchain (f_last g + 1) r end.
Lemma check_rest m cl : forall last, 1 <= last -> nchain (last + 1) cl -> check_names m last cl = Some cl.
Proof.
  induction cl as [|g cl IH]; intros last L C; [reflexivity|]. destruct C as (E & F & C). cbn [check_names].
  destruct (Z.ltb_spec (f_last g) (f_first g)); [lia|]. destruct (Z.eqb_spec last (-1)); [lia|]. cbn [negb andb].
  destruct (Z.eqb_spec (f_first g) (last + 1)); [|lia]. cbn [negb]. rewrite IH; [reflexivity|lia|exact C].
Qed.
Lemma check_spec m cl : forall b, 1 <= b <= m -> nchain b cl -> check_names m (-1) cl = Some (skipn (low m cl) cl).
Proof.
  induction cl as [|g cl IH]; intros b L C; [reflexivity|]. destruct C as (E & F & C). cbn [check_names low].
  destruct (Z.ltb_spec (f_last g) (f_first g)); [lia|]. change (-1 =? -1) with true. cbn [negb andb].
  destruct (Z.ltb_spec m (f_first g)); [lia|]. destruct (Z.ltb_spec (f_last g) m).
  - cbn [skipn]. apply (IH (f_last g + 1)); [lia|exact C].
  - cbn [skipn]. rewrite check_rest; [reflexivity|lia|exact C].
Qed.
Lemma chain_names st b cl : Forall (cok st) cl -> chain b cl -> nchain b cl.
Proof.
  intros F. revert b. induction F as [|g cl (N & L & _) F IH]; intros b C; cbn; auto. destruct C as [E C]. unfold f_end in L. pose proof (zlen_pos _ N).
  split; [exact E|]. split; [lia|]. replace (f_last g + 1) with (b + zlen (f_es g)) by lia. apply IH. exact C.
Qed.
Lemma low_sub m cl : forall st b, Forall (cok st) cl -> chain b cl -> b <= m -> b + zlen (flatf (firstn (low m cl) cl)) <= m.
Proof.
  induction cl as [|g cl IH]; intros st b F C B; cbn [low].
  - cbn. rewrite zlen_nil'. lia.
  - inversion F as [|? ? (N & L & _) F']. subst. destruct C as [E C]. destruct (Z.ltb_spec (f_last g) m).
    + cbn [firstn]. rewrite flatf_cons, zlen_app'. unfold f_end in L. specialize (IH st _ F' C ltac:(lia)). lia.
    + cbn. rewrite zlen_nil'. lia.
Qed.
Lemma low_skip m cl : low m (skipn (low m cl) cl) = O.
Proof. induction cl as [|g cl IH]; [reflexivity|]. cbn [low]. destruct (f_last g <? m) eqn:E; [exact IH|]. cbn [skipn low]. rewrite E. reflexivity. Qed.

(** Removing files that are wholly below first_log_index does not change the log. *)
Definition dropn (n : nat) (d : sd) : sd := mkD (d_meta d) (skipn n (d_cl d)) (d_op d).
Lemma skipn_flat (a b : list dent) k : zlen a <= k -> skipn (Z.to_nat k) (a ++ b) = skipn (Z.to_nat (k - zlen a)) b.
Proof. intros L. unfold zlen in *. rewrite skipn_app, skipn_all2 by lia. cbn [app]. f_equal. lia. Qed.
Lemma d_all_drop n d : d_all d = firstn n (d_cl d) ++ d_all (dropn n d).
Proof. unfold d_all, dropn. cbn. rewrite app_assoc, firstn_skipn. reflexivity. Qed.
Lemma drop_wf fl st m d n : WFm fl st m d -> base m d + zlen (flatf (firstn n (d_cl d))) <= m -> WFm fl st m (dropn n d) /\ abs (dropn n d) = abs d.
Proof.
  intros W B. pose proof (d_all_drop n d) as A. pose proof (w_ch _ _ _ _ W) as C. rewrite A in C. apply chain_app in C. destruct C as [C1 C2].
  assert (Bs : base m (dropn n d) = base m d + zlen (flatf (firstn n (d_cl d))) \/ d_all (dropn n d) = []).
  { unfold base at 1. destruct (d_all (dropn n d)) as [|g r] eqn:E; auto. left. destruct C2 as [C2 _]. exact C2. }
  pose proof (w_m _ _ _ _ W) as M. pose proof (zlen_nn (flatf (firstn n (d_cl d)))) as NN.
  assert (FL : flat d = flatf (firstn n (d_cl d)) ++ flat (dropn n d)) by (unfold flat; rewrite A; apply flatf_app).
  split.
  - constructor.
    + exact (w_meta _ _ _ _ W).
    + destruct Bs as [Bs|Bs]; [lia|]. unfold base. rewrite Bs. lia.
    + destruct Bs as [Bs|Bs]; [rewrite Bs; exact C2|]. rewrite Bs. exact I.
    + cbn. pose proof (w_cl _ _ _ _ W) as F. rewrite <- (firstn_skipn n) in F. apply Forall_app in F. apply F.
    + exact (w_op _ _ _ _ W).
    + pose proof (w_sz _ _ _ _ W) as F. rewrite FL in F. apply Forall_app in F. apply F.
  - unfold abs. cbn [dropn d_meta]. rewrite (w_meta _ _ _ _ W). f_equal. fold (dropn n d). rewrite FL, skipn_flat by lia. destruct Bs as [Bs|Bs].
    + f_equal. lia.
    + assert (X : flat (dropn n d) = []) by (unfold flat; rewrite Bs; reflexivity). rewrite X. rewrite !skipn_nil. reflexivity.
Qed.
(** Removing the open file likewise. *)
Lemma drop_open fl st m d g : WFm fl st m d -> d_op d = Some g -> f_end g < m -> d_cl d = [] ->
  WFm fl st m (mkD (Some m) [] None) /\ abs (mkD (Some m) [] None) = abs d.
Proof.
  intros W E L N. pose proof (w_m _ _ _ _ W) as M. unfold base, d_all in M. rewrite N, E in M. cbn in M. split.
  - constructor; cbn; auto; try constructor; try (unfold base; cbn; lia). discriminate.
  - rewrite (abs_of _ _ _ _ W). unfold abs. cbn [d_meta]. f_equal. unfold flat, base, d_all. cbn [d_cl d_op app]. rewrite N, E. cbn [app]. rewrite flatf_one.
    rewrite skipn_nil. symmetry. apply skipn_all2. unfold f_end, zlen in L. lia.
Qed.

Definition settle (m : Z) (d : sd) : sd :=
  mkD (Some m) (skipn (low m (d_cl d)) (d_cl d)) (match d_op d with Some g => if f_end g <? m then None else Some g | None => None end).
Lemma skipn_all_cl m cl st b : Forall (cok st) cl -> chain b cl -> b + zlen (flatf cl) <= m -> skipn (low m cl) cl = [].
Proof.
  intros F. revert b. induction F as [|g cl (N & L & _) F IH]; intros b C B; [reflexivity|]. destruct C as [E C]. rewrite flatf_cons, zlen_app' in B. unfold f_end in L.
  pose proof (zlen_nn (flatf cl)). cbn [low]. destruct (Z.ltb_spec (f_last g) m); [|lia]. cbn [skipn]. apply (IH _ C). lia.
Qed.
Lemma settle_wf fl st m d : WFm fl st m d -> WFm fl st m (settle m d) /\ V m (settle m d) /\ abs (settle m d) = abs d /\ (forall a, opens a d -> opens a (settle m d)).
Proof.
  intros W. pose proof (w_ch _ _ _ _ W) as C. pose proof (w_m _ _ _ _ W) as M. pose proof (w_cl _ _ _ _ W) as F. unfold d_all in C. apply chain_app in C. destruct C as [C1 C2].
  destruct (drop_wf fl st m d (low m (d_cl d)) W) as [W1 A1]; [apply (low_sub m (d_cl d) st); [exact F|exact C1|lia]|].
  assert (OP : forall a, opens a d -> opens a (settle m d)).
  { intros a O g G. apply O. unfold settle in G. cbn in G. destruct (d_op d) as [g0|]; [|discriminate G]. destruct (f_end g0 <? m); [discriminate G|exact G]. }
  destruct (d_op d) as [g|] eqn:E.
  - destruct C2 as [Fg _]. destruct (Z.ltb_spec (f_end g) m) as [L|L].
    + assert (K : skipn (low m (d_cl d)) (d_cl d) = []).
      { apply (skipn_all_cl m _ st (base m d)); auto. unfold f_end in L. pose proof (zlen_nn (f_es g)). lia. }
      assert (S1 : settle m d = mkD (Some m) [] None). { unfold settle. rewrite E, K. destruct (Z.ltb_spec (f_end g) m); [reflexivity|lia]. }
      destruct (drop_open fl st m (dropn (low m (d_cl d)) d) g W1) as [W2 A2]; [exact E|exact L|exact K|].
      rewrite S1. split; [exact W2|]. split; [constructor; [left; reflexivity|reflexivity]|]. split; [congruence|]. rewrite <- S1. exact OP.
    + assert (S1 : settle m d = dropn (low m (d_cl d)) d).
      { unfold settle, dropn. rewrite E, (w_meta _ _ _ _ W). destruct (Z.ltb_spec (f_end g) m); [lia|]. reflexivity. }
      rewrite S1. split; [exact W1|]. split; [|split; [exact A1|rewrite <- S1; exact OP]]. constructor; [right|apply low_skip].
      pose proof (w_ch _ _ _ _ W1) as C'. unfold d_all in C'. cbn [dropn d_op] in C'. rewrite E in C'. apply chain_app in C'. destruct C' as [_ [Fg' _]].
      unfold flat, d_all. cbn [dropn d_op d_cl]. rewrite E, flatf_app, zlen_app', flatf_one. unfold f_end in L. cbn [dropn d_cl] in Fg'. unfold dropn in Fg' |- *. lia.
  - assert (S1 : settle m d = dropn (low m (d_cl d)) d) by (unfold settle, dropn; rewrite E, (w_meta _ _ _ _ W); reflexivity).
    rewrite S1. split; [exact W1|]. split; [|split; [exact A1|rewrite <- S1; exact OP]]. constructor; [|apply low_skip].
    destruct (skipn (low m (d_cl d)) (d_cl d)) as [|g r] eqn:K; [left; unfold d_all, dropn; cbn; rewrite K, E; reflexivity|]. right.
    pose proof (low_skip m (d_cl d)) as LS. rewrite K in LS. cbn [low] in LS. destruct (Z.ltb_spec (f_last g) m) as [|L]; [discriminate LS|].
    pose proof (w_cl _ _ _ _ W1) as F1. unfold dropn in F1. cbn in F1. rewrite K in F1. inversion F1 as [|? ? (N & Q & _) _]. subst.
    unfold flat, base, d_all. cbn [dropn d_op d_cl]. rewrite K, E, app_nil_r. rewrite flatf_cons, zlen_app'. unfold f_end in Q. pose proof (zlen_nn (flatf r)). lia.
Qed.

Lemma full_cok st cl : Forall (cok st) cl -> forallb full cl = true.
Proof. intros F. apply forallb_forall. intros g I. rewrite Forall_forall in F. destruct (F g I) as (_ & L & _). unfold full, f_end in *. apply Z.eqb_eq. lia. Qed.
Lemma last_chain cl : forall b st g r, Forall (cok st) cl -> chain b cl -> rev cl = g :: r -> f_last g = b + zlen (flatf cl) - 1.
Proof.
  intros b st g r F C R. apply (f_equal (@rev _)) in R. rewrite rev_involutive in R. cbn in R. subst cl. apply chain_app in C. destruct C as [_ [E _]].
  apply Forall_app in F. destruct F as [_ F]. inversion F as [|? ? (_ & L & _) _]. subst. rewrite flatf_app, zlen_app', flatf_one. unfold f_end in L. lia.
Qed.
(** What a settled directory looks like from outside: first and last index. *)
Lemma dinit_wf fl st m d h : WFm fl st m d -> dinit d h = Some (mkDS m (g_last (abs d)) (settle m d) (h ++ [settle m d])).
Proof.
  intros W. destruct (settle_wf fl st m d W) as (W1 & V1 & A1 & _). pose proof (w_ch _ _ _ _ W) as C. pose proof (w_m _ _ _ _ W) as M. pose proof (w_cl _ _ _ _ W) as F.
  unfold d_all in C. apply chain_app in C. destruct C as [C1 C2]. unfold dinit. rewrite (w_meta _ _ _ _ W).
  rewrite (check_spec m (d_cl d) (base m d)); [|lia|apply (chain_names st); assumption].
  rewrite (full_cok st); [|exact (w_cl _ _ _ _ W1)].
  fold (settle m d). set (op := match d_op d with Some g => if f_end g <? m then None else Some g | None => None end).
  set (kept := skipn (low m (d_cl d)) (d_cl d)). f_equal. f_equal. rewrite <- A1.
  pose proof (w_ch _ _ _ _ W1) as C'. pose proof (w_m _ _ _ _ W1) as M'. pose proof (w_cl _ _ _ _ W1) as F'. destruct V1 as [VE _].
  rewrite (abs_of _ _ _ _ W1). unfold g_last. cbn [g_first g_ents]. rewrite zlen_skipn by lia.
  assert (DA : d_all (settle m d) = kept ++ match op with Some g => [g] | None => [] end) by reflexivity.
  unfold flat in VE |- *. rewrite DA in VE, C' |- *. unfold settle in F'. cbn [d_cl] in F'. fold kept in F'.
  apply chain_app in C'. destruct C' as [C1' C2']. destruct op as [g|].
  - destruct C2' as [E2 _]. rewrite flatf_app, zlen_app', flatf_one in VE |- *. unfold f_end.
    destruct VE as [VE|VE]; [destruct kept; discriminate VE|]. replace (f_first g + zlen (f_es g) - 1) with (base m (settle m d) + (zlen (flatf kept) + zlen (f_es g)) - 1) by lia.
    destruct (Z.eqb_spec (base m (settle m d) + (zlen (flatf kept) + zlen (f_es g)) - 1) 0); lia.
  - rewrite app_nil_r in VE |- *. destruct (rev kept) as [|g r] eqn:R.
    + assert (K : kept = []) by (apply (f_equal (@rev _)) in R; rewrite rev_involutive in R; exact R). rewrite K in VE |- *. unfold zlen. cbn. lia.
    + rewrite (last_chain kept (base m (settle m d)) st g r); auto. destruct VE as [VE|VE]; [rewrite VE in R; discriminate R|].
      destruct (Z.eqb_spec (base m (settle m d) + zlen (flatf kept) - 1) 0); lia.
Qed.
