From Verif Require Import Base LeadCb LeadCbSpec LeadCbProofs LeadCbStep LeadCbStep2.

Ltac obs h o := 
  assert (OI : forall t i, In (OElected t i) (h ++ o) -> In (OElected t i) h)
    by (let H := fresh in intros ? ? H; apply in_app_iff in H; destruct H as [H|H]; [exact H|cbn in H; destruct H as [H|[]]; discriminate H]).

Lemma fsm_end_LI h s k : LI h s -> l_run s = Some (k, []) -> LI h (set_fsm k (l_err s) None s).
Proof.
  intros I E. destruct I as [U T BC BF BQ BA CQ NO WA RU ER LE CA RD TR RE EL RY TS ON]. rewrite E in *.
  red_lc. constructor; red_lc; auto.
  - tauto.
  - intros t W. destruct (WA t W) as (A1 & A2 & A3 & A4 & A5 & A6 & A7 & A8). auto 10.
  - intros X. destruct (ER X); discriminate.
  - intros X. specialize (RE X). cbn in RE. tauto.
Qed.

(** A callback from the head of the COMMITTED task in progress or of the queue: [r'] and [q'] are
    what is left. *)
Lemma fsm_apply_LI h s k i a : LI h s -> l_run s = Some (k, AApply i :: a) ->
  LI (h ++ [CbApply i]) (set_fsm (l_applied s) (l_err s) (Some (k, a)) s) /\ i = reached h 0 + 1.
Proof.
  intros I E. destruct I as [U T BC BF BQ BA CQ NO WA RU ER LE CA RD TR RE EL RY TS ON]. rewrite E in *.
  assert (NE : l_err s = false). { destruct (l_err s); auto. destruct (ER eq_refl); discriminate. }
  destruct (RE NE) as [[R1 R2] R3]. cbn in R3. split; auto.
  assert (RR : reached (h ++ [CbApply i]) 0 = i) by (rewrite reached_app; auto). obs h [CbApply i].
  assert (M : forall t, won h t (reached h 0) -> won (h ++ [CbApply i]) t i) by (intros t Ht; apply won_app with (reached h 0); auto; lia).
  red_lc. constructor; red_lc; rewrite ?RR; auto.
  - destruct U as (u & v & U1 & U2 & U3). exists u, v. split; [|split; auto].
    apply uoks_app. exists u. split; auto. apply uoks_one. constructor.
  - intros t Ht. apply RU. cbn. tauto.
  - intros X; congruence.
  - intros _. split; auto. apply awon_app; auto.
  - intros X. destruct (EL X) as (x & E1 & E2). exists x. split; auto. apply in_app_iff; auto.
  - intros t x Hx. apply ON with x; auto.
Qed.

Lemma fsm_done_LI h s k t a : LI h s -> l_run s = Some (k, ADone t :: a) ->
  LI h (set_node (l_role s) (l_term s) (l_leader s) (if lleading (l_role s) && (t =? l_term s) then true else l_ready s) (l_timers s)
          (set_fsm (l_applied s) (l_err s) (Some (k, a)) s)).
Proof.
  intros I E. destruct I as [U T BC BF BQ BA CQ NO WA RU ER LE CA RD TR RE EL RY TS ON]. rewrite E in *.
  assert (NE : l_err s = false). { destruct (l_err s); auto. destruct (ER eq_refl); discriminate. }
  destruct (RE NE) as [R1 R2]. cbn in R1, R2. destruct R2 as [R2 R3].
  destruct (RU t (or_introl (or_introl eq_refl))) as [RU1 RU2].
  red_lc. constructor; red_lc; auto.
  - intros x W. destruct (WA x W) as (A1 & A2 & A3 & A4 & A5 & A6 & A7 & A8).
    split; auto. split; auto. split; [|auto 10].
    rewrite A2; cbn [lleading andb]. destruct (t =? l_term s) eqn:Et; auto. apply Z.eqb_eq in Et.
    exfalso. apply RU2; auto. apply waiting_hd. eauto.
  - intros x Hx. apply RU. cbn. tauto.
  - intros X; congruence.
  - intros X. destruct (lleading (l_role s) && (t =? l_term s)) eqn:Z1; auto. apply andb_true_iff in Z1. tauto.
  - intros X. rewrite X. cbn [lleading]. rewrite (TR X). destruct (_ && _); auto.
  - intros X. destruct (lleading (l_role s) && (t =? l_term s)) eqn:Z1; auto. apply andb_true_iff in Z1.
    destruct Z1 as [_ Z1]. apply Z.eqb_eq in Z1. subst t. auto.
Qed.

Lemma fsm_start_LI h s k t a : LI h s -> l_run s = Some (k, AStart t :: a) ->
  LI (h ++ [CbStart t]) (set_fsm (l_applied s) (l_err s) (Some (k, a)) s) /\ won h t (reached h 0).
Proof.
  intros I E. destruct I as [U T BC BF BQ BA CQ NO WA RU ER LE CA RD TR RE EL RY TS ON]. rewrite E in *.
  assert (NE : l_err s = false). { destruct (l_err s); auto. destruct (ER eq_refl); discriminate. }
  destruct (RE NE) as [R1 R2]. cbn in R1, R2. destruct R2 as [R2 R3]. split; auto.
  assert (RR : reached (h ++ [CbStart t]) 0 = reached h 0) by (rewrite reached_app; auto). obs h [CbStart t].
  assert (M : forall t', won h t' (reached h 0) -> won (h ++ [CbStart t]) t' (reached h 0)) by (intros t' Ht; apply won_app with (reached h 0); auto; lia).
  red_lc. constructor; red_lc; rewrite ?RR; auto.
  - destruct U as (u & v & U1 & U2 & U3). cbn in U2. inversion U2; subst. exists u1, v. split; [|split; auto].
    apply uoks_app. exists u. split; auto. apply uoks_one. auto.
  - intros x Ht. apply RU. cbn. tauto.
  - intros X; congruence.
  - intros _. split; auto. apply awon_app; auto.
  - intros X. destruct (EL X) as (x & E1 & E2). exists x. split; auto. apply in_app_iff; auto.
  - intros t' x Hx. apply ON with x; auto.
Qed.

(** A leadership task at the head of the queue. *)
Lemma fsm_task_LI h s x q c : LI h s -> l_run s = None -> l_queue s = x :: q -> qcb1 x = [c] ->
  LI (h ++ [c]) (set_q q (l_flight s) s) /\ (forall t, c = CbStart t -> won h t (reached h 0)).
Proof.
  intros I E Q X. destruct I as [U T BC BF BQ BA CQ NO WA RU ER LE CA RD TR RE EL RY TS ON]. rewrite E, Q in *.
  assert (RR : reached (h ++ [c]) 0 = reached h 0) by (rewrite reached_app; destruct x; cbn in X; try discriminate; injection X as <-; auto).
  assert (OI : forall t i, In (OElected t i) (h ++ [c]) -> In (OElected t i) h).
  { intros t i H. apply in_app_iff in H. destruct H as [H|[H|[]]]; auto. destruct x; cbn in X; try discriminate; injection X as <-; discriminate. }
  assert (M : forall t', won h t' (reached h 0) -> won (h ++ [c]) t' (reached h 0)) by (intros t' Ht; apply won_app with (reached h 0); auto; lia).
  split.
  - red_lc. constructor; red_lc; rewrite ?RR, ?E; auto.
    + destruct U as (u & v & U1 & U2 & U3). cbn in U2. rewrite X in U2. cbn in U2. inversion U2; subst. exists u1, v. split; [|split; auto].
      apply uoks_app. exists u. split; auto. apply uoks_one. auto.
    + inversion BQ; auto.
    + intros t W. destruct (WA t W) as (A1 & A2 & A3 & A4 & A5 & A6 & A7 & A8).
      do 5 (split; [solve [auto]|]). split; [|split].
      * intros k Hk. apply A6. right; auto.
      * intros q1 k q2 Eq. apply (A7 (x :: q1)). rewrite Eq. auto.
      * intros L. destruct (A8 L) as (k & [Hk|[Hk|Hk]] & Lk); [exists k; auto| |exists k; auto]. subst x. discriminate.
    + intros Y. destruct (EL Y) as (i & E1 & E2). exists i. split; auto. apply in_app_iff; auto.
    + intros t Ht. apply M, TS. right; auto.
    + intros t' i Hx. apply ON with i; auto.
  - intros t ->. destruct x; cbn in X; try discriminate. injection X as ->. apply TS. left; auto.
Qed.

(** A snapshot is loaded (or skipped). *)
Lemma fsm_snap_LI h s k q s' o : LI h s -> l_run s = None -> l_queue s = TSnap k :: q ->
  (if l_err s || (k <? l_applied s) then Some (set_q q (l_flight s) s, [])
   else Some (set_fsm k (l_err s) None (set_q q (l_flight s) s), [CbSnap k])) = Some (s', o) ->
  LI (h ++ o) s' /\ (o = [] \/ o = [CbSnap k] /\ reached h 0 <= k).
Proof.
  intros I E Q H. destruct I as [U T BC BF BQ BA CQ NO WA RU ER LE CA RD TR RE EL RY TS ON]. rewrite E, Q in *.
  inversion BQ as [|? ? B1 B2]; subst. cbn in B1.
  assert (WA' : forall t, hd None (l_cq s) = Some t -> 
      t = l_term s /\ l_role s = LLeader /\ l_ready s = false /\ l_applied s < l_first s /\ k < l_first s /\
      (forall k, In (TSnap k) q -> k < l_first s) /\
      (forall q1 k q2, q = q1 ++ TCommitted k :: q2 -> l_first s <= k -> qcb q2 = []) /\
      (l_first s <= l_commit s -> exists k, (In k (l_flight s) \/ In (TCommitted k) q) /\ l_first s <= k)).
  { intros t W. destruct (WA t W) as (A1 & A2 & A3 & A4 & A5 & A6 & A7 & A8). do 4 (split; [solve [auto]|]). split; [apply A6; left; auto|]. split; [|split].
    - intros k' Hk. apply A6. right; auto.
    - intros q1 k' q2 Eq. apply (A7 (TSnap k :: q1)). rewrite Eq. auto.
    - intros L. destruct (A8 L) as (k' & [Hk|[Hk|Hk]] & Lk); [exists k'; auto|discriminate|exists k'; auto]. }
  destruct (l_err s || (k <? l_applied s)) eqn:Z1; injection H as <- <-.
  - rewrite app_nil_r. split; auto. red_lc. constructor; red_lc; rewrite ?E; auto.
    + intros t W. destruct (WA' t W) as (A1 & A2 & A3 & A4 & A5 & A6 & A7 & A8). auto 10.
    + intros t Ht. apply TS. right; auto.
  - apply orb_false_iff in Z1. destruct Z1 as [Z1 Z2]. apply Z.ltb_ge in Z2. specialize (RE Z1).
    split; [|right; split; auto; lia].
    assert (RR : reached (h ++ [CbSnap k]) 0 = k) by (rewrite reached_app; auto). obs h [CbSnap k].
    assert (M : forall t, won h t (reached h 0) -> won (h ++ [CbSnap k]) t k) by (intros t Ht; apply won_app with (reached h 0); auto; lia).
    red_lc. constructor; red_lc; rewrite ?RR; auto.
    + destruct U as (u & v & U1 & U2 & U3). exists u, v. split; [|split; auto].
      apply uoks_app. exists u. split; auto. apply uoks_one. constructor.
    + intros t W. destruct (WA' t W) as (A1 & A2 & A3 & A4 & A5 & A6 & A7 & A8). auto 10.
    + intros Y. destruct (EL Y) as (i & E1 & E2). exists i. split; auto. apply in_app_iff; auto.
    + intros t Ht. apply M, TS. right; auto.
    + intros t' i Hx. apply ON with i; auto.
Qed.

Lemma tl_skipn_none (l : list (option Z)) n : allnone (tl l) -> (0 < n)%nat -> allnone (skipn n l).
Proof.
  intros A Hn. destruct n; [lia|]. destruct l; cbn in *; [constructor|]. clear Hn.
  unfold allnone in *. rewrite Forall_forall in *. intros x Hx. apply A.
  rewrite <- (firstn_skipn n l). apply in_app_iff; auto.
Qed.
Lemma allnone_hd l t : allnone l -> hd None l = Some t -> False.
Proof. intros A H. destruct l; cbn in H; [discriminate|]. inversion A; subst. discriminate. Qed.
Lemma allnone_tl l : allnone l -> allnone (tl l).
Proof. intros A. destruct l; auto. inversion A; auto. Qed.
Lemma allnone_firstn n l : allnone l -> allnone (firstn n l).
Proof. intros A. unfold allnone in *. rewrite Forall_forall in *. intros x Hx. apply A. rewrite <- (firstn_skipn n l). apply in_app_iff; auto. Qed.

(** A committed index is taken from the queue. *)
Lemma fsm_commit_LI h s k q : LI h s -> l_run s = None -> l_queue s = TCommitted k :: q ->
  exists s', do_committed k (set_q q (l_flight s) s) = Some s' /\ LI h s'.
Proof.
  intros I E Q. pose proof I as [U T BC BF BQ BA CQ NO WA RU ER LE CA RD TR RE EL RY TS ON]. rewrite E, Q in *.
  inversion BQ as [|? ? B1 B2]; subst. cbn in B1.
  assert (TS' : forall t, In (TStart t) q -> won h t (reached h 0)) by (intros t Ht; apply TS; right; auto).
  assert (WA' : forall t, hd None (l_cq s) = Some t -> (k < l_first s \/ l_err s = true) ->
      t = l_term s /\ l_role s = LLeader /\ l_ready s = false /\ l_applied s < l_first s /\ True /\
      (forall k, In (TSnap k) q -> k < l_first s) /\
      (forall q1 k q2, q = q1 ++ TCommitted k :: q2 -> l_first s <= k -> qcb q2 = []) /\
      (l_first s <= l_commit s -> exists k, (In k (l_flight s) \/ In (TCommitted k) q) /\ l_first s <= k)).
  { intros t W K. destruct (WA t W) as (A1 & A2 & A3 & A4 & A5 & A6 & A7 & A8).
    assert (K' : k < l_first s). { destruct K as [K|K]; auto. destruct (ER K); congruence. }
    do 4 (split; [solve [auto]|]). split; auto. split; [|split].
    - intros k' Hk. apply A6. right; auto.
    - intros q1 k' q2 Eq. apply (A7 (TCommitted k :: q1)). rewrite Eq. auto.
    - intros L. destruct (A8 L) as (k' & [Hk|[Hk|Hk]] & Lk); [exists k'; auto| |exists k'; auto]. injection Hk as ->. lia. }
  assert (SKIP : (forall t, hd None (l_cq s) = Some t -> k < l_first s \/ l_err s = true) -> LI h (set_q q (l_flight s) s)).
  { intros K. red_lc. constructor; red_lc; rewrite ?E; auto. intros t W. apply WA'; eauto. }
  unfold do_committed. change (l_err (set_q q (l_flight s) s)) with (l_err s). change (l_applied (set_q q (l_flight s) s)) with (l_applied s).
  destruct (l_err s) eqn:Er. { eexists; split; [reflexivity|]. apply SKIP. auto. }
  destruct (k <=? l_applied s) eqn:Ka. { eexists; split; [reflexivity|]. apply SKIP. apply Z.leb_le in Ka. intros t W. left. destruct (WA t W) as (A1 & A2 & A3 & A4 & _). lia. }
  apply Z.leb_gt in Ka. specialize (RE eq_refl). cbn in RE.
  unfold pop_until. change (l_cq (set_q q (l_flight s) s)) with (l_cq s). change (l_first (set_q q (l_flight s) s)) with (l_first s).
  destruct ((match l_cq s with [] => true | _ => false end) || (k <? l_first s)) eqn:Z1.
  - (* no closure *)
    assert (K : forall t, hd None (l_cq s) = Some t -> k < l_first s \/ false = true).
    { intros t W. destruct (l_cq s); [discriminate|]. cbn in Z1. left. apply Z.ltb_lt; auto. }
    specialize (SKIP K). eexists; split; [reflexivity|].
    destruct (acts_allnone (Z.to_nat (k - l_applied s)) (l_applied s + 1) (k + 1) []) as [AN1 AN2]; [constructor|].
    pose proof (acts_chain (Z.to_nat (k - l_applied s)) (l_applied s + 1) (k + 1) []) as AC.
    pose proof (acts_won h 0 (Z.to_nat (k - l_applied s)) (l_applied s + 1) (k + 1) []) as AW.
    set (A := acts_of _ _ _ _) in *. clearbody A.
    replace (l_applied s + 1 - 1) with (l_applied s) in * by lia. replace (l_applied s + Z.of_nat _) with k in AC by lia.
    destruct SKIP as [U' T' BC' BF' BQ' BA' CQ' NO' WAx RU' ER' LE' CA' RD' TR' RE' EL' RY' TS0 ON'].
    red_lc. rewrite E in *. constructor; red_lc; auto.
    + destruct U' as (u & v & U1 & U2 & U3). exists u, v. split; auto. split; auto. cbn [acb]. rewrite AN1. auto.
    + split; [tauto|lia].
    + intros t W. destruct (WAx t W) as (A1 & A2 & A3 & A4 & A5 & A6 & A7 & A8). do 4 (split; [solve [auto]|]). split; [|auto].
      destruct (K t W); [auto|discriminate].
    + intros t [H|H]; destruct (AN2 t); tauto.
    + intros X; congruence.
    + intros _. rewrite RE. split; auto. apply AW. intros j t D. exfalso. rewrite done_allnone in D; [discriminate|constructor].
  - apply orb_false_iff in Z1. destruct Z1 as [Z1 Z2]. apply Z.ltb_ge in Z2.
    assert (LD : lleading (l_role s) = true). { destruct (lleading (l_role s)) eqn:X; auto. rewrite CQ in Z1. discriminate. }
    rewrite LD in CQ.
    destruct (l_first s + zlen (l_cq s) - 1 <? k) eqn:Z3. { apply Z.ltb_lt in Z3. lia. }
    eexists; split; [reflexivity|]. clear Z3.
    set (n := Z.to_nat (k - l_first s + 1)). assert (Hn : (0 < n)%nat) by (unfold n; lia).
    assert (HL : (n <= length (l_cq s))%nat) by (unfold n, zlen in *; lia).
    assert (AN : allnone (skipn n (l_cq s))) by (apply tl_skipn_none; auto).
    assert (FL : forall s0, l_cq s0 = skipn n (l_cq s) -> ~ waiting s0).
    { intros s0 E0 W. apply waiting_hd in W. destruct W as (t & W). rewrite E0 in W. eapply allnone_hd; eauto. }
    destruct (EL LD) as (e & E1 & E2).
    assert (LEN : k + 1 + zlen (skipn n (l_cq s)) = l_last s + 1).
    { unfold zlen in *. rewrite skipn_length. unfold n in *. lia. }
    destruct U as (u & v & U1 & U2 & U3). change (uoks u (qcb q) v) in U2.
    destruct (hd None (l_cq s)) as [t|] eqn:HD.
    + (* the closure that starts the leadership *)
      destruct (WA t eq_refl) as (A1 & A2 & A3 & A4 & A5 & A6 & A7 & A8). subst t.
      destruct (l_cq s) as [|c0 cl] eqn:CL; [discriminate|]. cbn in HD. subst c0. cbn [tl] in NO.
      assert (FN : firstn n (Some (l_term s) :: cl) = Some (l_term s) :: firstn (n - 1) cl) by (destruct n; [lia|]; cbn; rewrite Nat.sub_0_r; auto).
      rewrite FN. pose proof (allnone_firstn (n - 1) cl NO) as NF.
      destruct (acts_start (Z.to_nat (k - l_applied s)) (l_applied s + 1) (l_first s) (l_term s) _ NF) as [AN1 AN2]; [lia|].
      pose proof (acts_chain (Z.to_nat (k - l_applied s)) (l_applied s + 1) (l_first s) (Some (l_term s) :: firstn (n - 1) cl)) as AC.
      pose proof (acts_won h e (Z.to_nat (k - l_applied s)) (l_applied s + 1) (l_first s) (Some (l_term s) :: firstn (n - 1) cl)) as AW.
      change (l_applied (set_cq (k + 1) (skipn n (Some (l_term s) :: cl)) (set_q q (l_flight s) s))) with (l_applied s).
      set (A := acts_of _ _ _ _) in *. clearbody A.
      replace (l_applied s + 1 - 1) with (l_applied s) in * by lia. replace (l_applied s + Z.of_nat _) with k in AC by lia.
      assert (W : waiting s) by (exists (l_term s), cl; auto).
      assert (NQ : qcb q = []) by (apply (A7 [] k q); auto).
      unfold final in U3. rewrite A2 in U3. destruct U3 as [[_ (m & -> & Hm)]|[NW _]]; [|tauto].
      rewrite NQ in U2. inversion U2; subst.
      red_lc. constructor; red_lc; rewrite ?A2 in *; cbn [lleading] in *; auto; try (intros; discriminate).
      * exists (UNone m), (ULead (l_term s)). split; auto. split; [|unfold final; red_lc; right; split; auto].
        cbn [acb]. rewrite AN1, NQ. cbn. apply uoks_one. constructor; lia.
      * split; [tauto|lia].
      * apply allnone_tl; auto.
      * intros t Ht. exact (False_ind _ (allnone_hd _ _ AN Ht)).
      * intros t Ht. apply AN2 in Ht. subst t. split; [lia|]. intros _. apply FL; auto.
      * intros X; congruence.
      * intros _. rewrite RE. split; auto. apply AW. intros j t D.
        destruct (Z.eq_dec j (l_first s)) as [->|Hj].
        -- unfold done_at in D. rewrite Z.ltb_irrefl, Z.sub_diag in D. cbn in D. injection D as <-. rewrite E2 in E1 by auto. rewrite E2 by auto. split; auto. lia.
        -- rewrite done_after in D; auto. discriminate.
      * intros _. exists e. split; auto. intros W'. exfalso. eapply FL; eauto. reflexivity.
    + (* users' closures only *)
      assert (AL : allnone (l_cq s)). { destruct (l_cq s); [constructor|]. cbn in HD. subst. constructor; auto. }
      assert (NW : ~ waiting s). { intros W. apply waiting_hd in W. destruct W as (t & W). congruence. }
      pose proof (allnone_firstn n _ AL) as NF.
      destruct (acts_allnone (Z.to_nat (k - l_applied s)) (l_applied s + 1) (l_first s) _ NF) as [AN1 AN2].
      pose proof (acts_chain (Z.to_nat (k - l_applied s)) (l_applied s + 1) (l_first s) (firstn n (l_cq s))) as AC.
      pose proof (acts_won h 0 (Z.to_nat (k - l_applied s)) (l_applied s + 1) (l_first s) (firstn n (l_cq s))) as AW.
      change (l_applied (set_cq (k + 1) (skipn n (l_cq s)) (set_q q (l_flight s) s))) with (l_applied s).
      set (A := acts_of _ _ _ _) in *. clearbody A.
      replace (l_applied s + 1 - 1) with (l_applied s) in * by lia. replace (l_applied s + Z.of_nat _) with k in AC by lia.
      red_lc. constructor; red_lc; rewrite ?LD in *; auto.
      * exists u, v. split; auto. split; [cbn [acb]; rewrite AN1; auto|]. unfold final in *. red_lc. destruct (l_role s); auto.
        right. destruct U3 as [[W _]|[_ ->]]; [tauto|]. split; auto.
      * split; [tauto|lia].
      * apply allnone_tl; auto.
      * intros t Ht. exact (False_ind _ (allnone_hd _ _ AN Ht)).
      * intros t [H|H]; destruct (AN2 t); tauto.
      * intros X; congruence.
      * intros _. rewrite RE. split; auto. apply AW. intros j t D. exfalso. rewrite done_allnone in D; [discriminate|auto].
      * intros _. exists e. split; auto. intros W'. exfalso. eapply FL; eauto. reflexivity.
Qed.
