(** Lemmas for C65 *)
From Verif Require Import Base Boot BootSpec.

Lemma access_ind (P : out -> Prop) : forall s s' q k,
  P (s, Ret (-1)) -> P (s, Crash) -> P (s', Ret (-1)) -> P (s', Crash) -> (forall q', P (k s' q')) -> P (access s s' q k).
Proof. intros s s' q k A B C D K. destruct q as [|[|[]|[]] q]; cbn [access]; auto. Qed.

Lemma calls_cons : forall o q qs s, calls o (q :: qs) s = (let (s1, r) := bootstrap o s q in let (s2, rs) := calls o qs s1 in (s2, r :: rs)).
Proof. reflexivity. Qed.

(** ** What a call does to any stores *)
Definition terms_up (s s' : store) : Prop := s_term s < s_term s' \/ (s_term s' = s_term s /\ s_vote s' = s_vote s).
Definition snap_kept (s s' : store) : Prop := forall p, s_snap s = Some p -> s_snap s' = Some p.
Definition ends_ok (o : opts) (s' : store) : Prop := exists l, s_log s' = l ++ [(s_term s', Confg (o_conf o))].
Definition good (o : opts) (s : store) (x : out) : Prop :=
  terms_up s (fst x) /\ snap_kept s (fst x) /\ (snd x = Ret 0 -> ends_ok o (fst x) /\ s_term (fst x) <> 0
     /\ (o_fatal o = true -> s_first (fst x) = o_last o + 1 /\ s_log (fst x) = [(s_term (fst x), Confg (o_conf o))])).
Definition near (s s1 : store) : Prop := terms_up s s1 /\ snap_kept s s1.

Lemma near_refl : forall s, near s s.
Proof. intro s. split; [right; auto | intros p H; exact H]. Qed.
Lemma near_good : forall o s s1 r, near s s1 -> r <> Ret 0 -> good o s (s1, r).
Proof. intros o s s1 r [A B] N. unfold good. cbn. repeat split; try assumption; intros; contradiction. Qed.
Ltac ng := apply near_good; [|discriminate].

Lemma append_good : forall o s s1 q, near s s1 -> s_term s1 <> 0 -> good o s (append_conf o s1 q).
Proof.
  intros o s s1 q N T. unfold append_conf.
  destruct (o_fatal o && negb ((s_first s1 =? o_last o + 1) && (last_index s1 =? o_last o))) eqn:F; [ng; exact N|].
  pose proof N as [N1 N2].
  assert (N' : near s (set_log (s_first s1) (s_log s1 ++ [(s_term s1, Confg (o_conf o))]) s1)) by (split; [exact N1|exact N2]).
  apply access_ind; try (ng; assumption). intros _. unfold good. cbn [fst snd]. split; [apply N'|]. split; [apply N'|]. intros _.
  split; [exists (s_log s1); reflexivity|]. split; [exact T|]. intro FT. rewrite FT in F. cbn [andb] in F.
  apply negb_false_iff, andb_true_iff in F as [F1 F2]. apply Z.eqb_eq in F1, F2. split; [exact F1|].
  cbn [s_log set_log s_term]. unfold last_index, zlen in F2. destruct (s_log s1) as [|e l]; [reflexivity|]. cbn [length] in F2. lia.
Qed.
Lemma trunc_near : forall s s1 f l, near s s1 -> near s (set_log f l s1).
Proof. intros s s1 f l [A B]. split; [exact A|exact B]. Qed.

Lemma set_snapshot_good : forall o s p s1 q k, near s s1 -> s_term s1 <> 0 -> (forall s2 q2, near s s2 -> s_term s2 <> 0 -> good o s (k s2 q2)) -> good o s (set_snapshot p s1 q k).
Proof.
  intros o s p s1 q k N T K. unfold set_snapshot, truncate_prefix, reset.
  destruct (p_idx p <=? 0); [apply K; assumption|]. destruct (term_at (p_idx p) s1 =? 0); [|destruct (term_at (p_idx p) s1 =? p_term p); [apply K; assumption|]].
  - apply access_ind; try (ng; try apply trunc_near; assumption). intro q'. apply K; [apply trunc_near; assumption | exact T].
  - apply access_ind; try (ng; try apply trunc_near; assumption). intro q'. apply K; [apply trunc_near; assumption | exact T].
Qed.

Lemma dump_good : forall o d s s1 q, near s s1 -> s_term s1 <> 0 -> good o s (dump o d s1 q).
Proof.
  intros o d s s1 q N T. unfold dump. apply access_ind; try (ng; assumption). intros q1.
  destruct (s_snap s1) as [p|] eqn:S.
  - destruct (if 1 =? p_term p then o_last o >? p_idx p else 1 >? p_term p); [ng; exact N|].
    apply access_ind; try (ng; assumption). intros q2. apply set_snapshot_good; [exact N|exact T|]. intros s2 q3 N2 T2.
    unfold clear_logs, truncate_prefix. destruct (p_idx p <=? 0); [apply append_good; assumption|].
    apply access_ind; try (ng; try apply trunc_near; assumption). intro q4. apply append_good; [apply trunc_near; assumption|exact T2].
  - destruct (o_last o - 0 <? o_gap o); [apply append_good; assumption|]. cbv zeta.
    assert (N' : near s (set_snap (mkSnap (o_last o) 1 (conf_at (o_last o) s1) d) s1)).
    { destruct N as [A B]. split; [exact A|]. intros p E. apply B in E. congruence. }
    apply access_ind; try (ng; assumption). intros q2. apply set_snapshot_good; [exact N'|exact T|]. intros; apply append_good; assumption.
Qed.

Lemma first_term_good : forall o s s1 q, 0 <= s_term s -> near s s1 -> good o s (first_term o s1 q).
Proof.
  intros o s s1 q P N. unfold first_term. destruct (Z.eqb_spec (s_term s1) 0) as [E|E].
  - assert (N' : near s (set_meta 1 0 s1)).
    { destruct N as [A B]. split; [|exact B]. left. cbn. destruct A as [A|[A _]]; lia. }
    apply access_ind; try (ng; assumption). intros _. ng; assumption.
  - destruct (o_fsm o) as [d|]; [|apply append_good; assumption]. apply access_ind; try (ng; assumption). intros q1.
    destruct (0 <? o_last o); [apply dump_good|apply append_good]; assumption.
Qed.

Lemma bootstrap_good : forall o s q, 0 <= s_term s -> good o s (bootstrap o s q).
Proof.
  intros o s q P. pose proof (near_refl s) as N. unfold bootstrap. destruct (bad_args o); [ng; exact N|].
  apply access_ind; try (ng; assumption). intros q1. unfold init_meta. apply access_ind; try (ng; assumption). intros q2.
  destruct (Z.ltb_spec (s_term s) (last_log_term s)) as [L|L]; [|apply first_term_good; assumption].
  assert (N' : near s (set_meta (last_log_term s + 1) 0 s)).
  { split; [left; cbn; lia|intros p E; exact E]. }
  apply access_ind; try (ng; assumption). intros q3. apply first_term_good; assumption.
Qed.

(** ** Calls on fresh stores *)
Definition termed : store := mkStore 1 0 1 [] None.
Definition half (o : opts) : store := mkStore 1 0 1 [] (dumped o).
(** stages that a later call completes *)
Definition begun (o : opts) (n : nat) (s : store) : Prop := ((s = termed \/ s = half o) /\ n = 0%nat) \/ s = made o n.

Lemma valid_args : forall o, valid o -> bad_args o = false.
Proof.
  intros o (C & L & F & _). unfold bad_args. destruct (o_conf o) as [|c cs]; [contradiction C; reflexivity|].
  destruct (o_last o >? 0) eqn:E; cbn [andb orb]; [|reflexivity]. apply Z.gtb_lt in E. destruct (o_fsm o); [reflexivity|]. contradiction (F E); reflexivity.
Qed.
Lemma made_S : forall o n, set_log (s_first (made o n)) (s_log (made o n) ++ [(s_term (made o n), Confg (o_conf o))]) (made o n) = made o (S n).
Proof.
  intros o n. unfold made, set_log. cbn [s_first s_log s_term s_vote s_snap]. f_equal. change [(1, Confg (o_conf o))] with (repeat (1, Confg (o_conf o)) 1).
  rewrite <- repeat_app. f_equal. lia.
Qed.
Lemma made_app : forall o n q, append_conf o (made o n) q =
  if o_fatal o && negb (Nat.eqb n 0) then (made o n, Crash) else access (made o n) (made o (S n)) q (fun s _ => (s, Ret 0)).
Proof.
  intros o n q. unfold append_conf. rewrite made_S. unfold last_index, made at 1 2 3. cbn [s_first s_log].
  rewrite Z.eqb_refl. cbn [andb]. unfold zlen. rewrite repeat_length. replace (o_last o + 1 + Z.of_nat n - 1 =? o_last o) with (Nat.eqb n 0).
  - reflexivity.
  - destruct n; cbn [Nat.eqb]; symmetry; [apply Z.eqb_eq|apply Z.eqb_neq]; lia.
Qed.
Lemma trunc_made : forall o n, truncate_prefix (o_last o + 1) (made o n) = made o n.
Proof. intros o n. unfold truncate_prefix, set_log, made. cbn [s_first s_log s_term s_vote s_snap]. rewrite Z.sub_diag. reflexivity. Qed.
Lemma trunc_half : forall o, truncate_prefix (o_last o + 1) (half o) = made o 0.
Proof. intros o. unfold truncate_prefix, set_log, made, half. cbn [s_first s_log s_term s_vote s_snap]. rewrite skipn_nil. reflexivity. Qed.
Lemma term_made : forall o n, term_at (o_last o) (made o n) = 0.
Proof. intros o n. unfold term_at, made, znth. cbn [s_log s_first]. replace (o_last o - (o_last o + 1)) with (-1) by lia. reflexivity. Qed.
Lemma term_half : forall o, term_at (o_last o) (half o) = 0.
Proof. intros o. unfold term_at, half, znth. cbn [s_log s_first]. destruct (o_last o - 1 <? 0); [reflexivity|]. destruct (Z.to_nat (o_last o - 1)); reflexivity. Qed.
Lemma last_term_made : forall o n, 1 <? last_log_term (made o n) = false.
Proof.
  intros o n. unfold last_log_term, made. cbn [s_log]. replace (rev (repeat (1, Confg (o_conf o)) n)) with (repeat (1, Confg (o_conf o)) n).
  - destruct n; reflexivity.
  - induction n as [|n IH]; [reflexivity|]. cbn [repeat rev]. rewrite <- IH. clear IH. change [(1, Confg (o_conf o))] with (repeat (1, Confg (o_conf o)) 1).
    rewrite <- repeat_app, Nat.add_1_r. reflexivity.
Qed.
Lemma conf_at_termed : forall i, conf_at i termed = [].
Proof. intro i. unfold conf_at, termed. cbn [s_log s_first]. destruct (Z.to_nat (i - 1 + 1)); reflexivity. Qed.
Lemma half_last0 : forall o, o_last o = 0 -> half o = made o 0 /\ termed = made o 0.
Proof. intros o E. unfold half, made, dumped, termed. rewrite E. destruct (o_fsm o); split; reflexivity. Qed.

(** after the call: the same count and not 0, or one more *)
Definition next (o : opts) (n : nat) (x : out) : Prop :=
  (begun o n (fst x) /\ snd x <> Ret 0) \/ fst x = made o (S n).
Lemma next_not : forall o n s r, begun o n s -> r <> Ret 0 -> next o n (s, r).
Proof. intros. left. split; assumption. Qed.
Ltac nn := apply next_not; [|discriminate].

Lemma append_next : forall o n q, next o n (append_conf o (made o n) q).
Proof.
  intros o n q. rewrite made_app. destruct (o_fatal o && negb (Nat.eqb n 0)).
  - nn. right. reflexivity.
  - apply access_ind; try (nn; right; reflexivity); try (right; reflexivity).
Qed.

Lemma dumped_some : forall o, valid o -> 0 < o_last o -> exists d, o_fsm o = Some d /\ dumped o = Some (mkSnap (o_last o) 1 [] d).
Proof.
  intros o V L. destruct (o_fsm o) as [d|] eqn:F; [|destruct V as (_ & _ & V & _); contradiction (V L F)].
  exists d. split; [reflexivity|]. unfold dumped. rewrite F. apply Z.ltb_lt in L. rewrite L. reflexivity.
Qed.

(** setting the snapshot and what follows, on half or made stores *)
Lemma snapped_next : forall o n d s q k, 0 < o_last o -> (s = half o /\ n = 0%nat) \/ s = made o n ->
  (forall q, next o n (k (made o n) q)) -> next o n (set_snapshot (mkSnap (o_last o) 1 [] d) s q k).
Proof.
  intros o n d s q k L S K. unfold set_snapshot. cbn [p_idx p_term]. destruct (Z.leb_spec (o_last o) 0); [lia|].
  destruct S as [[-> ->]| ->].
  - rewrite term_half, Z.eqb_refl, trunc_half. apply access_ind; try (nn; left; split; [right|]; reflexivity); try (nn; right; reflexivity). exact K.
  - rewrite term_made, Z.eqb_refl, trunc_made. apply access_ind; try (nn; right; reflexivity). exact K.
Qed.

Lemma dump_next : forall o n d s q, valid o -> 0 < o_last o -> o_fsm o = Some d -> ((s = termed \/ s = half o) /\ n = 0%nat) \/ s = made o n -> next o n (dump o d s q).
Proof.
  intros o n d s q V L F S. assert (D : dumped o = Some (mkSnap (o_last o) 1 [] d)).
  { destruct (dumped_some o V L) as (d' & F' & D). rewrite F in F'. injection F' as <-. exact D. }
  assert (BG : begun o n s) by exact S.
  unfold dump. apply access_ind; try (nn; exact BG). intros q1.
  destruct S as [[[-> | ->] ->]| ->].
  - change (s_snap termed) with (@None snap). destruct V as (_ & _ & _ & G & _). specialize (G L). destruct (Z.ltb_spec (o_last o - 0) (o_gap o)); [lia|].
    rewrite conf_at_termed. cbv zeta. replace (set_snap (mkSnap (o_last o) 1 [] d) termed) with (half o) by (unfold half; rewrite D; reflexivity).
    apply access_ind; try (nn; exact BG); try (nn; left; split; [right|]; reflexivity). intros q2. apply snapped_next; [exact L|left; split; reflexivity|]. intro q3. apply append_next.
  - replace (s_snap (half o)) with (Some (mkSnap (o_last o) 1 [] d)) by (rewrite <- D; reflexivity). cbn [p_term p_idx]. rewrite Z.eqb_refl.
    destruct (Z.gtb_spec (o_last o) (o_last o)); [lia|]. apply access_ind; try (nn; exact BG). intros q2.
    apply snapped_next; [exact L|left; split; reflexivity|]. intro q3. unfold clear_logs. cbn [p_idx]. destruct (Z.leb_spec (o_last o) 0); [lia|].
    rewrite trunc_made. apply access_ind; try (nn; right; reflexivity). intro q4. apply append_next.
  - replace (s_snap (made o n)) with (Some (mkSnap (o_last o) 1 [] d)) by (rewrite <- D; reflexivity). cbn [p_term p_idx]. rewrite Z.eqb_refl.
    destruct (Z.gtb_spec (o_last o) (o_last o)); [lia|]. apply access_ind; try (nn; exact BG). intros q2.
    apply snapped_next; [exact L|right; reflexivity|]. intro q3. unfold clear_logs. cbn [p_idx]. destruct (Z.leb_spec (o_last o) 0); [lia|].
    rewrite trunc_made. apply access_ind; try (nn; right; reflexivity). intro q4. apply append_next.
Qed.

Lemma first_term_next : forall o n s q, valid o -> ((s = termed \/ s = half o) /\ n = 0%nat) \/ s = made o n -> next o n (first_term o s q).
Proof.
  intros o n s q V S. assert (BG : begun o n s) by exact S.
  assert (T : s_term s = 1) by (destruct S as [[[-> | ->] _]| ->]; reflexivity).
  assert (Z0 : o_last o = 0 -> s = made o n).
  { intro E. destruct (half_last0 o E) as [H1 H2]. destruct S as [[[-> | ->] ->]| ->]; auto. }
  pose proof V as (_ & L0 & FV & _).
  unfold first_term. rewrite T. cbn [Z.eqb]. destruct (o_fsm o) as [d|] eqn:F.
  - apply access_ind; try (nn; exact BG). intros q1. destruct (Z.ltb_spec 0 (o_last o)); [apply dump_next; assumption|].
    rewrite Z0 by lia. apply append_next.
  - rewrite Z0; [apply append_next|]. destruct (Z.eq_dec (o_last o) 0) as [E|E]; [exact E|]. exfalso. apply FV; [lia|reflexivity].
Qed.

Lemma bootstrap_next : forall o n s q, valid o -> ((s = termed \/ s = half o) /\ n = 0%nat) \/ s = made o n -> next o n (bootstrap o s q).
Proof.
  intros o n s q V S. assert (BG : begun o n s) by exact S.
  assert (T : s_term s <? last_log_term s = false) by (destruct S as [[[-> | ->] _]| ->]; [reflexivity|reflexivity|apply last_term_made]).
  unfold bootstrap. rewrite (valid_args o V). apply access_ind; try (nn; exact BG). intros q1. unfold init_meta.
  apply access_ind; try (nn; exact BG). intros q2. rewrite T. apply first_term_next; assumption.
Qed.

Lemma bootstrap_fresh : forall o q, bad_args o = false -> (fst (bootstrap o fresh q) = fresh \/ fst (bootstrap o fresh q) = termed) /\ snd (bootstrap o fresh q) <> Ret 0.
Proof.
  intros o q V. unfold bootstrap. rewrite V.
  apply access_ind; try (split; [left; reflexivity|discriminate]). intros q1. unfold init_meta.
  apply access_ind; try (split; [left; reflexivity|discriminate]). intros q2. change (s_term fresh <? last_log_term fresh) with false. cbv iota.
  unfold first_term. change (s_term fresh =? 0) with true. cbv iota. change (set_meta 1 0 fresh) with termed.
  apply access_ind; try (split; [left; reflexivity|discriminate]); try (split; [right; reflexivity|discriminate]).
Qed.


(** ** A call whose accesses all end well *)
Lemma append_well : forall o n, (o_fatal o = true -> n = 0%nat) -> append_conf o (made o n) [] = (made o (S n), Ret 0).
Proof.
  intros o n F. rewrite made_app. destruct (o_fatal o); cbn [andb]; [rewrite F by reflexivity|]; reflexivity.
Qed.
Lemma bootstrap_well : forall o n s, valid o -> begun o n s -> (o_fatal o = true -> n = 0%nat) -> bootstrap o s [] = (made o (S n), Ret 0).
Proof.
  intros o n s V S FT.
  assert (T : s_term s = 1) by (destruct S as [[[-> | ->] _]| ->]; reflexivity).
  assert (TL : s_term s <? last_log_term s = false) by (destruct S as [[[-> | ->] _]| ->]; [reflexivity|reflexivity|apply last_term_made]).
  unfold bootstrap. rewrite (valid_args o V). cbn [access]. unfold init_meta. cbn [access]. rewrite TL. unfold first_term. rewrite T. cbn [Z.eqb].
  pose proof V as (_ & L0 & FV & G & _).
  assert (Z0 : o_last o = 0 -> s = made o n).
  { intro E. destruct (half_last0 o E) as [H1 H2]. destruct S as [[[-> | ->] ->]| ->]; auto. }
  destruct (Z.ltb_spec 0 (o_last o)) as [L|L].
  - destruct (dumped_some o V L) as (d & F & D). rewrite F. cbn [access]. unfold dump. cbn [access].
    destruct S as [[[-> | ->] ->]| ->].
    + change (s_snap termed) with (@None snap). specialize (G L). destruct (Z.ltb_spec (o_last o - 0) (o_gap o)); [lia|].
      rewrite conf_at_termed. cbv zeta. replace (set_snap (mkSnap (o_last o) 1 [] d) termed) with (half o) by (unfold half; rewrite D; reflexivity).
      cbn [access]. unfold set_snapshot. cbn [p_idx p_term]. destruct (Z.leb_spec (o_last o) 0); [lia|]. rewrite term_half, Z.eqb_refl, trunc_half. cbn [access]. apply append_well, FT.
    + replace (s_snap (half o)) with (Some (mkSnap (o_last o) 1 [] d)) by (rewrite <- D; reflexivity). cbn [p_term p_idx]. rewrite Z.eqb_refl.
      destruct (Z.gtb_spec (o_last o) (o_last o)); [lia|]. unfold set_snapshot, clear_logs. cbn [p_idx p_term].
      destruct (Z.leb_spec (o_last o) 0); [lia|]. rewrite term_half, Z.eqb_refl, trunc_half. cbn [access]. rewrite trunc_made. apply append_well, FT.
    + replace (s_snap (made o n)) with (Some (mkSnap (o_last o) 1 [] d)) by (rewrite <- D; reflexivity). cbn [p_term p_idx]. rewrite Z.eqb_refl.
      destruct (Z.gtb_spec (o_last o) (o_last o)); [lia|]. unfold set_snapshot, clear_logs. cbn [p_idx p_term].
      destruct (Z.leb_spec (o_last o) 0); [lia|]. rewrite term_made, Z.eqb_refl, trunc_made. cbn [access]. rewrite trunc_made. apply append_well, FT.
  - rewrite Z0 by lia. destruct (o_fsm o); cbn [access]; apply append_well, FT.
Qed.

(** ** Many calls *)
Definition inv (o : opts) (n : nat) (s : store) : Prop := (s = fresh /\ n = 0%nat) \/ begun o n s.
Definition oks (rs : list result) : nat := length (filter (fun r => match r with Ret 0 => true | _ => false end) rs).

Lemma inv_call : forall o n s q, valid o -> inv o n s -> exists n', inv o n' (fst (bootstrap o s q)) /\ (n <= n' <= S n)%nat
  /\ (snd (bootstrap o s q) = Ret 0 -> n' = S n) /\ (s = fresh -> n' = 0%nat).
Proof.
  intros o n s q V [[-> ->]|B].
  - exists 0%nat. destruct (bootstrap_fresh o q (valid_args o V)) as [[F|F] R]; rewrite F; repeat split; try lia; try (intro; contradiction).
    + left. split; reflexivity.
    + right. left. split; [left|]; reflexivity.
  - assert (NF : s <> fresh) by (destruct B as [[[-> | ->] _]| ->]; discriminate).
    destruct (bootstrap_next o n s q V B) as [[B' R]|E].
    + exists n. repeat split; try lia; try (intro; contradiction). right. exact B'.
    + exists (S n). rewrite E. split; [right; right; reflexivity|]. split; [lia|]. split; [reflexivity|]. intro; contradiction.
Qed.

Lemma calls_inv : forall o, valid o -> forall qs n s s' rs, inv o n s -> calls o qs s = (s', rs) ->
  exists n', inv o n' s' /\ (n + oks rs <= n' <= n + length qs)%nat /\ (s = fresh -> n' <= length qs - 1)%nat.
Proof.
  intros o V. induction qs as [|q qs IH]; intros n s s' rs I E.
  - cbn in E. injection E as <- <-. exists n. unfold oks. cbn. destruct I as [[-> ->]|I]; [split; [left; auto|]|split; [right; exact I|]]; split; try lia.
    intros ->. destruct I as [[[I|I] _]|I]; discriminate I.
  - rewrite calls_cons in E. destruct (inv_call o n s q V I) as (n1 & I1 & L1 & R1 & F1). destruct (bootstrap o s q) as [s1 r] eqn:B. cbn [fst snd] in *.
    destruct (calls o qs s1) as [s2 rs2] eqn:C. injection E as <- <-. destruct (IH _ _ _ _ I1 C) as (n' & I' & L' & F'). exists n'. split; [exact I'|].
    assert (O : (oks (r :: rs2) <= oks rs2 + (n1 - n))%nat).
    { unfold oks. cbn [filter]. destruct r as [[| |]|]; cbn [length]; try lia. rewrite R1 by reflexivity. lia. }
    cbn [length]. split; [lia|]. intros ->. rewrite F1 in L' by reflexivity. lia.
Qed.

Lemma conf_upto_repeat : forall n c d, conf_upto n (repeat (1, Confg c) n) d = match n with O => d | _ => c end.
Proof. induction n as [|n IH]; intros c d; [reflexivity|]. cbn [repeat conf_upto]. rewrite IH. destruct n; reflexivity. Qed.
Lemma members_made : forall o n, members (made o n) = match n with O => [] | _ => o_conf o end.
Proof.
  intros o n. unfold members, made. cbn [s_log s_snap]. rewrite repeat_length, conf_upto_repeat. destruct n; [|reflexivity].
  unfold dumped. destruct (o_fsm o); [|reflexivity]. destruct (0 <? o_last o); reflexivity.
Qed.
Lemma oks_in : forall rs, In (Ret 0) rs -> (1 <= oks rs)%nat.
Proof.
  induction rs as [|r rs IH]; intros H; [contradiction|]. unfold oks in *. cbn [filter]. destruct H as [->|H]; [cbn; lia|].
  apply IH in H. destruct r as [[| |]|]; cbn [length]; lia.
Qed.
Lemma nth_repeat' : forall {A} (x y : A) n i, nth_error (repeat x n) i = Some y -> y = x.
Proof. intros A x y n i H. apply nth_error_In, repeat_spec in H. exact H. Qed.

(** ** What a successful call leaves of a log and a term that were there *)
Definition okp (P : store -> Prop) (x : out) : Prop := snd x = Ret 0 -> P (fst x).
Lemma okp_access : forall (P : store -> Prop) s s' q k, (forall q', okp P (k s' q')) -> okp P (access s s' q k).
Proof. intros P s s' q k K. apply access_ind; try (intro H; discriminate H). exact K. Qed.
Lemma okp_append : forall (P : store -> Prop) o s q, P (set_log (s_first s) (s_log s ++ [(s_term s, Confg (o_conf o))]) s) -> okp P (append_conf o s q).
Proof.
  intros P o s q H. unfold append_conf. destruct (_ && _); [intro E; discriminate E|]. apply okp_access. intros q' _. exact H.
Qed.
(** the term after init_meta_storage and the stores that first_term finds *)
Definition mended (s : store) : store := if s_term s <? last_log_term s then set_meta (last_log_term s + 1) 0 s else s.
Lemma okp_bootstrap : forall (P : store -> Prop) o s q, (forall q', okp P (first_term o (mended s) q')) -> okp P (bootstrap o s q).
Proof.
  intros P o s q K. unfold bootstrap. destruct (bad_args o); [intro E; discriminate E|]. apply okp_access. intros q1. unfold init_meta. apply okp_access. intros q2.
  unfold mended in K. destruct (s_term s <? last_log_term s); [apply okp_access; exact K|apply K].
Qed.
Definition same_meta (s s' : store) : Prop := s_term s' = s_term s /\ s_vote s' = s_vote s.
Lemma okp_first_term : forall o s q, okp (same_meta s) (first_term o s q).
Proof.
  intros o s q. unfold first_term. destruct (s_term s =? 0); [apply okp_access; intros q' H; discriminate H|].
  assert (A : forall s1 q1, same_meta s s1 -> okp (same_meta s) (append_conf o s1 q1)).
  { intros s1 q1 H. apply okp_append. exact H. }
  assert (B : forall p s1 q1 k, same_meta s s1 -> (forall s2 q2, same_meta s s2 -> okp (same_meta s) (k s2 q2)) -> okp (same_meta s) (set_snapshot p s1 q1 k)).
  { intros p s1 q1 k H K. unfold set_snapshot. destruct (_ <=? _); [auto|]. destruct (_ =? 0); [apply okp_access; intro; apply K; exact H|].
    destruct (_ =? _); [auto|]. apply okp_access; intro; apply K; exact H. }
  assert (N : same_meta s s) by (split; reflexivity).
  destruct (o_fsm o) as [d|]; [|apply A, N]. apply okp_access. intros q1. destruct (0 <? o_last o); [|apply A, N].
  unfold dump. apply okp_access. intros q2. destruct (s_snap s) as [p|].
  - destruct (if 1 =? p_term p then _ else _); [intro H; discriminate H|]. apply okp_access. intros q3. apply B; [exact N|]. intros s2 q4 H2.
    unfold clear_logs. destruct (_ <=? _); [apply A, H2|]. apply okp_access. intro. apply A. exact H2.
  - destruct (_ <? _); [apply A, N|]. cbv zeta. apply okp_access. intros q3. apply B; [exact N|]. intros. apply A. assumption.
Qed.
(** the log a first dump meets *)
Lemma okp_dump_log : forall o s q t c, valid o -> 0 < o_last o -> s_snap s = None -> s_term s <> 0 -> entry_at s (o_last o) = Some (t, c) -> t <> 0 ->
  okp (fun s' => if t =? 1 then s_first s' = s_first s /\ s_log s' = s_log s ++ [(s_term s, Confg (o_conf o))]
                 else s_first s' = o_last o + 1 /\ s_log s' = [(s_term s, Confg (o_conf o))]) (first_term o s q).
Proof.
  intros o s q t c V L SN T E NZ. unfold first_term. destruct (Z.eqb_spec (s_term s) 0) as [H|_]; [contradiction|].
  destruct (dumped_some o V L) as (d & F & _). rewrite F. apply okp_access. intros q1. apply Z.ltb_lt in L as L'. rewrite L'. unfold dump. apply okp_access. intros q2. rewrite SN.
  destruct V as (_ & _ & _ & G & _). specialize (G L). destruct (Z.ltb_spec (o_last o - 0) (o_gap o)); [lia|]. cbv zeta. apply okp_access. intros q3.
  set (p := mkSnap (o_last o) 1 (conf_at (o_last o) s) d). unfold set_snapshot. change (p_idx p) with (o_last o). change (p_term p) with 1.
  destruct (Z.leb_spec (o_last o) 0); [lia|]. assert (TT : term_at (o_last o) (set_snap p s) = t).
  { unfold term_at. change (s_log (set_snap p s)) with (s_log s). change (s_first (set_snap p s)) with (s_first s). unfold entry_at in E. rewrite E. reflexivity. }
  rewrite TT. destruct (Z.eqb_spec t 0); [contradiction|]. destruct (t =? 1).
  - apply okp_append. split; reflexivity.
  - apply okp_access. intros q4. apply okp_append. split; reflexivity.
Qed.
