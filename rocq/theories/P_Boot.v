(** C65: bootstrap() writes exactly the first state asked for, whatever fails on the way. *)
From Verif Require Import Base Boot BootSpec BootProofs.

(** However the accesses to the stores end: the first call on stores nothing was written to does not succeed; all that it may have written is term 1. *)
Theorem first_bootstrap_never_succeeds : forall o q,
  snd (bootstrap o fresh q) <> Ret 0 /\ (fst (bootstrap o fresh q) = fresh \/ fst (bootstrap o fresh q) = mkStore 1 0 1 [] None).
Proof.
  intros o q. destruct (bad_args o) eqn:E.
  - unfold bootstrap. rewrite E. split; [discriminate|left; reflexivity].
  - destruct (bootstrap_fresh o q E) as [A B]. split; assumption.
Qed.
(** Even when every access ends well it reports a failure. *)
Theorem first_bootstrap_fails_when_all_goes_well : forall o, valid o -> bootstrap o fresh [] = (mkStore 1 0 1 [] None, Ret (-1)).
Proof. intros o V. unfold bootstrap. rewrite (valid_args o V). reflexivity. Qed.

(** Any calls with the same options, each cut off by a failure or a crash anywhere: term 1 at most and no vote; the log holds n times the members asked for, in
    term 1, behind last_log_index, n below the number of calls; with an entry in the log the snapshot is the dump (before that there may be none).
    If a call returned 0, all is there, and a node started on the stores has the members asked for. *)
Theorem bootstrap_calls_leave : forall o qs s rs, valid o -> calls o qs fresh = (s, rs) ->
  s_term s <= 1 /\ s_vote s = 0 /\ (s_snap s = None \/ s_snap s = dumped o) /\
  exists n, (n <= length qs - 1)%nat /\ s_log s = repeat (1, Confg (o_conf o)) n
    /\ (s_log s <> [] -> s = made o n)
    /\ (In (Ret 0) rs -> (1 <= n)%nat /\ s = made o n /\ members s = o_conf o).
Proof.
  intros o qs s rs V E. destruct (calls_inv o V qs 0%nat fresh s rs (or_introl (conj eq_refl eq_refl)) E) as (n & I & L & F). specialize (F eq_refl).
  assert (K : s_term s <= 1 /\ s_vote s = 0 /\ (s_snap s = None \/ s_snap s = dumped o) /\ s_log s = repeat (1, Confg (o_conf o)) n /\ (n = 0%nat \/ s = made o n)).
  { destruct I as [[-> ->]|[[[-> | ->] ->]| ->]]; cbn; repeat split; try lia; auto. }
  destruct K as (T & VT & SN & LG & MD). repeat split; try assumption. exists n. split; [exact F|]. split; [exact LG|].
  assert (M : (1 <= n)%nat -> s = made o n) by (intro H; destruct MD as [-> |M]; [lia|exact M]).
  split.
  - intro N. apply M. destruct n; [|lia]. rewrite LG in N. contradiction N; reflexivity.
  - intro R. apply oks_in in R. assert (N : (1 <= n)%nat) by lia. split; [exact N|]. split; [apply M, N|]. rewrite (M N), members_made. destruct n; [lia|reflexivity].
Qed.

(** When term 1 has been written and no call wrote the members: the next call, if its accesses end well, completes the work: exactly one entry. *)
Theorem bootstrap_completes : forall o qs s rs, valid o -> calls o qs fresh = (s, rs) -> s_term s = 1 -> s_log s = [] -> bootstrap o s [] = (made o 1, Ret 0).
Proof.
  intros o qs s rs V E T G. destruct (calls_inv o V qs 0%nat fresh s rs (or_introl (conj eq_refl eq_refl)) E) as (n & I & _ & _).
  destruct I as [[-> _]|B]; [discriminate T|].
  assert (n = 0%nat) as ->.
  { destruct B as [[_ B]| ->]; [exact B|]. destruct n; [reflexivity|discriminate G]. }
  apply bootstrap_well; [exact V|exact B|reflexivity].
Qed.
(** ... and where it did it succeeds as well (unless failed CHECKs are fatal), writing the same entry once more. *)
Theorem bootstrap_completes_again : forall o qs s rs, valid o -> o_fatal o = false -> calls o qs fresh = (s, rs) -> s_log s <> [] ->
  bootstrap o s [] = (made o (S (length (s_log s))), Ret 0).
Proof.
  intros o qs s rs V FT E G. destruct (calls_inv o V qs 0%nat fresh s rs (or_introl (conj eq_refl eq_refl)) E) as (n & I & _ & _).
  destruct I as [[-> _]|B]; [contradiction G; reflexivity|].
  assert (s = made o n) as ->.
  { destruct B as [[[-> | ->] _]|B]; [contradiction G; reflexivity|contradiction G; reflexivity|exact B]. }
  replace (length (s_log (made o n))) with n by (symmetry; apply repeat_length). apply bootstrap_well; [exact V|right; reflexivity|]. rewrite FT; discriminate.
Qed.

(** Nodes of one group made with the same members and last_log_index never disagree on an entry. *)
Theorem bootstrapped_nodes_agree : forall o1 o2 qs1 qs2 s1 s2 rs1 rs2 i e1 e2, valid o1 -> valid o2 -> o_conf o1 = o_conf o2 -> o_last o1 = o_last o2 ->
  calls o1 qs1 fresh = (s1, rs1) -> calls o2 qs2 fresh = (s2, rs2) -> entry_at s1 i = Some e1 -> entry_at s2 i = Some e2 -> e1 = e2 /\ o_last o1 < i.
Proof.
  intros o1 o2 qs1 qs2 s1 s2 rs1 rs2 i e1 e2 V1 V2 C L E1 E2 G1 G2.
  destruct (bootstrap_calls_leave o1 qs1 s1 rs1 V1 E1) as (_ & _ & _ & n1 & _ & L1 & M1 & _).
  destruct (bootstrap_calls_leave o2 qs2 s2 rs2 V2 E2) as (_ & _ & _ & n2 & _ & L2 & _ & _).
  assert (F1 : s_first s1 = o_last o1 + 1).
  { rewrite M1; [reflexivity|]. intro H. unfold entry_at, znth in G1. rewrite H in G1. destruct (i - s_first s1 <? 0); [discriminate G1|].
    destruct (Z.to_nat (i - s_first s1)); discriminate G1. }
  unfold entry_at, znth in G1, G2. destruct (Z.ltb_spec (i - s_first s1) 0); [discriminate G1|]. destruct (Z.ltb_spec (i - s_first s2) 0); [discriminate G2|].
  rewrite L1 in G1. rewrite L2 in G2. apply nth_repeat' in G1, G2. subst. rewrite C. split; [reflexivity|lia].
Qed.

(** On any stores, also those of a node that has worked: the term never goes down, a vote given in a term is never taken back in that term, a snapshot that is
    there stays; and 0 is returned only with the members as the last entry, in the node's term. *)
Theorem bootstrap_on_any_stores : forall o s q s' r, 0 <= s_term s -> bootstrap o s q = (s', r) ->
  s_term s <= s_term s' /\ (s_term s' = s_term s -> s_vote s' = s_vote s) /\ (forall p, s_snap s = Some p -> s_snap s' = Some p)
  /\ (r = Ret 0 -> exists l, s_log s' = l ++ [(s_term s', Confg (o_conf o))] /\ s_term s' <> 0).
Proof.
  intros o s q s' r P E. destruct (bootstrap_good o s q P) as (T & K & R). rewrite E in *. cbn [fst snd] in *.
  split; [destruct T as [T|[T _]]; lia|]. split; [intro Q; destruct T as [T|[_ T]]; [lia|exact T]|]. split; [exact K|].
  intro H. destruct (R H) as [[l A] [B _]]. exists l. split; assumption.
Qed.
(** A term below the last entry's is raised above it, with no vote; otherwise a successful call changes neither term nor vote. *)
Theorem bootstrap_mends_a_low_term : forall o s q s' l t c, s_log s = l ++ [(t, c)] -> bootstrap o s q = (s', Ret 0) ->
  (s_term s < t -> s_term s' = t + 1 /\ s_vote s' = 0) /\ (t <= s_term s -> s_term s' = s_term s /\ s_vote s' = s_vote s).
Proof.
  intros o s q s' l t c G E. pose proof (okp_bootstrap (same_meta (mended s)) o s q (fun q' => okp_first_term o (mended s) q')) as K.
  unfold okp in K. rewrite E in K. destruct (K eq_refl) as [K1 K2]. cbn [fst] in K1, K2. assert (LT : last_log_term s = t).
  { unfold last_log_term. rewrite G, rev_app_distr. reflexivity. }
  unfold mended in K1, K2. rewrite LT in K1, K2. destruct (Z.ltb_spec (s_term s) t); cbn in K1, K2; split; intro; try lia; auto.
Qed.
(** A log that holds an entry at last_log_index, on stores without a snapshot, after a successful call: with that entry in the term of the dump it is all there,
    with the members behind it; in another term all of it is gone. *)
Theorem bootstrap_on_a_log : forall o s q s' t c, valid o -> 0 < o_last o -> s_snap s = None -> t <> 0 -> entry_at s (o_last o) = Some (t, c) ->
  bootstrap o s q = (s', Ret 0) -> 
  (t = 1 -> s_first s' = s_first s /\ s_log s' = s_log s ++ [(s_term s', Confg (o_conf o))])
  /\ (t <> 1 -> s_first s' = o_last o + 1 /\ s_log s' = [(s_term s', Confg (o_conf o))]).
Proof.
  intros o s q s' t c V L SN T G E.
  assert (M : s_log (mended s) = s_log s /\ s_first (mended s) = s_first s /\ s_snap (mended s) = s_snap s).
  { unfold mended. destruct (_ <? _); repeat split. }
  destruct M as (M1 & M2 & M3).
  pose proof (okp_bootstrap (same_meta (mended s)) o s q (fun q' => okp_first_term o (mended s) q')) as K.
  unfold okp in K. rewrite E in K. destruct (K eq_refl) as [K1 _]. cbn [fst] in K1.
  destruct (Z.eq_dec (s_term (mended s)) 0) as [Z0|Z0].
  { exfalso. assert (X : okp (fun _ => False) (bootstrap o s q)).
    { apply okp_bootstrap. intro q'. unfold first_term. rewrite Z0. cbn [Z.eqb]. apply okp_access. intros q'' H. discriminate H. }
    unfold okp in X. rewrite E in X. exact (X eq_refl). }
  assert (G' : entry_at (mended s) (o_last o) = Some (t, c)) by (unfold entry_at; rewrite M1, M2; exact G).
  rewrite SN in M3. pose proof (okp_bootstrap _ o s q (fun q' => okp_dump_log o (mended s) q' t c V L M3 Z0 G' T)) as X.
  unfold okp in X. rewrite E in X. specialize (X eq_refl). cbn [fst] in X. rewrite K1. rewrite M1, M2 in X.
  destruct (Z.eqb_spec t 1); split; intro; try contradiction; assumption.
Qed.
(** With failed CHECKs fatal it returns 0 only if the log held nothing behind last_log_index. *)
Theorem fatal_checks_protect_the_log : forall o s q s', 0 <= s_term s -> o_fatal o = true -> bootstrap o s q = (s', Ret 0) ->
  s_first s' = o_last o + 1 /\ s_log s' = [(s_term s', Confg (o_conf o))].
Proof. intros o s q s' P F E. destruct (bootstrap_good o s q P) as (_ & _ & R). rewrite E in *. cbn [fst snd] in *. apply R; [reflexivity|exact F]. Qed.
(** Without members, or without a state machine to dump, nothing is touched. *)
Theorem bootstrap_bad_arguments : forall o s q, o_conf o = [] \/ (0 < o_last o /\ o_fsm o = None) -> bootstrap o s q = (s, Ret (-1)).
Proof.
  intros o s q H. unfold bootstrap. replace (bad_args o) with true; [reflexivity|]. symmetry. unfold bad_args. destruct H as [-> |[L ->]].
  - rewrite orb_true_r. reflexivity.
  - replace (o_last o >? 0) with true by (symmetry; apply Z.gtb_lt; exact L). cbn [andb]. rewrite orb_true_r. reflexivity.
Qed.

(** ** What it does not do.  All accesses end well, and the flags have their defaults. *)
Definition o1 : opts := mkOpts [1; 2; 3] 10 (Some 77) false 1.
Definition o2 : opts := mkOpts [1; 2; 4] 10 (Some 77) false 1.
Definition o0 : opts := mkOpts [1; 2; 3] 0 None false 1.
(** a node that follows the leader of term 5 and holds its first entries; in the leader's log entry 2 of term 5 is [Data 9] *)
Definition used : store := mkStore 5 2 1 [(5, Data 8)] None.
Definition leader : store := mkStore 5 2 1 [(5, Data 8); (5, Data 9)] None.

(** Called on stores it was done with already, it succeeds and writes the members again: the log is not as after one success. *)
Theorem bootstrap_twice_refuted :
  ~ (forall o s s', valid o -> calls o [[]; []] fresh = (s, [Ret (-1); Ret 0]) -> bootstrap o s [] = (s', Ret 0) -> s_log s' = s_log s).
Proof. intro H. specialize (H o1 (made o1 1) (made o1 2)). discriminate H; [|reflexivity|reflexivity]. repeat split; cbn; (lia || discriminate). Qed.
(** Called on a node that has worked, it succeeds: two logs that agreed then hold different entries with the same index and term. *)
Theorem bootstrap_of_used_node_refuted :
  ~ (forall o s s' other i c1 c2 t, valid o -> (forall j e1 e2, entry_at s j = Some e1 -> entry_at other j = Some e2 -> e1 = e2) ->
      bootstrap o s [] = (s', Ret 0) -> entry_at s' i = Some (t, c1) -> entry_at other i = Some (t, c2) -> c1 = c2).
Proof.
  intro H. specialize (H o0 used (mkStore 5 2 1 [(5, Data 8); (5, Confg [1; 2; 3])] None) leader 2 (Confg [1; 2; 3]) (Data 9) 5).
  discriminate H; try reflexivity; [repeat split; cbn; (lia || discriminate)|].
  intros j e1 e2 E1 E2. unfold entry_at, used, leader in *. cbn [s_log s_first] in *. unfold znth in *. destruct (Z.ltb_spec (j - 1) 0); [discriminate E1|].
  destruct (Z.to_nat (j - 1)) as [|[|k]]; cbn in *; congruence.
Qed.
(** ... and with a last_log_index behind it the log is thrown away. *)
Theorem bootstrap_keeps_log_refuted :
  ~ (forall o s s' i e, valid o -> bootstrap o s [] = (s', Ret 0) -> entry_at s i = Some e -> entry_at s' i = Some e).
Proof. intro H. specialize (H o1 leader (mkStore 5 2 11 [(5, Confg [1; 2; 3])] (dumped o1)) 2 (5, Data 9)). discriminate H; try reflexivity. repeat split; cbn; (lia || discriminate). Qed.
(** Nodes made with different members disagree on an entry of the same index and term. *)
Theorem bootstrap_different_members_refuted :
  ~ (forall o1 o2 s1 s2 rs1 rs2 i t c1 c2, valid o1 -> valid o2 -> calls o1 [[]; []] fresh = (s1, rs1) -> calls o2 [[]; []] fresh = (s2, rs2) ->
      entry_at s1 i = Some (t, c1) -> entry_at s2 i = Some (t, c2) -> c1 = c2).
Proof.
  intro H. specialize (H o1 o2 (made o1 1) (made o2 1) [Ret (-1); Ret 0] [Ret (-1); Ret 0] 11 1 (Confg [1; 2; 3]) (Confg [1; 2; 4])).
  discriminate H; try reflexivity; repeat split; cbn; (lia || discriminate).
Qed.
(** With the flag raft_do_snapshot_min_index_gap above last_log_index it returns 0 without a dump, and the log starts at 1. *)
Theorem bootstrap_dump_with_gap_refuted :
  ~ (forall o s, o_conf o <> [] -> 0 < o_last o -> o_fsm o <> None -> o_fatal o = false -> calls o [[]; []] fresh = (s, [Ret (-1); Ret 0]) -> s_snap s = dumped o).
Proof.
  intro H. specialize (H (mkOpts [1; 2; 3] 10 (Some 77) false 100) (mkStore 1 0 1 [(1, Confg [1; 2; 3])] None)).
  discriminate H; try reflexivity; cbn; (lia || discriminate).
Qed.

(** ** Non-vacuity: a crash after the dump landed, an append that landed but failed, a success; all writes of the snapshot kept *)
Example run_with_faults :
  calls o1 [[]; [Good; Good; Good; Good; Dead true]; [Good; Good; Good; Good; Good; Good; Good; Bad true]; []] fresh
  = (made o1 2, [Ret (-1); Crash; Ret (-1); Ret 0]).
Proof. vm_compute. reflexivity. Qed.
Example run_half : calls o1 [[]; [Good; Good; Good; Good; Dead true]] fresh = (mkStore 1 0 1 [] (Some (mkSnap 10 1 [] 77)), [Ret (-1); Crash]).
Proof. vm_compute. reflexivity. Qed.
Example run_plain : calls o1 [[]; []] fresh = (mkStore 1 0 11 [(1, Confg [1; 2; 3])] (Some (mkSnap 10 1 [] 77)), [Ret (-1); Ret 0]).
Proof. vm_compute. reflexivity. Qed.
Example run_no_dump : calls o0 [[]; []] fresh = (mkStore 1 0 1 [(1, Confg [1; 2; 3])] None, [Ret (-1); Ret 0]).
Proof. vm_compute. reflexivity. Qed.
Example o1_valid : valid o1.
Proof. repeat split; cbn; (lia || discriminate). Qed.
Example o0_valid : valid o0.
Proof. repeat split; cbn; (lia || discriminate). Qed.
(** a term below the last entry's is corrected first; a snapshot that is there is loaded and stays; a stale one is refused *)
Example run_low_term : bootstrap o0 (mkStore 3 7 1 [(4, Data 8)] None) [] = (mkStore 5 0 1 [(4, Data 8); (5, Confg [1; 2; 3])] None, Ret 0).
Proof. vm_compute. reflexivity. Qed.
Example run_snapshot_there :
  bootstrap o1 (mkStore 3 7 5 [(1, Data 8); (2, Data 9); (3, Data 10)] (Some (mkSnap 6 2 [5] 1))) []
  = (mkStore 3 7 7 [(3, Data 10); (3, Confg [1; 2; 3])] (Some (mkSnap 6 2 [5] 1)), Ret 0).
Proof. vm_compute. reflexivity. Qed.
Example run_stale : bootstrap o1 (mkStore 1 0 7 [] (Some (mkSnap 6 1 [5] 1))) [] = (mkStore 1 0 7 [] (Some (mkSnap 6 1 [5] 1)), Ret (-1)).
Proof. vm_compute. reflexivity. Qed.
Example fatal_case : bootstrap (mkOpts [1; 2; 3] 0 None true 1) (mkStore 1 0 1 [] None) [] = (mkStore 1 0 1 [(1, Confg [1; 2; 3])] None, Ret 0)
  /\ bootstrap (mkOpts [1; 2; 3] 0 None true 1) used [] = (used, Crash).
Proof. split; vm_compute; reflexivity. Qed.
Example run_other_term :
  bootstrap (mkOpts [1] 2 (Some 77) false 1) (mkStore 3 7 1 [(1, Confg [4; 5]); (2, Data 9); (2, Confg [6])] None) []
  = (mkStore 3 7 3 [(3, Confg [1])] (Some (mkSnap 2 1 [4; 5] 77)), Ret 0).
Proof. vm_compute. reflexivity. Qed.
Example run_low_term2 : bootstrap o0 (mkStore 3 7 1 [(1, Data 8); (4, Data 8)] None) [] = (mkStore 5 0 1 [(1, Data 8); (4, Data 8); (5, Confg [1; 2; 3])] None, Ret 0).
Proof. vm_compute. reflexivity. Qed.
(** the dump holds the members the log knows at last_log_index, if a log is there (in term 1: it stays) *)
Example run_log_there :
  bootstrap (mkOpts [1] 2 (Some 77) false 1) (mkStore 3 7 1 [(1, Confg [4; 5]); (1, Data 9); (2, Confg [6])] None) []
  = (mkStore 3 7 1 [(1, Confg [4; 5]); (1, Data 9); (2, Confg [6]); (3, Confg [1])] (Some (mkSnap 2 1 [4; 5] 77)), Ret 0).
Proof. vm_compute. reflexivity. Qed.
Print Assumptions first_bootstrap_never_succeeds.
Print Assumptions first_bootstrap_fails_when_all_goes_well.
Print Assumptions bootstrap_calls_leave.
Print Assumptions bootstrap_completes.
Print Assumptions bootstrap_completes_again.
Print Assumptions bootstrapped_nodes_agree.
Print Assumptions bootstrap_on_any_stores.
Print Assumptions fatal_checks_protect_the_log.
Print Assumptions bootstrap_bad_arguments.
Print Assumptions bootstrap_twice_refuted.
Print Assumptions bootstrap_of_used_node_refuted.
Print Assumptions bootstrap_keeps_log_refuted.
Print Assumptions bootstrap_different_members_refuted.
Print Assumptions bootstrap_dump_with_gap_refuted.
Print Assumptions bootstrap_mends_a_low_term.
Print Assumptions bootstrap_on_a_log.
