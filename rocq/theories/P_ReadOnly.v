(** C63: read-only mode. *)
From Verif Require Import Base ReadOnly ReadOnlySpec ReadOnlyProofs ReadOnlyProofs2.
Local Open Scope nat_scope.

(** What apply answers: on a leader, exactly what readonly() says at this moment decides; a batch is refused as a whole (EREADONLY) and appends nothing, or
    is appended, the tasks that expect another term excepted. *)
Theorem apply_answers c o es s h b l : lives c o es = (s, h) -> snd (step s ERead) = [OReadonly b] ->
  snd (step s (EApply l)) =
    match hrole h with
    | RFollow => map (fun x => ODone (fst x) EPERM) l
    | RTrans => map (fun x => ODone (fst x) EBUSY) l
    | RLead => if b then map (fun x => ODone (fst x) EREADONLY) l
               else map (fun x => ODone (fst x) EPERM) (filter (fun x => negb (expects (hterm h) x)) l) ++
                    map (fun _ => OAppend KData) (filter (expects (hterm h)) l)
    end.
Proof.
  intros L R. pose proof (lives_inv _ _ _ _ _ L) as I. cbn [step snd] in R. injection R as <-. rewrite <- (i_role _ _ I), <- (i_term _ _ I). cbn [step].
  destruct (o_role s); try reflexivity. destruct (o_self s || o_maj s); reflexivity.
Qed.

(** From enter_readonly_mode to leave_readonly_mode nothing the node does appends data, in whatever role, whatever the others say; a leader still appends
    configurations. *)
Theorem own_mode_holds c o es s h : lives c o es = (s, h) -> hself h = true ->
  snd (step s ERead) = [OReadonly true] /\ (forall e, ~ In (OAppend KData) (snd (step s e))) /\
  (hrole h <> RFollow -> forall c2 o2, snd (step s (EConf c2 o2)) = [OAppend KConf]).
Proof.
  intros L H. pose proof (lives_inv _ _ _ _ _ L) as I. rewrite <- (i_self _ _ I) in H. split; [cbn; rewrite H; reflexivity|]. split.
  - intros e D. destruct (data_only_if_writable s e D) as (_ & X & _). congruence.
  - intros NF c2 o2. cbn [step]. rewrite <- (i_role _ _ I) in NF. destruct (o_role s); [contradiction NF; reflexivity|reflexivity|reflexivity].
Qed.

(** What a follower is sent.  Exactly: everything as long as the leader does not know it to be read-only (also again after it has left read-only mode);
    and otherwise what the log held when the leader learnt it, and after that configurations up to the first data entry. *)
Theorem what_a_follower_is_sent c o es s h p n i k : lives c o es = (s, h) -> rep p (o_reps s) <> None ->
  (sent_if_asked s p n i k <-> entry (hlog h) i = Some k /\ i <= n /\
     match marked p h with None => True | Some L => forall j, L < j <= i -> entry (hlog h) j = Some KConf end).
Proof. intros L. apply sent_iff. exact (lives_inv _ _ _ _ _ L). Qed.

(** In particular no data that was appended after the leader learnt it, in no request ever. *)
Theorem no_new_data_to_a_readonly_follower c o es s h e p i k L : lives c o es = (s, h) -> In (OSend p i k) (snd (step s e)) ->
  marked p h = Some L -> L < i -> k = KConf.
Proof.
  intros LV HI M LT. destruct (sent_ok _ _ _ _ _ _ (lives_inv _ _ _ _ _ LV) HI) as [E C]. rewrite M in C. specialize (C i ltac:(lia)). congruence.
Qed.

(** The other side (replicator.cpp:607-610): as long as the configuration does not change, every entry of a leader's log would be sent to a majority, the leader
    counted in, however followers enter and leave read-only mode: no entry it accepted is stuck because of the mode. *)
Theorem accepted_entries_reach_a_majority c es s h : c <> [] -> NoDup c -> stays c es -> lives c [] es = (s, h) -> hrole h <> RFollow ->
  exists l, NoDup l /\ incl l c /\ majority c <= length l /\
    forall p, In p l -> p = 0 \/ forall i k, entry (hlog h) i = Some k -> sent_if_asked s p i i k.
Proof.
  intros NE ND ST L NF. pose proof (lives_cinv c es s h NE ST L) as K. destruct K as [I C O M G R].
  exists (filter (caught h) c). split; [apply NoDup_filter, ND|]. split; [intros p X; apply filter_In in X; apply X|]. split; [exact G|].
  intros p X. apply filter_In in X. destruct X as [HP CA]. destruct (Nat.eq_dec p 0) as [->|NZ]; [left; reflexivity|right]. intros i k E.
  apply (sent_iff s h p i i k I).
  - apply R; try assumption. rewrite <- (i_role _ _ I) in NF. destruct (o_role s); [contradiction NF; reflexivity|reflexivity|reflexivity].
  - split; [exact E|]. split; [lia|]. unfold caught in CA. apply Nat.eqb_neq in NZ. rewrite NZ in CA. cbn [orb] in CA. destruct (marked p h) as [m|]; [|trivial].
    intros j J. destruct (entry_some (hlog h) j) as [x X]; [apply entry_lt in E; lia|]. rewrite (nodata_entry _ _ _ _ CA (proj1 J) X) in X. exact X.
Qed.

(** Where the documented rule (raft.h:775-777) holds exactly: after every message that changes what the leader knows, and at the end of every change. *)
Theorem the_majority_rule_after_a_check c o es s h e : lives c o es = (s, h) -> checks s e = true -> o_old s = [] ->
  snd (step (fst (step s e)) ERead) =
    [OReadonly (hself h || negb (majority (o_conf s) <=? length (filter (can_write ((e, snd (step s e)) :: h)) (o_conf s))))].
Proof.
  intros L K O. pose proof (lives_inv _ _ _ _ _ L) as I. pose proof (step_inv s h e I) as J. cbn [step snd].
  rewrite (step_checks s h e _ I eq_refl O K). rewrite (i_self _ _ J). cbn [hself]. destruct e; try discriminate K; reflexivity.
Qed.
(** And at every moment, as long as the configuration does not change and the node itself is never put into read-only mode. *)
Theorem the_majority_rule c es s h : c <> [] -> stays c es -> never_enters es -> lives c [] es = (s, h) ->
  snd (step s ERead) = [OReadonly (negb (majority c <=? length (filter (can_write h) c)))].
Proof.
  intros NE ST NV L. destruct (lives_exact c es s h NE ST NV L) as [F HS]. pose proof (lives_inv _ _ _ _ _ L) as I. cbn [step snd].
  rewrite (i_self _ _ I), HS, F, (can_is_free h c HS). reflexivity.
Qed.

(** Not so with the node's own mode: the flag still counts it after it has left read-only mode.  A group of one, read-only when it is elected: it left the mode and
    refuses everything, for ever: nothing but a further configuration change or losing the leadership makes it look again. *)
Theorem the_majority_rule_refuted : exists es s h, lives [0] [] es = (s, h) /\ hrole h = RLead /\ hself h = false /\
  filter (can_write h) [0] = [0] /\
  forall es2 s2 h2, run s h es2 = (s2, h2) -> (forall e, In e es2 -> match e with EConf _ _ | EConfDone | EStep _ => False | ECall _ => False | _ => True end) ->
  forall t, snd (step s2 (EApply [(t, None)])) = [ODone t EREADONLY] \/ snd (step s2 (EApply [(t, None)])) = [ODone t EBUSY].
Proof.
  exists [EEnter; EElect; EConfDone; ELeave]. eexists. eexists. split; [reflexivity|]. repeat split.
  intros es2.
  match goal with |- forall s2 h2, run ?s ?h es2 = _ -> _ => assert (P : o_maj s = true /\ o_role s <> RFollow) by (split; [reflexivity|discriminate]); revert P; generalize s, h end.
  induction es2 as [|e t IH]; intros s h [PM PR] s2 h2 R H i.
  - injection R as <- <-. cbn [step]. destruct (o_role s); [contradiction PR; reflexivity| |right; reflexivity]. rewrite PM, Bool.orb_true_r. left. reflexivity.
  - cbn [run] in R. destruct (step s e) as [s1 o1] eqn:E. refine (IH s1 _ _ s2 h2 R _ i); [|intros x X; exact (H x (or_intror X))].
    specialize (H e (or_introl eq_refl)). assert (E' : s1 = fst (step s e)) by (rewrite E; reflexivity). subst s1. clear E R IH.
    assert (LD : leads (o_role s) = true) by (destruct (o_role s); [contradiction PR; reflexivity|reflexivity|reflexivity]).
    split.
    + rewrite maj_same; [exact PM|destruct e; try reflexivity; contradiction|intros u ->; exact H].
    + destruct e; cbn [step]; try contradiction; try exact PR; try (rewrite LD; cbn [fst andb]; try exact PR).
      * destruct (o_role s) eqn:X; [contradiction PR; reflexivity| |cbn [fst]; rewrite X; discriminate]. destruct (o_self s || o_maj s); cbn [fst s_log o_role]; rewrite X; discriminate.
      * destruct (rep p (o_reps s)); [destruct (Bool.eqb _ _)|]; exact PR.
      * destruct (o_role s) eqn:X; cbn [fst s_role o_role]; try discriminate; rewrite ?X; try discriminate; exact PR.
      * destruct (o_role s) eqn:X; cbn [fst s_role o_role]; try discriminate; rewrite ?X; try discriminate; exact PR.
      * destruct (negb (p =? 0)); [destruct (rep p (o_reps s))|]; exact PR.
      * destruct (mem p (o_conf s) || mem p (o_old s)); exact PR.
      * destruct (rep p (o_reps s)) as [r|]; [|exact PR]. destruct (prep (o_log s) (p_ro r) (p_next r) n). exact PR.
Qed.

(** Nor while the configuration is joint: only the old members are counted.  {0,1,2} becomes {0,3,4} while 3 and 4 are read-only: data is accepted, and then neither it
    nor the configuration after it is sent to any other member of the new configuration; both need a majority of it to commit. *)
Theorem accepted_entries_reach_a_majority_joint_refuted : exists es s h, lives [0; 1; 2] [] es = (s, h) /\ hrole h = RLead /\ o_conf s = [0; 3; 4] /\ o_old s = [] /\
  snd (step s ERead) = [OReadonly false] /\ hlog h = [KConf; KConf; KData; KConf] /\
  forall n i, 2 < i -> forall p k, In p [3; 4] -> ~ sent_if_asked s p n i k.
Proof.
  exists [EElect; EConfDone; EAddRep 3; EAddRep 4; EConf [0; 3; 4] [0; 1; 2]; EBeat 3 true; EBeat 4 true; ECall 0; ECall 0; EApply [(7, None)]; EConf [0; 3; 4] []].
  eexists. eexists. match goal with |- ?a = _ /\ _ => let x := eval vm_compute in a in change a with x end. split; [reflexivity|]. split; [reflexivity|]. split; [reflexivity|].
  split; [reflexivity|]. split; [reflexivity|]. split; [reflexivity|]. intros n i L p k HP. unfold sent_if_asked.
  assert (N : forall m, snd (prep [KConf; KConf; KData; KConf] 3 1 m) = firstn m [(1, KConf); (2, KConf)]).
  { intros [|[|[|m]]]; try reflexivity. }
  intros Q. assert (HI : In (i, k) (firstn n [(1, KConf); (2, KConf)])).
  { rewrite <- N. destruct HP as [<-|[<-|[]]]; cbn [step fst snd s_reps upd o_reps rep Nat.eqb p_next p_ro o_log] in Q;
    change (max 1 (min 1 _)) with 1 in Q; destruct (prep _ 3 1 n) as [ro q] eqn:E in Q; rewrite E; cbn [snd] in *; apply in_map_iff in Q; destruct Q as ([a b] & X & Y); injection X as -> ->; exact Y. }
  destruct n as [|[|[|n]]]; cbn in HI; repeat (destruct HI as [HI|HI]); try contradiction; injection HI as ? ?; lia.
Qed.

(** The hypotheses are met: three nodes, follower 1 becomes read-only: the leader goes on, 1 gets a configuration but no data; then 2 as well: everything is refused,
    until 1 leaves the mode, and gets everything. *)
Definition walk1 : list ev := [EElect; EConfDone; EApply [(1, None)]; EBeat 1 true; ECall 0; EConf [0; 1; 2] []; EApply [(2, None)]].
Definition walk2 : list ev := [EElect; EConfDone; EApply [(1, None)]; EBeat 1 true; ECall 0; EApply [(2, None)]; EBeat 2 true; ECall 0].
Example readonly_follower : let (s, h) := lives [0; 1; 2] [] walk1 in
  hrole h = RLead /\ marked 1 h = Some 2 /\ marked 2 h = None /\ hlog h = [KConf; KData; KConf; KData] /\
  snd (step s (ESend 1 9)) = [OSend 1 1 KConf; OSend 1 2 KData; OSend 1 3 KConf] /\
  snd (step s (ESend 2 9)) = [OSend 2 1 KConf; OSend 2 2 KData; OSend 2 3 KConf; OSend 2 4 KData].
Proof. vm_compute. repeat split. Qed.
Example readonly_majority : let (s, h) := lives [0; 1; 2] [] walk2 in
  stays [0; 1; 2] walk2 /\ never_enters walk2 /\ hrole h = RLead /\ filter (can_write h) [0; 1; 2] = [0] /\ snd (step s ERead) = [OReadonly true] /\
  snd (step s (EApply [(3, None); (4, Some 0)])) = [ODone 3 EREADONLY; ODone 4 EREADONLY] /\
  snd (step s (ESend 2 9)) = [OSend 2 1 KConf; OSend 2 2 KData; OSend 2 3 KData].
Proof.
  vm_compute. repeat split; try reflexivity.
  - intros e HI. repeat (destruct HI as [<-|HI]; [exact I|]). destruct HI.
  - intros HI. repeat (destruct HI as [HI|HI]; [discriminate HI|]). destruct HI.
Qed.
Example readonly_left : let (s, h) := lives [0; 1; 2] [] (walk2 ++ [EBeat 1 false; ECall 0]) in
  snd (step s ERead) = [OReadonly false] /\ snd (step s (EApply [(3, None); (4, Some 0)])) = [ODone 4 EPERM; OAppend KData] /\
  snd (step s (ESend 1 9)) = [OSend 1 1 KConf; OSend 1 2 KData; OSend 1 3 KData].
Proof. vm_compute. repeat split. Qed.

Print Assumptions apply_answers.
Print Assumptions own_mode_holds.
Print Assumptions what_a_follower_is_sent.
Print Assumptions no_new_data_to_a_readonly_follower.
Print Assumptions accepted_entries_reach_a_majority.
Print Assumptions the_majority_rule_after_a_check.
Print Assumptions the_majority_rule.
Print Assumptions the_majority_rule_refuted.
Print Assumptions accepted_entries_reach_a_majority_joint_refuted.
