(** Lemmas for C66 *)
From Verif Require Import Base StepDown StepDownSpec.

Lemma snoc_split : forall {A} (h h1 h2 : list A) e x, h ++ [e] = h1 ++ x :: h2 ->
  (h2 = [] /\ x = e /\ h1 = h) \/ exists h2', h2 = h2' ++ [e] /\ h = h1 ++ x :: h2'.
Proof.
  intros A h h1 h2 e x E. destruct h2 as [|y h2'] using rev_ind.
  - left. apply app_inj_tail in E as [-> ->]. auto.
  - right. exists h2'. rewrite app_comm_cons, app_assoc in E. apply app_inj_tail in E as [-> ->]. auto.
Qed.
Lemma in_snoc : forall {A} (x e : A) l, In x (l ++ [e]) <-> In x l \/ x = e.
Proof. intros. rewrite in_app_iff. cbn. split; intros [H|H]; auto. destruct H as [H|[]]; auto. Qed.

Section Node.
Variable self : peer.
Variable witness : bool.
Notation dstep := (dstep self witness). Notation drun := (drun self witness).

Lemma drun_app : forall h1 h2 s, drun s (h1 ++ h2) =
  match drun s h1 with None => None | Some (s1, o1) => match drun s1 h2 with None => None | Some (s2, o2) => Some (s2, o1 ++ o2) end end.
Proof.
  induction h1 as [|e h1 IH]; intros h2 s; cbn [app StepDown.drun].
  - destruct (drun s h2) as [[s2 o2]|]; reflexivity.
  - destruct (dstep s e) as [[s1 o1]|]; [|reflexivity]. rewrite IH. destruct (drun s1 h1) as [[s2 o2]|]; [|reflexivity].
    destruct (drun s2 h2) as [[s3 o3]|]; [|reflexivity]. rewrite app_assoc. reflexivity.
Qed.
Lemma drun_snoc : forall h e s s2 o, drun s (h ++ [e]) = Some (s2, o) -> exists s1 o1 o2, drun s h = Some (s1, o1) /\ dstep s1 e = Some (s2, o2).
Proof.
  intros h e s s2 o E. rewrite drun_app in E. destruct (drun s h) as [[s1 o1]|]; [|discriminate E]. cbn [StepDown.drun] in E.
  destruct (dstep s1 e) as [[s1' o2]|] eqn:D; [|discriminate E]. injection E as <- <-. exists s1, o1, o2. auto.
Qed.

(** what a tick does *)
Definition down (s : dnode) : dnode := mkDN DOther (d_conf s) (d_old s) (d_et s) [].
Definition told (w : why) (s : dnode) : list dout := match d_st s with DLeader => [OStop w] | _ => [] end.
Lemma tick_cases : forall now s s' o, handle_stepdown_timeout self witness now s = (s', o) ->
  (is_leading (d_st s) = false /\ s' = s /\ o = []) \/
  (is_leading (d_st s) = true /\
   ((s' = s /\ o = [] /\ witness = false /\ zlen (d_conf s) / 2 + 1 <= alive_count self now s (d_conf s)
      /\ (d_old s = [] \/ zlen (d_old s) / 2 + 1 <= alive_count self now s (d_old s)))
    \/ (s' = down s /\ o = told (if witness then WitnessLeads else MajorityDies) s /\
        (witness = true \/ alive_count self now s (d_conf s) < zlen (d_conf s) / 2 + 1
         \/ (d_old s <> [] /\ alive_count self now s (d_old s) < zlen (d_old s) / 2 + 1))))).
Proof.
  intros now s s' o E. unfold handle_stepdown_timeout in E. destruct (is_leading (d_st s)) eqn:L; cbn [negb] in E.
  2:{ injection E as <- <-. left. auto. }
  right. split; [reflexivity|].
  assert (DN : forall w t, d_st t = DOther -> d_reps t = [] -> step_down w t = (t, [])).
  { intros w [a b c d e] H1 H2. cbn in H1, H2. subst. reflexivity. }
  assert (CD : forall cf t, d_st t = DOther -> d_reps t = [] -> check_dead_nodes self now cf t = (t, [])).
  { intros cf t H1 H2. unfold check_dead_nodes. destruct (_ <=? _); [reflexivity|]. apply DN; assumption. }
  unfold check_witness in E. destruct witness.
  - right. change (step_down WitnessLeads s) with (down s, told WitnessLeads s) in E. cbv iota beta in E.
    rewrite (CD (d_conf (down s)) (down s)) in E by reflexivity. cbv iota beta in E.
    destruct (d_old (down s)).
    + injection E as <- <-. rewrite app_nil_r. auto.
    + rewrite CD in E by reflexivity. injection E as <- <-. rewrite app_nil_r. auto.
  - cbv iota beta in E. cbn [app] in E. unfold check_dead_nodes at 1 in E.
    destruct (Z.leb_spec (zlen (d_conf s) / 2 + 1) (alive_count self now s (d_conf s))) as [C|C].
    + destruct (d_old s) as [|x xs] eqn:O.
      * injection E as <- <-. left. repeat split; auto.
      * unfold check_dead_nodes in E. destruct (Z.leb_spec (zlen (x :: xs) / 2 + 1) (alive_count self now s (x :: xs))) as [C2|C2].
        -- injection E as <- <-. left. repeat split; auto.
        -- injection E as <- <-. right. split; [unfold down; rewrite O; reflexivity|]. split; [reflexivity|]. right. right. split; [discriminate|exact C2].
    + change (step_down MajorityDies s) with (down s, told MajorityDies s) in E. cbv iota beta in E. right.
      destruct (d_old (down s)).
      * injection E as <- <-. auto.
      * rewrite CD in E by reflexivity. injection E as <- <-. rewrite app_nil_r. auto.
Qed.

(** ** The replicators' times and the history *)
Definition recent (h2 : list dev) (id t x : Z) : Prop := x <= t \/ exists snt, In (EAnswer id snt) h2 /\ x <= snt.
Record inv (h : list dev) (s : dnode) : Prop := mkInv {
  i_off : is_leading (d_st s) = false -> d_reps s = [];
  i_nd : NoDup (map r_peer (d_reps s));
  i_rep : forall r, In r (d_reps s) -> exists h1 h2 t, h = h1 ++ EStart (r_peer r) (r_id r) t :: h2 /\ ~ In (EStop (r_peer r)) h2 /\ ~ In ELead h2
            /\ (forall x, 0 < x -> x <= r_ts r -> recent h2 (r_id r) t x);
  i_all : is_leading (d_st s) = true -> forall h1 q id t h2, h = h1 ++ EStart q id t :: h2 -> ~ In (EStop q) h2 -> ~ In ELead h2 ->
            exists r, In r (d_reps s) /\ r_peer r = q /\ r_id r = id /\ (forall x, recent h2 id t x -> x <= r_ts r) }.

Lemma existsb_peer : forall q l, existsb (fun r => r_peer r =? q) l = false -> ~ In q (map r_peer l).
Proof.
  intros q l E H. apply in_map_iff in H as (r & P & I). assert (T : existsb (fun r => r_peer r =? q) l = true).
  { apply existsb_exists. exists r. split; [exact I|]. apply Z.eqb_eq. exact P. }
  congruence.
Qed.
Lemma later_peer : forall id snt l, map r_peer (map (later id snt) l) = map r_peer l.
Proof. intros id snt l. rewrite map_map. apply map_ext. intro r. unfold later. destruct (_ && _); reflexivity. Qed.
Lemma later_form : forall id snt r, r_peer (later id snt r) = r_peer r /\ r_id (later id snt r) = r_id r
  /\ r_ts r <= r_ts (later id snt r) /\ (r_id r = id -> snt <= r_ts (later id snt r)) /\ (r_ts (later id snt r) = r_ts r \/ (r_id r = id /\ r_ts (later id snt r) = snt)).
Proof.
  intros id snt r. unfold later. destruct (Z.eqb_spec (r_id r) id) as [E|E]; cbn [andb]; [destruct (Z.gtb_spec snt (r_ts r))|]; cbn; repeat split; auto; try lia; intro; lia.
Qed.
Lemma nodup_filter_map : forall (f : rep -> bool) l, NoDup (map r_peer l) -> NoDup (map r_peer (filter f l)).
Proof.
  intros f. induction l as [|r l IH]; intro N; [exact N|]. cbn [map] in N. inversion N as [|? ? N1 N2]; subst. cbn [filter]. destruct (f r); [|auto].
  cbn [map]. constructor; [|auto]. intro H. apply N1. apply in_map_iff in H as (r' & P & I). apply filter_In in I as [I _]. rewrite <- P. apply in_map. exact I.
Qed.

(** an event that leaves the replicators as they are and is neither a start, a stop, an answer nor an election *)
Definition quiet (e : dev) : Prop := match e with ELead | EStart _ _ _ | EStop _ | EAnswer _ _ => False | _ => True end.
Lemma inv_quiet : forall h s s' e, inv h s -> quiet e -> d_reps s' = d_reps s -> is_leading (d_st s') = is_leading (d_st s) -> inv (h ++ [e]) s'.
Proof.
  intros h s s' e I Q R L. destruct I as [OFF ND REP ALL]. constructor.
  - rewrite L, R. exact OFF.
  - rewrite R. exact ND.
  - rewrite R. intros r I. destruct (REP r I) as (h1 & h2 & t & E & S & D & X). exists h1, (h2 ++ [e]), t. rewrite E, <- app_assoc. cbn [app].
    repeat split; auto.
    + rewrite in_snoc. intros [H|H]; [auto|]. subst e. destruct Q.
    + rewrite in_snoc. intros [H|H]; [auto|]. subst e. destruct Q.
    + intros x P Y. destruct (X x P Y) as [Z|(snt & Z1 & Z2)]; [left; exact Z|right]. exists snt. rewrite in_snoc. auto.
  - rewrite L, R. intros LD h1 q id t h2 E S D. apply snoc_split in E as [(-> & E & ->)|(h2' & -> & ->)].
    + subst e. destruct Q.
    + rewrite in_snoc in S, D. destruct (ALL LD h1 q id t h2' eq_refl) as (r & I & P & Y & X); [tauto|tauto|]. exists r. repeat split; auto.
      intros x [Z|(snt & Z1 & Z2)]; apply X; [left; exact Z|right]. exists snt. rewrite in_snoc in Z1. destruct Z1 as [Z1|Z1]; [auto|]. subst e. destruct Q.
Qed.
Lemma inv_down : forall h s e, inv h s -> inv (h ++ [e]) (down s).
Proof.
  intros h s e _. constructor; cbn; try reflexivity; try (constructor; fail).
  - intros r [].
  - discriminate.
Qed.

Lemma inv_step : forall h s e s' o, inv h s -> dstep s e = Some (s', o) -> inv (h ++ [e]) s'.
Proof.
  intros h s e s' o I E. pose proof I as [OFF ND REP ALL]. destruct e as [|q id t|q|id snt|c oc|et| | | |now]; cbn [StepDown.dstep] in E.
  - destruct (is_leading (d_st s)) eqn:L; [discriminate E|]. injection E as <- <-. constructor; cbn; try reflexivity; try (constructor; fail).
    + intros r [].
    + intros _ h1 q id t h2 E S D. exfalso. apply D. apply snoc_split in E as [(-> & E & ->)|(h2' & -> & ->)]; [discriminate E|]. rewrite in_snoc. auto.
  - destruct (is_leading (d_st s)) eqn:L; [|discriminate E]. cbn [andb] in E. destruct (existsb _ _) eqn:X; [discriminate E|]. cbn [negb] in E. injection E as <- <-.
    apply existsb_peer in X. constructor; cbn [d_st d_reps].
    + intro H. congruence.
    + cbn [map r_peer]. constructor; assumption.
    + intros r [<-|IR].
      * exists h, [], t. cbn [r_peer r_id r_ts]. repeat split; auto. intros x P Y. left. lia.
      * destruct (REP r IR) as (h1 & h2 & t' & E & S & D & Y). exists h1, (h2 ++ [EStart q id t]), t'. rewrite E, <- app_assoc. cbn [app]. repeat split; auto.
        -- rewrite in_snoc. intros [H|H]; [auto|discriminate H].
        -- rewrite in_snoc. intros [H|H]; [auto|discriminate H].
        -- intros x P Z. destruct (Y x P Z) as [Z'|(snt & Z1 & Z2)]; [left; exact Z'|right]. exists snt. rewrite in_snoc. auto.
    + intros _ h1 q' id' t' h2 E S D. apply snoc_split in E as [(-> & E & ->)|(h2' & -> & ->)].
      * injection E as -> -> ->. exists (mkRep q id (Z.max 0 t)). cbn. repeat split; auto. intros x [Z|(snt & [] & _)]. lia.
      * rewrite in_snoc in S, D. destruct (ALL eq_refl h1 q' id' t' h2' eq_refl) as (r & IR & P & Y & Z); [tauto|tauto|]. exists r. repeat split; auto; [right; exact IR|].
        intros x [Z'|(snt & Z1 & Z2)]; apply Z; [left; exact Z'|right]. exists snt. rewrite in_snoc in Z1. destruct Z1 as [Z1|Z1]; [auto|discriminate Z1].
  - injection E as <- <-. constructor; cbn [d_st d_reps].
    + intro H. rewrite (OFF H). reflexivity.
    + apply nodup_filter_map, ND.
    + intros r IR. apply filter_In in IR as [IR NQ]. apply negb_true_iff, Z.eqb_neq in NQ.
      destruct (REP r IR) as (h1 & h2 & t' & E & S & D & Y). exists h1, (h2 ++ [EStop q]), t'. rewrite E, <- app_assoc. cbn [app]. repeat split; auto.
      * rewrite in_snoc. intros [H|H]; [auto|]. injection H as H. contradiction.
      * rewrite in_snoc. intros [H|H]; [auto|discriminate H].
      * intros x P Z. destruct (Y x P Z) as [Z'|(snt & Z1 & Z2)]; [left; exact Z'|right]. exists snt. rewrite in_snoc. auto.
    + intros L h1 q' id' t' h2 E S D. apply snoc_split in E as [(-> & E & ->)|(h2' & -> & ->)]; [discriminate E|].
      rewrite in_snoc in S, D. assert (NQ : q' <> q) by (intros ->; tauto).
      destruct (ALL L h1 q' id' t' h2' eq_refl) as (r & IR & P & Y & Z); [tauto|tauto|]. exists r. repeat split; auto.
      * apply filter_In. split; [exact IR|]. apply negb_true_iff, Z.eqb_neq. congruence.
      * intros x [Z'|(snt & Z1 & Z2)]; apply Z; [left; exact Z'|right]. exists snt. rewrite in_snoc in Z1. destruct Z1 as [Z1|Z1]; [auto|discriminate Z1].
  - injection E as <- <-. constructor; cbn [d_st d_reps].
    + intro H. rewrite (OFF H). reflexivity.
    + rewrite later_peer. exact ND.
    + intros r0 IR. apply in_map_iff in IR as (r & <- & IR). destruct (later_form id snt r) as (LP & LI & LG & LS & LC). rewrite LP, LI.
      destruct (REP r IR) as (h1 & h2 & t' & E & S & D & Y). exists h1, (h2 ++ [EAnswer id snt]), t'. rewrite E, <- app_assoc. cbn [app]. repeat split; auto.
      * rewrite in_snoc. intros [H|H]; [auto|discriminate H].
      * rewrite in_snoc. intros [H|H]; [auto|discriminate H].
      * intros x P Z. destruct LC as [LC|[LC1 LC2]].
        -- rewrite LC in Z. destruct (Y x P Z) as [Z'|(snt' & Z1 & Z2)]; [left; exact Z'|right]. exists snt'. rewrite in_snoc. auto.
        -- right. exists snt. rewrite in_snoc, LC1. split; [auto|lia].
    + intros L h1 q' id' t' h2 E S D. apply snoc_split in E as [(-> & E & ->)|(h2' & -> & ->)]; [discriminate E|].
      rewrite in_snoc in S, D. destruct (ALL L h1 q' id' t' h2' eq_refl) as (r & IR & P & Y & Z); [tauto|tauto|].
      destruct (later_form id snt r) as (LP & LI & LG & LS & LC). exists (later id snt r). repeat split; [apply in_map; exact IR|congruence|congruence|].
      intros x [Z'|(snt' & Z1 & Z2)].
      * assert (x <= r_ts r) by (apply Z; left; exact Z'). lia.
      * rewrite in_snoc in Z1. destruct Z1 as [Z1|Z1]; [assert (x <= r_ts r) by (apply Z; right; exists snt'; auto); lia|]. injection Z1 as -> ->. specialize (LS Y). lia.
  - injection E as <- <-. apply (inv_quiet h s _ _ I); reflexivity || exact Logic.I.
  - injection E as <- <-. apply (inv_quiet h s _ _ I); reflexivity || exact Logic.I.
  - destruct (d_st s) eqn:ST; try discriminate E. injection E as <- <-. apply (inv_quiet h s _ _ I); try exact Logic.I; cbn; rewrite ?ST; reflexivity.
  - destruct (d_st s) eqn:ST; try discriminate E. injection E as <- <-. apply (inv_quiet h s _ _ I); try exact Logic.I; cbn; rewrite ?ST; reflexivity.
  - injection E as <- <-. apply (inv_down h s _ I).
  - destruct (handle_stepdown_timeout self witness now s) as [s1 o1] eqn:T. injection E as <- <-.
    destruct (tick_cases now s s1 o1 T) as [(L & -> & ->)|(L & [(-> & -> & _)|(-> & -> & _)])].
    + apply (inv_quiet h s _ _ I); reflexivity || exact Logic.I.
    + apply (inv_quiet h s _ _ I); reflexivity || exact Logic.I.
    + apply (inv_down h s _ I).
Qed.

Lemma inv_run : forall c et h s o, drun (dinit c et) h = Some (s, o) -> inv h s.
Proof.
  intros c et h. induction h as [|e h IH] using rev_ind; intros s o E.
  - injection E as <- <-. constructor; cbn; try reflexivity; try (constructor; fail); [intros r []|discriminate].
  - apply drun_snoc in E as (s1 & o1 & o2 & E1 & E2). exact (inv_step h s1 e s o2 (IH _ _ E1) E2).
Qed.

Lemma last_rpc_in : forall l r, NoDup (map r_peer l) -> In r l -> last_rpc (r_peer r) l = r_ts r.
Proof.
  induction l as [|a l IH]; intros r N I; [destruct I|]. cbn [map] in N. inversion N as [|? ? N1 N2]; subst. cbn [last_rpc].
  destruct I as [->|I]; [rewrite Z.eqb_refl; reflexivity|]. destruct (Z.eqb_spec (r_peer a) (r_peer r)) as [E|_]; [|auto].
  exfalso. apply N1. rewrite E. apply in_map. exact I.
Qed.
Lemma last_rpc_some : forall l q, 0 < last_rpc q l -> exists r, In r l /\ r_peer r = q.
Proof.
  induction l as [|a l IH]; intros q H; cbn [last_rpc] in H; [lia|]. destruct (Z.eqb_spec (r_peer a) q) as [E|_]; [exists a; cbn; auto|].
  destruct (IH q H) as (r & I & P). exists r. cbn. auto.
Qed.

Lemma alive_heard : forall h s now q, inv h s -> is_leading (d_st s) = true -> d_et s < now ->
  (alive self now s q = true <-> q = self \/ heard_since h q (now - d_et s)).
Proof.
  intros h s now q I L T. destruct I as [OFF ND REP ALL]. unfold alive. rewrite orb_true_iff, Z.eqb_eq, Z.leb_le. split; intros [H|H]; auto; right.
  - destruct (last_rpc_some (d_reps s) q) as (r & IR & <-); [lia|]. rewrite (last_rpc_in _ r ND IR) in H.
    destruct (REP r IR) as (h1 & h2 & t & E & S & D & X). exists h1, h2, (r_id r), t. repeat split; auto. apply X; lia.
  - destruct H as (h1 & h2 & id & t & E & S & D & X). destruct (ALL L h1 q id t h2 E S D) as (r & IR & <- & _ & Y).
    rewrite (last_rpc_in _ r ND IR). specialize (Y _ X). lia.
Qed.

Lemma majority_count : forall h s now cf, inv h s -> is_leading (d_st s) = true -> d_et s < now -> NoDup cf ->
  (zlen cf / 2 + 1 <= alive_count self now s cf <-> majority_of cf (fun q => q = self \/ heard_since h q (now - d_et s))).
Proof.
  intros h s now cf I L T N. unfold alive_count.
  assert (HF : forall k n, n / 2 + 1 <= k <-> n < 2 * k).
  { intros k n. pose proof (Z.div_mod n 2 ltac:(lia)). pose proof (Z.mod_pos_bound n 2 ltac:(lia)). lia. }
  rewrite HF. split.
  - intro H. exists (filter (alive self now s) cf). split; [apply NoDup_filter, N|]. split; [intros q Q; apply filter_In in Q; tauto|]. split; [|exact H].
    intros q Q. apply filter_In in Q as [_ Q]. apply (alive_heard h s now q I L T). exact Q.
  - intros (l & N1 & N2 & N3 & N4). assert (K : (length l <= length (filter (alive self now s) cf))%nat).
    { apply NoDup_incl_length; [exact N1|]. intros q Q. apply filter_In. split; [apply N2, Q|]. apply (alive_heard h s now q I L T). apply N3, Q. }
    unfold zlen in *. lia.
Qed.

Lemma conf_run : forall c et h s o, drun (dinit c et) h = Some (s, o) -> d_conf s = conf_after c h /\ d_old s = old_after h /\ d_et s = timeout_after et h.
Proof.
  intros c et h. unfold conf_after, old_after, timeout_after. induction h as [|e h IH] using rev_ind; intros s o E.
  - injection E as <- <-. repeat split.
  - rewrite !fold_left_app. apply drun_snoc in E as (s1 & o1 & o2 & E1 & E2). destruct (IH _ _ E1) as (A & B & C). rewrite <- A, <- B, <- C. cbn [fold_left].
    destruct e as [|q id t|q|id snt|c' oc|et'| | | |now]; cbn [StepDown.dstep] in E2;
      try (destruct (is_leading (d_st s1)); [|]; try destruct (negb _); try discriminate E2; injection E2 as <- <-; repeat split; fail);
      try (destruct (d_st s1); try discriminate E2; injection E2 as <- <-; repeat split; fail);
      try (injection E2 as <- <-; repeat split; fail).
    destruct (handle_stepdown_timeout self witness now s1) as [s2 o3] eqn:T. injection E2 as <- <-.
      destruct (tick_cases now s1 s2 o3 T) as [(L & -> & ->)|(L & [(-> & -> & _)|(-> & -> & _)])]; repeat split.
Qed.
End Node.
