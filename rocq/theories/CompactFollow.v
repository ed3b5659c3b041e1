(** AppendEntries requests on a log whose beginning was dropped (Compact.v) against the same
    or an empty request on the whole log (Reconf.v). *)
From Verif Require Import Base BaseLemmas LogEntry Ballot Node LogPrefix Reconf ReconfStatic ReconfInv ReconfGhost ReconfNode ReconfFollow BallotBoxProofs Compact CompactInv CompactSim.
From Verif Require BallotBox ConfCtx.

(** moving the commit index within what the snapshot covers *)
Lemma mx_low : forall k b i b' r o, BallotBox.set_last_committed_index b i = Some (b', r, o) -> i <= Z.max (BallotBox.lc b) k -> mx k b' = mx k b.
Proof.
  intros k b i b' r o H L. unfold BallotBox.set_last_committed_index in H.
  destruct (negb (BallotBox.pend b =? 0) || _).
  - destruct (i <? BallotBox.pend b); [|discriminate H]. injection H as <- _ _. reflexivity.
  - destruct (Z.ltb_spec i (BallotBox.lc b)); [injection H as <- _ _; reflexivity|].
    destruct (Z.ltb_spec (BallotBox.lc b) i); injection H as <- _ _; [|reflexivity].
    unfold mx. cbn [BallotBox.lc BallotBox.pend BallotBox.bq BallotBox.cq]. f_equal. lia.
Qed.
Lemma set_box_same : forall b n, r_box n = b -> set_box b n = n.
Proof. intros b n <-. destruct n; reflexivity. Qed.
Lemma set_committed_0 : forall n, Inv0 (r_box n) -> BallotBox.pend (r_box n) = 0 -> set_committed 0 n = Some n.
Proof.
  intros n I P. unfold set_committed, BallotBox.set_last_committed_index. destruct I as (I1 & _ & I3 & _).
  rewrite P, (proj1 (I3 P)). cbn [Z.eqb negb orb].
  destruct (Z.ltb_spec 0 (BallotBox.lc (r_box n))); [rewrite set_box_same; auto|].
  destruct (Z.ltb_spec (BallotBox.lc (r_box n)) 0); [lia|]. rewrite set_box_same; auto.
Qed.

Section Sim.
Variable conf0 : list peer.
Variable boot : peer -> bool.
Variable dec : Z -> option jconf.
Notation SI := (SI dec).
Notation NI := (NI conf0 boot dec).
Notation SF := (SF conf0 dec).

Lemma heartbeat : forall G p a from t, NI G p a -> r_term a <= t ->
  Some from = r_leader (check_step_down t from a) ->
  Reconf.append_req from t 0 0 [] 0 a = Some (check_step_down t from a, []).
Proof.
  intros G p a from t N L EL. unfold Reconf.append_req. destruct (Z.ltb_spec t (r_term a)); [lia|].
  cbv zeta. rewrite <- EL.
  destruct (opeer_eqb (Some from) (Some from)) eqn:E; [|cbn [opeer_eqb] in E; rewrite Z.eqb_refl in E; discriminate E].
  cbn [negb]. rewrite term_at_0. change (negb (0 =? 0)) with false. cbn [Z.min]. change (Z.min 0 0) with 0.
  destruct (check_step_down_term t from a L) as (_ & F & _).
  assert (N' : NI G p (check_step_down t from a)) by (apply NI_check_step_down; auto).
  rewrite set_committed_0; auto; [apply N'|]. eapply (i_foll _ _ _ _ _ _ N'). congruence.
Qed.
Lemma sim_committed : forall i n n', SI n -> commit_upto i n = Some n' -> set_committed i (abs n) = Some (abs n') /\ SI n'.
Proof.
  intros i n n' H E. unfold commit_upto in E. destruct (set_committed i (core n)) as [c|] eqn:Ec; [|discriminate E]. injection E as <-.
  unfold set_committed in *. destruct (BallotBox.set_last_committed_index (r_box (core n)) i) as [[[b r] o]|] eqn:Eb; [|discriminate Ec].
  injection Ec as <-. change (r_box (abs n)) with (mx (mid n) (r_box (core n))).
  destruct (mx_set (mid n) _ _ _ _ _ Eb) as (r' & o' & X). rewrite X. split; [reflexivity|].
  change (on (fun _ => set_box b (core n)) n) with (on (set_box b) n). apply SI_same; auto.
Qed.
Lemma low_committed : forall i n n', SI n -> commit_upto i n = Some n' -> i <= lc (abs n) -> abs n' = abs n /\ SI n'.
Proof.
  intros i n n' H E L. unfold commit_upto in E. destruct (set_committed i (core n)) as [c|] eqn:Ec; [|discriminate E]. injection E as <-.
  unfold set_committed in *. destruct (BallotBox.set_last_committed_index (r_box (core n)) i) as [[[b r] o]|] eqn:Eb; [|discriminate Ec].
  injection Ec as <-. change (on (fun _ => set_box b (core n)) n) with (on (set_box b) n). split; [|apply SI_same; auto].
  transitivity (set_box (mx (mid n) b) (abs n)); [reflexivity|]. apply set_box_same.
  symmetry. apply (mx_low _ _ _ _ _ _ Eb). exact L.
Qed.

Lemma skip_known_same : forall n es i j rest, SI n -> 0 < i -> (forall e, In e es -> 1 <= l_term e) -> skip_known n i es = (j, rest) ->
  (skip_same (hist n) i es = (j, rest) /\ i <= j) \/ (rest <> [] /\ j < s_first n).
Proof.
  intros n es. induction es as [|e es IH]; intros i j rest H P T E; cbn [skip_known skip_same] in *.
  - injection E as <- <-. left. split; auto. lia.
  - specialize (T e (or_introl eq_refl)) as Te. destruct (sterm_hist dec n i H) as [X|[X B]].
    + rewrite <- X. destruct (sterm n i =? l_term e).
      * destruct (IH (i + 1) j rest H ltac:(lia) (fun e' He => T e' (or_intror He)) E) as [[Y1 Y2]|Y]; [left; split; auto; lia|right; auto].
      * injection E as <- <-. left. split; auto. lia.
    + rewrite X in E. destruct (Z.eqb_spec 0 (l_term e)); [lia|]. injection E as <- <-. right. split; [discriminate|lia].
Qed.
Lemma hist_set_log : forall n l k, s_first n - 1 <= zlen (hist n) -> hist (on (set_log l k) n) = firstn (Z.to_nat (s_first n - 1)) (p_data (s_disk n)) ++ l.
Proof. reflexivity. Qed.
Lemma sim_follow : forall prev es n n', SI n -> 0 <= prev <= last_index n -> es <> [] -> (forall e, In e es -> 1 <= l_term e) ->
  follow prev es n = Some n' -> abs n' = follow_append prev es (abs n) /\ SI n'.
Proof.
  intros prev es n n' H BP NE T E. destruct (SI_bounds dec n H) as (B1 & B2 & B3 & B4 & B5). unfold follow in E. cbv zeta in E.
  unfold follow_append. change (r_log (abs n)) with (hist n).
  destruct (Z.eqb_spec prev (last_index n)) as [->|NP].
  - injection E as <-. assert (SS : skip_same (hist n) (last_index n + 1) es = (last_index n + 1, es)).
    { destruct es as [|e es]; [congruence|]. cbn [skip_same]. rewrite term_over by lia.
      specialize (T e (or_introl eq_refl)). destruct (Z.eqb_spec 0 (l_term e)); [lia|reflexivity]. }
    rewrite SS. cbv iota zeta. destruct es as [|e es]; [congruence|]. set (E := e :: es) in *.
    replace (last_index n + 1 - 1) with (zlen (hist n)) by lia. rewrite (firstn_zall (hist n)) by lia.
    match goal with |- context [abs (on ?f n)] => set (f0 := f) end.
    assert (HH : hist (on f0 n) = hist n ++ E) by (apply hist_grow; reflexivity). split.
    + unfold abs at 1. rewrite HH. unfold absc, f0, mid. cbn [core on set_log r_self r_st r_term r_voted r_leader r_log r_sync r_box r_applied r_ballot r_stage r_done s_snap].
      unfold abs, absc, set_log. cbn [r_self r_st r_term r_voted r_leader r_log r_sync r_box r_applied r_ballot r_stage r_done].
      rewrite zlen_app, B5. reflexivity.
    + apply SI_grow with (l := E); auto.
  - destruct (skip_known n (prev + 1) es) as [i rest] eqn:SK.
    destruct (skip_known_same n es (prev + 1) i rest H ltac:(lia) T SK) as [[SS Li]|[NR Ji]].
    + rewrite SS. destruct rest as [|e rest].
      * injection E as <-. split; [reflexivity|]. apply SI_same; auto.
      * set (R := e :: rest) in *. destruct (Z.leb_spec i (last_index n)).
        -- destruct (Z.ltb_spec (i - 1) (r_applied (core n))); [discriminate E|]. injection E as <-.
           set (f0 := fun c => set_log (firstn (Z.to_nat (i - s_first n)) (r_log c) ++ R) (i - 1 + zlen R) c).
           assert (HH : hist (on f0 n) = firstn (Z.to_nat (i - 1)) (hist n) ++ R).
           { destruct (zlen_hist dec n H) as [Z0 _].
             unfold hist, f0, on. cbn [core s_first s_disk set_log r_log].
             set (A := firstn (Z.to_nat (s_first n - 1)) (p_data (s_disk n))) in *. rewrite app_assoc. f_equal. rewrite firstn_app.
             rewrite (firstn_all2 A) by (unfold zlen in *; lia). f_equal. f_equal. unfold zlen in *. lia. }
           assert (ZL : zlen (firstn (Z.to_nat (i - 1)) (hist n)) = i - 1) by (apply zlen_firstn_le; lia). split.
           ++ unfold abs at 1. fold R. rewrite HH. unfold absc, f0, mid. cbn [core on set_log r_self r_st r_term r_voted r_leader r_log r_sync r_box r_applied r_ballot r_stage r_done s_snap].
              unfold abs, absc, set_log. cbn [r_self r_st r_term r_voted r_leader r_log r_sync r_box r_applied r_ballot r_stage r_done].
              rewrite zlen_app, ZL. reflexivity.
           ++ change (on f0 n) with (on (fun _ => f0 (core n)) n). apply SI_core; auto.
              change (on (fun _ => f0 (core n)) n) with (on f0 n). rewrite HH, firstn_app.
              replace (Z.to_nat (r_applied (core n)) - length (firstn (Z.to_nat (i - 1)) (hist n)))%nat with 0%nat by (unfold zlen in *; lia).
              cbn [firstn]. rewrite app_nil_r, firstn_firstn. f_equal. lia.
        -- injection E as <-. set (f0 := fun c => set_log (r_log c ++ R) (last_index n + zlen R) c).
           assert (HH : hist (on f0 n) = hist n ++ R) by (apply hist_grow; reflexivity).
           rewrite (firstn_zall (hist n)) by lia. split.
           ++ unfold abs at 1. fold R. fold f0. rewrite HH. unfold absc, f0, mid. cbn [core on set_log r_self r_st r_term r_voted r_leader r_log r_sync r_box r_applied r_ballot r_stage r_done s_snap].
              unfold abs, absc, set_log. cbn [r_self r_st r_term r_voted r_leader r_log r_sync r_box r_applied r_ballot r_stage r_done].
              rewrite zlen_app, B5. reflexivity.
           ++ apply SI_grow with (l := R); auto.
    + exfalso. destruct rest as [|e rest]; [congruence|].
      destruct (Z.leb_spec i (last_index n)); [|lia]. destruct (Z.ltb_spec (i - 1) (r_applied (core n))); [discriminate E|lia].
Qed.

Lemma abs_csd : forall t from n, abs (on (check_step_down t from) n) = check_step_down t from (abs n).
Proof.
  intros. apply abs_same; [intros; apply abs_check|]. unfold check_step_down.
  set (c1 := if r_term (core n) <? t then _ else _).
  assert (r_log c1 = r_log (core n)).
  { unfold c1. destruct (r_term (core n) <? t); auto. destruct (r_st (core n)); auto. destruct (r_leader (core n)); auto. }
  destruct (r_leader c1); auto.
Qed.
Lemma SI_csd : forall t from n, SI n -> SI (on (check_step_down t from) n).
Proof.
  intros t from n H. assert (X : r_applied (check_step_down t from (core n)) = r_applied (core n) /\ r_log (check_step_down t from (core n)) = r_log (core n)).
  { unfold check_step_down. set (c1 := if r_term (core n) <? t then _ else _).
    assert (r_applied c1 = r_applied (core n) /\ r_log c1 = r_log (core n)).
    { unfold c1. destruct (r_term (core n) <? t); auto. destruct (r_st (core n)); auto. destruct (r_leader (core n)); auto. }
    destruct (r_leader c1); auto. }
  apply SI_same; auto; apply X.
Qed.
Definition beat (from : peer) (t : Z) (a a' : rnode) : Prop :=
  a' = a \/ Reconf.append_req from t 0 0 [] 0 a = Some (a', []).

Lemma sim_append_req : forall G p from t prev pt es commit n n' o, SF G -> NI G p (abs n) -> SI n ->
  slice (gll G t) prev pt es -> Compact.append_req from t prev pt es commit n = Some (n', o) ->
  SI n' /\ ((beat from t (abs n) (abs n') /\ o = []) \/ Reconf.append_req from t prev pt es commit (abs n) = Some (abs n', o)).
Proof.
  intros G p from t prev pt es commit n n' o S N H SL E. unfold Compact.append_req in E.
  destruct (Z.ltb_spec t (r_term (core n))) as [LT|LT]; [injection E as <- <-; split; auto; left; split; auto; left; auto|].
  cbv zeta in E. set (n1 := on (check_step_down t from) n) in *.
  assert (H1 : SI n1) by (apply SI_csd; auto). assert (A1 : abs n1 = check_step_down t from (abs n)) by apply abs_csd.
  assert (N1 : NI G p (abs n1)) by (rewrite A1; apply NI_check_step_down; auto).
  destruct (opeer_eqb (Some from) (r_leader (core n1))) eqn:EL; cbn [negb] in E.
  2:{ injection E as <- <-. split; [apply SI_down; auto|]. right. unfold Reconf.append_req.
      change (r_term (abs n)) with (r_term (core n)). destruct (Z.ltb_spec t (r_term (core n))); [lia|]. cbv zeta. rewrite <- A1.
      change (r_leader (abs n1)) with (r_leader (core n1)). rewrite EL. cbn [negb]. rewrite abs_down. reflexivity. }
  assert (EL' : Some from = r_leader (core n1)).
  { destruct (r_leader (core n1)); cbn [opeer_eqb] in EL; [apply Z.eqb_eq in EL; congruence|discriminate EL]. }
  assert (HB : Reconf.append_req from t 0 0 [] 0 (abs n) = Some (abs n1, [])).
  { rewrite A1. eapply heartbeat; eauto. rewrite <- A1. exact EL'. }
  destruct (Z.eqb_spec (sterm n1 prev) pt) as [EP|NP]; cbn [negb] in E.
  2:{ injection E as <- <-. split; auto. left. split; auto. right. auto. }
  assert (PF : posl (gll G t)) by (eapply G_ll_pos; eauto).
  assert (SL' := SL). destruct SL' as (a & b & EF & Za & Ept).
  assert (P0 : 0 <= prev) by (rewrite <- Za; apply zlen_nonneg).
  assert (PT0 : pt = 0 -> prev = 0).
  { intros X. destruct (Z_le_gt_dec 1 prev); [|lia]. exfalso. destruct (term_at_in (gll G t) prev) as (x & e & y & X1 & X2 & X3).
    - rewrite EF, zlen_app. pose proof (zlen_nonneg (es ++ b)). lia.
    - assert (1 <= l_term e) by (apply PF; rewrite X1; apply in_or_app; right; left; reflexivity). lia. }
  assert (TM : term_at (hist n1) prev = pt).
  { destruct (sterm_hist dec n1 prev H1) as [X|[X Y]]; [congruence|]. rewrite X in EP. symmetry in EP. apply PT0 in EP. lia. }
  assert (AA : forall r, (forall x, (match es with [] => match set_committed (Z.min commit prev) (abs n1) with None => None | Some m => Some (m, []) end
       | _ => match set_committed (Z.min commit (prev + zlen es)) (follow_append prev es (abs n1)) with None => None | Some m => Some (m, [ROSend (RAck (r_self m) t (prev + zlen es))]) end end) = x -> x = r) ->
       Reconf.append_req from t prev pt es commit (abs n) = r).
  { intros r Hr. unfold Reconf.append_req. change (r_term (abs n)) with (r_term (core n)). destruct (Z.ltb_spec t (r_term (core n))); [lia|].
    cbv zeta. rewrite <- A1. change (r_leader (abs n1)) with (r_leader (core n1)). rewrite EL. cbn [negb].
    change (r_log (abs n1)) with (hist n1). rewrite TM, Z.eqb_refl. cbn [negb]. apply Hr. reflexivity. }
  destruct es as [|e0 es0].
  { destruct (commit_upto (Z.min commit prev) n1) as [n2|] eqn:E2; [|discriminate E]. injection E as <- <-.
    destruct (sim_committed _ _ _ H1 E2) as [C2 S2]. split; auto. right. apply AA. intros x Hx. rewrite C2 in Hx. auto. }
  set (es := e0 :: es0) in *. cbv iota in AA.
  destruct (Z.ltb_spec (last_index n1) prev) as [LP|LP].
  { injection E as <- <-. split; auto. left. split; auto. right. auto. }
  destruct (Z.leb_spec (prev + zlen es) (r_applied (core n1))) as [LA|LA].
  { destruct (commit_upto (Z.min commit (prev + zlen es)) n1) as [n2|] eqn:E2; [|discriminate E]. injection E as <- <-.
    destruct (low_committed _ _ _ H1 E2) as [C2 S2].
    { pose proof (i_app _ _ _ _ _ _ N1). change (r_applied (abs n1)) with (r_applied (core n1)) in *. lia. }
    split; auto. left. split; auto. right. rewrite C2. exact HB. }
  destruct (follow prev es n1) as [n2|] eqn:E2; [|discriminate E].
  assert (TE : forall e, In e es -> 1 <= l_term e) by (intros e He; apply PF; rewrite EF; apply in_or_app; right; apply in_or_app; auto).
  assert (NE : es <> []) by discriminate. assert (BP : 0 <= prev <= last_index n1) by lia.
  destruct (sim_follow _ _ _ _ H1 BP NE TE E2) as [F2 S2].
  destruct (commit_upto (Z.min commit (prev + zlen es)) n2) as [n3|] eqn:E3; [|discriminate E]. injection E as <- <-.
  destruct (sim_committed _ _ _ S2 E3) as [C3 S3]. split; auto. right. apply AA. intros x Hx. rewrite <- F2, C3 in Hx. auto.
Qed.
End Sim.
