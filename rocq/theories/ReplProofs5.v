From Verif Require Import Base BaseLemmas LogEntry Repl ReplSpec ReplProofs ReplProofs2 ReplProofs3 ReplProofs4.

(** Steps that change nothing the window depends on. *)
Lemma mf_same_refl : forall s, mf_same s s. Proof. intros. split; auto. lia. Qed.
Lemma step_noop : forall c s e v o, Inv s -> nocheck o -> reqs o = [] -> ~ In (OTimeoutNow false) o -> (forall k, ~ In (OCaught k 0) o) ->
  e <> EvStopTransfer -> (forall j, e <> EvTransfer j) -> Step c s e v s o.
Proof.
  intros c s e v o I N R T C X1 X2. constructor; auto.
  - left. apply mf_same_refl.
  - intros k p t es cm K. exfalso. eapply noreq_no; eauto.
  - intros K. destruct (T K).
  - intros k K. destruct (C k K).
Qed.
Lemma step_note : forall c s e v code b s1 o1 s' o2 s0, notify v code b s0 = (s1, o1) -> code <> 0 ->
  min_flying s0 = min_flying s -> r_succ s0 = r_succ s -> r_tni s0 = r_tni s -> r_catch s0 = r_catch s ->
  e <> EvStopTransfer -> (forall j, e <> EvTransfer j) -> (s' = set_dead s1 \/ (s' = s1 /\ s0 = s /\ Inv s)) ->
  (forall x, In x o2 -> exists t, x = OHigher t) -> Step c s e v s' (o1 ++ o2).
Proof.
  intros c s e v code b s1 o1 s' o2 s0 H Nz M S T C X1 X2 D O2.
  destruct (notify_still _ _ _ _ _ _ H) as (U & Y1 & Y2 & _ & Y3). assert (Nt := notify_note _ _ _ _ _ _ H). assert (Nk := notify_nk _ _ _ _ _ _ H).
  assert (Mf : min_flying s1 = min_flying s) by (rewrite (upd_mf s0 s1); [auto|apply U]).
  assert (Mf' : min_flying s' = min_flying s /\ r_succ s' = r_succ s /\ r_tni s' = r_tni s /\ r_catch s' = r_catch s1).
  { destruct D as [->|(-> & -> & _)]; unfold min_flying in *; rs; repeat split; auto; congruence. }
  destruct Mf' as (Mf1 & Mf2 & Mf3 & Mf4).
  constructor.
  - destruct D as [->|(-> & -> & I)]; [left; auto|right]. eapply still_inv; eauto.
  - left. split; [lia|auto].
  - apply nk_app; auto. split; intros K; apply O2 in K; destruct K as [t K]; discriminate.
  - intros k p t es cm K. exfalso. apply in_app_iff in K. destruct K as [K|K]; [eapply note_not; eauto; discriminate|]. apply O2 in K. destruct K as [t' K]; discriminate.
  - intros K. exfalso. apply in_app_iff in K. destruct K as [K|K]; [eapply note_not; eauto; discriminate|]. apply O2 in K. destruct K as [t' K]; discriminate.
  - right; right. rewrite Mf3. auto.
  - intros k K. apply in_app_iff in K. destruct K as [K|K]; [|apply O2 in K; destruct K as [t' K]; discriminate].
    destruct (n_caught _ _ _ _ _ Nt _ K) as (kk & C1 & C2 & [[C3 _]|C3]); [congruence|]. right. exists kk. rewrite <- C. auto.
  - intros k K. rewrite Mf4 in K. destruct (n_catch _ _ _ _ _ Nt _ K) as [C1|(kk & C1 & C2 & C3 & C4 & C5)]; [left; congruence|].
    right; right. exists kk. rewrite <- C. repeat split; auto; congruence.
Qed.

Lemma step_after : forall c s e v s0 s' o oc, after_success c v s0 = (s', o) -> Stream s0 -> Corr s0 ->
  r_succ s0 = r_succ s -> r_tni s0 = r_tni s -> r_catch s0 = r_catch s ->
  e <> EvStopTransfer -> (forall j, e <> EvTransfer j) -> (forall x, In x oc -> x = OCheck 4 \/ exists a b, x = OCommit a b) ->
  (mf_same s s' \/
    (exists call last p n, e = EvResp call (Resp true (c_term c) last) /\ In (call, p, n) (r_sent s) /\
       min_flying s0 = p + n + 1 /\ (0 < n -> In (OCommit (min_flying s) (p + n)) oc /\ min_flying s <= p + 1) /\ (n <= 0 -> min_flying s0 = min_flying s)) \/
    (exists i, e = EvInstalled i true /\ min_flying s0 = i + 1)) ->
  Step c s e v s' (oc ++ o).
Proof.
  intros c s e v s0 s' o oc H St Co S T C X1 X2 Oc Mf. assert (A := after_spec _ _ _ _ _ H St Co). destruct A as [A1 A2 A3 A4 A5 A6 A7 A8 A9 A10].
  constructor.
  - auto.
  - destruct Mf as [Mf|[Mf|Mf]]; [left; auto|right; left|right; right].
    + destruct Mf as (call & last & p & n & B1 & B2 & B3 & B4 & B5). exists call, last, p, n. rewrite A2. repeat split; auto; try (apply in_app_iff; left); apply B4; auto.
    + destruct Mf as (i & B1 & B2). exists i. rewrite A2. auto.
  - apply nk_app; auto. split; intros K; apply Oc in K; destruct K as [K|(a & b & K)]; discriminate.
  - intros k p t es cm K. apply in_app_iff in K. destruct K as [K|K]; [|eauto]. apply Oc in K. destruct K as [K|(a & b & K)]; discriminate.
  - intros K. apply in_app_iff in K. destruct K as [K|K]; [apply Oc in K; destruct K as [K|(a & b & K)]; discriminate|].
    apply A7 in K. exists (r_tni s). rewrite T in K. split; [right; repeat split; auto; tauto|]. split; [rewrite A2; tauto|auto].
  - destruct A8 as [A8|A8]; auto. right; right. rewrite A8, T. auto.
  - intros k K. apply in_app_iff in K. destruct K as [K|K]; [apply Oc in K; destruct K as [K|(a & b & K)]; discriminate|].
    destruct (A9 _ K) as (kk & B1 & B2 & B3). right. exists kk. rewrite <- C. split; auto. split; auto. destruct B3 as [B3|B3]; auto. left. split; auto. lia.
  - intros k K. destruct (A10 _ K) as [B|(kk & B1 & B2 & B3 & B4)]; [left; congruence|]. right; right. exists kk. rewrite <- C. repeat split; auto. rewrite <- B3. lia.
Qed.

Lemma nk_chk4 : forall b, nocheck (chk 4 b). Proof. intros. apply nk_chk; lia. Qed.
Lemma chk4_in : forall b x, In x (chk 4 b) -> x = OCheck 4.
Proof. intros [] x H; [destruct H|]. destruct H as [<-|[]]. auto. Qed.

Lemma rstep_step : forall c s e v s' o, Inv s -> NoDup (map key (r_sent s)) -> e <> EvReadonly false ->
  rstep c s (e, v) = Some (s', o) -> Step c s e v s' o.
Proof.
  intros c s e v s' o I ND Nro H. assert (I' := I). destruct I' as [Co Md]. unfold rstep in H. destruct (r_dead s) eqn:Dd; [discriminate|].
  destruct e.
  - (* EvResp *)
    destruct (find_call call (r_sent s)) as [[p n]|] eqn:F; [|discriminate]. injection H as H. unfold on_rpc in H.
    destruct (in_flight (p + 1) call (r_fly s)) eqn:Fl; cbn [negb] in H.
    2:{ inj H. apply step_noop; auto using nk_chk4, reqs_chk; try discriminate; intros; intros K; apply chk4_in in K; discriminate. }
    assert (Fin := find_call_in _ _ _ _ F).
    destruct (in_flight_in _ _ _ Fl) as (i & n' & Hin). assert (Hs := Co _ _ _ Hin). apply (find_call_has _ _ _ _ ND) in Hs. rewrite F in Hs. injection Hs as -> ->. rename n' into n.
    destruct (reset_spec s) as (R1 & R2 & R3 & R4 & R5 & R6 & R7).
    assert (Al : alone s = 0%nat). { destruct Md as [(_ & A)|[(_ & _ & _ & A)|(A & _)]]; auto. rewrite A in Hin. destruct Hin. }
    rewrite Al in R4.
    destruct r as [|[] t last].
    + (* failed *) inj H. constructor; try (intros; exfalso; match goal with K : In _ _ |- _ => apply chk4_in in K; discriminate end).
      * right. split; [unfold Corr, block; destruct (r_st (reset_next s)); rs; intros a b d []|]. right; right.
        unfold Calm. assert (B := block_alone (reset_next s)). rewrite R4 in B. unfold block in *. destruct (r_st (reset_next s)); rs; repeat split; auto; try (left; reflexivity); lia.
      * left. split; [|unfold block; destruct (r_st (reset_next s)); auto]. unfold block. destruct (r_st (reset_next s)); unfold min_flying, reset_next; rs; lia.
      * apply nk_chk4.
      * right; right. unfold block. destruct (r_st (reset_next s)); rs; repeat split; auto; discriminate.
      * intros k K. left. unfold block in K. destruct (r_st (reset_next s)); auto.
    + (* success *)
      destruct (Z.eqb_spec t (c_term c)) as [->|Ht]; cbn [negb] in H.
      2:{ inj H. constructor; try (intros; exfalso; match goal with K : In _ _ |- _ => apply chk4_in in K; discriminate end).
          - right. split; [unfold Corr; rewrite R1; intros a b d []|]. right; right. unfold Calm. repeat split; auto; lia.
          - left. split; [lia|auto].
          - apply nk_chk4.
          - right; right. repeat split; auto; discriminate.
          - intros k K. left. exact K. }
      destruct (pop_acked (i - 1 + 1) (r_fly s) (r_fsize s)) as [fl sz] eqn:P.
      destruct (after_success c v (set_fly (r_next s) sz fl s)) as [s1 o1] eqn:E. injection H as <- <-.
      replace (i - 1 + 1) with i in P by lia. rewrite app_assoc. 
      destruct Md as [(Ch & _)|[Pr|(A & _)]]; [| |rewrite A in Hin; destruct Hin].
      * destruct (chain_split _ _ _ _ _ _ Ch Hin) as (l1 & l2 & El & C1 & N & C2).
        assert (P' := pop_chain l1 i n call l2 (min_flying s) (r_next s) (r_fsize s) C1 N C2 ltac:(unfold min_flying; lia)).
        rewrite <- El, P in P'. injection P' as -> ->.
        assert (Mf0 : min_flying (set_fly (r_next s) (r_next s - (i + n)) l2 s) = i + n) by (unfold min_flying; rs; lia).
        apply (step_after c s _ v _ _ _ _ E); auto; try discriminate.
        -- split; [rewrite Mf0; rs; auto|exact Al].
        -- unfold Corr. rs. intros a b d K. apply Co. rewrite El. apply in_app_iff. right; right; auto.
        -- intros x K. apply in_app_iff in K. destruct K as [K|K]; [left; eapply chk4_in; eauto|]. destruct (0 <? n); [|destruct K]. destruct K as [<-|[]]. right; eauto.
        -- right; left. exists call, last, (i - 1), n. split; auto. split; auto. split; [rewrite Mf0; lia|]. split; [|lia]. intros _. split.
           ++ apply in_app_iff. right. destruct (Z.ltb_spec 0 n); [|lia]. left. f_equal; auto.
           ++ apply chain_le in C1. lia.
      * destruct Pr as ((k & Ef) & Sz & Q & _). rewrite Ef in Hin. destruct Hin as [K|[]]. injection K as <- <- <-.
        rewrite Ef in P. cbn [pop_acked] in P. rewrite Z.leb_refl in P. injection P as <- <-.
        assert (Mf0 : min_flying (set_fly (r_next s) (r_fsize s - 0) [] s) = r_next s) by (unfold min_flying; rs; lia).
        apply (step_after c s _ v _ _ _ _ E); auto; try discriminate.
        -- split; [rewrite Mf0; rs; reflexivity|exact Al].
        -- unfold Corr. rs. intros a b d [].
        -- intros x K. apply in_app_iff in K. destruct K as [K|K]; [left; eapply chk4_in; eauto|]. change (0 <? 0) with false in K. destruct K.
        -- right; left. exists k, last, (r_next s - 1), 0. split; auto. split; auto. split; [rewrite Mf0; lia|]. split; [lia|]. intros _. rewrite Mf0. unfold min_flying. lia.
    + (* refused *)
      destruct (c_term c <? t).
      * destruct (notify v R_EPERM true (reset_next s)) as [s1 o1] eqn:E. injection H as <- <-.
        assert (St : Step c s (EvResp call (Resp false t last)) v (set_dead s1) (o1 ++ [OHigher t])).
        { eapply step_note; [exact E|unfold R_EPERM; lia|auto..|intros x [<-|[]]; eauto]; try discriminate. }
        destruct St as [S1 S2 S3 S4 S5 S6 S7 S8]. constructor; auto.
        -- destruct S2 as [S2|[(a & b & d & n1 & S2 & _)|(a & S2 & _)]]; [auto|discriminate..].
        -- apply nk_app; [apply nk_chk4|auto].
        -- intros k p t0 es cm K. apply in_app_iff in K. destruct K as [K|K]; [apply chk4_in in K; discriminate|eauto].
        -- intros K. apply in_app_iff in K. destruct K as [K|K]; [apply chk4_in in K; discriminate|eauto].
        -- intros k K. apply in_app_iff in K. destruct K as [K|K]; [apply chk4_in in K; discriminate|eauto].
      * match type of H with context[send_empty v ?x] => set (sx := x) in H; destruct (send_empty v sx) as [s1 o1] eqn:E end. injection H as <- <-.
        assert (Sx : r_fly sx = [] /\ r_fsize sx = 0 /\ quiet sx /\ alone sx = 0%nat /\ min_flying sx <= min_flying s /\ r_succ sx = r_succ s /\ r_tni sx = r_tni s /\ r_catch sx = r_catch s).
        { unfold sx. destruct (Z.ltb_spec (last + 1) (r_next (reset_next s))); [|destruct (1 <? r_next (reset_next s))].
          - repeat split; auto. unfold min_flying at 1. rs. rewrite R2. lia.
          - repeat split; auto. unfold min_flying at 1. rs. rewrite R2. lia.
          - repeat split; auto. lia. }
        destruct Sx as (Y1 & Y2 & Y3 & Y4 & Y5 & Y6 & Y7 & Y8).
        destruct (send_empty_inv _ _ _ _ E Y1 Y2 Y3 Y4) as (J & [K1 K2 K3 K4 K5] & Nk & Rq).
        assert (Nt : forall x, In x o1 -> (forall k cd, x <> OCaught k cd) /\ (forall b, x <> OTimeoutNow b)).
        { exact (send_empty_out _ _ _ _ E). }
        constructor; auto.
        -- left. split; [lia|congruence].
        -- apply nk_app; [apply nk_chk4|auto].
        -- intros k p t0 es cm K. apply in_app_iff in K. destruct K as [K|K]; [apply chk4_in in K; discriminate|]. apply Rq in K. lia.
        -- intros K. exfalso. apply in_app_iff in K. destruct K as [K|K]; [apply chk4_in in K; discriminate|]. apply Nt in K. destruct K as [_ K]. destruct (K false); auto.
        -- right; right. rewrite K3, Y7. repeat split; auto; discriminate.
        -- intros k K. exfalso. apply in_app_iff in K. destruct K as [K|K]; [apply chk4_in in K; discriminate|]. apply Nt in K. destruct K as [K _]. destruct (K k 0); auto.
        -- intros k K. left. congruence.
  - (* EvInstalled *)
    destruct (drop_one i (r_snaps s)) as [l|] eqn:Dr; [|discriminate]. injection H as H. unfold on_installed in H. rsi H.
    assert (Cm : Calm s). { destruct Md as [(_ & A)|[(_ & _ & _ & A)|A]]; auto; unfold alone in A; destruct (r_snaps s); cbn in Dr, A; [discriminate|lia|discriminate|lia]. }
    destruct Cm as (A1 & A2 & A3 & A4).
    assert (Al : alone (set_reader false l s) = 0%nat).
    { unfold alone in *. rs. destruct (r_snaps s) as [|x [|y q]]; cbn in Dr, A4; [discriminate| |lia]. destruct (x =? i); [|discriminate]. injection Dr as <-. cbn [length]. lia. }
    destruct ok; cbn [negb] in H.
    + change o with ([] ++ o). eapply step_after; [exact H|..]; auto; try discriminate.
      * split; [unfold min_flying; rs; rewrite A1, A2; cbn [chain]; lia|exact Al].
      * intros x [].
      * right; right. exists i. split; auto. unfold min_flying. rs. lia.
    + injection H as <- <-. constructor; try (intros; exfalso; match goal with K : In _ [] |- _ => destruct K end).
      * right. split; [unfold Corr, block; rs; destruct (r_st s); rs; rewrite A1; intros a b d []|]. right; right.
        unfold Calm, quiet, block, alone in *. rsi Al. rs. destruct (r_st s); rs; repeat split; auto; lia.
      * left. unfold block. rs. destruct (r_st s); split; unfold min_flying; rs; auto; lia.
      * apply nk_nil.
      * right; right. unfold block. rs. destruct (r_st s); rs; repeat split; auto; discriminate.
      * intros k K. left. unfold block in K. rsi K. destruct (r_st s); auto.
  - (* EvHeartTimer *)
    injection H as H. unfold send_heartbeat, fill in H. destruct (_ && _); cbn [negb] in H; inj H; (apply step_noop; auto; try discriminate; [apply nk_one; discriminate|..]); intros; intros [K|[]]; discriminate.
  - (* EvHeart *)
    injection H as H. unfold on_heartbeat in H. destruct r as [[t ro]|].
    2:{ inj H. apply step_noop; auto using nk_nil; try discriminate; intros; intros []. }
    destruct (_ <? _).
    + destruct (notify _ _ _ _) as [s1 o1] eqn:E. injection H as <- <-. eapply step_note; [exact E|unfold R_EPERM; lia|auto..|intros x [<-|[]]; eauto]; discriminate.
    + inj H. apply step_noop; auto; try discriminate; destruct (_ || _); auto using nk_nil; try (apply nk_one; discriminate); intros; intros K; try destruct K as [K|[]]; try discriminate; destruct K.
  - (* EvLmWake *)
    inj H. constructor; try (intros; exfalso; match goal with K : In _ [] |- _ => destruct K end); auto using nk_nil.
    + right. split; [exact Co|]. destruct Md as [A|[A|A]]; [left; exact A|right; left|right; right].
      * destruct A as (A1 & A2 & A3 & A4). unfold Probe, quiet in *. rs. repeat split; auto. destruct A3 as [A3|(A3 & A5)]; auto. right. rewrite A3, A5. auto.
      * destruct A as (A1 & A2 & A3 & A4). unfold Calm, quiet in *. rs. repeat split; auto. destruct A3 as [A3|(A3 & A5)]; auto. right. rewrite A3, A5. auto.
    + left. split; [unfold min_flying; rs; lia|auto].
    + right; right. repeat split; auto; discriminate.
  - (* EvWoken *)
    destruct (r_fired s) as [|nf] eqn:Fi; [discriminate|]. injection H as H. unfold woken in H. rsi H.
    set (s0 := set_wait (r_wait s) (r_cancel s) (r_regs s) nf (r_nwait s) s) in *.
    destruct (negb stop && negb (r_cancel s)) eqn:B.
    + apply andb_true_iff in B. destruct B as [_ B]. apply negb_true_iff in B.
      assert (Strm : Stream s). { destruct Md as [A|[A|A]]; auto; exfalso; destruct A as (_ & _ & [A|(_ & A)] & _); congruence. }
      destruct (send_entries_inv _ _ _ _ _ H) as (J & [K1 K2 K3 K4 K5] & Nk & Rq); [exact Strm|exact Co|].
      assert (Out := send_entries_out _ _ _ _ _ H).
      constructor; auto.
      * left. split; [rewrite K1; unfold min_flying, s0; rs; lia|rewrite K2; auto].
      * intros K. exfalso. apply Out in K. destruct K as [_ K]. destruct (K false); auto.
      * right; right. rewrite K3. repeat split; auto; discriminate.
      * intros k K. exfalso. apply Out in K. destruct K as [K _]. destruct (K k 0); auto.
      * intros k K. left. rewrite K4 in K. exact K.
    + injection H as <- <-. constructor; try (intros; exfalso; match goal with K : In _ [] |- _ => destruct K end); auto using nk_nil.
      * right. split; [exact Co|]. destruct Md as [A|[A|A]]; [left; exact A|right; left|right; right].
        -- destruct A as (A1 & A2 & A3 & A4). unfold Probe, quiet in *. unfold s0. rs. repeat split; auto. destruct A3 as [A3|(A3 & A5)]; auto. congruence.
        -- destruct A as (A1 & A2 & A3 & A4). unfold Calm, quiet in *. unfold s0. rs. repeat split; auto. destruct A3 as [A3|(A3 & A5)]; auto. congruence.
      * left. split; [unfold min_flying, s0; rs; lia|auto].
      * right; right. repeat split; auto; discriminate.
  - (* EvBlock1 *)
    destruct (r_tm1 s) as [|nt] eqn:T1; [discriminate|]. inj H.
    assert (Cm : Calm s). { destruct Md as [(_ & A)|[(_ & _ & _ & A)|A]]; auto; unfold alone in A; lia. }
    constructor; try (intros; exfalso; match goal with K : In _ [] |- _ => destruct K end); auto using nk_nil.
    + right. split; [exact Co|]. right; right. destruct Cm as (A1 & A2 & A3 & A4). unfold Calm, quiet, alone in *. rs. repeat split; auto. lia.
    + left. split; [unfold min_flying; rs; lia|auto].
    + right; right. repeat split; auto; discriminate.
  - (* EvBlock2 *)
    destruct (r_tm2 s) as [|nt] eqn:T2; [discriminate|]. injection H as H.
    assert (Cm : Calm s). { destruct Md as [(_ & A)|[(_ & _ & _ & A)|A]]; auto; unfold alone in A; lia. }
    destruct Cm as (A1 & A2 & A3 & A4).
    assert (Al : alone (set_timers (r_tm1 s) nt s) = 0%nat) by (unfold alone in *; rs; lia).
    unfold block_over in H. rsi H. destruct (negb (r_wait s =? 0)).
    + injection H as <- <-. constructor; try (intros; exfalso; match goal with K : In _ [] |- _ => destruct K end); auto using nk_nil.
      * right. split; [exact Co|]. right; right. unfold Calm, quiet. rs. rewrite Al. repeat split; auto.
      * left. split; [unfold min_flying; rs; lia|auto].
      * right; right. repeat split; auto; discriminate.
    + destruct (send_empty_inv _ _ _ _ H) as (J & [K1 K2 K3 K4 K5] & Nk & Rq); auto.
      assert (Nt : forall x, In x o -> (forall k cd, x <> OCaught k cd) /\ (forall b, x <> OTimeoutNow b)).
        { exact (send_empty_out _ _ _ _ H). }
      constructor; auto.
      * left. split; [rewrite K1; unfold min_flying; rs; lia|rewrite K2; auto].
      * intros k p t es cm K. apply Rq in K. lia.
      * intros K. exfalso. apply Nt in K. destruct K as [_ K]. destruct (K false); auto.
      * right; right. rewrite K3. repeat split; auto; discriminate.
      * intros k K. exfalso. apply Nt in K. destruct K as [K _]. destruct (K k 0); auto.
      * intros k K. left. rewrite K4 in K. exact K.
  - (* EvCatch *)
    injection H as H. unfold wait_caught_up in H. destruct (r_catch s) as [kk|] eqn:C.
    { inj H. apply step_noop; auto; try discriminate; [apply nk_one; discriminate|..]; intros; intros [K|[]]; try discriminate. }
    destruct (r_succ s && is_catchup v margin s) eqn:B.
    + inj H. apply andb_true_iff in B. destruct B as [B1 B2]. apply is_catchup_true in B2. constructor; auto.
      * left. apply mf_same_refl.
      * apply nk_one; discriminate.
      * intros k0 p t es cm [K|[]]. discriminate.
      * intros [K|[]]. discriminate.
      * right; right. repeat split; auto; discriminate.
      * intros k0 [K|[]]. injection K as <-. left. exists margin, timer. split; auto. split; auto.
    + inj H. constructor; try (intros; exfalso; match goal with K : In _ [] |- _ => destruct K end); auto using nk_nil.
      * left. split; [unfold min_flying; rs; lia|auto].
      * right; right. repeat split; auto; discriminate.
      * rs. intros k0 K. injection K as <-. right; left. exists timer. auto.
  - (* EvCatchTimer *)
    injection H as H. replace o with (o ++ []) by apply app_nil_r. eapply step_note; [exact H|unfold R_ETIMEDOUT; lia|auto..|intros x []]; discriminate.
  - (* EvTransfer *)
    injection H as H. unfold transfer, timeout_now in H. destruct (r_succ s && (i <? min_flying s)) eqn:B; inj H.
    + apply andb_true_iff in B. destruct B as [B1 B2]. apply Z.ltb_lt in B2. constructor; auto.
      * left. split; [unfold min_flying; rs; lia|auto].
      * apply nk_one; discriminate.
      * intros k0 p t es cm [K|[]]. discriminate.
      * intros _. exists i. split; auto.
      * intros k0 [K|[]]. discriminate.
    + constructor; try (intros; exfalso; match goal with K : In _ [] |- _ => destruct K end); auto using nk_nil.
      left. split; [unfold min_flying; rs; lia|auto].
  - (* EvStopTransfer *)
    inj H. constructor; try (intros; exfalso; match goal with K : In _ [] |- _ => destruct K end); auto using nk_nil.
    left. split; [unfold min_flying; rs; lia|auto].
  - (* EvReadonly *)
    injection H as H. destruct b; [|tauto]. unfold change_readonly in H. destruct (_ || _).
    + inj H. apply step_noop; auto using nk_nil; try discriminate; intros; intros [].
    + inj H. constructor; try (intros; exfalso; match goal with K : In _ [] |- _ => destruct K end); auto using nk_nil.
      * left. split; [unfold min_flying; rs; lia|auto].
      * right; right. repeat split; auto; discriminate.
  - (* EvTimeoutNow *)
    unfold timeout_now in H. inj H. apply step_noop; auto; try discriminate; [apply nk_one; discriminate|..]; intros; intros [K|[]]; discriminate.
  - (* EvTimeoutNowDone *)
    injection H as H. unfold on_timeout_now in H.
    assert (Nop : Step c s (EvTimeoutNowDone stepped r) v s []) by (apply step_noop; auto using nk_nil; try discriminate; intros; intros []).
    assert (Stp : forall s1 o1, notify v R_ESTOP true s = (s1, o1) -> Step c s (EvTimeoutNowDone stepped r) v (set_dead s1) o1).
    { intros s1 o1 E. replace o1 with (o1 ++ []) by apply app_nil_r. eapply step_note; [exact E|unfold R_ESTOP; lia|auto..|intros x []]; discriminate. }
    destruct r as [t|]; [destruct (_ <? _)|].
    + destruct (notify _ _ _ _) as [s1 o1] eqn:E. injection H as <- <-. eapply step_note; [exact E|unfold R_EPERM; lia|auto..|intros x [<-|[]]; eauto]; discriminate.
    + destruct stepped; [|inj H; auto]. destruct (notify _ _ _ _) as [s1 o1] eqn:E. injection H as <- <-. auto.
    + destruct stepped; [|inj H; auto]. destruct (notify _ _ _ _) as [s1 o1] eqn:E. injection H as <- <-. auto.
  - (* EvStop1 *)
    injection H as H. unfold stop1 in H. replace o with (o ++ []) by apply app_nil_r. eapply step_note; [exact H|unfold R_EPERM; lia|auto..|intros x []]; discriminate.
  - (* EvStop2 *)
    injection H as H. unfold stop2 in H. destruct (notify _ _ _ _) as [s1 o1] eqn:E. injection H as <- <-.
    replace o1 with (o1 ++ []) by apply app_nil_r. eapply step_note; [exact E|unfold R_ESTOP; lia|auto..|intros x []]; discriminate.
Qed.
