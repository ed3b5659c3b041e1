(** InstallSnapshot and restarts of Compact.v against Reconf.v. *)
From Verif Require Import Base BaseLemmas LogEntry Ballot Node LogPrefix Reconf ReconfStatic ReconfInv ReconfGhost ReconfNode ReconfFollow BallotBoxProofs Compact CompactInv CompactSim CompactFollow CompactSnap.
From Verif Require BallotBox ConfCtx.

Section Inst.
Variable conf0 : list peer.
Variable boot : peer -> bool.
Variable dec : Z -> option jconf.
Notation SI := (SI dec).
Notation NI := (NI conf0 boot dec).
Notation SF := (SF conf0 dec).
Notation cm := (cm conf0 dec).
Notation snap_is := (snap_is dec).

(** receiving the entries of a snapshot from the beginning *)
Lemma follow_whole : forall G a t D, SF G -> wfl (gll G) (r_log a) -> prefix D (gll G t) -> D <> [] ->
  (prefix D (r_log a) /\ follow_append 0 D a = set_log (r_log a) (Z.max (r_sync a) (zlen D)) a) \/
  (~ prefix D (r_log a) /\ follow_append 0 D a = set_log D (zlen D) a).
Proof.
  intros G a t D S W [b PD] ND. unfold follow_append. destruct (skip_same (r_log a) (0 + 1) D) as [j rest] eqn:E.
  destruct (skip_same_spec (gll G) (r_log a) (gll G t) D [] b (0 + 1) j rest) as (same & S1 & S2 & S3 & S4); auto.
  - apply (G_ll_wfl _ _ _ t S).
  - apply (G_ll_pos _ _ _ t S).
  - apply prefix_nil.
  - cbn [app] in S3. destruct rest as [|e r].
    + left. rewrite app_nil_r in S1. subst same. split; auto.
    + right. destruct S4 as [S4|(e' & r' & S4 & S5)]; [discriminate S4|]. injection S4 as <- <-.
      assert (Za : zlen same = j - 1) by lia.
      rewrite (prefix_firstn_eq same (r_log a)) by (auto; lia). rewrite <- S1. split; auto.
      intros [c X]. apply S5. rewrite X, S1, <- app_assoc. cbn [app]. apply term_at_mid'. lia.
Qed.

Lemma set_committed_up : forall i a, Inv0 (r_box a) -> BallotBox.pend (r_box a) = 0 ->
  set_committed i a = Some (set_box (BallotBox.mkBox (Z.max (lc a) i) 0 (BallotBox.bq (r_box a)) (BallotBox.cq (r_box a))) a).
Proof.
  intros i a I P. unfold set_committed, BallotBox.set_last_committed_index, lc. destruct I as (I1 & _ & I3 & _).
  rewrite P, (proj1 (I3 P)). cbn [Z.eqb negb orb].
  assert (X : forall k, k = BallotBox.lc (r_box a) -> BallotBox.mkBox k 0 [] (BallotBox.cq (r_box a)) = r_box a).
  { intros k ->. destruct (r_box a) as [q w e r] eqn:B. cbn [BallotBox.pend BallotBox.bq BallotBox.lc BallotBox.cq] in *. rewrite (proj1 (I3 P)), P. reflexivity. }
  destruct (Z.ltb_spec i (BallotBox.lc (r_box a))); [rewrite X by lia; reflexivity|].
  destruct (Z.ltb_spec (BallotBox.lc (r_box a)) i); [rewrite Z.max_r by lia; reflexivity|rewrite X by lia; reflexivity].
Qed.

Lemma sim_install : forall G p from t s ok n n' o T0 i0 l, SF G -> NI G p (abs n) -> SI n ->
  prefix (p_data s) (gll G t) -> In (t, from, l) (gel G) -> cm G T0 i0 -> T0 <= t -> p_idx s <= i0 -> snap_is s (p_data s) -> 0 < p_idx s ->
  install from t s ok n = Some (n', o) ->
  SI n' /\
  ((o = [] /\ s_sm n' = s_sm n /\ beat from t (abs n) (abs n')) \/
   (o = [SOLoad (p_data s)] /\ s_sm n' = p_data s /\ prefix (s_sm n) (p_data s) /\ exists a1,
      Reconf.append_req from t 0 0 (p_data s) (p_idx s) (abs n) = Some (a1, [ROSend (RAck (r_self a1) t (p_idx s))]) /\
      abs n' = set_applied (p_idx s) a1 /\ r_applied a1 = r_applied (core n) /\ r_applied a1 <= p_idx s /\ p_idx s <= lc a1 /\
      prefix (p_data s) (r_log a1))).
Proof.
  intros G p from t s ok n n' o T0 i0 l S N H PD HL C LT LI SP LS E. unfold install in E.
  destruct (Z.ltb_spec t (r_term (core n))) as [L|L]; [injection E as <- <-; split; auto; left; sp; auto; left; auto|].
  cbv zeta in E. set (n1 := on (check_step_down t from) n) in *.
  assert (H1 : SI n1) by (apply SI_csd; auto). assert (A1 : abs n1 = check_step_down t from (abs n)) by apply abs_csd.
  assert (N1 : NI G p (abs n1)) by (rewrite A1; apply NI_check_step_down; auto).
  destruct (opeer_eqb (Some from) (r_leader (core n1))) eqn:EL; cbn [negb] in E.
  2:{ injection E as <- <-. split; [apply SI_down; auto|]. left. sp; auto. right. unfold Reconf.append_req.
      change (r_term (abs n)) with (r_term (core n)). destruct (Z.ltb_spec t (r_term (core n))); [lia|]. cbv zeta. rewrite <- A1.
      change (r_leader (abs n1)) with (r_leader (core n1)). rewrite EL. cbn [negb]. rewrite abs_down. reflexivity. }
  assert (EL' : Some from = r_leader (core n1)).
  { destruct (r_leader (core n1)); cbn [opeer_eqb] in EL; [apply Z.eqb_eq in EL; congruence|discriminate EL]. }
  assert (HB : Reconf.append_req from t 0 0 [] 0 (abs n) = Some (abs n1, [])).
  { rewrite A1. eapply heartbeat; eauto. rewrite <- A1. exact EL'. }
  assert (ST : r_st (core n1) = RFoll). { destruct (check_step_down_term t from (abs n) L) as (_ & F & _). rewrite <- A1 in F. exact F. }
  assert (SM1 : s_sm n1 = s_sm n) by reflexivity. assert (AP1 : r_applied (core n1) = r_applied (core n)).
  { unfold n1, on. cbn [core]. unfold check_step_down. set (c1 := if r_term (core n) <? t then _ else _).
    assert (r_applied c1 = r_applied (core n)).
    { unfold c1. destruct (r_term (core n) <? t); auto. destruct (r_st (core n)); auto. destruct (r_leader (core n)); auto. }
    destruct (r_leader c1); auto. }
  assert (QUIET : SI n1 /\ (([] : list sout) = [] /\ s_sm n1 = s_sm n /\ beat from t (abs n) (abs n1) \/ False)).
  { split; auto. left. sp; auto. right. exact HB. }
  destruct ok; [|injection E as <- <-; split; [exact H1|left; sp; auto; right; exact HB]].
  destruct (s_save n1) eqn:SV; [injection E as <- <-; split; [exact H1|left; sp; auto; right; exact HB]|].
  change (li_index (s_snap n1)) with (mid n1) in E.
  destruct (Z.leb_spec (p_idx s) (mid n1)) as [LM|LM]; [injection E as <- <-; split; [exact H1|left; sp; auto; right; exact HB]|].
  assert (TRM : t = r_term (core n1)). { destruct (check_step_down_term t from (abs n) L) as (F & _). rewrite <- A1 in F. symmetry. exact F. }
  clearbody n1. clear QUIET.
  destruct (SI_bounds dec n1 H1) as (B1 & B2 & B3 & B4 & B5).
  destruct SP as (D1 & D2 & D3 & D4). set (D := p_data s) in *.
  assert (ZD : zlen D = p_idx s). { apply (f_equal zlen) in D1. rewrite zlen_firstn_le in D1 by lia. exact D1. }
  assert (ND : D <> []) by (intros X; rewrite X, zlen_nil in ZD; lia).
  destruct (compare_snap conf0 boot dec G p (abs n1) t D T0 i0 from l S N1 PD HL C LT ltac:(lia) ND) as [GT LE].
  change (r_applied (abs n1)) with (r_applied (core n1)) in GT, LE. change (r_log (abs n1)) with (hist n1) in GT, LE.
  rewrite ZD, <- D3, <- (q_at _ _ H1) in GT, LE.
  assert (XH : prefix (firstn (Z.to_nat (r_applied (core n1))) (hist n1)) (hist n1)) by apply prefix_firstn.
  assert (LX : zlen (firstn (Z.to_nat (r_applied (core n1))) (hist n1)) = r_applied (core n1)) by (apply zlen_firstn_le; lia).
  change (r_applied (core (set_disk s n1))) with (r_applied (core n1)) in E. change (s_aterm (set_disk s n1)) with (s_aterm n1) in E.
  destruct (id_gtb (mkId (r_applied (core n1)) (s_aterm n1)) (mkId (p_idx s) (p_term s))).
  { specialize (GT eq_refl). clear LE. injection E as <- <-. assert (PDH : prefix D (hist n1)) by (eapply prefix_trans; eauto).
    assert (SS : snap_is s (hist n1)).
    { unfold CompactInv.snap_is. fold D. pose proof (prefix_len _ _ PDH). sp; auto; try lia.
      - symmetry. apply prefix_firstn_eq; auto.
      - rewrite D3. apply term_at_prefix; auto. lia. }
    pose proof (prefix_len _ _ GT).
    destruct (SI_disk dec n1 s None H1 SS ltac:(lia) ltac:(discriminate)) as [HH S2].
    assert (EQ : set_save None (set_disk s n1) = set_disk s n1) by (unfold set_save, set_disk; rewrite SV; reflexivity).
    rewrite EQ in *. split; auto. left. sp; auto. right. rewrite HB. f_equal. f_equal. unfold abs. rewrite HH. reflexivity. }
  specialize (LE eq_refl). clear GT. unfold load in E.
  set (n2 := set_sm (p_data s) (p_idx s) (p_term s) (set_disk s n1)) in *. fold D in n2.
  assert (LEN := prefix_len _ _ LE). rewrite LX, ZD in LEN.
  assert (HH2 : hist n2 = hist n1).
  { destruct (zlen_hist dec n1 H1) as [Z0 _]. unfold hist, n2. cbn [set_sm set_disk core s_first s_disk set_applied r_log]. f_equal. fold D.
    transitivity (firstn (Z.to_nat (s_first n1 - 1)) (firstn (Z.to_nat (r_applied (core n1))) (hist n1))).
    - symmetry. apply firstn_prefix_eq; auto. lia.
    - rewrite firstn_firstn. replace (Nat.min _ _) with (Z.to_nat (s_first n1 - 1)) by lia. unfold hist.
      set (A := firstn (Z.to_nat (s_first n1 - 1)) (p_data (s_disk n1))) in *. rewrite firstn_app. rewrite (firstn_all2 A) by (unfold zlen in *; lia).
      replace (Z.to_nat (s_first n1 - 1) - length A)%nat with 0%nat by (unfold zlen in *; lia). cbn [firstn]. apply app_nil_r. }
  pose proof (NI_posl conf0 boot dec _ _ _ N1) as PL. change (r_log (abs n1)) with (hist n1) in PL.
  pose proof (i_wfl _ _ _ _ _ _ N1) as WH. change (r_log (abs n1)) with (hist n1) in WH.
  assert (IB : Inv0 (r_box (abs n1))) by apply N1.
  assert (PE : BallotBox.pend (r_box (abs n1)) = 0). { eapply (i_foll _ _ _ _ _ _ N1). change (r_st (abs n1)) with (r_st (core n1)). congruence. }
  pose proof (i_sync _ _ _ _ _ _ N1) as SY. change (r_log (abs n1)) with (hist n1) in SY. change (r_sync (abs n1)) with (r_sync (core n1)) in SY.
  assert (AA : forall a2, follow_append 0 D (abs n1) = a2 -> r_box a2 = r_box (abs n1) ->
     Reconf.append_req from t 0 0 D (p_idx s) (abs n) =
     Some (set_box (BallotBox.mkBox (Z.max (lc (abs n1)) (p_idx s)) 0 (BallotBox.bq (r_box (abs n1))) (BallotBox.cq (r_box (abs n1)))) a2,
        [ROSend (RAck (r_self a2) t (p_idx s))])).
  { intros a2 F2 FB. unfold Reconf.append_req. change (r_term (abs n)) with (r_term (core n)). destruct (Z.ltb_spec t (r_term (core n))); [lia|].
    cbv zeta. rewrite <- A1. change (r_leader (abs n1)) with (r_leader (core n1)). rewrite EL. cbn [negb]. rewrite term_at_0.
    change (negb (0 =? 0)) with false. cbv iota. rewrite F2. replace (0 + zlen D) with (p_idx s) by lia. rewrite Z.min_id.
    rewrite (set_committed_up (p_idx s) a2) by (rewrite FB; auto). unfold lc. rewrite FB. clear - ND. destruct D; [congruence|]. reflexivity. }
  destruct (set_snapshot s n2) as [n3|] eqn:E3; [|discriminate E]. injection E as <- <-.
  assert (MX : Z.max (lc (abs n1)) (p_idx s) = Z.max (BallotBox.lc (r_box (core n1))) (p_idx s)).
  { unfold lc. change (BallotBox.lc (r_box (abs n1))) with (Z.max (BallotBox.lc (r_box (core n1))) (mid n1)). lia. }
  destruct (follow_whole G (abs n1) t D S WH PD ND) as [[PH FW]|[NPH FW]]; change (r_log (abs n1)) with (hist n1) in *.
  - (* the entries are there *)
    pose proof (prefix_len _ _ PH) as LH. rewrite ZD in LH.
    assert (SS : snap_is s (hist n1)).
    { unfold CompactInv.snap_is. fold D. sp; auto; try lia.
      - symmetry. apply prefix_firstn_eq; auto.
      - rewrite D3. apply term_at_prefix; auto. lia. }
    assert (S2 : SI n2).
    { destruct H1. constructor; rewrite ?HH2; change (mid n2) with (mid n1); change (r_applied (core n2)) with (p_idx s);
        change (s_first n2) with (s_first n1); change (s_virt n2) with (s_virt n1); change (s_snap n2) with (s_snap n1); change (s_sconf n2) with (s_sconf n1);
        change (s_disk n2) with s; change (s_save n2) with (s_save n1); change (s_sm n2) with D; change (s_aterm n2) with (p_term s); auto; try lia.
      - symmetry. apply prefix_firstn_eq; auto.
      - destruct SS as (_ & _ & X & _). exact X.
      - rewrite SV. intros s' b X. discriminate X. }
    destruct (set_snapshot_eq dec n2 s n3 S2 eq_refl ltac:(rewrite HH2; exact PL) LS E3) as (A3 & S3 & H3 & M3 & SV3 & SM3 & C3).
    assert (LL : last_index n3 = zlen (hist n1)) by (rewrite <- HH2, <- H3; symmetry; apply (zlen_hist dec); auto).
    split; [apply SI_same; auto|]. right. split; [reflexivity|]. split; [exact SM3|]. split; [rewrite <- SM1, (q_sm _ _ H1); exact LE|].
    assert (AQ := AA _ FW eq_refl). match type of AQ with _ = Some (?x, _) => exists x end. split; [exact AQ|]. clear AQ. sp.
    + unfold abs at 1. rewrite hist_same by reflexivity. rewrite H3, HH2.
      change (mid (on _ n3)) with (mid n3). rewrite M3. unfold on. cbn [core]. rewrite C3, LL. rewrite MX. 
      unfold absc, mx, n2. cbn [set_sm set_disk core set_applied set_log set_box r_self r_st r_term r_voted r_leader r_log r_sync r_box r_applied r_ballot r_stage r_done BallotBox.lc BallotBox.pend BallotBox.bq BallotBox.cq abs absc mx].
      change (BallotBox.pend (r_box (abs n1))) with (BallotBox.pend (r_box (core n1))) in PE. rewrite PE, ZD.
      rewrite Z.min_l by lia. reflexivity.
    + exact AP1.
    + cbn [set_box set_log r_applied abs absc]. lia.
    + cbn [set_box set_log r_box lc BallotBox.lc]. unfold lc at 1. cbn [r_box set_box BallotBox.lc]. lia.
    + exact PH.
  - (* they replace the log *)
    assert (LL : last_index n2 = zlen (hist n1)). { unfold last_index, n2. cbn [set_sm set_disk core s_first set_applied r_log]. rewrite B5. reflexivity. }
    assert (FIN : core n3 = set_log [] (r_sync (core n1)) (set_applied (p_idx s) (core n1)) /\ s_first n3 = p_idx s + 1 /\ s_virt n3 = mkId (p_idx s) (p_term s) /\
       s_snap n3 = mkId (p_idx s) (p_term s) /\ s_sconf n3 = p_conf s /\ s_disk n3 = s /\ s_save n3 = None /\ s_sm n3 = D /\ s_aterm n3 = p_term s).
    { unfold set_snapshot in E3. change (li_index (s_snap n2)) with (mid n1) in E3. destruct (Z.leb_spec (p_idx s) (mid n1)); [lia|]. cbv zeta in E3.
      assert (TS : sterm n2 (p_idx s) = term_at (hist n1) (p_idx s)).
      { rewrite <- (sterm_at dec n1 (p_idx s) H1) by lia. unfold sterm. rewrite LL, <- B5. reflexivity. }
      rewrite TS in E3. destruct (Z.eqb_spec (term_at (hist n1) (p_idx s)) 0) as [Z0|NZ].
      - apply term_pos in Z0; auto; [|lia]. unfold truncate_prefix in E3. cbn [set_virt set_snap s_first core] in E3.
        change (s_first n2) with (s_first n1) in E3. destruct (Z.ltb_spec (p_idx s + 1) (s_first n1)); [lia|]. injection E3 as <-.
        cbn [core s_first s_virt s_snap s_sconf s_disk s_save s_sm s_aterm set_virt set_snap]. sp; auto.
        unfold n2. cbn [set_sm set_disk core]. change (r_log (set_applied (p_idx s) (core n1))) with (r_log (core n1)).
        rewrite skipn_all2; [reflexivity|]. unfold last_index in B5. unfold zlen in *. lia.
      - destruct (Z.eqb_spec (term_at (hist n1) (p_idx s)) (p_term s)) as [EQ|NQ].
        + exfalso. apply NPH. destruct (wfl_match (gll G) (hist n1) D (p_idx s)) as (x & X1 & X2 & X3); auto; try congruence.
          { eapply wfl_prefix; [apply (G_ll_wfl _ _ _ t S)|exact PD]. }
          assert (x = D) as <- by (eapply prefix_eq; [exact X3|apply prefix_refl|lia]). exact X2.
        + injection E3 as <-. unfold reset. cbn [core s_first s_virt s_snap s_sconf s_disk s_save s_sm s_aterm set_virt set_snap]. sp; auto. }
    destruct FIN as (F1 & F2 & F3 & F4 & F5 & F6 & F7 & F8 & F9).
    assert (H3 : hist n3 = D).
    { unfold hist. rewrite F1, F2, F6. cbn [set_log r_log]. rewrite app_nil_r. fold D. apply firstn_zall. lia. }
    assert (M3 : mid n3 = p_idx s) by (unfold mid; rewrite F4; reflexivity).
    assert (S3 : SI n3).
    { assert (SS : snap_is s D) by (unfold CompactInv.snap_is; sp; auto; lia).
      constructor; rewrite ?H3, ?M3, ?F2, ?F3, ?F4, ?F5, ?F6, ?F7, ?F8, ?F9, ?F1; cbn [set_log set_applied r_applied li_index li_term]; auto; try lia.
      - intros _ b. rewrite <- D1. apply D4. lia.
      - right. replace (p_idx s + 1 - 1) with (p_idx s) by lia. auto.
      - discriminate. }
    assert (L3 : last_index n3 = p_idx s) by (rewrite <- ZD, <- H3; symmetry; apply (zlen_hist dec); auto).
    split; [apply SI_same; auto|]. right. split; [reflexivity|]. split; [exact F8|]. split; [rewrite <- SM1, (q_sm _ _ H1); exact LE|].
    assert (AQ := AA _ FW eq_refl). match type of AQ with _ = Some (?x, _) => exists x end. split; [exact AQ|]. clear AQ. sp.
    + unfold abs at 1. rewrite hist_same by reflexivity. rewrite H3. change (mid (on _ n3)) with (mid n3). rewrite M3.
      unfold on. cbn [core]. rewrite F1, L3. rewrite MX, ZD.
      unfold absc, mx. cbn [set_applied set_log set_box r_self r_st r_term r_voted r_leader r_log r_sync r_box r_applied r_ballot r_stage r_done BallotBox.lc BallotBox.pend BallotBox.bq BallotBox.cq abs absc mx].
      change (BallotBox.pend (r_box (abs n1))) with (BallotBox.pend (r_box (core n1))) in PE. rewrite PE.
      rewrite Z.min_r by lia. reflexivity.
    + exact AP1.
    + cbn [set_box set_log r_applied abs absc]. lia.
    + unfold lc at 1. cbn [r_box set_box BallotBox.lc]. lia.
    + apply prefix_refl.
Qed.

(** restart *)
Lemma sim_crash : forall G p n k n' o, NI G p (abs n) -> SI n -> crash k n = Some (n', o) ->
  SI n' /\ exists a, Reconf.crash (Z.max k (p_idx (s_disk n))) (p_idx (s_disk n)) (abs n) = Some a /\ abs n' = a /\
  s_sm n' = p_data (s_disk n) /\ prefix (p_data (s_disk n)) (s_sm n) /\ (o = [] \/ o = [SOLoad (p_data (s_disk n))]).
Proof.
  intros G p n k n' o N H E. unfold crash in E. cbv zeta in E.
  destruct ((r_sync (core n) <=? k) && (k <=? last_index n)) eqn:B; [|discriminate E].
  apply andb_prop in B. destruct B as [K1 K2]. apply Z.leb_le in K1, K2.
  destruct (SI_bounds dec n H) as (B1 & B2 & B3 & B4 & B5). pose proof (q_mid _ _ H) as QM. pose proof (q_disk _ _ H) as QD.
  destruct (zlen_hist dec n H) as [Z0 _].
  pose proof (i_sync _ _ _ _ _ _ N) as SY. change (r_log (abs n)) with (hist n) in SY. change (r_sync (abs n)) with (r_sync (core n)) in SY.
  pose proof (NI_posl conf0 boot dec _ _ _ N) as PL. change (r_log (abs n)) with (hist n) in PL.
  destruct (q_data _ _ H) as (D1 & D2 & D3 & D4). set (s := s_disk n) in *. set (D := p_data s) in *. set (d := p_idx s) in *.
  set (k' := Z.max k d).
  assert (ZD : zlen D = d) by (rewrite D1; apply zlen_firstn_le; lia).
  assert (PS : prefix D (s_sm n)). { rewrite (q_sm _ _ H), D1. apply prefix_firstn2. lia. }
  assert (RC : Reconf.crash k' d (abs n) = Some (mkR (r_self (core n)) RFoll (r_term (core n)) (r_voted (core n)) None (firstn (Z.to_nat k') (hist n)) k'
              (BallotBox.mkBox d 0 [] (BallotBox.mkCQ 0 [])) d (ballot_init [] None) SNone [])).
  { unfold Reconf.crash. change (r_sync (abs n)) with (r_sync (core n)). change (r_log (abs n)) with (hist n). change (r_applied (abs n)) with (r_applied (core n)).
    destruct (Z.leb_spec (r_sync (core n)) k'); [|lia]. destruct (Z.leb_spec k' (zlen (hist n))); [|lia].
    destruct (Z.leb_spec 0 d); [|lia]. destruct (Z.leb_spec d (r_applied (core n))); [|lia]. destruct (Z.leb_spec d k'); [|lia]. reflexivity. }
  set (log0 := firstn (Z.to_nat (k - (s_first n - 1))) (r_log (core n))) in *.
  set (n0 := mkS _ _ _ _ _ _ _ _ _) in E.
  assert (HF : forall j, s_first n - 1 <= j -> firstn (Z.to_nat j) (hist n) = firstn (Z.to_nat (s_first n - 1)) D ++ firstn (Z.to_nat (j - (s_first n - 1))) (r_log (core n))).
  { intros j Hj. unfold hist. fold s. fold D. set (A := firstn (Z.to_nat (s_first n - 1)) D) in *. rewrite firstn_app.
    rewrite (firstn_all2 A) by (unfold zlen in *; lia). f_equal. f_equal. unfold zlen in *. lia. }
  assert (ZL : zlen log0 = Z.max 0 (k - (s_first n - 1))).
  { unfold log0. rewrite zlen_firstn. unfold last_index in K2. pose proof (zlen_nonneg (r_log (core n))). unfold zlen in *. lia. }
  destruct (Z.ltb_spec 0 d) as [PD|PD].
  2:{ assert (d = 0) as D0 by lia. injection E as <- <-.
      assert (F1 : s_first n = 1) by lia. assert (DN : D = []) by (apply zlen_0_nil; lia).
      assert (HH : hist n0 = firstn (Z.to_nat k') (hist n)).
      { rewrite HF by lia. unfold hist, n0. cbn [core s_first s_disk r_log]. fold D. f_equal. unfold log0, k'. f_equal. lia. }
      split; [|eexists; sp; [exact RC| | |exact PS|auto]].
      - constructor; cbn [n0 core s_first s_virt s_snap s_sconf s_disk s_save s_sm s_aterm r_applied mid li_index li_term]; fold s; fold d; try lia; auto.
        + apply zlen_nonneg.
        + unfold CompactInv.snap_is. fold D d. sp; try lia.
          * rewrite D0, DN. reflexivity.
          * rewrite D0. apply zlen_nonneg.
          * rewrite D3, D0. reflexivity.
        + discriminate.
      - unfold abs. rewrite HH. unfold absc, mid, n0, mx. cbn [core s_snap li_index r_self r_st r_term r_voted r_leader r_log r_sync r_box r_applied r_ballot r_stage r_done].
        unfold k'. rewrite !D0. reflexivity.
      - cbn [n0 s_sm]. auto. }
  unfold load in E. set (n1 := set_sm _ _ _ n0) in E.
  destruct (set_snapshot s n1) as [n2|] eqn:E1; [|discriminate E]. injection E as <- <-.
  assert (LI1 : last_index n1 = s_first n - 1 + zlen log0) by reflexivity.
  assert (TP : 1 <= p_term s). { rewrite D3. apply posl_term; auto. lia. }
  assert (FIN : hist n2 = firstn (Z.to_nat k') (hist n) /\ (exists l, core n2 = set_log l k' (set_applied d (core n0))) /\
     1 <= s_first n2 <= d + 1 /\ s_snap n2 = mkId d (p_term s) /\ s_sconf n2 = p_conf s /\ s_disk n2 = s /\ s_save n2 = None /\ s_sm n2 = D /\ s_aterm n2 = p_term s /\
     (li_index (s_virt n2) = 0 \/ (s_virt n2 = mkId d (p_term s) /\ s_first n2 = d + 1))).
  { unfold set_snapshot in E1. change (li_index (s_snap n1)) with 0 in E1. fold d in E1. destruct (Z.leb_spec d 0); [lia|]. cbv zeta in E1.
    assert (TS : sterm n1 d = if (d <=? last_index n1) && (s_first n <=? d) then p_term s else 0).
    { unfold sterm. change (li_index (s_virt n1)) with 0. change (li_index (s_snap n1)) with 0. destruct (Z.eqb_spec d 0); [lia|].
      change (s_first n1) with (s_first n).
      destruct (Z.ltb_spec (last_index n1) d); destruct (Z.leb_spec d (last_index n1)); try lia; cbn [orb andb]; auto.
      destruct (Z.ltb_spec d (s_first n)); destruct (Z.leb_spec (s_first n) d); try lia; auto.
      change (r_log (core n1)) with log0. rewrite D3. unfold term_at. rewrite (znth_hist dec n d H) by lia.
      unfold log0. rewrite znth_firstn_eq; auto. lia. }
    rewrite TS in E1. destruct ((d <=? last_index n1) && (s_first n <=? d)) eqn:BB.
    - apply andb_prop in BB. destruct BB as [X1 X2]. apply Z.leb_le in X1, X2.
      destruct (Z.eqb_spec (p_term s) 0); [lia|]. rewrite Z.eqb_refl in E1. change (0 <? 0) with false in E1. injection E1 as <-.
      assert (KD : d <= k) by lia. sp; try reflexivity; cbn [set_snap s_first]; change (s_first n1) with (s_first n); try lia; auto.
      + rewrite HF by lia. unfold hist. cbn [set_snap core s_first s_disk]. change (r_log (core n1)) with log0. change (s_first n1) with (s_first n).
        change (s_disk n1) with s. fold D. f_equal. unfold log0, k'. f_equal. lia.
      + exists log0. reflexivity.
    - destruct (Z.eqb_spec 0 0); [|lia]. unfold truncate_prefix in E1. cbn [set_virt set_snap s_first] in E1. change (s_first n1) with (s_first n) in E1.
      destruct (Z.ltb_spec (d + 1) (s_first n)); [lia|]. injection E1 as <-.
      cbn [core s_first s_virt s_snap s_sconf s_disk s_save s_sm s_aterm set_virt set_snap li_index]. sp; try lia; auto.
      + unfold hist at 1. cbn [core s_first s_disk set_log r_log]. change (s_disk n1) with s. change (r_log (core n1)) with log0. fold D.
        replace (d + 1 - 1) with d by lia. rewrite (firstn_zall D) by lia.
        rewrite (HF k') by lia.
        assert (DE : D = firstn (Z.to_nat (s_first n - 1)) D ++ firstn (Z.to_nat (d - (s_first n - 1))) (r_log (core n))) by (rewrite <- HF by lia; exact D1).
        rewrite DE at 1. rewrite <- app_assoc. f_equal.
        apply andb_false_iff in BB. destruct BB as [X|X]; apply Z.leb_gt in X.
        * rewrite (skipn_all2 log0) by (unfold zlen in *; lia). rewrite app_nil_r. f_equal. unfold k'. lia.
        * assert (d = s_first n - 1) by lia. replace (d - (s_first n - 1)) with 0 by lia. replace (d + 1 - s_first n) with 0 by lia. change (Z.to_nat 0) with 0%nat. cbn [firstn skipn app].
          unfold log0, k'. destruct (Z.le_ge_cases k d).
          -- replace (k - (s_first n - 1)) with (k - d) by lia. replace (Z.max k d - (s_first n - 1)) with 0 by lia.
             replace (Z.to_nat (k - d)) with 0%nat by lia. reflexivity.
          -- f_equal. lia.
      + eexists. reflexivity. }
  destruct FIN as (HH & [l2 F1] & F2 & F3 & F4 & F5 & F6 & F7 & F8 & F9).
  assert (M2 : mid n2 = d) by (unfold mid; rewrite F3; reflexivity).
  assert (AP : r_applied (core n2) = d) by (rewrite F1; reflexivity).
  assert (ZK : zlen (firstn (Z.to_nat k') (hist n)) = k') by (apply zlen_firstn_le; lia).
  assert (SS : snap_is s (firstn (Z.to_nat k') (hist n))).
  { unfold CompactInv.snap_is. fold D d. sp; try lia; auto.
    - rewrite firstn_firstn. rewrite D1. f_equal. lia.
    - rewrite term_firstn by lia. exact D3. }
  split.
  - constructor; rewrite ?HH, ?M2, ?AP, ?F3, ?F4, ?F5, ?F6, ?F7, ?F8; fold d; try lia; auto.
    + rewrite term_firstn by lia. exact D3.
    + intros _ b. rewrite firstn_firstn. replace (Nat.min (Z.to_nat d) (Z.to_nat k')) with (Z.to_nat d) by lia. rewrite <- D1. apply D4. lia.
    + destruct F9 as [X|[X Y]]; auto. right. rewrite X, Y. cbn [li_index li_term]. replace (d + 1 - 1) with d by lia. split; auto. rewrite term_firstn by lia. exact D3.
    + rewrite firstn_firstn. replace (Nat.min (Z.to_nat d) (Z.to_nat k')) with (Z.to_nat d) by lia. exact D1.
    + rewrite term_firstn by lia. exact D3.
    + discriminate.
  - eexists. sp; [exact RC| |exact F7|exact PS|auto]. unfold abs. rewrite HH, M2, F1. unfold absc, n0, mx.
    cbn [core set_log set_applied r_self r_st r_term r_voted r_leader r_log r_sync r_box r_applied r_ballot r_stage r_done].
    cbn [BallotBox.box_init BallotBox.lc BallotBox.pend BallotBox.bq BallotBox.cq]. rewrite Z.max_r by lia. reflexivity.
Qed.
End Inst.
