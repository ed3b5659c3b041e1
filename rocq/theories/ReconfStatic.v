(** Why membership changes are safe: a static argument about the logs of leaders, the votes
    that elected them and the acknowledgements that committed their entries. *)
From Verif Require Import Base BaseLemmas LogEntry Ballot QuorumSpec BallotProofs Node LogPrefix Reconf.
From Verif Require ConfCtx.

Ltac sp := repeat match goal with |- _ /\ _ => split end.

Lemma znth_firstn_eq : forall {A} (l : list A) n i, i < Z.of_nat n -> znth (firstn n l) i = znth l i.
Proof.
  intros A l n i H. unfold znth. destruct (i <? 0) eqn:E; auto. apply Z.ltb_ge in E.
  rewrite nth_error_firstn. destruct (Nat.ltb_spec (Z.to_nat i) n); auto. lia.
Qed.
Lemma firstn_snoc : forall {A} (l : list A) k x, znth l k = Some x -> firstn (Z.to_nat (k + 1)) l = firstn (Z.to_nat k) l ++ [x].
Proof.
  intros A l k x H. pose proof (znth_some_bound _ _ _ H) as B.
  replace (Z.to_nat (k + 1)) with (S (Z.to_nat k)) by lia.
  unfold znth in H. destruct (k <? 0) eqn:E; [discriminate H|].
  revert H. generalize (Z.to_nat k) as n. clear. intros n; revert l.
  induction n; destruct l as [|a l]; cbn; intros H; try discriminate H.
  - inversion H; reflexivity.
  - f_equal. apply IHn; auto.
Qed.
Lemma firstn_zall : forall {A} (l : list A) k, zlen l <= k -> firstn (Z.to_nat k) l = l.
Proof. intros. apply firstn_all2. unfold zlen in *. lia. Qed.
Lemma zlen_firstn_le : forall {A} (l : list A) k, 0 <= k <= zlen l -> zlen (firstn (Z.to_nat k) l) = k.
Proof. intros. rewrite zlen_firstn. unfold zlen in *. lia. Qed.
Lemma prefix_firstn2 : forall {A} (l : list A) i j, i <= j -> prefix (firstn (Z.to_nat i) l) (firstn (Z.to_nat j) l).
Proof. intros. apply prefix_firstn_le. lia. Qed.
Lemma prefix_both : forall {A} (a b : list A), prefix a b -> prefix b a -> a = b.
Proof.
  intros A a b H1 H2. eapply prefix_eq; [exact H1|apply prefix_refl|].
  pose proof (prefix_len _ _ H1). pose proof (prefix_len _ _ H2). lia.
Qed.
Lemma firstn_prefix_eq : forall {A} (a b : list A) k, prefix a b -> k <= zlen a ->
  firstn (Z.to_nat k) a = firstn (Z.to_nat k) b.
Proof.
  intros A a b k [c ->] H. rewrite firstn_app.
  replace (Z.to_nat k - length a)%nat with 0%nat by (unfold zlen in H; lia). cbn. rewrite app_nil_r. reflexivity.
Qed.

(** longest common prefix *)
Lemma exists_lcp : forall X Y : list lent, exists Z, prefix Z X /\ prefix Z Y /\
  forall P, prefix P X -> prefix P Y -> zlen P <= zlen Z.
Proof.
  induction X as [|x X IH]; intros Y.
  - exists []. sp; try apply prefix_nil. intros P H _. apply prefix_len in H. exact H.
  - destruct Y as [|y Y].
    + exists []. sp; try apply prefix_nil. intros P _ H. apply prefix_len in H. exact H.
    + destruct (LogPrefix.lent_dec x y) as [->|N].
      * destruct (IH Y) as (Z & [a Ha] & [b Hb] & M). exists (y :: Z). sp.
        -- exists a. cbn. rewrite <- Ha. reflexivity.
        -- exists b. cbn. rewrite <- Hb. reflexivity.
        -- intros P [c Hc] [d Hd]. destruct P as [|p P]; [rewrite zlen_nil; pose proof (zlen_nonneg (y :: Z)); lia|].
           cbn in Hc, Hd. inversion Hc; inversion Hd; subst. rewrite !zlen_cons.
           assert (zlen P <= zlen Z); [|lia]. apply M; [exists c; auto|]. exists d. congruence.
      * exists []. sp; try apply prefix_nil. intros P [c Hc] [d Hd]. destruct P as [|p P]; [lia|].
        cbn in Hc, Hd. inversion Hc; inversion Hd; congruence.
Qed.

Section Static.
Variable conf0 : list peer.
Variable dec : Z -> option jconf.
(** the configuration in force after log [L] *)
Definition cfg (L : list lent) : jconf := last_conf dec (ConfCtx.to_set conf0, None) L.
Definition confat (L : list lent) (j : Z) : option jconf :=
  match znth L (j - 1) with Some e => dec (l_val e) | None => None end.

Lemma last_conf_app : forall a c b, last_conf dec c (a ++ b) = last_conf dec (last_conf dec c a) b.
Proof. induction a; intros; cbn [app last_conf]; auto. Qed.
Lemma cfg_snoc : forall L e, cfg (L ++ [e]) = match dec (l_val e) with Some c => c | None => cfg L end.
Proof. intros. unfold cfg. rewrite last_conf_app. reflexivity. Qed.
Lemma cfg_next : forall L k, 0 <= k < zlen L ->
  cfg (firstn (Z.to_nat (k + 1)) L) = match confat L (k + 1) with Some c => c | None => cfg (firstn (Z.to_nat k) L) end.
Proof.
  intros L k H. unfold confat. replace (k + 1 - 1) with k by lia.
  destruct (znth_in_bound L k H) as [e He]. rewrite He.
  rewrite (firstn_snoc _ _ _ He). apply cfg_snoc.
Qed.
Lemma confat_prefix : forall a b j, prefix a b -> j <= zlen a -> confat b j = confat a j.
Proof.
  intros a b j [c ->] H. unfold confat. destruct (Z.le_gt_cases 1 j).
  - rewrite znth_app1 by lia. reflexivity.
  - unfold znth. destruct (Z.ltb_spec (j - 1) 0); [reflexivity|lia].
Qed.

Variable ll : Z -> list lent.
Variable el : list (Z * peer * list lent).
Variable ak : peer -> Z -> Z -> Prop.

Definition PX (T i : Z) : list lent := firstn (Z.to_nat i) (ll T).
Definition own (T i : Z) : Prop := 1 <= i <= zlen (ll T) /\ term_at (ll T) i = T.
Definition committed (T i : Z) : Prop :=
  own T i /\ exists Q, quorum (fst (cfg (PX T i))) (snd (cfg (PX T i))) Q /\ forall n, In n Q -> ak n T i.

Definition el_ok : Prop := forall t p l, In (t, p, l) el ->
  wfl ll l /\ 1 <= t /\ (forall e, In e l -> 1 <= l_term e < t) /\
  exists v es, ll t = l ++ mkL t v :: es /\ dec v = Some (cfg l) /\ forall e, In e es -> l_term e = t.
Definition el_all : Prop := forall t, ll t <> [] -> exists p l, In (t, p, l) el.
Definition el_uniq : Prop := forall t p l p' l', In (t, p, l) el -> In (t, p', l') el -> p = p' /\ l = l'.
Definition chain : Prop := forall w p l j, In (w, p, l) el -> zlen l + 1 < j -> confat (ll w) j <> None ->
  exists j' i', zlen l + 1 <= j' /\ j' <= i' < j /\ confat (ll w) j' <> None /\
    (forall k, j' < k < j -> confat (ll w) k = None) /\ committed w i' /\
    overlapping (cfg (PX w (j - 1))) (cfg (PX w j)).
Definition conf_wf : Prop := forall t e c, In e (ll t) -> dec (l_val e) = Some c -> wf_jconf c.
Definition lacks (T i U : Z) : Prop :=
  exists U' p' l', T < U' <= U /\ In (U', p', l') el /\ ~ prefix (PX T i) l'.
Definition el_ev (vt : peer -> Z -> peer -> Prop) : Prop := forall t p l, In (t, p, l) el ->
  exists Q, quorum (fst (cfg l)) (snd (cfg l)) Q /\ forall n, In n Q -> vt n t p /\
    forall T i, T < t -> ak n T i -> prefix (PX T i) l \/ lacks T i (t - 1).

Hypothesis E1 : el_ok.
Hypothesis E2 : el_all.
Hypothesis E3 : el_uniq.
Hypothesis E4 : chain.
Hypothesis E5 : conf_wf.

Lemma PX_len : forall T i, 0 <= i <= zlen (ll T) -> zlen (PX T i) = i.
Proof. intros. apply zlen_firstn_le; auto. Qed.
Lemma PX_prefix : forall T i, prefix (PX T i) (ll T).
Proof. intros. apply prefix_firstn. Qed.
Lemma ll_wfl : forall t, wfl ll (ll t).
Proof.
  intros t. destruct (ll t) as [|x r] eqn:E; [apply wfl_nil|].
  destruct (E2 t) as (p & l & H). { rewrite E. discriminate. }
  destruct (E1 _ _ _ H) as (W & _ & _ & v & es & EL & _ & T). rewrite <- E, EL.
  apply wfl_app with (t := t); auto.
  - intros e [He|He]; [subst e; reflexivity|auto].
  - rewrite <- EL. apply prefix_refl.
Qed.
Lemma own_el : forall T i, own T i -> exists p l, In (T, p, l) el /\ zlen l < i.
Proof.
  intros T i [B H]. destruct (E2 T) as (p & l & Hl). { intros E. rewrite E, zlen_nil in B. lia. }
  exists p, l. split; auto. destruct (E1 _ _ _ Hl) as (_ & _ & Tm & v & es & EL & _ & _).
  destruct (Z.lt_ge_cases (zlen l) i) as [|L]; auto. exfalso.
  rewrite EL, term_at_app1 in H by lia.
  destruct (term_at_in l i) as (a & e & b & Ea & _ & He). { lia. }
  assert (1 <= l_term e < T). { apply Tm. rewrite Ea. apply in_elt. } lia.
Qed.
Lemma el_own : forall T p l i, In (T, p, l) el -> zlen l < i <= zlen (ll T) -> own T i.
Proof.
  intros T p l i H B. pose proof (zlen_nonneg l). split; [lia|].
  destruct (E1 _ _ _ H) as (_ & _ & _ & v & es & EL & _ & Te).
  destruct (term_at_in (ll T) i) as (a & e & b & Ea & Za & He). { lia. }
  rewrite <- He. rewrite EL in Ea.
  assert (Hp : prefix l a). { eapply prefix_comparable; [exists (mkL T v :: es); reflexivity|exists (e :: b); exact Ea|]. lia. }
  destruct Hp as [m ->]. rewrite <- app_assoc in Ea. apply app_inv_head in Ea.
  destruct m as [|x m]; cbn in Ea; inversion Ea; subst; auto.
  apply Te. apply in_elt.
Qed.
Lemma own_pos : forall T i, own T i -> 1 <= T.
Proof. intros T i H. destruct (own_el _ _ H) as (p & l & Hl & _). destruct (E1 _ _ _ Hl) as (_ & P & _). auto. Qed.
Lemma wfl_at : forall L j, wfl ll L -> 1 <= j <= zlen L ->
  own (term_at L j) j /\ firstn (Z.to_nat j) L = PX (term_at L j) j.
Proof.
  intros L j W B. destruct (term_at_in L j B) as (a & e & b & EL & Za & He).
  pose proof (W _ _ _ EL) as P. rewrite He in P.
  assert (Hf : firstn (Z.to_nat j) L = a ++ [e]).
  { apply prefix_firstn_eq. exists b. rewrite EL, <- app_assoc. reflexivity. rewrite zlen_app, zlen_cons, zlen_nil. lia. }
  assert (Hz : zlen (a ++ [e]) = j) by (rewrite zlen_app, zlen_cons, zlen_nil; lia).
  split.
  - split.
    + pose proof (prefix_len _ _ P). lia.
    + rewrite <- (term_at_prefix _ _ j P) by lia. rewrite term_at_mid' by lia. exact He.
  - rewrite Hf. unfold PX. symmetry. apply prefix_firstn_eq; auto.
Qed.
Lemma l_of_prefix : forall T p l i, In (T, p, l) el -> own T i -> prefix l (PX T i).
Proof.
  intros T p l i H O. destruct (own_el _ _ O) as (p' & l' & H' & B). destruct (E3 _ _ _ _ _ H H') as [-> ->].
  destruct (E1 _ _ _ H) as (_ & _ & _ & v & es & EL & _ & _).
  eapply prefix_comparable; [exists (mkL T v :: es); exact EL|apply PX_prefix|].
  destruct O as [O _]. rewrite PX_len; lia.
Qed.

(** the configurations met between a common prefix and a log *)
Lemma beyond : forall X Z0, wfl ll X -> prefix Z0 X ->
  (forall w i j, committed w i -> i < j <= zlen X -> term_at X j = w -> i <= zlen Z0) ->
  cfg X = cfg Z0 \/
  exists j j', zlen Z0 < j <= zlen X /\ overlapping (cfg Z0) (cfg X) /\ 1 <= j' <= zlen Z0 /\
     confat Z0 j' <> None /\ term_at Z0 j' = term_at X j /\ (forall k, j' < k <= zlen Z0 -> confat Z0 k = None).
Proof.
  intros X Z0 W PZ H.
  assert (G : forall d k, d = Z.to_nat (k - zlen Z0) -> zlen Z0 <= k <= zlen X ->
    cfg (firstn (Z.to_nat k) X) = cfg Z0 \/
    exists j j', zlen Z0 < j <= k /\ confat X j <> None /\ overlapping (cfg Z0) (cfg (firstn (Z.to_nat k) X)) /\ 1 <= j' <= zlen Z0 /\
     confat Z0 j' <> None /\ term_at Z0 j' = term_at X j /\ (forall k, j' < k <= zlen Z0 -> confat Z0 k = None)).
  { induction d as [|d IH]; intros k Hd B.
    - left. assert (k = zlen Z0) as -> by lia. f_equal. apply prefix_firstn_eq; auto.
    - assert (BZ := zlen_nonneg Z0).
      specialize (IH (k - 1) ltac:(lia) ltac:(lia)).
      pose proof (cfg_next X (k - 1) ltac:(lia)) as N. replace (k - 1 + 1) with k in N by lia.
      destruct (confat X k) as [c|] eqn:EC.
      2:{ rewrite N. destruct IH as [IH|(j & j' & R)]; auto. right. exists j, j'. intuition lia. }
      destruct (wfl_at X k W ltac:(lia)) as [O F].
      set (w := term_at X k) in *. destruct (own_el _ _ O) as (p & l & Hl & Bl).
      assert (PXX : prefix (PX w k) X). { rewrite <- F. apply prefix_firstn. }
      assert (Lk : zlen (PX w k) = k). { apply PX_len. destruct O; lia. }
      assert (CA : forall m, m <= k -> confat (ll w) m = confat X m).
      { intros m Hm. rewrite (confat_prefix _ _ m (PX_prefix w k)) by lia.
        rewrite (confat_prefix _ _ m PXX) by lia. reflexivity. }
      destruct (Z.eq_dec k (zlen l + 1)) as [Ek|Nk].
      + (* flush *)
        destruct (E1 _ _ _ Hl) as (_ & _ & _ & v & es & EL & Dv & _).
        assert (c = cfg l).
        { pose proof (CA k ltac:(lia)) as C. rewrite EC in C. unfold confat in C. rewrite EL in C.
          rewrite Ek in C. replace (zlen l + 1 - 1) with (zlen l) in C by lia.
          rewrite znth_app2 in C by lia. replace (zlen l - zlen l) with 0 in C by lia. rewrite znth_cons_0 in C.
          cbn [l_val] in C. congruence. }
        assert (F1 : firstn (Z.to_nat (k - 1)) X = l).
        { apply prefix_firstn_eq; [|lia]. eapply prefix_trans; [eapply l_of_prefix; eauto|exact PXX]. }
        rewrite F1 in IH. rewrite N, H0. destruct IH as [IH|(j & j' & R)]; auto. right. exists j, j'. intuition lia.
      + destruct (E4 w p l k Hl ltac:(lia)) as (j' & i' & B1 & B2 & C1 & C2 & CM & OV). { rewrite CA, EC by lia. discriminate. }
        assert (Hi : i' <= zlen Z0). { apply (H w i' k); auto. lia. }
        assert (F1 : firstn (Z.to_nat (k - 1)) X = PX w (k - 1)).
        { rewrite <- (firstn_prefix_eq _ _ (k - 1) PXX) by lia. unfold PX. rewrite firstn_firstn.
          f_equal. lia. }
        rewrite F1 in IH. rewrite F. destruct IH as [IH|(j & j1 & R1 & R2 & _)].
        * right. exists k, j'. rewrite <- IH. fold w.
          assert (CZ : forall m, m <= zlen Z0 -> confat Z0 m = confat (ll w) m).
          { intros m Hm. rewrite CA by lia. symmetry. apply confat_prefix; auto. }
          pose proof (zlen_nonneg l).
          split; [lia|]. split; [rewrite EC; discriminate|]. split; [exact OV|]. split; [lia|].
          split; [rewrite CZ by lia; auto|]. split.
          -- rewrite (term_at_prefix Z0 X j' PZ) by lia.
             rewrite <- (term_at_prefix _ _ j' PXX) by (rewrite Lk; lia).
             rewrite (term_at_prefix _ _ j' (PX_prefix w k)) by (rewrite Lk; lia).
             assert (own w j') as [_ T]; auto. eapply el_own; eauto. destruct O; lia.
          -- intros m Hm. rewrite CZ by lia. apply C2; lia.
        * exfalso. apply R2. rewrite <- CA by lia. apply C2. lia. }
  specialize (G _ (zlen X) eq_refl). rewrite firstn_zall in G by lia.
  pose proof (prefix_len _ _ PZ).
  destruct G as [G|(j & j' & R)]; [lia|auto|]. right. exists j, j'. tauto.
Qed.

Lemma conf_meet : forall X Y, wfl ll X -> wfl ll Y ->
  (forall w i j, committed w i -> i < j <= zlen X -> term_at X j = w -> prefix (PX w i) Y) ->
  (forall w i j, committed w i -> i < j <= zlen Y -> term_at Y j = w -> prefix (PX w i) X) ->
  overlapping (cfg X) (cfg Y) \/ overlapping (cfg Y) (cfg X).
Proof.
  intros X Y WX WY HX HY. destruct (exists_lcp X Y) as (Z0 & PZX & PZY & M).
  assert (LX : forall w i j, committed w i -> i < j <= zlen X -> term_at X j = w -> i <= zlen Z0).
  { intros w i j C B T. pose proof (HX _ _ _ C B T) as P1. destruct C as [[O _] _].
    rewrite <- (PX_len w i) by lia. apply M; auto.
    destruct (wfl_at X j WX ltac:(lia)) as [_ F]. rewrite T in F.
    eapply prefix_trans; [|apply prefix_firstn]. rewrite F. apply prefix_firstn2. lia. }
  assert (LY : forall w i j, committed w i -> i < j <= zlen Y -> term_at Y j = w -> i <= zlen Z0).
  { intros w i j C B T. pose proof (HY _ _ _ C B T) as P1. destruct C as [[O _] _].
    rewrite <- (PX_len w i) by lia. apply M; auto.
    destruct (wfl_at Y j WY ltac:(lia)) as [_ F]. rewrite T in F.
    eapply prefix_trans; [|apply prefix_firstn]. rewrite F. apply prefix_firstn2. lia. }
  destruct (beyond X Z0 WX PZX LX) as [EX|(jx & jx' & Bx & OX & Bx' & Cx & Tx & Nx)];
  destruct (beyond Y Z0 WY PZY LY) as [EY|(jy & jy' & By & OY & By' & Cy & Ty & Ny)].
  - left. rewrite EX, EY. destruct (cfg Z0). constructor.
  - left. rewrite EX. exact OY.
  - right. rewrite EY. exact OX.
  - exfalso.
    assert (jx' = jy').
    { destruct (Z.lt_total jx' jy') as [L|[L|L]]; auto; exfalso.
      - apply Cy. apply Nx. lia.
      - apply Cx. apply Ny. lia. }
    subst jy'. pose proof (zlen_nonneg Z0).
    destruct (wfl_at X jx WX ltac:(lia)) as [Ox Fx]. destruct (wfl_at Y jy WY ltac:(lia)) as [Oy Fy].
    rewrite <- Tx in Fx, Ox. rewrite <- Ty in Fy, Oy.
    destruct (Z.le_ge_cases jx jy).
    + assert (prefix (PX (term_at Z0 jx') jx) Y).
      { eapply prefix_trans; [|apply (prefix_firstn (Z.to_nat jy))]. rewrite Fy. apply prefix_firstn2. lia. }
      assert (zlen (PX (term_at Z0 jx') jx) <= zlen Z0). { apply M; auto. rewrite <- Fx. apply prefix_firstn. }
      rewrite PX_len in H2 by (destruct Ox; lia). lia.
    + assert (prefix (PX (term_at Z0 jx') jy) X).
      { eapply prefix_trans; [|apply (prefix_firstn (Z.to_nat jx))]. rewrite Fx. apply prefix_firstn2. lia. }
      assert (zlen (PX (term_at Z0 jx') jy) <= zlen Z0). { apply M; auto. rewrite <- Fy. apply prefix_firstn. }
      rewrite PX_len in H2 by (destruct Oy; lia). lia.
Qed.

Lemma last_conf_wf : forall L c, wf_jconf c -> (forall e d, In e L -> dec (l_val e) = Some d -> wf_jconf d) ->
  wf_jconf (last_conf dec c L).
Proof.
  induction L as [|e L IH]; intros c H HL; cbn [last_conf]; auto.
  apply IH; [|intros; eapply HL; [right; eauto|auto]].
  destruct (dec (l_val e)) eqn:E; auto. eapply HL; [left; reflexivity|auto].
Qed.
Lemma cfg_wf : forall L, wfl ll L -> wf_jconf (cfg L).
Proof.
  intros L W. apply last_conf_wf. { split; cbn; auto. apply NoDup_nodup. }
  intros e d He Hd. apply in_split in He. destruct He as (a & b & ->).
  eapply E5; [|exact Hd]. eapply prefix_In; [apply (W a e b eq_refl)|]. apply in_or_app; right; left; reflexivity.
Qed.
Lemma quorums_meet2 : forall X Y Q1 Q2, wfl ll X -> wfl ll Y ->
  overlapping (cfg X) (cfg Y) \/ overlapping (cfg Y) (cfg X) ->
  quorum (fst (cfg X)) (snd (cfg X)) Q1 -> quorum (fst (cfg Y)) (snd (cfg Y)) Q2 ->
  exists n, In n Q1 /\ In n Q2.
Proof.
  intros X Y Q1 Q2 WX WY [O|O] H1 H2.
  - eapply quorums_meet; [apply cfg_wf; exact WX|apply cfg_wf; exact WY| | |]; eauto.
  - destruct (quorums_meet (cfg Y) (cfg X) Q2 Q1) as (n & A & B); auto using cfg_wf. exists n; auto.
Qed.

Definition complete (U : Z) (l : list lent) : Prop := forall T i, T < U -> committed T i -> prefix (PX T i) l.

Lemma complete_step : forall U l, wfl ll l -> (forall e, In e l -> l_term e < U) ->
  (forall U' p' l', U' < U -> In (U', p', l') el -> complete U' l') ->
  (exists Q, quorum (fst (cfg l)) (snd (cfg l)) Q /\
     forall n, In n Q -> forall T i, T < U -> committed T i -> ak n T i -> prefix (PX T i) l) ->
  complete U l.
Proof.
  intros U l W TB IHU (Q & HQ & EV).
  assert (G : forall a T b i, a = Z.to_nat T -> b = Z.to_nat i -> T < U -> committed T i -> prefix (PX T i) l).
  { induction a as [a IHT] using lt_wf_ind. intros T b. revert T.
    induction b as [b IHi] using lt_wf_ind. intros T i Ha Hb HT C.
    destruct (prefix_dec (PX T i) l) as [|NP]; auto. exfalso.
    pose proof C as C'. destruct C' as [O (Q' & HQ' & AK)].
    pose proof (own_pos _ _ O) as PT.
    assert (Oi : 1 <= i <= zlen (ll T)) by (destruct O; auto).
    assert (WX : wfl ll (PX T i)). { eapply wfl_prefix; [apply ll_wfl|apply PX_prefix]. }
    assert (OV : overlapping (cfg (PX T i)) (cfg l) \/ overlapping (cfg l) (cfg (PX T i))).
    { apply conf_meet; auto.
      - intros w i' j Cw Bj Tj. rewrite PX_len in Bj by lia.
        assert (Ow : own w i') by apply Cw. pose proof (own_pos _ _ Ow).
        assert (Tw : w <= T).
        { rewrite <- Tj. assert (Hj := wfl_at (PX T i) j WX).
          destruct (own_el _ _ O) as (p & lT & HlT & BT). destruct (E1 _ _ _ HlT) as (_ & _ & Tm & v & es & EL & _ & Te).
          destruct (term_at_in (PX T i) j) as (x & e & y & Ex & _ & He). { rewrite PX_len by lia. destruct Ow. lia. }
          rewrite <- He. assert (In e (ll T)). { eapply prefix_In; [apply PX_prefix|]. rewrite Ex. apply in_elt. }
          rewrite EL in H0. apply in_app_or in H0. destruct H0 as [H0|[H0|H0]].
          - apply Tm in H0. lia.
          - subst e. cbn. lia.
          - apply Te in H0. lia. }
        destruct (Z.eq_dec w T) as [->|Nw].
        + apply (IHi (Z.to_nat i') ltac:(destruct Ow; lia) T i'); auto.
        + apply (IHT (Z.to_nat w) ltac:(lia) w (Z.to_nat i') i'); auto. lia.
      - intros w i' j Cw Bj Tj.
        assert (Ow : own w i') by apply Cw. pose proof (own_pos _ _ Ow).
        assert (Pl : prefix (PX w j) l).
        { destruct (wfl_at l j W) as [_ F]. { destruct Ow. lia. } rewrite Tj in F. rewrite <- F. apply prefix_firstn. }
        assert (Oj : own w j). { rewrite <- Tj. apply wfl_at; auto. destruct Ow. lia. }
        assert (Tw : w < U).
        { rewrite <- Tj. destruct (term_at_in l j) as (x & e & y & Ex & _ & He). { destruct Ow. lia. }
          rewrite <- He. apply TB. rewrite Ex. apply in_elt. }
        destruct (Z.lt_total w T) as [L|[->|L]].
        + destruct (own_el _ _ O) as (p & lT & HlT & BT).
          eapply prefix_trans; [eapply (IHU T p lT); eauto|]. eapply l_of_prefix; eauto.
        + destruct (Z.le_gt_cases i' i). { apply prefix_firstn2; auto. }
          exfalso. apply NP. eapply prefix_trans; [|exact Pl]. apply prefix_firstn2. lia.
        + exfalso. apply NP. destruct (own_el _ _ Oj) as (p & lw & Hlw & Bw).
          eapply prefix_trans; [eapply (IHU w p lw); eauto|].
          eapply prefix_trans; [eapply l_of_prefix; [exact Hlw|exact Oj]|exact Pl]. }
    destruct (quorums_meet2 _ _ _ _ WX W OV HQ' HQ) as (n & N1 & N2).
    apply NP. apply (EV n N2 T i HT C). apply AK; auto. }
  intros T i HT C. apply (G (Z.to_nat T) T (Z.to_nat i) i); auto.
Qed.

Variable vt : peer -> Z -> peer -> Prop.
Hypothesis E6 : el_ev vt.

Lemma complete_el : forall U p l, In (U, p, l) el -> complete U l.
Proof.
  assert (G : forall d U p l, d = Z.to_nat U -> In (U, p, l) el -> complete U l).
  { induction d as [d IH] using lt_wf_ind. intros U p l Hd H.
    destruct (E1 _ _ _ H) as (W & PU & Tm & _). 
    assert (IHU : forall U' p' l', U' < U -> In (U', p', l') el -> complete U' l').
    { intros U' p' l' L' H'. destruct (E1 _ _ _ H') as (_ & P' & _).
      eapply (IH (Z.to_nat U')); eauto. lia. }
    apply complete_step; auto. { intros e He. apply Tm; auto. }
    destruct (E6 _ _ _ H) as (Q & HQ & EV). exists Q. split; auto.
    intros n Hn T i HT C A. destruct (EV n Hn) as [_ E]. destruct (E T i HT A) as [|(U' & p' & l' & B' & H' & N)]; auto.
    exfalso. apply N. apply (IHU U' p' l'); auto; lia. }
  intros. eapply G; eauto.
Qed.

(** a candidate with a quorum of votes: it has every committed entry, and if the term
    already has a leader a common voter voted for both *)
Lemma candidate_complete : forall U l Q, wfl ll l -> (forall e, In e l -> l_term e < U) ->
  quorum (fst (cfg l)) (snd (cfg l)) Q ->
  (forall n, In n Q -> forall T i, T < U -> ak n T i -> prefix (PX T i) l \/ lacks T i U) ->
  complete U l.
Proof.
  intros U l Q W TB HQ EV. apply complete_step; auto.
  - intros. eapply complete_el; eauto.
  - exists Q. split; auto. intros n Hn T i HT C A.
    destruct (EV n Hn T i HT A) as [|(U' & p' & l' & B' & H' & N)]; auto.
    exfalso. apply N. apply (complete_el U' p' l'); auto; lia.
Qed.
Lemma candidate_meets : forall U l Q p' l', wfl ll l -> (forall e, In e l -> l_term e < U) ->
  quorum (fst (cfg l)) (snd (cfg l)) Q -> complete U l -> In (U, p', l') el ->
  exists n, In n Q /\ vt n U p'.
Proof.
  intros U l Q p' l' W TB HQ CM H'. destruct (E1 _ _ _ H') as (W' & _ & Tm & _).
  pose proof (complete_el _ _ _ H') as CM'.
  assert (OV : overlapping (cfg l) (cfg l') \/ overlapping (cfg l') (cfg l)).
  { apply conf_meet; auto.
    - intros w i j C B T. apply CM'; auto. rewrite <- T.
      destruct (term_at_in l j) as (x & e & y & Ex & _ & He). { destruct C as [[O _] _]. lia. }
      rewrite <- He. apply TB. rewrite Ex. apply in_elt.
    - intros w i j C B T. apply CM; auto. rewrite <- T.
      destruct (term_at_in l' j) as (x & e & y & Ex & _ & He). { destruct C as [[O _] _]. lia. }
      rewrite <- He. apply Tm. rewrite Ex. apply in_elt. }
  destruct (E6 _ _ _ H') as (Q' & HQ' & EV').
  destruct (quorums_meet2 _ _ _ _ W W' OV HQ HQ') as (n & N1 & N2).
  exists n. split; auto. apply EV'; auto.
Qed.
Lemma committed_prefixes : forall T i T' i', committed T i -> committed T' i' -> T <= T' ->
  prefix (PX T i) (PX T' i') \/ prefix (PX T' i') (PX T i).
Proof.
  intros T i T' i' C C' L. destruct (Z.eq_dec T T') as [->|N].
  - destruct (Z.le_ge_cases i i'); [left|right]; apply prefix_firstn2; lia.
  - left. destruct (own_el _ _ (proj1 C')) as (p & l & H & _).
    eapply prefix_trans; [eapply complete_el; [exact H|lia|exact C]|]. eapply l_of_prefix; eauto. apply C'.
Qed.
Lemma committed_ll : forall T i T' p l, committed T i -> T <= T' -> In (T', p, l) el -> prefix (PX T i) (ll T').
Proof.
  intros T i T' p l C L H. destruct (Z.eq_dec T T') as [->|N]; [apply PX_prefix|].
  eapply prefix_trans; [eapply complete_el; [exact H|lia|exact C]|].
  destruct (E1 _ _ _ H) as (_ & _ & _ & v & es & EL & _). exists (mkL T' v :: es). auto.
Qed.
End Static.
