(** The invariant of one node under the basic operations. *)
From Verif Require Import Base BaseLemmas LogEntry Ballot QuorumSpec BallotProofs BallotBoxProofs Node LogPrefix Reconf ReconfStatic ReconfInv ReconfGhost.
From Verif Require BallotBox BallotBoxSpec ConfCtx.

Section Steps.
Variable conf0 : list peer.
Variable boot : peer -> bool.
Variable dec : Z -> option jconf.
Notation cfg := (cfg conf0 dec).
Notation SF := (SF conf0 dec).
Notation cm := (cm conf0 dec).
Notation NI := (NI conf0 boot dec).
Notation Inv := (Inv conf0 boot dec).

(** the static facts, for the invariant's ghosts *)
Lemma G_own_el : forall G T i, SF G -> own (gll G) T i -> exists p l, In (T, p, l) (gel G) /\ zlen l < i.
Proof. intros G T i S. apply (own_el conf0 dec); apply S. Qed.
Lemma G_el_own : forall G T p l i, SF G -> In (T, p, l) (gel G) -> zlen l < i <= zlen (gll G T) -> own (gll G) T i.
Proof. intros G T p l i S. apply (el_own conf0 dec). apply S. Qed.
Lemma G_own_pos : forall G T i, SF G -> own (gll G) T i -> 1 <= T.
Proof. intros G T i S. apply (own_pos conf0 dec (gll G) (gel G)); apply S. Qed.
Lemma G_l_of_prefix : forall G T p l i, SF G -> In (T, p, l) (gel G) -> own (gll G) T i -> prefix l (PX (gll G) T i).
Proof. intros G T p l i S. apply (l_of_prefix conf0 dec); apply S. Qed.
Lemma G_ll_wfl : forall G t, SF G -> wfl (gll G) (gll G t).
Proof. intros G t S. apply (ll_wfl conf0 dec (gll G) (gel G)); apply S. Qed.
Lemma G_cm_ll : forall G T i T' p l, SF G -> cm G T i -> T <= T' -> In (T', p, l) (gel G) -> prefix (PX (gll G) T i) (gll G T').
Proof. intros G T i T' p l S. apply (committed_ll conf0 dec (gll G) (gel G) (gak G)) with (vt := gvt G); apply S. Qed.
Lemma G_complete : forall G U p l T i, SF G -> In (U, p, l) (gel G) -> T < U -> cm G T i -> prefix (PX (gll G) T i) l.
Proof.
  intros G U p l T i S H. revert T i.
  apply (complete_el conf0 dec (gll G) (gel G) (gak G)) with (vt := gvt G) (p := p); try apply S; auto.
Qed.
Lemma G_prefixes : forall G T i T' i', SF G -> cm G T i -> cm G T' i' ->
  prefix (PX (gll G) T i) (PX (gll G) T' i') \/ prefix (PX (gll G) T' i') (PX (gll G) T i).
Proof.
  intros G T i T' i' S H H'. destruct (Z.le_ge_cases T T') as [L|L].
  - apply (committed_prefixes conf0 dec (gll G) (gel G) (gak G)) with (vt := gvt G); try apply S; auto.
  - apply or_comm. apply (committed_prefixes conf0 dec (gll G) (gel G) (gak G)) with (vt := gvt G); try apply S; auto.
Qed.
Lemma G_ll_el : forall G t p l, SF G -> In (t, p, l) (gel G) -> prefix l (gll G t) /\ zlen l + 1 <= zlen (gll G t).
Proof.
  intros G t p l S H. destruct (s1 _ _ _ S _ _ _ H) as (_ & _ & _ & v & es & EL & _). rewrite EL.
  split; [apply prefix_app|]. rewrite zlen_app, zlen_cons. pose proof (zlen_nonneg es). lia.
Qed.
Lemma G_ll_pos : forall G t, SF G -> posl (gll G t).
Proof.
  intros G t S e He. destruct (s2 _ _ _ S t) as (p & l & H). { intros E. rewrite E in He. destruct He. }
  destruct (s1 _ _ _ S _ _ _ H) as (_ & P & Tm & v & es & EL & _ & Es). rewrite EL in He.
  apply in_app_or in He. destruct He as [X|[X|X]]; [apply Tm in X; lia|subst e; exact P|apply Es in X; lia].
Qed.
Lemma G_ll_tm : forall G t e, SF G -> In e (gll G t) -> l_term e <= t.
Proof.
  intros G t e S He. destruct (s2 _ _ _ S t) as (p & l & H). { intros E. rewrite E in He. destruct He. }
  destruct (s1 _ _ _ S _ _ _ H) as (_ & P & Tm & v & es & EL & _ & Es). rewrite EL in He.
  apply in_app_or in He. destruct He as [X|[X|X]]; [apply Tm in X; lia|subst e; cbn; lia|apply Es in X; lia].
Qed.

Lemma NI_step_down : forall G p n t, NI G p n -> NI G p (step_down t n).
Proof.
  intros G p n t H. destruct H. unfold step_down.
  set (b := match r_st n with RLead => _ | _ => _ end).
  assert (HB : Inv0 b /\ BallotBox.lc b = lc n /\ BallotBox.pend b = 0).
  { unfold b, lc. destruct (r_st n) eqn:E.
    - split; [|split; reflexivity]. exact (inv0_step _ BallotBox.EClear _ _ i_box eq_refl).
    - split; auto. split; auto. apply i_foll; discriminate.
    - split; auto. split; auto. apply i_foll; discriminate. }
  destruct HB as (HB1 & HB2 & HB3). clearbody b.
  set (u := r_term n <? t). set (t' := if u then t else r_term n).
  assert (Ht : r_term n <= t' /\ (u = true -> r_term n < t')).
  { unfold t', u. destruct (Z.ltb_spec (r_term n) t); split; intros; try lia; discriminate. }
  destruct Ht as [Ht1 Ht2].
  constructor; cbn [r_self r_st r_term r_voted r_leader r_log r_sync r_box r_applied r_ballot r_stage r_done]; auto;
    try (intros X; discriminate X).
  - lia.
  - intros e He. specialize (i_tm e He). lia.
  - intros t0 c Hv. specialize (i_vt _ _ Hv). lia.
  - intros c. fold t'. unfold t' in *. destruct u.
    + split; [discriminate|]. intros Hv. apply i_vt in Hv. specialize (Ht2 eq_refl). lia.
    + apply i_voted.
  - intros t0 l Hl. specialize (i_el _ _ Hl). lia.
  - intros T i Ha. destruct (i_ak T i Ha) as [B D]. split; [lia|]. destruct D as [D|D]; auto. right.
    eapply lacks_mono; eauto.
  - unfold lc in *. cbn [r_box]. rewrite HB2. destruct i_lc as [B D]. split; auto.
    destruct D as [D|(T0 & i0 & C & L & P)]; auto. right. exists T0, i0. sp; auto. lia.
  - unfold lc in *. cbn [r_box]. rewrite HB2. auto.
  - intros d Hd. specialize (i_done d Hd). lia.
Qed.
Lemma NI_set_leader : forall G p n x, NI G p n -> NI G p (set_leader x n).
Proof. intros G p n x H. destruct H. constructor; auto. Qed.
Lemma NI_sync : forall G p n k, NI G p n -> r_sync n <= k <= zlen (r_log n) -> NI G p (set_log (r_log n) k n).
Proof.
  intros G p n k H B. destruct H. constructor; auto.
  - cbn [set_log r_sync r_log]. lia.
  - cbn [set_log r_sync r_log r_term]. intros T i Ha. destruct (i_ak T i Ha) as [X [D|D]]; auto. split; auto. left.
    eapply prefix_trans; [exact D|]. apply prefix_firstn2. lia.
Qed.
Lemma NI_check_step_down : forall G p n t from, NI G p n -> NI G p (check_step_down t from n).
Proof.
  intros G p n t from H. unfold check_step_down.
  set (n1 := if _ <? _ then _ else _).
  assert (H1 : NI G p n1).
  { unfold n1. destruct (_ <? _); [apply NI_step_down; auto|].
    destruct (r_st n); try (apply NI_step_down; auto). destruct (r_leader n); [auto|apply NI_step_down; auto]. }
  clearbody n1. destruct (r_leader n1); [auto|apply NI_set_leader; auto].
Qed.
Lemma check_step_down_term : forall t from n, r_term n <= t ->
  r_term (check_step_down t from n) = t /\ r_st (check_step_down t from n) = RFoll /\
  r_log (check_step_down t from n) = r_log n /\ r_sync (check_step_down t from n) = r_sync n /\
  BallotBox.lc (r_box (check_step_down t from n)) = BallotBox.lc (r_box n) /\ r_self (check_step_down t from n) = r_self n.
Proof.
  intros t from n H. unfold check_step_down.
  set (n1 := if _ <? _ then _ else _).
  assert (H1 : r_term n1 = t /\ r_st n1 = RFoll /\ r_log n1 = r_log n /\ r_sync n1 = r_sync n /\
               BallotBox.lc (r_box n1) = BallotBox.lc (r_box n) /\ r_self n1 = r_self n).
  { assert (D : r_term (step_down t n) = t /\ r_st (step_down t n) = RFoll /\ r_log (step_down t n) = r_log n /\ r_sync (step_down t n) = r_sync n
       /\ BallotBox.lc (r_box (step_down t n)) = BallotBox.lc (r_box n) /\ r_self (step_down t n) = r_self n).
    { unfold step_down. cbn [r_term r_st r_log r_sync r_box r_self]. sp; auto.
      - destruct (Z.ltb_spec (r_term n) t); lia.
      - destruct (r_st n); reflexivity. }
    unfold n1. destruct (Z.ltb_spec (r_term n) t) as [|G]; [auto|].
    destruct (r_st n) eqn:E; auto. destruct (r_leader n); auto. sp; auto. lia. }
  clearbody n1. destruct (r_leader n1); auto.
Qed.

(** a log with an entry acknowledged under an older leader and a candidate's log that is at
    least as up to date *)
Lemma wfl_last : forall G L, SF G -> wfl (gll G) L -> L <> [] ->
  L = PX (gll G) (term_at L (zlen L)) (zlen L) /\ own (gll G) (term_at L (zlen L)) (zlen L).
Proof.
  intros G L S W N. assert (1 <= zlen L). { destruct L; [congruence|]. rewrite zlen_cons. pose proof (zlen_nonneg L). lia. }
  destruct (wfl_at (gll G) L (zlen L) W) as [O F]; [lia|].
  rewrite firstn_zall in F by lia. auto.
Qed.
Lemma own_le_last : forall G L T i, SF G -> wfl (gll G) L -> own (gll G) T i -> prefix (PX (gll G) T i) L ->
  T <= term_at L (zlen L) /\ L <> [].
Proof.
  intros G L T i S W O P.
  assert (Li : i <= zlen L). { rewrite <- (PX_len (gll G) T i) by (destruct O; lia). apply prefix_len; auto. }
  assert (NL : L <> []). { intros ->. rewrite zlen_nil in Li. destruct O; lia. }
  split; auto. destruct (wfl_last G L S W NL) as [E O']. set (U := term_at L (zlen L)) in *.
  destruct (G_own_el _ _ _ S O') as (q & l & Hl & Bl).
  destruct (s1 _ _ _ S _ _ _ Hl) as (_ & _ & Tm & v & es & EL & _ & Es).
  assert (term_at L i = T).
  { destruct O as [B O]. rewrite <- (term_at_prefix _ _ i P) by (rewrite PX_len; lia).
    rewrite (term_at_prefix _ _ i (PX_prefix (gll G) T i)) by (rewrite PX_len; lia). exact O. }
  destruct (term_at_in L i) as (x & e & y & Ex & _ & He). { destruct O; lia. }
  assert (In e (gll G U)). { eapply prefix_In; [apply (PX_prefix (gll G) U (zlen L))|]. rewrite <- E, Ex. apply in_elt. }
  rewrite EL in H0. apply in_app_or in H0. destruct H0 as [X|[X|X]].
  - apply Tm in X. lia.
  - subst e. cbn [l_term] in He. lia.
  - apply Es in X. lia.
Qed.
Lemma uptodate : forall G L K T i t, SF G -> wfl (gll G) L -> wfl (gll G) K -> (forall e, In e K -> l_term e < t) ->
  own (gll G) T i -> prefix (PX (gll G) T i) L -> id_geb (last_id K) (last_id L) = true ->
  prefix (PX (gll G) T i) K \/ lacks (gll G) (gel G) T i t.
Proof.
  intros G L K T i t S WL WK TK O P GE.
  destruct (own_le_last G L T i S WL O P) as [TL NL].
  destruct (wfl_last G L S WL NL) as [EL OL]. set (U := term_at L (zlen L)) in *.
  pose proof (G_own_pos _ _ _ S O) as PT.
  assert (GE' : U < term_at K (zlen K) \/ (U = term_at K (zlen K) /\ zlen L <= zlen K)).
  { unfold id_geb, id_ltb, last_id in GE. cbn [li_term li_index] in GE. fold U in GE. destruct (Z.eqb_spec (term_at K (zlen K)) U); lia. }
  assert (NK : K <> []). { intros ->. change (zlen (@nil lent)) with 0 in GE'; rewrite term_at_0 in GE'; lia. }
  destruct (wfl_last G K S WK NK) as [EK OK]. set (V := term_at K (zlen K)) in *.
  destruct GE' as [LT|[EQ LE]].
  - destruct (G_own_el _ _ _ S OK) as (q & l & Hl & Bl).
    destruct (prefix_dec (PX (gll G) T i) l) as [Y|N].
    + left. eapply prefix_trans; [exact Y|]. rewrite EK. eapply G_l_of_prefix; eauto.
    + right. exists V, q, l. sp; auto; try lia.
      assert (V < t); [|lia]. destruct (term_at_in K (zlen K)) as (x & e & y & Ex & _ & He). { destruct OK; lia. }
      unfold V. rewrite <- He. apply TK. rewrite Ex. apply in_elt.
  - left. eapply prefix_trans; [exact P|]. rewrite EL, EK, EQ. apply prefix_firstn2. lia.
Qed.
End Steps.
