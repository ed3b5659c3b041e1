(** The invariant of a group with membership changes. *)
From Verif Require Import Base BaseLemmas LogEntry Ballot QuorumSpec BallotProofs BallotBoxProofs Node LogPrefix Reconf ReconfStatic.
From Verif Require BallotBox ConfCtx.

Section Inv.
Variable conf0 : list peer.
Variable boot : peer -> bool.
Variable dec : Z -> option jconf.

Record gh := mkG {
  gll : Z -> list lent;                    (* the log of the leader of a term *)
  gel : list (Z * peer * list lent);       (* elections: term, leader, its log then *)
  gak : peer -> Z -> Z -> Prop;            (* p stored entry i of the leader of term T, in term T *)
  gcl : peer -> Z -> list lent;            (* a candidate's log *)
  gvt : peer -> Z -> peer -> Prop }.       (* p voted in term t for c *)

Definition cm (G : gh) := committed conf0 dec (gll G) (gak G).
Notation cfg := (cfg conf0 dec).

Record SF (G : gh) : Prop := mkSF {
  s1 : el_ok conf0 dec (gll G) (gel G);
  s2 : el_all (gll G) (gel G);
  s3 : el_uniq (gel G);
  s4 : chain conf0 dec (gll G) (gel G) (gak G);
  s5 : conf_wf dec (gll G);
  s6 : el_ev conf0 dec (gll G) (gel G) (gak G) (gvt G);
  s7 : forall n t c c', gvt G n t c -> gvt G n t c' -> c = c';
  s8 : forall n t c, gvt G n t c -> wfl (gll G) (gcl G c t) /\ (forall e, In e (gcl G c t) -> 1 <= l_term e < t) /\
         forall T i, T < t -> gak G n T i -> prefix (PX (gll G) T i) (gcl G c t) \/ lacks (gll G) (gel G) T i t;
  s9 : forall n T i, gak G n T i -> own (gll G) T i }.

(** where the last configuration entry is *)
Definition lastat (L : list lent) (j : Z) : Prop :=
  1 <= j <= zlen L /\ confat dec L j <> None /\ forall k, j < k <= zlen L -> confat dec L k = None.

Definition lc (n : rnode) := BallotBox.lc (r_box n).
Definition ballots (G : gh) (n : rnode) : Prop :=
  let b := r_box n in
  forall k x, znth (BallotBox.bq b) k = Some x ->
    let i := BallotBox.pend b + k in let c := cfg (PX (gll G) (r_term n) i) in
    exists acks, ballot_ok (fst c) (snd c) acks x /\ forall a, In a acks -> gak G a (r_term n) i.
Definition idle (n : rnode) : Prop := forall d, In d (r_done n) -> snd d <> r_term n.
Definition stage_ok (n : rnode) (l0 : list lent) : Prop :=
  match r_stage n with
  | SNone => idle n /\ snd (cfg (r_log n)) = None /\
      exists j, lastat (r_log n) j /\ zlen l0 < j <= lc n
  | SCatch new old => idle n /\ snd (cfg (r_log n)) = None /\ old = fst (cfg (r_log n)) /\ NoDup new /\
      ConfCtx.conf_equals old new = false /\
      exists j, lastat (r_log n) j /\ zlen l0 < j <= lc n
  | SJoint new => (exists o, cfg (r_log n) = (new, Some o)) /\
      exists j, lastat (r_log n) j /\ zlen l0 < j /\ forall d, In d (r_done n) -> snd d = r_term n -> fst d = j
  | SStable new => cfg (r_log n) = (new, None) /\
      exists j, lastat (r_log n) j /\ zlen l0 < j /\ forall d, In d (r_done n) -> snd d = r_term n -> fst d = j
  end.

Record NI (G : gh) (p : peer) (n : rnode) : Prop := mkNI {
  i_self : r_self n = p;
  i_term : 1 <= r_term n;
  i_wfl : wfl (gll G) (r_log n);
  i_tm : forall e, In e (r_log n) -> 1 <= l_term e <= r_term n;
  i_sync : 0 <= r_sync n <= zlen (r_log n);
  i_vt : forall t c, gvt G p t c -> t <= r_term n;
  i_voted : forall c, r_voted n = Some c <-> gvt G p (r_term n) c;
  i_el : forall t l, In (t, p, l) (gel G) -> t <= r_term n;
  i_ak : forall T i, gak G p T i -> T <= r_term n /\
           (prefix (PX (gll G) T i) (firstn (Z.to_nat (r_sync n)) (r_log n)) \/ lacks (gll G) (gel G) T i (r_term n));
  i_box : Inv0 (r_box n);
  i_lc : lc n <= zlen (r_log n) /\
         (lc n = 0 \/ exists T0 i0, cm G T0 i0 /\ T0 <= r_term n /\ prefix (firstn (Z.to_nat (lc n)) (r_log n)) (PX (gll G) T0 i0));
  i_app : 0 <= r_applied n <= lc n;
  i_done : forall d, In d (r_done n) -> snd d <= r_term n;
  i_foll : r_st n <> RLead -> BallotBox.pend (r_box n) = 0 /\ r_stage n = SNone;
  i_cand : r_st n = RCand ->
     (forall e, In e (r_log n) -> l_term e < r_term n) /\ r_log n = gcl G p (r_term n) /\
     conf_of conf0 boot dec p (r_log n) = cfg (r_log n) /\
     (exists acks, ballot_ok (fst (cfg (r_log n))) (snd (cfg (r_log n))) acks (r_ballot n) /\
        forall a, In a acks -> gvt G a (r_term n) p) /\
     (forall l, ~ In (r_term n, p, l) (gel G)) /\ idle n;
  i_lead : r_st n = RLead -> exists l0, In (r_term n, p, l0) (gel G) /\ r_log n = gll G (r_term n) /\
     zlen l0 < BallotBox.pend (r_box n) /\
     BallotBox.pend (r_box n) + zlen (BallotBox.bq (r_box n)) = zlen (r_log n) + 1 /\
     ballots G n /\ (lc n <= zlen l0 \/ cm G (r_term n) (lc n)) /\ stage_ok n l0;
  i_cself : r_st n = RCand -> gvt G p (r_term n) p }.

Definition msg_ok (G : gh) (m : rmsg) : Prop :=
  match m with
  | RVoteReq c t last => last = last_id (gcl G c t) /\ wfl (gll G) (gcl G c t) /\
      (forall e, In e (gcl G c t) -> 1 <= l_term e < t)
  | RVoteOk from c t => gvt G from t c
  | RApp L t prev pt es c => slice (gll G t) prev pt es /\ (exists l, In (t, L, l) (gel G)) /\
      (c <= 0 \/ exists T0 i0, cm G T0 i0 /\ T0 <= t /\ c <= i0)
  | RAck f t u => u <= zlen (gll G t) /\ forall j, own (gll G) t j -> j <= u -> gak G f t j
  end.
Definition out_ok (G : gh) (po : peer * rout) : Prop :=
  let '(p, o) := po in
  match o with
  | ROSend _ => True
  | ROElected t l => In (t, p, l) (gel G)
  | ROCommit t es => exists i, es = PX (gll G) t i /\ cm G t i
  | ROChanged t new es => cfg es = (new, None) /\ exists i, es = PX (gll G) t i /\ cm G t i
  | ROApply i e => exists T0 i0, cm G T0 i0 /\ 1 <= i <= i0 /\ znth (gll G T0) (i - 1) = Some e
  end.
(** the candidate's log a vote request was about is of a term the candidate has reached *)
Definition req_ok (c : rcluster) (m : rmsg) : Prop :=
  match m with RVoteReq p t _ => t <= r_term (rnodes c p) | _ => True end.
Record Inv (G : gh) (c : rcluster) : Prop := mkInv {
  v_sf : SF G;
  v_ni : forall p, NI G p (rnodes c p);
  v_net : forall m, In m (rnet c) -> msg_ok G m /\ req_ok c m;
  v_vt : forall n t p, gvt G n t p -> t <= r_term (rnodes c p);
  v_tr : forall x, In x (rtrace c) -> out_ok G x }.

(** extension of the ghosts by a step of node [p] *)
Record gext (p : peer) (G G' : gh) : Prop := mkGE {
  e_ll : llext (gll G) (gll G');
  e_llp : forall t, gll G' t = gll G t \/ exists l, In (t, p, l) (gel G');
  e_el : forall x, In x (gel G) -> In x (gel G');
  e_elp : forall t q l, In (t, q, l) (gel G') -> q <> p -> In (t, q, l) (gel G);
  e_ak : forall n T i, gak G n T i -> gak G' n T i;
  e_akp : forall n T i, gak G' n T i -> n <> p -> gak G n T i;
  e_vt : forall n t c, gvt G n t c -> gvt G' n t c;
  e_vtp : forall n t c, gvt G' n t c -> n <> p -> gvt G n t c }.
(** the candidates' logs known so far are kept *)
Definition clkeep (c : rcluster) (p : peer) (G G' : gh) : Prop :=
  forall q t, q <> p \/ t <= r_term (rnodes c p) -> gcl G' q t = gcl G q t.

Lemma own_ext : forall ll ll' T i, llext ll ll' -> own ll T i -> own ll' T i.
Proof.
  intros ll ll' T i E [B H]. pose proof (prefix_len _ _ (E T)). split; [lia|].
  rewrite <- (term_at_prefix _ _ i (E T)) by lia. exact H.
Qed.
Lemma PX_ext : forall ll ll' T i, llext ll ll' -> i <= zlen (ll T) -> PX ll' T i = PX ll T i.
Proof. intros ll ll' T i E H. unfold PX. symmetry. apply firstn_prefix_eq; auto. Qed.
Lemma own_bound : forall ll T i, own ll T i -> i <= zlen (ll T).
Proof. intros ll T i [H _]. lia. Qed.
Lemma committed_ext : forall ll ll' (ak ak' : peer -> Z -> Z -> Prop) T i, llext ll ll' -> (forall n T i, ak n T i -> ak' n T i) ->
  committed conf0 dec ll ak T i -> committed conf0 dec ll' ak' T i.
Proof.
  intros ll ll' ak ak' T i E A [O (Q & HQ & HA)]. split; [eapply own_ext; eauto|].
  exists Q. rewrite (PX_ext _ _ _ _ E (own_bound _ _ _ O)). split; auto.
Qed.
Lemma cm_ext : forall p G G' T i, gext p G G' -> cm G T i -> cm G' T i.
Proof. intros p G G' T i E H. eapply committed_ext; [apply (e_ll _ _ _ E)|apply (e_ak _ _ _ E)|exact H]. Qed.
Lemma lacks_ext : forall ll ll' el el' T i U, llext ll ll' -> (forall x, In x el -> In x el') -> i <= zlen (ll T) ->
  lacks ll el T i U -> lacks ll' el' T i U.
Proof.
  intros ll ll' el el' T i U E1 E2 B (U' & p & l & B' & H & N). exists U', p, l. sp; auto; try lia.
  rewrite (PX_ext _ _ _ _ E1 B). exact N.
Qed.
Lemma lacks_mono : forall ll el T i U U', U <= U' -> lacks ll el T i U -> lacks ll el T i U'.
Proof. intros ll el T i U U' L (V & p & l & B & H & N). exists V, p, l. sp; auto; lia. Qed.
Lemma cm_PX : forall p G G' T i, gext p G G' -> cm G T i -> PX (gll G') T i = PX (gll G) T i.
Proof. intros p G G' T i E [O _]. apply PX_ext; [apply E|apply own_bound; auto]. Qed.

Lemma NI_ext : forall c p G G' q n, gext p G G' -> SF G -> SF G' -> clkeep c p G G' -> q <> p -> NI G q n -> NI G' q n.
Proof.
  intros c p G G' q n E S S' K Nq H. destruct H.
  assert (PXak : forall n0 T i, gak G n0 T i -> PX (gll G') T i = PX (gll G) T i).
  { intros n0 T i Ha. apply PX_ext; [apply E|]. apply own_bound. eapply s9; eauto. }
  constructor; auto.
  - eapply wfl_ext; [exact i_wfl0|apply E].
  - intros t c0 Hv. eapply i_vt0. eapply (e_vtp _ _ _ E); eauto.
  - intros c0. rewrite i_voted0. split; intros Hv; [apply (e_vt _ _ _ E); auto|eapply (e_vtp _ _ _ E); eauto].
  - intros t l Hl. eapply i_el0. eapply (e_elp _ _ _ E); eauto.
  - intros T i Ha. apply (e_akp _ _ _ E) in Ha; auto. destruct (i_ak0 T i Ha) as [B D]. split; auto.
    rewrite (PXak _ _ _ Ha). destruct D as [D|D]; auto. right.
    eapply lacks_ext; [apply E|apply E|apply own_bound; eapply s9; eauto|exact D].
  - destruct i_lc0 as [B D]. split; auto. destruct D as [D|(T0 & i0 & C & L & P)]; auto. right. exists T0, i0.
    sp; auto; [eapply cm_ext; eauto|]. rewrite (cm_PX _ _ _ _ _ E C). exact P.
  - intros Hc. destruct (i_cand0 Hc) as (A1 & A2 & A3 & (acks & A4 & A5) & A6 & A7). sp; auto.
    + rewrite A2. symmetry. apply K. auto.
    + exists acks. split; auto. intros a Ha. apply (e_vt _ _ _ E). auto.
    + intros l Hl. apply (A6 l). eapply (e_elp _ _ _ E); eauto.
  - intros Hl. destruct (i_lead0 Hl) as (l0 & B1 & B2 & B3 & B4 & B5 & B6 & B7).
    assert (LL : gll G' (r_term n) = gll G (r_term n)).
    { destruct (e_llp _ _ _ E (r_term n)) as [|[l Hp]]; auto.
      destruct (s3 _ S' _ _ _ _ _ (e_el _ _ _ E _ B1) Hp) as [X _]. congruence. }
    exists l0. sp; auto.
    + apply (e_el _ _ _ E); auto.
    + congruence.
    + intros k x Hx. destruct (B5 k x Hx) as (acks & D1 & D2). exists acks.
      unfold PX in *. rewrite LL. split; auto. intros a Ha. apply (e_ak _ _ _ E). auto.
    + destruct B6 as [|C]; auto. right. eapply cm_ext; eauto.
  - intros X. apply (e_vt _ _ _ E). auto.
Qed.
Lemma msg_ext : forall c p G G' m, gext p G G' -> clkeep c p G G' -> SF G -> req_ok c m -> msg_ok G m -> msg_ok G' m.
Proof.
  intros c p G G' m E K S R H. destruct m; cbn [msg_ok req_ok] in *.
  - destruct H as (A & B & D).
    assert (gcl G' cand t = gcl G cand t) as ->.
    { apply K. destruct (Z.eq_dec cand p) as [->|]; auto. }
    sp; auto. eapply wfl_ext; [exact B|apply E].
  - apply (e_vt _ _ _ E); auto.
  - destruct H as (A & (l & B) & D). sp.
    + eapply slice_ext; [exact A|apply E].
    + exists l. apply (e_el _ _ _ E); auto.
    + destruct D as [D|(T0 & i0 & C & D)]; auto. right. exists T0, i0. split; auto. eapply cm_ext; eauto.
  - destruct H as [A B]. pose proof (prefix_len _ _ (e_ll _ _ _ E t)). split; [lia|].
    intros j [O1 O2] Hj. apply (e_ak _ _ _ E). apply B; auto. split; [lia|].
    rewrite (term_at_prefix _ _ j (e_ll _ _ _ E t)) by lia. exact O2.
Qed.
Lemma out_ext : forall p G G' x, gext p G G' -> out_ok G x -> out_ok G' x.
Proof.
  intros p G G' [q o] E H. destruct o; cbn [out_ok] in *; auto.
  - apply (e_el _ _ _ E); auto.
  - destruct H as (i & A & C). exists i. split; [|eapply cm_ext; eauto]. rewrite (cm_PX _ _ _ _ _ E C); auto.
  - destruct H as (A & i & B & C). split; auto. exists i. split; [|eapply cm_ext; eauto]. rewrite (cm_PX _ _ _ _ _ E C); auto.
  - destruct H as (T0 & i0 & C & B & D). exists T0, i0. sp; try lia; [eapply cm_ext; eauto|].
    eapply prefix_znth; [apply E|exact D].
Qed.

(** A step of node [p] keeps the invariant if the step is right for [p]. *)
Lemma inv_step : forall c p G G' n' o, Inv G c -> gext p G G' -> clkeep c p G G' -> SF G' ->
  NI G' p n' -> r_term (rnodes c p) <= r_term n' ->
  (forall m, In m (sends o) -> msg_ok G' m /\ match m with RVoteReq q t _ => q = p /\ t <= r_term n' | _ => True end) ->
  (forall t q, gvt G' p t q -> gvt G p t q \/ (q = p /\ t <= r_term n') \/ t <= r_term (rnodes c q)) ->
  (forall x, In x o -> out_ok G' (p, x)) ->
  Inv G' (mkRC (upd (rnodes c) p n') (sends o ++ rnet c) (map (pair p) o ++ rtrace c)).
Proof.
  intros c p G G' n' o I E K S' N T M V O. destruct I.
  assert (TM : forall q, r_term (rnodes c q) <= r_term (upd (rnodes c) p n' q)).
  { intros q. unfold upd. destruct (Z.eqb_spec q p); [subst; auto|lia]. }
  constructor; cbn [rnodes rnet rtrace]; auto.
  - intros q. unfold upd. destruct (Z.eqb_spec q p) as [->|Nq]; auto. eapply NI_ext; eauto.
  - intros m Hm. apply in_app_or in Hm. destruct Hm as [Hm|Hm].
    + destruct (M m Hm) as [A B]. split; auto. destruct m; cbn [req_ok rnodes]; auto.
      destruct B as [-> B]. unfold upd. rewrite Z.eqb_refl. auto.
    + destruct (v_net0 m Hm) as [A B]. split; [eapply msg_ext; eauto|].
      destruct m; cbn [req_ok rnodes] in *; auto. specialize (TM cand). lia.
  - intros n t q Hv.
    assert (Hq := TM q). destruct (Z.eq_dec n p) as [->|Nn].
    + destruct (V t q Hv) as [A|[[-> B]|B]].
      * apply v_vt0 in A. lia.
      * unfold upd. rewrite Z.eqb_refl. auto.
      * lia.
    + apply (e_vtp _ _ _ E) in Hv; auto. apply v_vt0 in Hv. lia.
  - intros x Hx. apply in_app_or in Hx. destruct Hx as [Hx|Hx].
    + apply in_map_iff in Hx. destruct Hx as (y & <- & Hy). auto.
    + eapply out_ext; eauto.
Qed.
Lemma gext_refl : forall p G, gext p G G.
Proof. intros p G. constructor; auto. intros t; apply prefix_refl. Qed.
Lemma inv_same : forall c p G n' o, Inv G c ->
  NI G p n' -> r_term (rnodes c p) <= r_term n' ->
  (forall m, In m (sends o) -> msg_ok G m /\ match m with RVoteReq q t _ => q = p /\ t <= r_term n' | _ => True end) ->
  (forall x, In x o -> out_ok G (p, x)) ->
  Inv G (mkRC (upd (rnodes c) p n') (sends o ++ rnet c) (map (pair p) o ++ rtrace c)).
Proof.
  intros. eapply inv_step; eauto; [apply gext_refl|intros ? ? ?; reflexivity|apply H].
Qed.
End Inv.
