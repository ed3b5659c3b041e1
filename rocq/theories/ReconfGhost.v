(** How the static facts survive each kind of ghost extension. *)
From Verif Require Import Base BaseLemmas LogEntry Ballot QuorumSpec BallotProofs BallotBoxProofs Node LogPrefix Reconf ReconfStatic ReconfInv.
From Verif Require BallotBox ConfCtx.

Section Ghost.
Variable conf0 : list peer.
Variable boot : peer -> bool.
Variable dec : Z -> option jconf.
Notation cfg := (cfg conf0 dec).
Notation SF := (SF conf0 dec).
Notation cm := (cm conf0 dec).

(** votes, acknowledgements and candidates *)
Lemma SF_votes_acks : forall G (ak' : peer -> Z -> Z -> Prop) (vt' : peer -> Z -> peer -> Prop) cl', SF G ->
  (forall n T i, gak G n T i -> ak' n T i) ->
  (forall n T i, ak' n T i -> gak G n T i \/ (own (gll G) T i /\ forall t c, vt' n t c -> t <= T)) ->
  (forall n t c, gvt G n t c -> vt' n t c) ->
  (forall n t c c', vt' n t c -> vt' n t c' -> c = c') ->
  (forall n t c, gvt G n t c -> cl' c t = gcl G c t) ->
  (forall n t c, vt' n t c -> gvt G n t c \/
     (wfl (gll G) (cl' c t) /\ (forall e, In e (cl' c t) -> 1 <= l_term e < t) /\
      forall T i, T < t -> gak G n T i -> prefix (PX (gll G) T i) (cl' c t) \/ lacks (gll G) (gel G) T i t)) ->
  SF (mkG (gll G) (gel G) ak' cl' vt').
Proof.
  intros G ak' vt' cl' [F1 F2 F3 F4 F5 F6 F7 F8 F9] A1 A2 V1 V2 K V3.
  constructor; cbn [gll gel gak gcl gvt]; auto.
  - intros w p l j H B C. destruct (F4 w p l j H B C) as (j' & i' & X1 & X2 & X3 & X4 & X5 & X6).
    exists j', i'. sp; auto; try lia. eapply committed_ext; [intros t; apply prefix_refl|exact A1|exact X5].
  - intros t p l H. destruct (F6 t p l H) as (Q & HQ & EV). exists Q. split; auto.
    intros n Hn. destruct (EV n Hn) as [E1 E2]. split; auto. intros T i HT Ha.
    destruct (A2 _ _ _ Ha) as [|[_ X]]; auto. apply V1 in E1. apply X in E1. lia.
  - intros n t c Hv. destruct (V3 _ _ _ Hv) as [Hg|(X1 & X2 & X3)].
    + rewrite (K _ _ _ Hg). destruct (F8 _ _ _ Hg) as (X1 & X2 & X3). sp; auto.
      intros T i HT Ha. destruct (A2 _ _ _ Ha) as [|[_ X]]; auto. apply X in Hv. lia.
    + sp; auto. intros T i HT Ha. destruct (A2 _ _ _ Ha) as [|[_ X]]; auto. apply X in Hv. lia.
  - intros n T i Ha. destruct (A2 _ _ _ Ha) as [Hg|[X _]]; eauto.
Qed.

Definition setll (ll : Z -> list lent) (t : Z) (L : list lent) : Z -> list lent :=
  fun t' => if t' =? t then L else ll t'.
Lemma setll_same : forall ll t L, setll ll t L t = L.
Proof. intros. unfold setll. rewrite Z.eqb_refl. reflexivity. Qed.
Lemma setll_other : forall ll t L t', t' <> t -> setll ll t L t' = ll t'.
Proof. intros. unfold setll. destruct (Z.eqb_spec t' t); congruence. Qed.
Lemma setll_ext : forall ll t L, prefix (ll t) L -> llext ll (setll ll t L).
Proof.
  intros ll t L P t'. destruct (Z.eq_dec t' t) as [->|N]; [rewrite setll_same; auto|].
  rewrite setll_other by auto. apply prefix_refl.
Qed.
Lemma confat_snoc : forall L e, confat dec (L ++ [e]) (zlen L + 1) = dec (l_val e).
Proof.
  intros. unfold confat. replace (zlen L + 1 - 1) with (zlen L) by lia.
  rewrite znth_app2 by lia. replace (zlen L - zlen L) with 0 by lia. rewrite znth_cons_0. reflexivity.
Qed.
Lemma confat_out : forall L j, zlen L < j -> confat dec L j = None.
Proof. intros. unfold confat. rewrite (proj2 (znth_none L (j - 1))); auto. lia. Qed.
Lemma confat_in : forall L j, confat dec L j <> None -> 1 <= j <= zlen L.
Proof.
  intros L j H. unfold confat in H. destruct (znth L (j - 1)) eqn:E; [|congruence].
  apply znth_some_bound in E. lia.
Qed.

(** generic part: ll and el grow *)
Lemma ev_ext : forall ll ll' el el' (ak : peer -> Z -> Z -> Prop) l T i t, llext ll ll' -> (forall x, In x el -> In x el') ->
  (forall n T i, ak n T i -> own ll T i) -> forall n : peer, ak n T i ->
  prefix (PX ll T i) l \/ lacks ll el T i t -> prefix (PX ll' T i) l \/ lacks ll' el' T i t.
Proof.
  intros ll ll' el el' ak l T i t E1 E2 O n Ha [H|H].
  - left. rewrite (PX_ext ll ll'); auto. apply own_bound; eauto.
  - right. eapply lacks_ext; eauto. apply own_bound; eauto.
Qed.

(** the leader of term [t] appends an entry *)
Lemma SF_append : forall G t p l0 e, SF G -> In (t, p, l0) (gel G) -> l_term e = t ->
  (forall c, dec (l_val e) = Some c -> wf_jconf c /\ overlapping (cfg (gll G t)) c /\
     exists j i, zlen l0 < j <= i /\ i <= zlen (gll G t) /\ cm G t i /\ lastat dec (gll G t) j) ->
  let G' := mkG (setll (gll G) t (gll G t ++ [e])) (gel G) (gak G) (gcl G) (gvt G) in
  SF G' /\ gext p G G'.
Proof.
  intros G t p l0 e S H Te HC G'. pose proof S as S'. destruct S as [F1 F2 F3 F4 F5 F6 F7 F8 F9].
  assert (EX : llext (gll G) (setll (gll G) t (gll G t ++ [e]))). { apply setll_ext. apply prefix_app. }
  assert (PR : prefix (gll G t) (gll G t ++ [e])) by apply prefix_app.
  split.
  - constructor; cbn [G' gll gel gak gcl gvt]; auto.
    + intros w q l Hw. destruct (F1 _ _ _ Hw) as (W & P & Tm & v & es & EL & D & Es). sp; auto.
      { eapply wfl_ext; eauto. }
      destruct (Z.eq_dec w t) as [->|N].
      * exists v, (es ++ [e]). rewrite setll_same, EL, <- app_assoc. sp; auto.
        intros x Hx. apply in_app_or in Hx. destruct Hx as [|[<-|[]]]; auto.
      * exists v, es. rewrite setll_other by auto. sp; auto.
    + intros w Hw. destruct (Z.eq_dec w t) as [->|N]; [eauto|]. rewrite setll_other in Hw by auto. auto.
    + intros w q l j Hw B C. destruct (Z.eq_dec w t) as [->|N].
      * destruct (F3 _ _ _ _ _ H Hw) as [<- <-]. rewrite setll_same in C.
        pose proof (confat_in _ _ C) as BJ. rewrite zlen_app, zlen_cons, zlen_nil in BJ.
        destruct (Z.eq_dec j (zlen (gll G t) + 1)) as [->|Nj].
        -- rewrite confat_snoc in C. destruct (dec (l_val e)) as [c|] eqn:D; [|congruence].
           destruct (HC c eq_refl) as (W & OV & j & i & X1 & X2 & X3 & X4 & X5 & X6).
           exists j, i. rewrite setll_same. sp; try lia.
           ++ rewrite (confat_prefix dec _ _ j PR) by lia. auto.
           ++ intros k Hk. rewrite (confat_prefix dec _ _ k PR) by lia. apply X6. lia.
           ++ eapply committed_ext; [exact EX| |exact X3]; auto.
           ++ rewrite (PX_ext (gll G) _ t (zlen (gll G t) + 1 - 1) EX) by lia.
              unfold PX. rewrite firstn_zall by lia. unfold setll. rewrite Z.eqb_refl.
              rewrite firstn_zall by (rewrite zlen_app, zlen_cons, zlen_nil; lia).
              rewrite cfg_snoc, D. exact OV.
        -- rewrite (confat_prefix dec _ _ j PR) in C by lia.
           destruct (F4 _ _ _ _ Hw B C) as (j' & i' & X1 & X2 & X3 & X4 & X5 & X6).
           exists j', i'. rewrite setll_same. sp; auto; try lia.
           ++ rewrite (confat_prefix dec _ _ j' PR) by lia. auto.
           ++ intros k Hk. rewrite (confat_prefix dec _ _ k PR) by lia. apply X4. lia.
           ++ eapply committed_ext; [exact EX| |exact X5]; auto.
           ++ rewrite (PX_ext (gll G) _ t j EX), (PX_ext (gll G) _ t (j - 1) EX) by lia. auto.
      * rewrite setll_other in C by auto.
        pose proof (confat_in _ _ C) as BJ.
        destruct (F4 _ _ _ _ Hw B C) as (j' & i' & X1 & X2 & X3 & X4 & X5 & X6).
        exists j', i'. rewrite setll_other by auto. sp; auto; try lia.
        -- eapply committed_ext; [exact EX| |exact X5]; auto.
        -- rewrite (PX_ext (gll G) _ w j EX), (PX_ext (gll G) _ w (j - 1) EX) by lia. auto.
    + intros w x c Hx D. destruct (Z.eq_dec w t) as [->|N].
      * rewrite setll_same in Hx. apply in_app_or in Hx. destruct Hx as [Hx|[<-|[]]]; [eauto|]. apply HC; auto.
      * rewrite setll_other in Hx by auto. eauto.
    + intros w q l Hw. destruct (F6 _ _ _ Hw) as (Q & HQ & EV). exists Q. split; auto.
      intros n Hn. destruct (EV n Hn) as [E1 E2]. split; auto. intros T i HT Ha.
      eapply ev_ext; [exact EX| |exact F9|exact Ha|apply E2]; auto.
    + intros n w c Hv. destruct (F8 _ _ _ Hv) as (X1 & X2 & X3). sp; auto. { eapply wfl_ext; eauto. }
      intros T i HT Ha. eapply ev_ext; [exact EX| |exact F9|exact Ha|apply X3]; auto.
    + intros n T i Ha. eapply own_ext; eauto.
  - constructor; cbn [G' gll gel gak gcl gvt]; auto.
    intros w. destruct (Z.eq_dec w t) as [->|N]; [right; eauto|left]. apply setll_other; auto.
Qed.

(** candidate [p] of term [t] with log [l] and a quorum of votes becomes the leader *)
Lemma SF_elect : forall G t p l v Q, SF G ->
  l = gcl G p t -> wfl (gll G) l -> 1 <= t -> (forall e, In e l -> 1 <= l_term e < t) ->
  (forall l', ~ In (t, p, l') (gel G)) ->
  dec v = Some (cfg l) ->
  quorum (fst (cfg l)) (snd (cfg l)) Q -> (forall n, In n Q -> gvt G n t p) ->
  let G' := mkG (setll (gll G) t (l ++ [mkL t v])) ((t, p, l) :: gel G) (gak G) (gcl G) (gvt G) in
  SF G' /\ gext p G G' /\ complete conf0 dec (gll G) (gak G) t l /\ gll G t = [].
Proof.
  intros G t p l v Q S Hl W Pt Tm NE D HQ HV G'. pose proof S as S'. destruct S as [F1 F2 F3 F4 F5 F6 F7 F8 F9].
  assert (TB : forall e, In e l -> l_term e < t) by (intros e He; apply Tm; auto).
  assert (EV : forall n, In n Q -> forall T i, T < t -> gak G n T i ->
             prefix (PX (gll G) T i) l \/ lacks (gll G) (gel G) T i t).
  { intros n Hn T i HT Ha. destruct (F8 _ _ _ (HV n Hn)) as (_ & _ & X). rewrite Hl. auto. }
  assert (CM : complete conf0 dec (gll G) (gak G) t l).
  { eapply (candidate_complete conf0 dec (gll G) (gel G) (gak G) F1 F2 F3 F4 F5 (gvt G) F6 t l Q); auto. }
  assert (NT : forall q l', ~ In (t, q, l') (gel G)).
  { intros q l' H'.
    destruct (candidate_meets conf0 dec (gll G) (gel G) (gak G) F1 F2 F3 F4 F5 (gvt G) F6 t l Q q l' W TB HQ CM H') as (n & N1 & N2).
    assert (q = p). { eapply F7; [exact N2|apply HV; auto]. } subst q. eapply NE; eauto. }
  assert (LT : gll G t = []).
  { destruct (gll G t) eqn:E; auto. destruct (F2 t) as (q & l' & H'). { rewrite E; discriminate. } exfalso; eapply NT; eauto. }
  assert (EX : llext (gll G) (setll (gll G) t (l ++ [mkL t v]))). { apply setll_ext. rewrite LT. apply prefix_nil. }
  split; [|split; [|split; auto]].
  - assert (NTw : forall w q l', In (w, q, l') (gel G) -> w <> t) by (intros w q l' H' ->; eapply NT; eauto).
    constructor; cbn [G' gll gel gak gcl gvt]; auto.
    + intros w q l' [Hw|Hw].
      * inversion Hw; subst w q l'. sp; auto. { eapply wfl_ext; eauto. }
        exists v, []. rewrite setll_same. sp; auto. intros e [].
      * pose proof (NTw _ _ _ Hw). destruct (F1 _ _ _ Hw) as (X1 & X2 & X3 & v' & es & X4 & X5 & X6). sp; auto.
        { eapply wfl_ext; eauto. } exists v', es. rewrite setll_other by auto. sp; auto.
    + intros w Hw. destruct (Z.eq_dec w t) as [->|N].
      * exists p, l. left; auto.
      * rewrite setll_other in Hw by auto. destruct (F2 w Hw) as (q & l' & H'). exists q, l'. right; auto.
    + intros w q l1 q' l2 [H1|H1] [H2|H2].
      * inversion H1; inversion H2; subst; auto.
      * inversion H1; subst. exfalso; eapply NT; eauto.
      * inversion H2; subst. exfalso; eapply NT; eauto.
      * eapply F3; eauto.
    + intros w q l' j [Hw|Hw] B C.
      * inversion Hw; subst w q l'. rewrite setll_same in C. apply confat_in in C.
        rewrite zlen_app, zlen_cons, zlen_nil in C. lia.
      * pose proof (NTw _ _ _ Hw). rewrite setll_other in C by auto.
        pose proof (confat_in _ _ C) as BJ.
        destruct (F4 _ _ _ _ Hw B C) as (j' & i' & X1 & X2 & X3 & X4 & X5 & X6).
        exists j', i'. rewrite setll_other by auto. sp; auto; try lia.
        -- eapply committed_ext; [exact EX| |exact X5]; auto.
        -- rewrite (PX_ext (gll G) _ w j EX), (PX_ext (gll G) _ w (j - 1) EX) by lia. auto.
    + intros w x c Hx Dx. destruct (Z.eq_dec w t) as [->|N].
      * rewrite setll_same in Hx. apply in_app_or in Hx. destruct Hx as [Hx|[<-|[]]].
        -- apply in_split in Hx. destruct Hx as (a & b & ->).
           eapply F5; [|exact Dx]. eapply prefix_In; [apply (W a x b eq_refl)|]. apply in_or_app; right; left; auto.
        -- cbn [l_val] in Dx. rewrite D in Dx. inversion Dx; subst.
           eapply (cfg_wf conf0 dec (gll G) F5); auto.
      * rewrite setll_other in Hx by auto. eauto.
    + intros w q l' [Hw|Hw].
      * inversion Hw; subst w q l'. exists Q. split; auto. intros n Hn. split; auto. intros T i HT Ha.
        eapply ev_ext; [exact EX| |exact F9|exact Ha|]. { intros x Hx; right; exact Hx. }
        destruct (EV n Hn T i HT Ha) as [|(U & q' & l' & B' & H' & N')]; auto.
        right. exists U, q', l'. sp; auto; try lia. pose proof (NTw _ _ _ H'). lia.
      * destruct (F6 _ _ _ Hw) as (Q' & HQ' & EV'). exists Q'. split; auto.
        intros n Hn. destruct (EV' n Hn) as [E1 E2]. split; auto. intros T i HT Ha.
        eapply ev_ext; [exact EX| |exact F9|exact Ha|apply E2]; auto. intros x Hx; right; exact Hx.
    + intros n w c Hv. destruct (F8 _ _ _ Hv) as (X1 & X2 & X3). sp; auto. { eapply wfl_ext; eauto. }
      intros T i HT Ha. eapply ev_ext; [exact EX| |exact F9|exact Ha|apply X3]; auto. intros x Hx; right; exact Hx.
    + intros n T i Ha. eapply own_ext; eauto.
  - constructor; cbn [G' gll gel gak gcl gvt]; auto.
    + intros w. destruct (Z.eq_dec w t) as [->|N]; [right; exists l; left; auto|left]. apply setll_other; auto.
    + intros x Hx. right; auto.
    + intros w q l' [Hw|Hw] Nq; auto. inversion Hw; congruence.
Qed.

(** [_conf] of a node is the configuration of its log, or empty *)
Lemma last_conf_any : forall L c c', (exists j, confat dec L j <> None) -> last_conf dec c L = last_conf dec c' L.
Proof.
  induction L as [|e L IH]; intros c c' [j Hj].
  - apply confat_in in Hj. rewrite zlen_nil in Hj. lia.
  - cbn [last_conf]. destruct (dec (l_val e)) eqn:E; auto. apply IH. exists (j - 1).
    unfold confat in *. destruct (Z.eq_dec j 1) as [->|N].
    + change (1 - 1) with 0 in Hj. rewrite znth_cons_0 in Hj. congruence.
    + destruct (Z.lt_ge_cases (j - 1) 1) as [L1|L1].
      * exfalso. apply Hj. unfold znth. destruct (Z.ltb_spec (j - 1) 0); auto. lia.
      * rewrite znth_cons_pos in Hj by lia. auto.
Qed.
Lemma last_conf_none : forall L c, (forall j, confat dec L j = None) -> last_conf dec c L = c.
Proof.
  induction L as [|e L IH]; intros c H; cbn [last_conf]; auto.
  assert (dec (l_val e) = None) as ->. { specialize (H 1). unfold confat in H. change (1 - 1) with 0 in H. rewrite znth_cons_0 in H. auto. }
  apply IH. intros j. destruct (Z.le_gt_cases 1 j).
  - specialize (H (j + 1)). unfold confat in *. rewrite znth_cons_pos in H by lia. replace (j + 1 - 1 - 1) with (j - 1) in H by lia. auto.
  - unfold confat, znth. destruct (Z.ltb_spec (j - 1) 0); auto. lia.
Qed.
Lemma conf_of_cfg : forall p L j, confat dec L j <> None -> conf_of conf0 boot dec p L = cfg L.
Proof. intros. apply last_conf_any. eauto. Qed.
Lemma conf_of_contains : forall p L, contains (conf_of conf0 boot dec p L) p = true -> conf_of conf0 boot dec p L = cfg L.
Proof.
  intros p L. unfold conf_of. destruct (boot p); [reflexivity|]. 
  assert (G : forall L c, last_conf dec c L = c \/ forall c', last_conf dec c L = last_conf dec c' L).
  { clear. induction L as [|e L IH]; intros c; cbn [last_conf]; auto.
    destruct (dec (l_val e)) eqn:E; auto. }
  destruct (G L ([], None)) as [-> | E].
  - unfold contains. cbn. discriminate.
  - intros _. apply E.
Qed.
End Ghost.
