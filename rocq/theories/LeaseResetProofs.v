(** Lemmas on the timeouts of nodes under calls that change them. *)
From Verif Require Import Base Lease LeaseSpec LeaseReset LeaseResetSpec.

Section Inv.
Variables (Q : Z -> Z -> Prop) (L : Z -> Prop).
Record inv (n : topt) : Prop := {
  i_q : Q (o_et n) (o_drift n);
  i_l : L (t_lead n);
  i_own : o_wit n && o_wlead n = false -> t_lead n = o_et n;
  i_fet : o_et n <= t_fet n;
  i_fd : t_fdrift n = o_drift n }.
Hypothesis QL : forall e d, Q e d -> 0 <= e /\ L e.
Lemma inv_unsafe : forall e d n, inv n -> Q e d -> inv (unsafe_reset e d n).
Proof.
  intros e d n [] H. destruct (QL e d H) as [He HL]. unfold unsafe_reset. destruct (o_wit n && o_wlead n) eqn:W; constructor; cbn [o_et o_drift t_lead o_wit o_wlead t_fet t_fdrift]; auto; try lia. congruence.
Qed.
Lemma inv_init : forall w f e d, Q e d -> inv (tinit w f e d).
Proof. intros w f e d H. destruct (QL e d H) as [He HL]. unfold tinit. constructor; cbn [o_et o_drift t_lead o_wit o_wlead t_fet t_fdrift]; auto. destruct w; lia. Qed.
Lemma inv_trig : forall b n, inv n -> inv (set_trig b n).
Proof. intros b n []. constructor; auto. Qed.
Lemma inv_tick : forall r x n, inv n -> inv (fst (election_timeout r x n)).
Proof. intros r x n H. unfold election_timeout. destruct r; cbn [fst]; auto. destruct (negb (t_trig n) && negb x); cbn [fst]; auto using inv_trig. Qed.
Definition given (c : rcall) : Prop :=
  match c with CReset2 e d | CInit e d => Q e d | CTick _ _ => True | CVote _ _ | CReset1 _ => False end.
Lemma inv_given : forall c n, inv n -> given c -> inv (rstep c n).
Proof. intros c n H G. destruct c; cbn [given rstep] in *; try contradiction; unfold reset2; auto using inv_unsafe, inv_init, inv_tick. Qed.
Lemma inv_run : forall cs n, inv n -> (forall c, In c cs -> given c) -> inv (rrun cs n).
Proof.
  unfold rrun. induction cs as [|c cs IH]; intros n H G; cbn [fold_left]; auto. apply IH; [apply inv_given; auto; apply G; left; auto|]. intros x Hx. apply G. right. auto.
Qed.
(** the calls that keep the sum *)
Definition summing (s m : Z) (c : rcall) : Prop :=
  match c with CVote _ et | CReset1 et => 0 <= et <= m \/ s < et | CInit et drift => 0 <= et <= m /\ et + drift = s | CTick _ _ => True | CReset2 _ _ => False end.
Lemma inv_sum : forall s m, (forall e d, Q e d <-> 0 <= e <= m /\ e + d = s) -> forall c n, inv n -> summing s m c -> inv (rstep c n).
Proof.
  intros s m HQ c n H G. assert (S : o_drift n + o_et n = s) by (destruct H as [q _ _ _ _]; apply HQ in q; lia).
  assert (R : forall et, 0 <= et <= m \/ s < et -> inv (fst (reset1 et n))).
  { intros et He. unfold reset1. destruct (Z.ltb_spec (o_drift n + o_et n) et); cbn [fst]; auto. apply inv_unsafe; auto. apply HQ. lia. }
  destruct c as [r et|et| |r x|e d]; cbn [summing rstep] in *; try contradiction; auto using inv_tick.
  - unfold vote_call. destruct r; cbn [fst]; auto. unfold reset1 in R. specialize (R et G). destruct (o_drift n + o_et n <? et); cbn [fst] in *; auto using inv_trig.
  - apply inv_init. apply HQ. exact G.
Qed.
Lemma inv_sums : forall s m, (forall e d, Q e d <-> 0 <= e <= m /\ e + d = s) -> forall cs n, inv n -> (forall c, In c cs -> summing s m c) -> inv (rrun cs n).
Proof.
  intros s m HQ. unfold rrun. induction cs as [|c cs IH]; intros n H G; cbn [fold_left]; auto. apply IH; [eapply inv_sum; eauto; apply G; left; auto|]. intros x Hx. apply G. right. auto.
Qed.
End Inv.

Lemma opts_fixed : forall c n, o_wit (rstep c n) = o_wit n /\ o_wlead (rstep c n) = o_wlead n.
Proof.
  assert (U : forall e d n, o_wit (unsafe_reset e d n) = o_wit n /\ o_wlead (unsafe_reset e d n) = o_wlead n) by (intros; unfold unsafe_reset; destruct (o_wit n && o_wlead n); auto).
  intros c n. destruct c as [r et|et|et d|r x|e d]; cbn [rstep].
  - unfold vote_call. destruct r; cbn [fst]; auto. destruct (_ <? _); cbn [fst]; auto. apply U.
  - unfold reset1. destruct (_ <? _); cbn [fst]; auto.
  - apply U.
  - unfold election_timeout. destruct r; cbn [fst]; auto. destruct (_ && _); cbn [fst]; auto.
  - auto.
Qed.
Lemma run_fixed : forall cs n, o_wit (rrun cs n) = o_wit n /\ o_wlead (rrun cs n) = o_wlead n.
Proof. unfold rrun. induction cs as [|c cs IH]; intros n; cbn [fold_left]; auto. destruct (IH (rstep c n)) as [a b]. destruct (opts_fixed c n) as [a' b']. split; congruence. Qed.

Lemma calls_in : forall h p t c, In c (calls h p t) -> exists t', t' <= t /\ In (t', p, c) h.
Proof.
  intros h p t c H. unfold calls in H. apply in_map_iff in H. destruct H as [[[t' q] c'] [<- H]]. apply filter_In in H. destruct H as [H E]. cbn [fst snd] in *.
  apply andb_true_iff in E. destruct E as [E1 E2]. apply Z.eqb_eq in E1. apply Z.leb_le in E2. subst. exists t'. auto.
Qed.
Lemma calls_split : forall h p t1 t, in_order h -> t1 <= t -> exists rest, calls h p t = calls h p t1 ++ rest /\ forall c, In c rest -> exists t', t1 < t' <= t /\ In (t', p, c) h.
Proof.
  induction h as [|[[t0 q] c0] h IH]; intros p t1 t O Ht; [exists []; split; auto; intros c []|]. cbn [in_order fst snd] in O. destruct O as [O1 O2].
  destruct (IH p t1 t O2 Ht) as (rest & E & R). unfold calls in *. cbn [filter fst snd] in *. destruct (Z.eqb_spec q p) as [->|]; cbn [andb].
  - destruct (Z.leb_spec t0 t1).
    + destruct (Z.leb_spec t0 t); [|lia]. cbn [map snd]. rewrite E. exists rest. split; auto. intros c Hc. destruct (R c Hc) as (t' & h1 & h2). exists t'. split; auto. right. auto.
    + (* nothing is left for t1 *)
      assert (N : filter (fun x => (snd (fst x) =? p) && (fst (fst x) <=? t1)) h = []).
      { clear -O1 H. induction h as [|[[ty qy] cy] h IH]; auto. assert (K : t0 <= ty) by (apply (O1 (ty, qy, cy)); left; auto). cbn [filter fst snd]. assert (F : (ty <=? t1) = false) by (apply Z.leb_gt; lia). rewrite F, Bool.andb_false_r. apply IH. intros z Hz. apply O1. right. auto. }
      rewrite N in *. cbn [map app] in *. subst rest. exists (map snd (if t0 <=? t then (t0, p, c0) :: filter (fun x => (snd (fst x) =? p) && (fst (fst x) <=? t)) h else filter (fun x => (snd (fst x) =? p) && (fst (fst x) <=? t)) h)).
      split; auto. intros c Hc. destruct (Z.leb_spec t0 t).
      * cbn [map snd] in Hc. destruct Hc as [<-|Hc]; [exists t0; split; [lia|left; auto]|]. destruct (R c Hc) as (t' & h1 & h2). exists t'. split; auto. right. auto.
      * destruct (R c Hc) as (t' & h1 & h2). exists t'. split; auto. right. auto.
  - exists rest. split; auto. intros c Hc. destruct (R c Hc) as (t' & h1 & h2). exists t'. split; auto. right. auto.
Qed.

Section Group.
Variables (wit : peer -> bool) (wlead : bool) (e0 d0 : Z).
Notation at_time := (at_time wit wlead e0 d0).
Lemma at_split : forall h p t1 t, in_order h -> t1 <= t -> exists rest, at_time h p t = rrun rest (at_time h p t1) /\ forall c, In c rest -> exists t', t1 < t' <= t /\ In (t', p, c) h.
Proof. intros h p t1 t O Ht. destruct (calls_split h p t1 t O Ht) as (rest & E & R). exists rest. split; auto. unfold at_time, LeaseResetSpec.at_time, rrun. rewrite E, fold_left_app. reflexivity. Qed.
Lemma at_fixed : forall h p t, o_wit (at_time h p t) = wit p /\ o_wlead (at_time h p t) = wlead.
Proof. intros. unfold LeaseResetSpec.at_time. destruct (run_fixed (calls h p t) (tinit (wit p) wlead e0 d0)) as [-> ->]. auto. Qed.
Lemma at_inv : forall (Q : Z -> Z -> Prop) (L : Z -> Prop) (h : history) (p : peer) (t : Z), (forall e d, Q e d -> 0 <= e /\ L e) -> Q e0 d0 -> (forall t' c, t' <= t -> In (t', p, c) h -> given Q c) -> inv Q L (at_time h p t).
Proof.
  intros Q L h p t QL H0 G. unfold LeaseResetSpec.at_time. apply inv_run; auto; [apply inv_init; auto|]. intros c Hc. destruct (calls_in _ _ _ _ Hc) as (t' & h1 & h2). eauto.
Qed.
Lemma from_inv : forall (Q : Z -> Z -> Prop) (L : Z -> Prop) (h : history) (p : peer) (t1 t : Z), (forall e d, Q e d -> 0 <= e /\ L e) -> in_order h -> t1 <= t -> inv Q L (at_time h p t1) ->
  (forall t' c, t1 < t' <= t -> In (t', p, c) h -> given Q c) -> inv Q L (at_time h p t).
Proof.
  intros Q L h p t1 t QL O Ht H G. destruct (at_split h p t1 t O Ht) as (rest & -> & R). apply inv_run; auto. intros c Hc. destruct (R c Hc) as (t' & h1 & h2). eauto.
Qed.
End Group.
