(** Lemmas on the timed group model, part 4: votes wait for the follower leases. *)
From Verif Require Import Base Ballot QuorumSpec BallotProofs Lease LeaseSpec LeaseProofs LeaseProofs2 LeaseProofs3.

Section P.
Variables (conf : list peer) (old : option (list peer)) (timeout fto drift : peer -> Z -> Z) (clk : peer -> Z -> Z) (dd : Z).
Hypothesis Wf : wf_jconf (conf, old).
Hypothesis Ck : clocks dd clk.
Notation NA := (NA conf old).
Notation mem := (mem conf old).
Notation good := (good conf old).
Notation core := (core conf old).

Definition gone (nd : peer -> lnode) (tr : list lrec) (t : Z) : Prop := exists x, el tr x t /\ left (nd x) t.
Definition later (tr : list lrec) (t : Z) : Prop := exists x t1, t < t1 /\ el tr x t1.
Definition covered (nd : peer -> lnode) (tr : list lrec) (f l : peer) (t a : Z) : Prop :=
  (clk f a <= f_ts (nd f) /\ forall x, f_last (nd f) = Some x -> exists tx, t <= tx /\ el tr x tx) \/ left (nd l) t \/ later tr t.
Definition vote_ok (nd : peer -> lnode) (tl : list lrec) (f : peer) (t' v : Z) : Prop :=
  forall l t a, In (RRenew f l t a) tl -> t < t' -> a <= v /\ (clk f a + fto f v + drift f v <= clk f v \/ left (nd l) t \/ later tl t).
Fixpoint TI (nd : peer -> lnode) (tr : list lrec) : Prop :=
  match tr with
  | [] => True
  | r :: tl =>
      match r with
      | RVote f t' c v => vote_ok nd tl f t' v
      | RRenew f l t a => f <> l /\ el tl l t /\ forall t' c, vt tl f t' c -> t' <= t
      | _ => True
      end /\ TI nd tl
  end.
Definition dis_ok (nd : peer -> lnode) (tr : list lrec) (m : lmsg) : Prop :=
  match m with
  | MReq _ _ _ (Some (_, lt)) => gone nd tr lt
  | MResp _ _ _ _ _ (Some pt) _ => gone nd tr pt
  | MNow t => gone nd tr t
  | _ => True
  end.
Definition rtime (r : lrec) : Z := match r with RVote _ _ _ a | RRenew _ _ _ a | RElect _ _ a | RStart _ _ _ a => a end.

Record fol (s : lcl) : Prop := {
  x_net : forall m, In m (c_net s) -> dis_ok (c_nodes s) (c_trace s) m;
  x_dis : forall p l lt, n_dis (c_nodes s p) = Some (l, lt) -> gone (c_nodes s) (c_trace s) lt;
  x_time : forall r, In r (c_trace s) -> rtime r <= c_now s;
  x_term : forall f l t a, In (RRenew f l t a) (c_trace s) -> t <= n_term (c_nodes s f);
  x_cov : forall f l t a, In (RRenew f l t a) (c_trace s) -> covered (c_nodes s) (c_trace s) f l t a;
  x_ti : TI (c_nodes s) (c_trace s) }.

Lemma fol0 : fol lc0.
Proof. constructor; cbn; auto; try (intros; contradiction). intros; discriminate. Qed.

(** ** Stability *)
Definition grows (nd nd' : peer -> lnode) : Prop := forall q t, left (nd q) t -> left (nd' q) t.
Lemma gone_mono : forall nd nd' tr tr' t, grows nd nd' -> incl tr tr' -> gone nd tr t -> gone nd' tr' t.
Proof. intros nd nd' tr tr' t G I [x [h1 h2]]. exists x. split; auto. eapply el_mono; eauto. Qed.
Lemma later_mono : forall tr tr' t, incl tr tr' -> later tr t -> later tr' t.
Proof. intros tr tr' t I [x [t1 [h1 h2]]]. exists x, t1. split; auto. eapply el_mono; eauto. Qed.
Lemma dis_mono : forall nd nd' tr tr' m, grows nd nd' -> incl tr tr' -> dis_ok nd tr m -> dis_ok nd' tr' m.
Proof.
  intros nd nd' tr tr' m G I H. destruct m; auto; cbn in *.
  - destruct dis as [[? ?]|]; auto. eapply gone_mono; eauto.
  - destruct disrupted; auto. eapply gone_mono; eauto.
  - eapply gone_mono; eauto.
Qed.
Lemma TI_mono : forall nd nd' tr, grows nd nd' -> TI nd tr -> TI nd' tr.
Proof.
  intros nd nd' tr G. induction tr as [|r tr IH]; cbn; auto. intros [H1 H2]. split; auto. destruct r; auto.
  intros l t0 a K L. destruct (H1 l t0 a K L) as [h1 [h2|[h2|h2]]]; auto.
Qed.
Lemma TI_renew : forall nd tr f l t a, TI nd tr -> In (RRenew f l t a) tr -> f <> l /\ el tr l t.
Proof.
  intros nd tr f l t a. induction tr as [|r tr IH]; cbn; [contradiction|]. intros [H1 H2] [->|K].
  - destruct H1 as [h1 [h2 _]]. split; auto. apply el_cons. auto.
  - destruct (IH H2 K). split; auto. apply el_cons. auto.
Qed.

(** ** One event *)
Record floc (s : lcl) (p : peer) (now : Z) (n' : lnode) (ms : list lmsg) (rs : list lrec) : Prop := {
  l_dis : forall l lt, n_dis n' = Some (l, lt) -> gone (lupd (c_nodes s) p n') (rs ++ c_trace s) lt;
  l_ms : forall m, In m ms -> dis_ok (lupd (c_nodes s) p n') (rs ++ c_trace s) m;
  l_time : forall r, In r rs -> rtime r = now;
  l_rs : forall f l t a, In (RRenew f l t a) rs -> f = p /\ t <= n_term n' /\ covered (lupd (c_nodes s) p n') (rs ++ c_trace s) f l t a;
  l_w : forall l t a, In (RRenew p l t a) (c_trace s) -> (clk p a <= f_ts (c_nodes s p) /\ forall x, f_last (c_nodes s p) = Some x -> exists tx, t <= tx /\ el (c_trace s) x tx) ->
     covered (lupd (c_nodes s) p n') (rs ++ c_trace s) p l t a;
  l_ti : TI (lupd (c_nodes s) p n') (rs ++ c_trace s) }.

Lemma fol_build : forall s p now n' ms rs, core s -> fol s -> c_now s <= now -> keep (c_nodes s p) n' -> 
  (n_term (c_nodes s p) <= n_term n' \/ forall l t a, In (RRenew p l t a) (c_trace s) -> t <= n_term n') ->
  floc s p now n' ms rs -> fol (mkCl now (lupd (c_nodes s) p n') (ms ++ c_net s) (rs ++ c_trace s)).
Proof.
  intros s p now n' ms rs HC HF Hn HK HT []. destruct HF.
  assert (G : grows (c_nodes s) (lupd (c_nodes s) p n')).
  { intros q t. unfold lupd. destruct (Z.eqb_spec q p) as [->|]; auto. apply keep_left; auto. }
  assert (I : incl (c_trace s) (rs ++ c_trace s)) by (intros y Hy; apply in_or_app; auto).
  constructor; cbn [c_nodes c_net c_trace c_now].
  - intros m Hm. apply in_app_or in Hm. destruct Hm as [Hm|Hm]; auto. eapply dis_mono; eauto.
  - intros q l lt E. unfold lupd in E. destruct (Z.eqb_spec q p); eauto. eapply gone_mono; eauto.
  - intros r Hr. apply in_app_or in Hr. destruct Hr as [Hr|Hr]; [rewrite (l_time0 _ Hr); lia|]. apply x_time0 in Hr. lia.
  - intros f l t a H. apply in_app_or in H. destruct H as [H|H].
    + destruct (l_rs0 _ _ _ _ H) as [-> [h _]]. unfold lupd. rewrite Z.eqb_refl. auto.
    + pose proof (x_term0 _ _ _ _ H). unfold lupd. destruct (Z.eqb_spec f p) as [->|]; auto. destruct HT as [?|HT]; [lia|eauto].
  - intros f l t a H. apply in_app_or in H. destruct H as [H|H]; [apply (l_rs0 _ _ _ _ H)|].
    destruct (x_cov0 _ _ _ _ H) as [K|[K|K]].
    + destruct (Z.eqb_spec f p) as [->|N]; [eapply l_w0; eauto|]. left. unfold lupd. destruct (Z.eqb_spec f p); [contradiction|]. destruct K as [k1 k2]. split; auto.
      intros x E. destruct (k2 x E) as [tx [h1 h2]]. exists tx. split; auto. eapply el_mono; eauto.
    + right. left. auto.
    + right. right. eapply later_mono; eauto.
  - auto.
Qed.

Section Event.
Variables (s : lcl) (p : peer) (now : Z) (n' : lnode).
Hypothesis (HC : core s) (HF : fol s) (Hnow : c_now s <= now) (HK : keep (c_nodes s p) n').
Let n := c_nodes s p.
Let nd' := lupd (c_nodes s) p n'.

Lemma ev_grows : grows (c_nodes s) nd'.
Proof. intros q t. unfold nd', lupd. destruct (Z.eqb_spec q p) as [->|]; auto. apply keep_left; auto. Qed.
Lemma ev_incl : forall rs, incl (c_trace s) (rs ++ c_trace s).
Proof. intros rs y Hy; apply in_or_app; auto. Qed.
Lemma ev_left : forall t, left n' t -> left (nd' p) t.
Proof. intros t H. unfold nd', lupd. rewrite Z.eqb_refl. auto. Qed.
Lemma ev_gone : forall rs t, gone (c_nodes s) (c_trace s) t -> gone nd' (rs ++ c_trace s) t.
Proof. intros rs t H. eapply gone_mono; eauto. apply ev_grows. apply ev_incl. Qed.
Lemma ev_ti : TI nd' (c_trace s).
Proof. eapply TI_mono; [apply ev_grows|apply HF]. Qed.
Lemma ev_dis : forall rs, (n_dis n' = n_dis n \/ n_dis n' = None) -> forall l lt, n_dis n' = Some (l, lt) -> gone nd' (rs ++ c_trace s) lt.
Proof. intros rs [E|E] l lt K; rewrite E in K; [|discriminate]. apply ev_gone. eapply (x_dis _ HF); eauto. Qed.

(** the lease is not touched *)
Lemma ev_same : forall rs, f_ts n' = f_ts n -> f_last n' = f_last n -> forall l t a, In (RRenew p l t a) (c_trace s) -> (clk p a <= f_ts n /\ forall x, f_last n = Some x -> exists tx, t <= tx /\ el (c_trace s) x tx) ->
     covered nd' (rs ++ c_trace s) p l t a.
Proof.
  intros rs E1 E2 l t a H [k1 k2]. left. unfold nd', lupd. rewrite Z.eqb_refl, E1, E2. split; auto.
  intros x E. destruct (k2 x E) as [tx [h1 h2]]. exists tx. split; auto. eapply el_mono; [apply ev_incl|auto].
Qed.
(** the leader of the present term is gone *)
Lemma ev_gone_cov : gone (c_nodes s) (c_trace s) (n_term n) -> forall rs l t a, In (RRenew p l t a) (c_trace s) -> covered nd' (rs ++ c_trace s) p l t a.
Proof.
  intros [x [h1 h2]] rs l t a H. right. pose proof (x_term _ HF _ _ _ _ H) as Ht. fold n in Ht. destruct (TI_renew _ _ _ _ _ _ (x_ti _ HF) H) as [_ He].
  destruct (Z.eq_dec t (n_term n)) as [->|].
  - left. apply ev_grows. rewrite (el_unique conf old _ l x _ (k_te _ _ _ HC) (k_vu _ _ _ HC) He h1). auto.
  - right. exists x, (n_term n). split; [lia|]. eapply el_mono; [apply ev_incl|auto].
Qed.
Lemma ev_rs : forall rs, (forall f l t a, ~ In (RRenew f l t a) rs) -> forall f l t a, In (RRenew f l t a) rs -> f = p /\ t <= n_term n' /\ covered nd' (rs ++ c_trace s) f l t a.
Proof. intros rs H f l t a K. exfalso. eapply H; eauto. Qed.

(** nothing much *)
Lemma ev_quiet : forall ms, (n_dis n' = n_dis n \/ n_dis n' = None) -> f_ts n' = f_ts n -> f_last n' = f_last n -> (forall m, In m ms -> dis_ok nd' (c_trace s) m) -> floc s p now n' ms [].
Proof. intros ms D E1 E2 Hm. constructor; cbn [app]; auto. - apply (ev_dis []); auto. - intros r []. - intros f l t a []. - apply (ev_same []); auto. - apply ev_ti. Qed.

(** a vote *)
Lemma ev_vote : forall ms t' c, (n_dis n' = n_dis n \/ n_dis n' = None) -> f_ts n' = f_ts n -> f_last n' = f_last n -> vote_ok nd' (c_trace s) p t' now ->
  (forall m, In m ms -> dis_ok nd' (RVote p t' c now :: c_trace s) m) -> floc s p now n' ms [RVote p t' c now].
Proof.
  intros ms t' c D E1 E2 V Hm. constructor; cbn [app]; auto.
  - apply (ev_dis [_]); auto.
  - intros r [<-|[]]. reflexivity.
  - intros f l t a [K|[]]. discriminate.
  - apply (ev_same [_]); auto.
  - split; auto. apply ev_ti.
Qed.
Lemma votable_ok : votable fto drift clk p now n = true -> forall t', vote_ok nd' (c_trace s) p t' now.
Proof.
  intros V t' l t a H L. unfold votable in V. apply Z.leb_le in V. pose proof (x_time _ HF _ H) as Ht. cbn in Ht. split; [lia|].
  destruct (x_cov _ HF _ _ _ _ H) as [[k1 k2]|[K|K]]; auto.
  - left. fold n in k1. lia.
  - right. left. apply ev_grows. auto.
Qed.
(** a vote from the last leader *)
Lemma last_leader_ok : forall f t', f_last n = Some f -> t' <= n_mterm (c_nodes s f) -> vote_ok nd' (c_trace s) p t' now.
Proof.
  intros f t' E M l t a H L. pose proof (x_time _ HF _ H) as Ht. cbn in Ht. split; [lia|].
  destruct (x_cov _ HF _ _ _ _ H) as [[k1 k2]|[K|K]]; auto.
  - destruct (k2 f E) as [tx [h1 h2]]. destruct (Z.eq_dec t tx) as [->|].
    + destruct (TI_renew _ _ _ _ _ _ (x_ti _ HF) H) as [_ He]. right. left. apply ev_grows.
      rewrite (el_unique conf old _ l f _ (k_te _ _ _ HC) (k_vu _ _ _ HC) He h2). left. lia.
    + right. right. exists f, tx. split; [lia|auto].
  - right. left. apply ev_grows. auto.
Qed.
(** an election *)
Lemma ev_elect : forall ms rs, TE conf old ((RElect p (n_term n) now :: rs) ++ c_trace s) -> VU ((RElect p (n_term n) now :: rs) ++ c_trace s) -> n_dis n' = None ->
  (forall m, In m ms -> dis_ok nd' ((RElect p (n_term n) now :: rs) ++ c_trace s) m) ->
  (rs = [] \/ exists c, rs = [RVote p (n_term n) c now] /\ vote_ok nd' (c_trace s) p (n_term n) now) -> floc s p now n' ms (RElect p (n_term n) now :: rs).
Proof.
  intros ms rs HT' HV' D Hm Hr. constructor; auto.
  - intros l lt E. congruence.
  - intros r [<-|K]; [reflexivity|]. destruct Hr as [->|[c [-> _]]]; [destruct K|]. destruct K as [<-|[]]. reflexivity.
  - intros f l t a [K|K]; [discriminate|]. destruct Hr as [->|[c [-> _]]]; [destruct K|]. destruct K as [K|[]]. discriminate.
  - intros l t a H _. right. right. pose proof (x_term _ HF _ _ _ _ H) as Ht. fold n in Ht. destruct (TI_renew _ _ _ _ _ _ (x_ti _ HF) H) as [Hne He].
    assert (Hp : el ((RElect p (n_term n) now :: rs) ++ c_trace s) p (n_term n)) by (cbn [app]; apply el_cons; left; eauto).
    destruct (Z.eq_dec t (n_term n)) as [->|].
    + exfalso. apply Hne. symmetry. eapply (el_unique conf old); [exact HT'|exact HV'| |exact Hp]. cbn [c_trace]. eapply el_mono; [apply ev_incl|auto].
    + exists p, (n_term n). split; [lia|auto].
  - cbn [app TI]. split; auto. destruct Hr as [->|[c [-> V]]]; cbn [app TI]; auto using ev_ti.
Qed.
End Event.
End P.
