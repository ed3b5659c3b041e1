(** Concrete executions: running a list of events and checking the side conditions. *)
From Verif Require Import Base LogEntry Node Cluster ClusterSpec NodeVoteSpec.

Definition svb (c : cluster) (p : peer) (e : nev) : bool :=
  match e with NElect2 SOk _ => true | NElect2 _ _ => false | _ => true end.
Definition sendb (c : cluster) (p : peer) (e : nev) : bool :=
  let n := nodes c p in
  match e with
  | NSendFill k _ | NSendRead k =>
      match find_sw k (n_sw n) with Some w => (sw_term w =? n_term n) && is_lead (n_st n) | None => true end
  | _ => true
  end.
Definition id_eqb2 (a b : logid) : bool := (li_index a =? li_index b) && (li_term a =? li_term b).
Definition voteb (c : cluster) (p : peer) (e : nev) : bool :=
  let n := nodes c p in
  match e with
  | NVoteReq2 k _ _ _ =>
      match find_vw k (n_vw n) with
      | Some w => match vw_seen w with Some s => id_eqb2 s (last_id (n_log n)) | None => false end
      | None => true end
  | _ => true
  end.
Definition ackb (c : cluster) (p : peer) (e : nev) : bool :=
  let n := nodes c p in
  match e with
  | NRespGo k _ =>
      match find_rw k (n_rw n) with Some w => (rw_term w =? n_term n) && is_lead (n_st n) | None => true end
  | _ => true
  end.
Lemma svb_ok : forall c p e, svb c p e = true -> self_vote_saved c p e.
Proof. intros c p e H. destruct e; cbn in *; auto. destruct r; congruence. Qed.
Lemma sendb_ok : forall c p e, sendb c p e = true -> send_undisturbed c p e.
Proof.
  intros c p e H. destruct e; cbn in *; auto; intros w E; rewrite E in H; apply andb_true_iff in H; destruct H as [H1 H2];
    apply Z.eqb_eq in H1; auto.
Qed.
Lemma voteb_ok : forall c p e, voteb c p e = true -> vote_undisturbed c p e.
Proof.
  intros c p e H. destruct e; cbn in *; auto. intros w E. rewrite E in H. destruct (vw_seen w) as [s|]; try discriminate.
  unfold id_eqb2 in H. apply andb_true_iff in H. destruct H as [H1 H2]. apply Z.eqb_eq in H1. apply Z.eqb_eq in H2.
  f_equal. destruct s. unfold last_id in *. cbn in *. congruence.
Qed.
Lemma ackb_ok : forall c p e, ackb c p e = true -> ack_undisturbed c p e.
Proof.
  intros c p e H. destruct e; cbn in *; auto; intros w E; rewrite E in H; apply andb_true_iff in H; destruct H as [H1 H2];
    apply Z.eqb_eq in H1; auto.
Qed.

Fixpoint crunb (conf : list peer) (cv : Z) (okb : cluster -> peer -> nev -> bool) (c : cluster) (es : list (peer * nev)) : option cluster :=
  match es with
  | [] => Some c
  | (p, e) :: es' => if okb c p e then match cstep conf cv c (p, e) with None => None | Some c' => crunb conf cv okb c' es' end else None
  end.
Lemma crunb_exec : forall conf cv okb (ok : cluster -> peer -> nev -> Prop) es c c', (forall c p e, okb c p e = true -> ok c p e) ->
  execution conf cv ok c -> crunb conf cv okb c es = Some c' -> execution conf cv ok c'.
Proof.
  intros conf cv okb ok es. induction es as [|[p e] es IH]; intros c c' Hok Hc H; cbn [crunb] in H; [inversion H; subst; auto|].
  destruct (okb c p e) eqn:Ho; try discriminate. destruct (cstep conf cv c (p, e)) as [c1|] eqn:Es; try discriminate.
  eapply IH; [exact Hok|eapply ex_step; [exact Hc|apply Hok; exact Ho|exact Es]|exact H].
Qed.

(** What a run leaves, in a form that can be computed. *)
Definition seen (conf : list peer) (cv : Z) (okb : cluster -> peer -> nev -> bool) (es : list (peer * nev)) : option (list (peer * nout)) :=
  option_map trace (crunb conf cv okb cinit es).
Definition anyb (c : cluster) (p : peer) (e : nev) : bool := true.
Lemma seen_exec : forall conf cv okb (ok : cluster -> peer -> nev -> Prop) es tr, (forall c p e, okb c p e = true -> ok c p e) ->
  seen conf cv okb es = Some tr -> exists c, execution conf cv ok c /\ trace c = tr.
Proof.
  intros conf cv okb ok es tr Hok H. unfold seen in H. destruct (crunb conf cv okb cinit es) as [c|] eqn:E; cbn in H; inversion H.
  exists c. split; auto. eapply crunb_exec; [exact Hok|apply ex_init|exact E].
Qed.

(** Three observations of a run: what was done, what was sent, the logs of some nodes. *)
Definition obs (ps : list peer) (c : cluster) : list (peer * nout) * list msg * list (list lent) :=
  (trace c, net c, map (fun p => n_log (nodes c p)) ps).
Lemma obs_exec : forall conf cv okb (ok : cluster -> peer -> nev -> Prop) es ps tr nt lg, (forall c p e, okb c p e = true -> ok c p e) ->
  option_map (obs ps) (crunb conf cv okb cinit es) = Some (tr, nt, lg) ->
  exists c, execution conf cv ok c /\ trace c = tr /\ net c = nt /\ map (fun p => n_log (nodes c p)) ps = lg.
Proof.
  intros conf cv okb ok es ps tr nt lg Hok H. destruct (crunb conf cv okb cinit es) as [c|] eqn:E; cbn in H; inversion H.
  exists c. split; auto. eapply crunb_exec; [exact Hok|apply ex_init|exact E].
Qed.
Ltac run_it := eapply obs_exec; [|vm_compute; reflexivity].
Ltac in_it := repeat first [left; reflexivity|right].

(** One node's life as a computation. *)
Definition other_b (p : peer) (e : nev) : bool := match e with NVoteReq1 c _ _ _ => negb (c =? p) | _ => true end.
Fixpoint lrun (conf : list peer) (cv : Z) (p : peer) (r : node * list nout) (es : list nev) : option (node * list nout) :=
  match es with
  | [] => Some r
  | e :: es' => if other_b p e then match nstep conf cv (fst r) e with None => None | Some (n, o) => lrun conf cv p (n, snd r ++ o) es' end else None
  end.
Lemma lrun_life : forall conf cv p es r r', life conf cv p (fst r) (snd r) -> lrun conf cv p r es = Some r' ->
  life conf cv p (fst r') (snd r').
Proof.
  intros conf cv p es. induction es as [|e es IH]; intros r r' L H; cbn [lrun] in H; [inversion H; subst; auto|].
  destruct (other_b p e) eqn:Ho; try discriminate. destruct (nstep conf cv (fst r) e) as [[n o]|] eqn:E; try discriminate.
  eapply IH; [|exact H]. cbn [fst snd]. eapply life_step; [exact L| |exact E].
  destruct e; cbn in *; auto. intros ->. rewrite Z.eqb_refl in Ho. discriminate.
Qed.
