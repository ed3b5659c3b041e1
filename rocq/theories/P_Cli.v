(** C59: the administration service. *)
From Verif Require Import Base BallotBox ConfCtx ConfCtxSpec ConfCtxProofs ConfCtxProofs2 Cli CliSpec CliProofs.

(** Every membership RPC is answered exactly once, unless it is still being served. *)
Theorem cli_answered_once self s h os : clife self s h os ->
  NoDup (called h) /\ Permutation (called h) (replied os ++ unserved s).
Proof. intros L. destruct (clife_CI _ _ _ _ L) as (xh & xos & I). split; [apply (i_called _ _ _ _ _ _ I)|exact (i_perm _ _ _ _ _ _ I)]. Qed.

(** Success means that the node turned the configuration it had when the change was issued into the requested one, which is in force and not
    joint when the answer is given.  The answer's old peers are the members when the call arrived, its new peers what the request makes of them. *)
Theorem cli_success_means_done self s h os e s' o c old new : clife self s h os -> cstep s e = Some (s', o) -> In (CReply c 0 old new) o ->
  exists s1 s2 r f, In (s1, CCall c r true) h /\ In (s2, CIssue c f) (h ++ [(s, e)]) /\
    x_role (c_x s1) = RLeader /\ old = fst (x_conf (c_x s1)) /\ (forall p, In p new <-> wanted r old p) /\
    snd (x_conf (c_x s')) = None /\ (forall p, In p (fst (x_conf (c_x s'))) <-> wanted r (fst (x_conf (c_x s2))) p).
Proof.
  intros L E K. destruct (clife_CI _ _ _ _ L) as (xh & xos & I). destruct (cstep_CI _ _ _ _ _ _ _ _ _ I E) as (xh' & xos' & I' & [[_ N]|(e' & -> & S & ->)]); [exfalso; exact (N _ _ _ K)|].
  apply in_map_iff in K. destruct K as (x & X1 & X2). unfold reply_of in X1. destruct x as [t n0 o0|c0 code]; [discriminate X1|].
  pose proof (find_isin (c_issued s') c0) as F. destruct (find (fun k => cl_id k =? c0) (c_issued s')) as [k|]; [|discriminate X1]. destruct F as (_ & F1 & F2).
  destruct (code =? 0) eqn:C0; injection X1 as <- Y1 Y2; [|subst; apply Z.eqb_neq in C0; congruence]. subst old. apply Z.eqb_eq in C0. subst code.
  destruct (i_iss _ _ _ _ _ _ I' k F1) as ((s1 & A1 & A2 & A3) & s2 & f & B1 & B2). rewrite F2 in *.
  destruct (xstep_success self _ _ _ _ _ _ _ (i_life _ _ _ _ _ _ I) S X2) as (s0 & r & f0 & D1 & D2 & D3 & _).
  assert (ND : NoDup (asked (xh ++ [(c_x s, e')]))) by (pose proof (i_nodup _ _ _ _ _ _ I') as Q; apply NoDup_app_iff in Q; tauto).
  pose proof (asked_unique _ _ _ _ _ _ _ _ ND D1 B2) as Q. injection Q as -> -> ->.
  exists s1, s2, (cl_req k), f. split.
  - apply in_app_iff in A1. destruct A1 as [A1|[A1|[]]]; auto. injection A1 as -> ->. exfalso. cbn [cstep] in E. 
    destruct (existsb (Z.eqb c0) (c_used s1)) eqn:XX; [discriminate E|]. rewrite A3 in E. injection E as _ E. destruct xos'; [destruct X2|discriminate E].
  - do 3 (split; [solve [auto]|]). split; [intros p; rewrite <- Y2; apply new_peers_spec|]. auto.
Qed.

(** If the members did not change between the arrival of the call and the start of the change, the reported new peers are the members. *)
Theorem cli_reply_exact self s h os e s' o c old new : clife self s h os -> cstep s e = Some (s', o) -> In (CReply c 0 old new) o ->
  (forall s2 f p, In (s2, CIssue c f) (h ++ [(s, e)]) -> (In p (fst (x_conf (c_x s2))) <-> In p old)) ->
  forall p, In p new <-> In p (fst (x_conf (c_x s'))).
Proof.
  intros L E K H p. destruct (cli_success_means_done _ _ _ _ _ _ _ _ _ _ L E K) as (s1 & s2 & r & f & _ & A & _ & _ & B & _ & D).
  rewrite B, D. specialize (H s2 f). destruct r; cbn; rewrite ?(H _ A); tauto.
Qed.

(** Not guaranteed in general: another change may complete in between, and the answer then names a configuration that never existed. *)
Fixpoint crun (s : cstate) (es : list cev) : option (cstate * list (cstate * cev) * list cout) :=
  match es with
  | [] => Some (s, [], [])
  | e :: es' => match cstep s e with
                | None => None
                | Some (s1, o1) => match crun s1 es' with None => None | Some (s2, h2, o2) => Some (s2, (s, e) :: h2, o1 ++ o2) end
                end
  end.
Lemma crun_life self es : forall s h os s' h' os', clife self s h os -> crun s es = Some (s', h', os') -> clife self s' (h ++ h') (os ++ os').
Proof.
  induction es as [|e es IH]; intros s h os s' h' os' L H; cbn in H.
  - injection H as <- <- <-. rewrite !app_nil_r. auto.
  - destruct (cstep s e) as [[s1 o1]|] eqn:E; [|discriminate H]. destruct (crun s1 es) as [[[s2 h2] o2]|] eqn:R; [|discriminate H]. injection H as <- <- <-.
    pose proof (IH _ _ _ _ _ _ (cl_step self _ _ _ _ _ _ L E) R) as Q. rewrite <- !app_assoc in Q. exact Q.
Qed.
Definition up (_ : peer) := false.
(** The group {1,2}; the node 1 leads; one client's add_peer 3 arrives, another's change to {1} completes, then the first is issued. *)
Definition cli_ev : list cev :=
  [CNode (XFollow ([1; 2], None)); CNode (XElected 2 up); CNode (XDone 0); CCall 10 (AddPeer 3) true; CCall 11 (ChangePeers [1]) true; CIssue 11 up; CNode (XDone 0);
   CIssue 10 up; CNode (XCaught 0 COk)].
Theorem cli_reply_always_exact_refuted :
  ~ (forall self s h os e s' o c old new, clife self s h os -> cstep s e = Some (s', o) -> In (CReply c 0 old new) o ->
       forall p, In p new <-> In p (fst (x_conf (c_x s')))).
Proof.
  intros H. destruct (crun (cinit 1) cli_ev) as [[[s h] os]|] eqn:E; [|vm_compute in E; discriminate E].
  pose proof (crun_life 1 _ _ _ _ _ _ _ (cl_start 1) E) as L. destruct (cstep s (CNode (XDone 0))) as [[s' o]|] eqn:E2.
  - pose proof (fun c old new => H 1 _ _ _ _ s' o c old new L E2) as X. clear H L. vm_compute in E. injection E as <- _ _. vm_compute in E2. injection E2 as <- <-.
    specialize (X 10 [1; 2] [1; 2; 3] ltac:(left; reflexivity) 2). cbn in X. destruct X as [X _]. destruct X as [X|[X|[]]]; auto; discriminate X.
  - clear H L. vm_compute in E. injection E as <- _ _. vm_compute in E2. discriminate E2.
Qed.
(** Nor does a failure mean that the membership stays as it was: the change may be half done when the node loses its leadership. *)
Theorem cli_failure_means_unchanged_refuted :
  ~ (forall self s h os e s' o c code old new s1 r, clife self s h os -> cstep s e = Some (s', o) -> In (CReply c code old new) o -> code <> 0 ->
       In (s1, CCall c r true) h -> x_conf (c_x s') = x_conf (c_x s1)).
Proof.
  intros H. destruct (crun (cinit 1) [CNode (XFollow ([1; 2], None)); CNode (XElected 2 up); CNode (XDone 0); CCall 10 (RemovePeer 2) true; CIssue 10 up]) as [[[s h] os]|] eqn:E; [|vm_compute in E; discriminate E].
  pose proof (crun_life 1 _ _ _ _ _ _ _ (cl_start 1) E) as L. destruct (cstep s (CNode (XStepDown 3))) as [[s' o]|] eqn:E2.
  - destruct (nth_error h 3) as [[s1 e1]|] eqn:N; [|vm_compute in E; injection E as _ <- _; vm_compute in N; discriminate N].
    pose proof (fun c code old new r => H 1 _ _ _ _ s' o c code old new s1 r L E2) as X. clear H L. cbn [app] in X. pose proof (nth_error_In _ _ N) as I. clear - E E2 N X I.
    vm_compute in E. injection E as <- <- _. vm_compute in E2. injection E2 as <- <-. vm_compute in N. injection N as <- <-.
    specialize (X 10 EPERM [] [] (RemovePeer 2) ltac:(left; reflexivity) ltac:(discriminate) I). discriminate X.
  - clear H L. vm_compute in E. injection E as <- _ _. vm_compute in E2. discriminate E2.
Qed.

(** A call to a node that does not lead, or with a peer that does not parse, is refused at once and changes nothing. *)
Theorem cli_refused_at_once s c r parsed s' o : cstep s (CCall c r parsed) = Some (s', o) ->
  c_x s' = c_x s /\
  (x_role (c_x s) <> RLeader -> o = [CReply c EPERM [] []] /\ c_sampled s' = c_sampled s) /\
  (x_role (c_x s) = RLeader -> parsed = false -> o = [CReply c C_EINVAL [] []] /\ c_sampled s' = c_sampled s) /\
  (x_role (c_x s) = RLeader -> parsed = true -> o = []).
Proof.
  intros H. cbn [cstep] in H. destruct (existsb (Z.eqb c) (c_used s)); [discriminate H|]. destruct (x_role (c_x s)) eqn:R; [destruct parsed|..]; injection H as <- <-; cbn; repeat split; auto; try congruence.
Qed.

(** Finding the node a request is for. *)
Theorem cli_get_node_answers ns want : NoDup (map fst ns) ->
  match get_node ns want with
  | inr p => In (p, false) ns /\ match want with Some q => p = q | None => ns = [(p, false)] end
  | inl e =>
      (e = C_ENOENT /\ match want with Some q => ~ In q (map fst ns) | None => ns = [] end) \/
      (e = C_EINVAL /\ want = None /\ (2 <= length ns)%nat) \/
      (e = C_EACCES /\ exists p, In (p, true) ns /\ match want with Some q => p = q | None => ns = [(p, true)] end)
  end.
Proof.
  intros N. unfold get_node. destruct want as [q|].
  - destruct (find (fun x => fst x =? q) ns) as [[p b]|] eqn:F.
    + apply find_some in F. destruct F as [F1 F2]. cbn in F2. apply Z.eqb_eq in F2. subst q. cbn. destruct b; auto. right. right. split; auto. exists p. auto.
    + left. split; auto. intros H. apply in_map_iff in H. destruct H as ([p b] & E & H). apply (find_none _ _ F) in H. cbn in *. subst. rewrite Z.eqb_refl in H. discriminate H.
  - destruct ns as [|[p b] [|y ns]]; cbn; auto.
    + destruct b; auto. right. right. split; auto. exists p. auto.
    + right. left. split; auto. split; auto. lia.
Qed.

(** Asking the group for its leader. The server reports a leader some local node of the group (the named one, if one is named) believes in,
    and an error only if none does. *)
Theorem cli_server_leader ns lead want parsed :
  match srv_get_leader ns lead want parsed with
  | inr l => exists p, In p ns /\ lead p = Some l /\ match want with Some q => p = q /\ parsed = true | None => True end
  | inl e => match want with
             | Some q => (e = C_EINVAL /\ parsed = false) \/ (e = C_ENOENT /\ parsed = true /\ ~ In q ns) \/ (e = C_EAGAIN /\ parsed = true /\ In q ns /\ lead q = None)
             | None => (e = C_ENOENT /\ ns = []) \/ (e = C_EAGAIN /\ ns <> [] /\ forall p, In p ns -> lead p = None)
             end
  end.
Proof.
  assert (G : forall l, match flat_map (fun p => match lead p with Some q => [q] | None => [] end) l with
                        | q :: _ => exists p, In p l /\ lead p = Some q | [] => forall p, In p l -> lead p = None end).
  { induction l as [|p l IH]; cbn; [intros p []|]. destruct (lead p) as [q|] eqn:E; cbn; [exists p; auto|].
    destruct (flat_map _ l); [intros x [<-|H]; auto|]. destruct IH as (x & A & B). exists x. auto. }
  unfold srv_get_leader. destruct want as [q|].
  - destruct parsed; [|auto]. specialize (G (filter (fun p => p =? q) ns)).
    assert (FI : forall p, In p (filter (fun p => p =? q) ns) <-> In p ns /\ p = q) by (intros p; rewrite filter_In, Z.eqb_eq; tauto).
    destruct (filter (fun p => p =? q) ns) as [|x l].
    + right. left. split; auto. split; auto. intros H. apply (FI q). auto.
    + destruct (flat_map (fun p => match lead p with Some q => [q] | None => [] end) (x :: l)) as [|y ys].
      * right. right. assert (X : In x ns /\ x = q) by (apply FI; left; auto). destruct X as [X ->]. do 2 (split; [solve [auto]|]). split; auto. apply G. left; auto.
      * destruct G as (p & A & B). apply FI in A. destruct A as [A ->]. exists q. auto.
  - specialize (G ns). destruct ns as [|x l]; auto. destruct (flat_map (fun p => match lead p with Some q => [q] | None => [] end) (x :: l)) as [|y ys].
    + right. split; auto. split; [discriminate|auto].
    + destruct G as (p & A & B). exists p. auto.
Qed.

(** The client returns the last successful answer, and fails only if every member failed (with the last error), or there is none. *)
Lemma ask_all_spec as_ : forall err l,
  match ask_all as_ err l with
  | inr p => (exists a b, as_ = a ++ inr p :: b /\ forall x, In x b -> exists e, x = inl e) \/ (l = Some p /\ forall x, In x as_ -> exists e, x = inl e)
  | inl e => l = None /\ (forall x, In x as_ -> exists e, x = inl e) /\ (as_ = [] -> e = err) /\ (as_ <> [] -> exists a, as_ = a ++ [inl e])
  end.
Proof.
  induction as_ as [|x as_ IH]; intros err l; cbn.
  - destruct l; [right; split; auto; intros x []|]. repeat split; auto; [intros x []|congruence].
  - destruct x as [e|p].
    + specialize (IH e l). destruct (ask_all as_ e l) as [e'|p].
      * destruct IH as (A & B & D & F). split; auto. split; [intros y [<-|Y]; eauto|]. split; [discriminate|]. intros _.
        destruct as_ as [|y as_]; [rewrite (D eq_refl); exists []; auto|]. destruct F as (a & F); [discriminate|]. exists (inl e :: a). cbn. congruence.
      * destruct IH as [(a & b & -> & A)|[-> A]]; [left; exists (inl e :: a), b; auto|right]. split; auto. intros y [<-|Y]; eauto.
    + specialize (IH err (Some p)). destruct (ask_all as_ err (Some p)) as [e'|q].
      * destruct IH as [A _]. discriminate A.
      * destruct IH as [(a & b & -> & A)|[A B]]; [left; exists (inr p :: a), b; auto|]. injection A as <-. left. exists [], as_. auto.
Qed.
Theorem cli_client_leader as_ :
  match cli_get_leader as_ with
  | inr p => exists a b, as_ = a ++ inr p :: b /\ forall x, In x b -> exists e, x = inl e
  | inl e => (forall x, In x as_ -> exists e', x = inl e') /\ ((as_ = [] /\ e = C_EINVAL) \/ exists a, as_ = a ++ [inl e])
  end.
Proof.
  unfold cli_get_leader. destruct as_ as [|x as_]; [split; [intros x []|auto]|]. pose proof (ask_all_spec (x :: as_) (-1) None) as H.
  destruct (ask_all (x :: as_) (-1) None) as [e|p].
  - destruct H as (_ & A & _ & B). split; auto. right. apply B. discriminate.
  - destruct H as [H|[H _]]; [auto|discriminate H].
Qed.

(** Concrete: a run in which all of the above happens; the last reply is exact. *)
Example cli_run : exists s h, crun (cinit 1) (cli_ev ++ [CNode (XDone 0); CCall 12 (RemovePeer 3) true; CIssue 12 up; CCall 13 (AddPeer 5) false; CNode (XDone 0); CNode (XStepDown 3); CCall 14 (AddPeer 5) true]) =
  Some (s, h, [CNodeOut (XLogged 2 [1; 2] None); CNodeOut (XLogged 2 [1] None); CReply 11 0 [1; 2] [1]; CNodeOut (XLogged 2 [3; 1] None); CReply 10 0 [1; 2] [1; 2; 3];
               CNodeOut (XLogged 2 [1] None); CReply 13 C_EINVAL [] []; CReply 12 0 [3; 1] [1]; CReply 14 EPERM [] []]) /\ x_conf (c_x s) = ([1], None) /\ c_sampled s = [].
Proof. eexists. eexists. split; [vm_compute; reflexivity|]. split; reflexivity. Qed.
Example cli_lookup_run : get_node [(1, false); (2, true)] (Some 1) = inr 1 /\ get_node [(1, false); (2, true)] (Some 2) = inl C_EACCES /\
  get_node [(1, false); (2, true)] None = inl C_EINVAL /\ get_node [(1, false)] (Some 3) = inl C_ENOENT /\
  srv_get_leader [1; 2] (fun p => if p =? 2 then Some 7 else None) None true = inr 7 /\
  cli_get_leader [inl 110; inr 3; inr 4; inl 2] = inr 4 /\ cli_get_leader [inl 110; inl 2] = inl 2.
Proof. repeat split. Qed.

Print Assumptions cli_answered_once.
Print Assumptions cli_success_means_done.
Print Assumptions cli_reply_exact.
Print Assumptions cli_reply_always_exact_refuted.
Print Assumptions cli_failure_means_unchanged_refuted.
Print Assumptions cli_refused_at_once.
Print Assumptions cli_get_node_answers.
Print Assumptions cli_server_leader.
Print Assumptions cli_client_leader.
