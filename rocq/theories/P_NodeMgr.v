(** C55: the registry of the raft nodes of a process. *)
From Coq Require Import Permutation.
From Verif Require Import Base NodeMgr NodeMgrSpec NodeMgrProofs NodeMgrMain.

(** For every interleaving of registrations, removals and lookups -- including lookups that run in
    the middle of a modification -- every answer is the one a single sequential registry gives: an
    add succeeds exactly when no node with the same group, address and index is registered, a
    remove exactly when that very object is registered, and lookups return exactly the registered
    nodes (of the id, of the group, all). *)
Theorem node_registry_answers : forall ids es s h h1 o h2,
  nmrun ids nminit es = Some (s, h) -> h = h1 ++ o :: h2 ->
  answer_ok ids (registered h1 []) o.
Proof.
  intros ids es s h h1 o h2 H E. destruct (run_INV ids es [] nminit s h (init_INV ids) H) as [_ O].
  exact (proj1 (O h1 o h2 E)).
Qed.

(** At any time a (group, address, index) names at most one registered node. *)
Theorem node_registry_unique : forall ids es s h,
  nmrun ids nminit es = Some (s, h) ->
  NoDup (registered h []) /\
  forall m n, In m (registered h []) -> In n (registered h []) -> same_id (ids m) (ids n) -> m = n.
Proof.
  intros ids es s h H. destruct (run_INV ids es [] nminit s h (init_INV ids) H) as [[D _ _ _ _] _]. exact D.
Qed.

(** A node is refused for its address exactly when no server was reachable there, is registered
    only if one was reachable when the call looked, and add_service reports success only if one
    is reachable afterwards. *)
Theorem node_registry_addresses : forall ids es s h h1 o h2,
  nmrun ids nminit es = Some (s, h) -> h = h1 ++ o :: h2 ->
  match o with
  | ORefused n => ~ reachable (pi_addr (ni_peer (ids n))) (listening h1 [])
  | OAdd n true => exists h0 h', h1 = h0 ++ h' /\ reachable (pi_addr (ni_peer (ids n))) (listening h0 [])
  | OListen a rc => rc = 0 -> reachable a (listening (h1 ++ [o]) [])
  | _ => True
  end.
Proof.
  intros ids es s h h1 o h2 H E. destruct (run_INV ids es [] nminit s h (init_INV ids) H) as [_ O].
  exact (proj2 (O h1 o h2 E)).
Qed.

(** The group index holds bare pointers; each of them is, in the same copy of the maps, also held
    by the owning map under its own id -- so no lookup can return a node nobody owns. *)
Theorem node_registry_owns_what_it_returns : forall ids es s h g n,
  nmrun ids nminit es = Some (s, h) ->
  (In (g, n) (m_group (nm_fg s)) -> In (ids n, n) (m_node (nm_fg s)) /\ g = ni_group (ids n)) /\
  (In (g, n) (m_group (nm_bg s)) -> In (ids n, n) (m_node (nm_bg s)) /\ g = ni_group (ids n)).
Proof.
  intros ids es s h g n H. destruct (run_INV ids es [] nminit s h (init_INV ids) H) as [[D F B _ _] _].
  assert (G : forall R, In (g, n) (m_group (rep ids R)) -> In (ids n, n) (m_node (rep ids R)) /\ g = ni_group (ids n)).
  { intros R Hi. cbn in *. apply in_map_iff in Hi. destruct Hi as (x & [= <- <-] & Hx).
    split; auto. apply in_map_iff. eauto. }
  rewrite F. split; [apply G|].
  destruct (nm_pend s); [destruct B as (R0 & -> & _); apply G|rewrite B; apply G].
Qed.

(** A modification in progress ends with both copies equal. *)
Theorem node_registry_copies_agree : forall ids es s h,
  nmrun ids nminit es = Some (s, h) ->
  match nm_pend s with
  | None => nm_bg s = nm_fg s
  | Some _ => exists s', nmstep ids s NFinish = Some (s', []) /\ nm_bg s' = nm_fg s' /\ nm_fg s' = nm_fg s
  end.
Proof.
  intros ids es s h H. destruct (run_INV ids es [] nminit s h (init_INV ids) H) as [[D F B _ _] _].
  cbn. destruct (nm_pend s) as [o|] eqn:Hp; [|congruence].
  destruct B as (R0 & B & D0 & Y & E). eexists. split; [reflexivity|]. cbn. split; auto.
  rewrite B, F, E. destruct (apply_rep ids o R0 D0) as [[N _]|(_ & -> & _)]; [tauto|]. reflexivity.
Qed.

(** Non-vacuity: two objects with one id (differing in role only), a second group, a lookup in
    the middle of a modification, a removal by the wrong object. *)
Definition ex_ids (n : ptr) : nodeid :=
  if n =? 1 then mkNI 7 (mkPI (mkEP 10 80) 0 0)
  else if n =? 2 then mkNI 7 (mkPI (mkEP 10 80) 0 1)
  else if n =? 3 then mkNI 7 (mkPI (mkEP 10 80) 1 0)
  else mkNI 8 (mkPI (mkEP 11 81) 0 0).
Definition ex_nm : list nmev :=
  [NAddCheck 1; NListen (mkEP 0 80) true; NListen (mkEP 10 80) false; NAddCheck 1; NAddCheck 2; NAddCheck 3; NAddCheck 4;
   NAddMod 1; NGroup 7; NFinish; NAddMod 2; NRemove 2; NAddMod 3; NGet 7 (mkPI (mkEP 10 80) 1 1); NFinish;
   NGroup 7; NAll; NRemove 1; NGet 7 (mkPI (mkEP 10 80) 0 0); NFinish; NGroup 7; NUnlisten (mkEP 0 80); NAddCheck 1].
Example ex_node_registry : option_map snd (nmrun ex_ids nminit ex_nm) =
  Some [ORefused 1; OListen (mkEP 0 80) 0; OListen (mkEP 10 80) 0; ORefused 4;
        OAdd 1 true; OGroup 7 [1]; OAdd 2 false; ORem 2 false; OAdd 3 true; OGot 7 (mkPI (mkEP 10 80) 1 1) (Some 3);
        OGroup 7 [1;3]; OAll [1;3]; ORem 1 true; OGot 7 (mkPI (mkEP 10 80) 0 0) None; OGroup 7 [3];
        OUnlisten (mkEP 0 80); ORefused 1].
Proof. reflexivity. Qed.

(** The address check is not atomic with the registration: a node can be registered although the
    server at its address is gone by then. *)
Theorem node_registry_address_at_registration_refuted :
  ~ (forall ids es s h h1 n h2, nmrun ids nminit es = Some (s, h) -> h = h1 ++ OAdd n true :: h2 ->
       reachable (pi_addr (ni_peer (ids n))) (listening h1 [])).
Proof.
  intros H.
  specialize (H ex_ids [NListen (mkEP 0 80) true; NAddCheck 1; NUnlisten (mkEP 0 80); NAddMod 1] _ _
                [OListen (mkEP 0 80) 0; OUnlisten (mkEP 0 80)] 1 [] eq_refl eq_refl).
  cbn in H. destruct H as [[]|[]].
Qed.

Print Assumptions node_registry_answers.
Print Assumptions node_registry_unique.
Print Assumptions node_registry_addresses.
Print Assumptions node_registry_owns_what_it_returns.
Print Assumptions node_registry_copies_agree.
Print Assumptions node_registry_address_at_registration_refuted.
