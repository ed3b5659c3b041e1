From Coq Require Import Sorted Sorting.Permutation.
From Verif Require Import Base BaseLemmas AECache AECacheSpec.

Ltac sp := repeat match goal with |- _ /\ _ => split end.
Ltac cs := cbn [c_map c_queue c_timer c_cv c_tv armed running t_next n_cache n_ver n_ts t_id t_tv t_cv t_start].
Ltac csi H := cbn [c_map c_queue c_timer c_cv c_tv armed running t_next n_cache n_ver n_ts t_id t_tv t_cv t_start] in H.

(** * Lists of requests *)
Lemma rpc_eqb_eq : forall a b, rpc_eqb a b = true <-> a = b.
Proof.
  intros [a1 a2 a3 a4] [b1 b2 b3 b4]. unfold rpc_eqb. cbn. rewrite !andb_true_iff, !Z.eqb_eq. split; [intros (((-> & ->) & ->) & ->); auto|intros H; injection H as -> -> -> ->; auto].
Qed.
Lemma unlink_perm : forall r q, In r q -> Permutation q (r :: unlink r q).
Proof.
  induction q as [|x q IH]; intros H; [destruct H|]. cbn [unlink]. destruct (rpc_eqb x r) eqn:E.
  - apply rpc_eqb_eq in E. subst. auto.
  - destruct H as [->|H]; [rewrite (proj2 (rpc_eqb_eq r r) eq_refl) in E; discriminate|]. rewrite perm_swap. constructor. auto.
Qed.
Lemma unlink_sub : forall r q x, In x (unlink r q) -> In x q.
Proof. induction q as [|y q IH]; intros x H; cbn in *; auto. destruct (rpc_eqb y r); [right; auto|]. destruct H; auto. Qed.
Lemma unlink_sorted : forall R r q, StronglySorted R q -> StronglySorted R (unlink r q).
Proof.
  intros R r q H. induction H as [|x q H IH F]; cbn; [constructor|]. destruct (rpc_eqb x r); auto. constructor; auto.
  rewrite Forall_forall in *. intros y Hy. apply F. eapply unlink_sub; eauto.
Qed.

Definition apart (a b : rpc) : Prop := q_last a <= q_prev b.
Definition mapok (m : list rpc) : Prop := StronglySorted apart m /\ Forall (fun r => 1 <= q_n r) m.
Lemma mapok_cons : forall r m, mapok (r :: m) <-> 1 <= q_n r /\ (forall x, In x m -> q_last r <= q_prev x) /\ mapok m.
Proof.
  intros r m. unfold mapok. split.
  - intros [A B]. inversion A as [|? ? A1 A2]; subst. inversion B as [|? ? B1 B2]; subst. rewrite Forall_forall in A2. sp; auto.
  - intros (A & B & C & D). split; constructor; auto. apply Forall_forall. auto.
Qed.
Lemma mapok_app : forall a b, mapok (a ++ b) -> mapok a /\ mapok b /\ forall x y, In x a -> In y b -> q_last x <= q_prev y.
Proof.
  induction a as [|r a IH]; intros b H; cbn in *.
  - sp; auto. split; constructor. intros x y [].
  - apply mapok_cons in H. destruct H as (H1 & H2 & H3). destruct (IH _ H3) as (A & B & C). sp; auto.
    + apply mapok_cons. sp; auto. intros x Hx. apply H2. apply in_app_iff; auto.
    + intros x y [<-|Hx] Hy; [apply H2; apply in_app_iff; auto|auto].
Qed.
Lemma before_none : forall p m, before p m = None -> m = [] \/ exists x m', m = x :: m' /\ p <= q_prev x.
Proof. destruct m as [|x m]; auto. cbn. destruct (Z.ltb_spec (q_prev x) p); [destruct (before p m); discriminate|]. right. eauto. Qed.
Lemma insert_ok : forall r m, mapok m -> 1 <= q_n r -> match before (q_prev r) m with Some p => q_prev r <? q_last p | None => false end = false ->
  match from (q_prev r) m with Some n => q_prev n <? q_last r | None => false end = false -> mapok (insert r m) /\ Permutation (insert r m) (r :: m).
Proof.
  induction m as [|x m IH]; intros Hm Hr B F; cbn [insert before from] in *.
  - split; auto. apply mapok_cons. sp; auto. intros x [].
  - apply mapok_cons in Hm. destruct Hm as (X1 & X2 & X3). destruct (Z.ltb_spec (q_prev x) (q_prev r)) as [L|L].
    + assert (B' : match before (q_prev r) m with Some p => q_prev r <? q_last p | None => false end = false) by (destruct (before (q_prev r) m); auto).
      destruct (IH X3 Hr B' F) as [I1 I2].
      assert (Lr : q_last x <= q_prev r).
      { destruct (before (q_prev r) m) as [y|] eqn:E; [|apply Z.ltb_ge in B; auto]. apply Z.ltb_ge in B.
        assert (Iy : In y m). { clear - E. induction m as [|z m IHm]; cbn in E; [discriminate|]. destruct (q_prev z <? q_prev r); [|discriminate]. destruct (before (q_prev r) m) as [w|] eqn:E2; injection E as <-; [right; auto|left; auto]. }
        assert (X := X2 _ Iy). unfold q_last in *. assert (1 <= q_n y) by (destruct X3 as [_ X3]; rewrite Forall_forall in X3; auto). lia. }
      split; [|rewrite I2; apply perm_swap]. apply mapok_cons. sp; auto. intros y Hy. apply (Permutation_in _ I2) in Hy. destruct Hy as [<-|Hy]; auto.
    + apply Z.ltb_ge in F. destruct (Z.eqb_spec (q_prev x) (q_prev r)); [unfold q_last in F; lia|]. split; auto. apply mapok_cons. sp; auto.
      * intros y [<-|Hy]; auto. specialize (X2 _ Hy). unfold q_last in X2 at 1. lia.
      * apply mapok_cons. auto.
Qed.
Lemma zlen_rev : forall (m : list rpc), zlen (rev m) = zlen m. Proof. intros. unfold zlen. rewrite rev_length. auto. Qed.
Lemma evict_ok : forall f mx m q m2 q2 out, evict f mx m q = (m2, q2, out) -> Permutation m q -> m = m2 ++ rev out /\ Permutation m2 q2 /\ Permutation q (out ++ q2) /\
  ((length m <= f)%nat -> zlen m2 <= Z.max 0 mx) /\ (m <> [] -> 1 <= mx -> m2 <> []) /\ (forall R, StronglySorted R q -> StronglySorted R q2) /\ incl q2 q.
Proof.
  induction f as [|f IH]; intros mx m q m2 q2 out H P; cbn [evict] in H.
  - injection H as <- <- <-. cbn. rewrite app_nil_r. sp; auto. + intros L. unfold zlen; lia. + apply incl_refl.
  - destruct (Z.ltb_spec mx (zlen m)) as [L|L].
    + destruct (rev m) as [|r m'] eqn:E.
      * injection H as <- <- <-. cbn. rewrite app_nil_r. assert (m = []) by (rewrite <- (rev_involutive m), E; auto). subst. sp; auto. -- intros _. change (zlen (@nil rpc)) with 0. lia. -- apply incl_refl.
      * destruct (evict f mx (rev m') (unlink r q)) as [[m3 q3] out3] eqn:E3. injection H as <- <- <-.
        assert (Em : m = rev m' ++ [r]) by (rewrite <- (rev_involutive m), E; auto).
        assert (Ir : In r q). { eapply Permutation_in; [exact P|]. rewrite Em. apply in_app_iff. right; left; auto. }
        assert (P3 : Permutation (rev m') (unlink r q)). { apply (Permutation_cons_inv (a := r)). rewrite <- (unlink_perm _ _ Ir), <- P, Em. apply Permutation_cons_append. }
        destruct (IH _ _ _ _ _ _ E3 P3) as (A1 & A2 & A3 & A4 & A5 & A6 & A7). sp; auto.
        -- rewrite Em, A1. cbn [rev]. rewrite app_assoc. auto.
        -- rewrite (unlink_perm _ _ Ir). cbn. constructor. auto.
        -- intros Lf. apply A4. rewrite Em, app_length in Lf. cbn in Lf. lia.
        -- intros _ M. apply A5; auto. intros Z0. rewrite Em, Z0 in L. unfold zlen in L. cbn [app length] in L. lia.
        -- intros R S. apply A6. apply unlink_sorted; auto.
        -- intros x Hx. eapply unlink_sub. apply A7. exact Hx.
    + injection H as <- <- <-. cbn. rewrite app_nil_r. sp; auto. * intros _. lia. * apply incl_refl.
Qed.
Lemma runable_ok : forall m last q m2 q2 out, runable last m q = (m2, q2, out) -> Permutation m q -> m = out ++ m2 /\ Permutation m2 q2 /\ Permutation q (out ++ q2) /\
  (forall R, StronglySorted R q -> StronglySorted R q2) /\ incl q2 q.
Proof.
  induction m as [|r m IH]; intros last q m2 q2 out H P; cbn [runable] in H.
  - injection H as <- <- <-. sp; auto. apply incl_refl.
  - destruct (last <? q_prev r); [injection H as <- <- <-; sp; auto; apply incl_refl|]. destruct (runable (q_last r) m (unlink r q)) as [[m3 q3] out3] eqn:E. injection H as <- <- <-.
    assert (Ir : In r q) by (eapply Permutation_in; [exact P|left; auto]).
    assert (P3 : Permutation m (unlink r q)). { apply (Permutation_cons_inv (a := r)). rewrite <- (unlink_perm _ _ Ir). auto. }
    destruct (IH _ _ _ _ _ E P3) as (A1 & A2 & A3 & A4 & A5). sp; auto.
    + rewrite A1. auto.
    + rewrite (unlink_perm _ _ Ir). cbn. constructor. auto.
    + intros R S. apply A4. apply unlink_sorted; auto.
    + intros x Hx. eapply unlink_sub. apply A5. exact Hx.
Qed.
Lemma runable_run : forall m last q m2 q2 out, runable last m q = (m2, q2, out) -> mapok m ->
  match out with
  | [] => forall x, In x m2 -> last < q_prev x
  | r :: _ => q_prev r <= last /\ exists e, gapless out e /\ forall x, In x m2 -> e < q_prev x
  end.
Proof.
  induction m as [|r m IH]; intros last q m2 q2 out H M; cbn [runable] in H.
  - injection H as <- <- <-. intros x [].
  - apply mapok_cons in M. destruct M as (M1 & M2 & M3). destruct (Z.ltb_spec last (q_prev r)) as [L|L].
    + injection H as <- <- <-. intros x [<-|Hx]; auto. apply M2 in Hx. unfold q_last in Hx. lia.
    + destruct (runable (q_last r) m (unlink r q)) as [[m3 q3] out3] eqn:E. injection H as <- <- <-. split; auto.
      assert (I := IH _ _ _ _ _ E M3). destruct out3 as [|y out3].
      * exists (q_last r). split; [reflexivity|auto].
      * destruct I as (I1 & e & I2 & I3). exists e. split; auto. split; auto.
        assert (Iy : In y m). { clear - E. destruct m as [|z m]; cbn in E; [discriminate|]. destruct (_ <? _); [discriminate|]. destruct (runable (q_last z) m _) as [[? ?] ?]. injection E as _ _ <- _. left; auto. }
        apply M2 in Iy. lia.
Qed.

(** * Accounting *)
Lemma handled_app : forall a b, handled (a ++ b) = handled a ++ handled b. Proof. intros. apply flat_map_app. Qed.
Lemma failed_app : forall a b, failed (a ++ b) = failed a ++ failed b. Proof. intros. apply flat_map_app. Qed.
Lemma stored_app : forall a b, stored (a ++ b) = stored a ++ stored b. Proof. intros. apply flat_map_app. Qed.
Lemma sth_acc : forall ok l, Permutation (handled (start_to_handle ok l) ++ failed (start_to_handle ok l)) l /\ stored (start_to_handle ok l) = [].
Proof.
  intros [|] l; cbn; [rewrite !app_nil_r; auto|]. unfold handled, failed, stored.
  induction l as [|x l [IH1 IH2]]; cbn; auto. split; auto.
  assert (E : flat_map (fun x => match x with OHandle l => l | _ => [] end) (map OFail l) = []) by (clear; induction l; cbn; auto). rewrite E in *. cbn in *. constructor. auto.
Qed.
Definition released (o : list cout) (l : list rpc) : Prop := Permutation (handled o ++ failed o) l /\ stored o = [].
Lemma rel_nil : released [] []. Proof. split; auto. Qed.
Lemma rel_app : forall a b l k, released a l -> released b k -> released (a ++ b) (l ++ k).
Proof.
  intros a b l k [A1 A2] [B1 B2]. split; [|rewrite stored_app, A2, B2; auto]. rewrite handled_app, failed_app, <- A1, <- B1.
  rewrite <- !app_assoc. apply Permutation_app_head. rewrite !app_assoc. apply Permutation_app_tail. apply Permutation_app_comm.
Qed.
Lemma rel_perm : forall o l k, released o l -> Permutation l k -> released o k.
Proof. intros o l k [A B] P. split; auto. rewrite A. auto. Qed.
Lemma rel_sth : forall ok l, released (start_to_handle ok l) l. Proof. intros. apply sth_acc. Qed.
Lemma rel_sth' : forall ok l, released (match l with [] => [] | _ => start_to_handle ok l end) l.
Proof. intros ok [|x l]; [apply rel_nil|apply rel_sth]. Qed.
Lemma rel_nonempty : forall c, released (nonempty c) [].
Proof. intros c. unfold nonempty. destruct (c_map c), (c_queue c); split; auto. Qed.

Definition cok (c : cache) : Prop := mapok (c_map c) /\ Permutation (c_map c) (c_queue c) /\ c_cv c = 0.
Lemma stop_same : forall c ts c' ts', stop_timer c ts = (c', ts') -> c_map c' = c_map c /\ c_queue c' = c_queue c /\ c_cv c' = c_cv c.
Proof. intros c ts c' ts' H. unfold stop_timer in H. destruct (c_timer c); [destruct (existsb _ _)|]; injection H as <- <-; auto. Qed.
Lemma start_same : forall ok c ts b c' ts', start_timer ok c ts = (b, c', ts') -> c_map c' = c_map c /\ c_queue c' = c_queue c /\ c_cv c' = c_cv c /\ b = ok.
Proof. intros ok c ts b c' ts' H. unfold start_timer in H. destruct ok; injection H as <- <- <-; auto. Qed.
Lemma mapok_nil : mapok []. Proof. split; constructor. Qed.
Lemma clear_ok : forall ok c ts c' ts' o, clear ok c ts = (c', ts', o) -> c_map c' = [] /\ c_queue c' = [] /\ c_cv c' = c_cv c /\ released o (c_queue c).
Proof.
  intros ok c ts c' ts' o H. unfold clear in H. destruct (stop_timer c ts) as [c1 ts1] eqn:E. destruct (stop_same _ _ _ _ E) as (A1 & A2 & A3). injection H as <- <- <-. cs. sp; auto. rewrite A2. apply rel_sth.
Qed.
Lemma cok_nil : forall c, c_map c = [] -> c_queue c = [] -> c_cv c = 0 -> cok c.
Proof. intros c A B C. unfold cok. rewrite A, B. sp; auto. apply mapok_nil. Qed.
Lemma store_ok : forall mx b1 b2 tm r c ts c' ts' o, cok c -> 1 <= q_n r -> store mx b1 b2 tm r c ts = (c', ts', o) ->
  cok c' /\ (zlen (c_map c') <= Z.max 0 mx) /\ exists l, released o l /\ Permutation (r :: c_queue c) (l ++ c_queue c').
Proof.
  intros mx b1 b2 tm r c ts c' ts' o (K1 & K2 & K3) Hr H. unfold store in H.
  set (nc := (match before (q_prev r) (c_map c) with Some p => q_prev r <? q_last p | None => false end || match from (q_prev r) (c_map c) with Some n => q_prev n <? q_last r | None => false end)) in *.
  destruct (if nc then clear b1 c ts else (c, ts, [])) as [[c1 ts1] o1] eqn:E1.
  assert (C1 : mapok (insert r (c_map c1)) /\ Permutation (insert r (c_map c1)) (c_queue c1 ++ [r]) /\ c_cv c1 = 0 /\ exists l, released o1 l /\ Permutation (c_queue c) (l ++ c_queue c1)).
  { destruct nc eqn:N.
    - destruct (clear_ok _ _ _ _ _ _ E1) as (X1 & X2 & X3 & X4). rewrite X1, X2, X3. cbn. sp; auto. + apply mapok_cons. sp; auto; [intros x []|apply mapok_nil]. + exists (c_queue c). split; auto. rewrite app_nil_r. auto.
    - injection E1 as <- <- <-. unfold nc in N. apply orb_false_iff in N. destruct N as [N1 N2]. destruct (insert_ok _ _ K1 Hr N1 N2) as [I1 I2]. sp; auto.
      + rewrite I2, K2. apply Permutation_cons_append.
      + exists []. split; [apply rel_nil|auto]. }
  clear E1. destruct C1 as (I1 & I2 & I3 & l1 & R1 & P1). set (c2 := mkC (insert r (c_map c1)) (c_queue c1 ++ [r]) (c_timer c1) (c_cv c1) (c_tv c1)) in *.
  destruct (if zlen (c_map c2) =? 1 then start_timer tm c2 ts1 else (true, c2, ts1)) as [[st c3] ts3] eqn:E3.
  assert (C3 : c_map c3 = insert r (c_map c1) /\ c_queue c3 = c_queue c1 ++ [r] /\ c_cv c3 = 0).
  { destruct (zlen (c_map c2) =? 1); [destruct (start_same _ _ _ _ _ _ E3) as (X1 & X2 & X3 & _); rewrite X1, X2, X3; auto|injection E3 as <- <- <-; auto]. }
  destruct C3 as (M3 & Q3 & V3). clear E3. destruct st; cbn [negb] in H.
  - destruct (evict (length (c_map c3)) mx (c_map c3) (c_queue c3)) as [[m q] out] eqn:E4. injection H as <- <- <-. cs.
    destruct (evict_ok _ _ _ _ _ _ _ E4) as (A1 & A2 & A3 & A4 & A5 & A6 & A7); [rewrite M3, Q3; auto|].
    sp.
    + unfold cok. cs. sp; auto. rewrite M3 in A1. rewrite A1 in I1. apply mapok_app in I1. tauto.
    + apply A4. auto.
    + exists (l1 ++ out). split; [apply rel_app; auto using rel_sth'|]. rewrite Q3 in A3. rewrite P1, <- app_assoc, <- A3. rewrite Permutation_cons_append. rewrite app_assoc. auto.
  - destruct (clear b2 c3 ts3) as [[c4 ts4] o4] eqn:E4. injection H as <- <- <-. destruct (clear_ok _ _ _ _ _ _ E4) as (X1 & X2 & X3 & X4). sp.
    + apply cok_nil; congruence.
    + rewrite X1. change (zlen (@nil rpc)) with 0. lia.
    + exists (l1 ++ c_queue c3). split; [apply rel_app; auto|]. rewrite X2, app_nil_r, Q3, P1. rewrite app_assoc. apply Permutation_cons_append.
Qed.
Lemma process_ok : forall ok last c ts c' ts' o, cok c -> process ok last c ts = (c', ts', o) -> cok c' /\ zlen (c_map c') <= zlen (c_map c) /\ exists l, released o l /\ Permutation (c_queue c) (l ++ c_queue c').
Proof.
  intros ok last c ts c' ts' o (K1 & K2 & K3) H. unfold process in H. destruct (runable last (c_map c) (c_queue c)) as [[m q] out] eqn:E.
  destruct (runable_ok _ _ _ _ _ _ E K2) as (A1 & A2 & A3 & _).
  assert (C : cok (mkC m q (c_timer c) (c_cv c) (c_tv c)) /\ zlen m <= zlen (c_map c)).
  { split; [unfold cok; cs; sp; auto; rewrite A1 in K1; apply mapok_app in K1; tauto|]. rewrite A1. unfold zlen. rewrite app_length. lia. }
  destruct (match m with [] => stop_timer (mkC m q (c_timer c) (c_cv c) (c_tv c)) ts | _ => (mkC m q (c_timer c) (c_cv c) (c_tv c), ts) end) as [c2 ts2] eqn:E2. injection H as <- <- <-.
  assert (S : c_map c2 = m /\ c_queue c2 = q /\ c_cv c2 = c_cv c). { destruct m; [apply stop_same in E2; auto|injection E2 as <- <-; auto]. }
  destruct S as (S1 & S2 & S3). destruct C as [C1 C2]. sp.
  - unfold cok in *. csi C1. rewrite S1, S2, S3. auto.
  - rewrite S1. auto.
  - exists out. rewrite S2. split; auto. apply (rel_app _ _ [] out); auto using rel_nonempty, rel_sth'.
Qed.
Lemma timedout_ok : forall ok tm t c ts c' ts' o, cok c -> timedout ok tm t c ts = (c', ts', o) -> cok c' /\ zlen (c_map c') <= zlen (c_map c) /\ exists l, released o l /\ Permutation (c_queue c) (l ++ c_queue c').
Proof.
  intros ok tm t c ts c' ts' o K H. unfold timedout in H. destruct (negb _).
  { injection H as <- <- <-. sp; auto; [lia|]. exists []. split; auto using rel_nil. }
  destruct (_ <=? _).
  - destruct (clear ok c ts) as [[c1 ts1] o1] eqn:E. injection H as <- <- <-. destruct (clear_ok _ _ _ _ _ _ E) as (X1 & X2 & X3 & X4). sp.
    + apply cok_nil; auto. rewrite X3. apply K.
    + rewrite X1. unfold zlen. cbn. lia.
    + exists (c_queue c). rewrite X2, app_nil_r. split; auto. apply (rel_app _ _ []); auto using rel_nonempty.
  - destruct (start_timer tm c ts) as [[st c1] ts1] eqn:E. destruct (start_same _ _ _ _ _ _ E) as (S1 & S2 & S3 & ->). destruct tm.
    + injection H as <- <- <-. unfold cok in *. rewrite S1, S2, S3. sp; try apply K; [lia|]. exists []. split; auto using rel_nonempty.
    + destruct (clear ok c1 ts1) as [[c2 ts2] o2] eqn:E2. injection H as <- <- <-. destruct (clear_ok _ _ _ _ _ _ E2) as (X1 & X2 & X3 & X4). sp.
      * apply cok_nil; auto. rewrite X3, S3. apply K.
      * rewrite X1. unfold zlen. cbn. lia.
      * exists (c_queue c). rewrite X2, app_nil_r. split; auto. rewrite S2 in X4. apply (rel_app _ _ []); auto using rel_nonempty.
Qed.
Definition nok (mx : Z) (n : node) : Prop := match n_cache n with Some c => cok c /\ zlen (c_map c) <= Z.max 0 mx | None => True end.
Lemma held_keep : forall c v ts, cok c -> held (mkN (keep c) v ts) = c_queue c.
Proof. intros c v ts (_ & P & _). unfold held, keep. cs. destruct (c_map c) as [|x m] eqn:E; auto. apply Permutation_nil in P. auto. Qed.
Lemma cstep_ok : forall mx n e n' o, nok mx n -> cstep mx n e = Some (n', o) -> nok mx n' /\ Permutation (held n ++ stored o) (handled o ++ failed o ++ held n').
Proof.
  intros mx n e n' o K H.
  assert (Nil : forall x, held x = held n -> Permutation (held n ++ stored []) (handled [] ++ failed [] ++ held x)) by (intros x ->; cbn; rewrite app_nil_r; auto).
  assert (Kp : forall c v ts, cok c -> zlen (c_map c) <= Z.max 0 mx -> nok mx (mkN (keep c) v ts)). { intros c v ts A B. unfold nok, keep. cs. destruct (c_map c) eqn:E; auto. rewrite E. auto. }
  unfold cstep in H. destruct e.
  - destruct (Z.ltb_spec (q_n r) 0); [discriminate|]. destruct (_ || _) eqn:G; [injection H as <- <-; auto|]. apply orb_false_iff in G. destruct G as [_ G]. apply Z.eqb_neq in G. assert (Hn1 : 1 <= q_n r) by lia.
    destruct (match n_cache n with Some c => (c, n_ver n) | None => (mkC [] [] None 0 0, n_ver n + 1) end) as [c ver] eqn:E.
    assert (Kc : cok c /\ c_queue c = held n). { unfold nok, held in *. destruct (n_cache n); injection E as <- <-; [tauto|]. split; auto. apply cok_nil; auto. }
    destruct Kc as [Kc Hc]. destruct (store mx b1 b2 tm r c (n_ts n)) as [[c1 ts1] o1] eqn:E1. injection H as <- <-.
    destruct (store_ok _ _ _ _ _ _ _ _ _ _ Kc Hn1 E1) as (A1 & A2 & l & (A3 & A4) & A5). split; [unfold nok; cs; auto|].
    unfold held at 2. cs. change (OStored r :: o1) with ([OStored r] ++ o1). rewrite stored_app, handled_app, failed_app, A4. cbn [stored handled failed flat_map app].
    rewrite app_assoc, A3, <- A5, Hc. symmetry. apply Permutation_cons_append.
  - unfold nok in K. destruct (n_cache n) as [c|] eqn:E; [|injection H as <- <-; split; auto; unfold nok; rewrite E; auto]. destruct K as [K1 K2].
    destruct (process ok last c (n_ts n)) as [[c1 ts1] o1] eqn:E1. injection H as <- <-. destruct (process_ok _ _ _ _ _ _ _ K1 E1) as (A1 & A2 & l & (A3 & A4) & A5).
    split; [apply Kp; auto; lia|]. rewrite held_keep by auto. unfold held. rewrite E, A4, app_nil_r, app_assoc, A3. auto.
  - unfold nok in K. destruct (n_cache n) as [c|] eqn:E; [|injection H as <- <-; split; auto; unfold nok; rewrite E; auto]. destruct K as [K1 K2].
    destruct (clear ok c (n_ts n)) as [[c1 ts1] o1] eqn:E1. injection H as <- <-. destruct (clear_ok _ _ _ _ _ _ E1) as (A1 & A2 & A5 & (A3 & A4)). split; [unfold nok; cs; auto|].
    unfold held. cs. rewrite E, A4, !app_nil_r, A3. auto.
  - destruct (find _ _); [|discriminate]. injection H as <- <-. split; [unfold nok in *; cs; auto|]. apply Nil. reflexivity.
  - destruct (find _ _) as [t|]; [|discriminate]. unfold nok in K. destruct (n_cache n) as [c|] eqn:E; [|injection H as <- <-; split; [unfold nok; cs; auto|apply Nil; unfold held; cs; rewrite E; auto]].
    destruct K as [K1 K2]. destruct (_ =? _).
    + destruct (timedout ok tm t c _) as [[c1 ts1] o1] eqn:E1. injection H as <- <-. destruct (timedout_ok _ _ _ _ _ _ _ _ K1 E1) as (A1 & A2 & l & (A3 & A4) & A5).
      split; [apply Kp; auto; lia|]. rewrite held_keep by auto. unfold held. rewrite E, A4, app_nil_r, app_assoc, A3. auto.
    + injection H as <- <-. split; [unfold nok; cs; auto|apply Nil; unfold held; cs; rewrite E; auto].
Qed.
Lemma crun_ok : forall mx es n n' o, nok mx n -> crun mx n es = Some (n', o) -> nok mx n' /\ Permutation (held n ++ stored o) (handled o ++ failed o ++ held n').
Proof.
  induction es as [|e es IH]; intros n n' o K H; cbn in H.
  - injection H as <- <-. split; auto. cbn. rewrite app_nil_r. auto.
  - destruct (cstep mx n e) as [[n1 o1]|] eqn:E; [|discriminate]. destruct (crun mx n1 es) as [[n2 o2]|] eqn:E2; [|discriminate]. injection H as <- <-.
    destruct (cstep_ok _ _ _ _ _ K E) as [K1 P1]. destruct (IH _ _ _ K1 E2) as [K2 P2]. split; auto. rewrite stored_app, handled_app, failed_app.
    rewrite app_assoc, P1. rewrite <- !app_assoc. apply Permutation_app_head.
    rewrite P2. rewrite (app_assoc (failed o1)), (Permutation_app_comm (failed o1)), <- app_assoc. auto.
Qed.

(** * Timers *)
Definition tsok (ts : timers) : Prop := NoDup (map t_id (armed ts ++ running ts)) /\ forall t, In t (armed ts ++ running ts) -> t_id t < t_next ts.
Definition older (a b : rpc) : Prop := q_recv a <= q_recv b.
Definition watched (c : cache) (ts : timers) : Prop := exists t, In t (armed ts ++ running ts) /\ t_tv t = c_tv c /\ t_cv t = c_cv c /\ forall r, In r (c_queue c) -> t_start t <= q_recv r.
Record TI (now : Z) (n : node) : Prop := mkTI {
  ti_ts : tsok (n_ts n);
  ti_c : forall c, n_cache n = Some c -> c_map c <> [] /\ StronglySorted older (c_queue c) /\ (forall r, In r (c_queue c) -> q_recv r <= now) /\ watched c (n_ts n) }.
Lemma filter_ids : forall f l, NoDup (map t_id l) -> NoDup (map t_id (filter f l)).
Proof.
  induction l as [|t l IH]; intros N; cbn in *; auto. apply NoDup_cons_iff in N. destruct N as [N1 N2]. destruct (f t); auto. cbn. constructor; auto.
  intros H. apply N1. apply in_map_iff in H. destruct H as (x & E & H). apply filter_In in H. apply in_map_iff. exists x. tauto.
Qed.
Lemma nodup_mid : forall (a b : list Z) x, NoDup (a ++ x :: b) <-> NoDup (x :: a ++ b).
Proof. intros. split; intros H; eapply Permutation_NoDup; try exact H; [symmetry|]; apply Permutation_middle. Qed.
Lemma nodup_sub : forall (a b c d : list timer), NoDup (map t_id (a ++ b)) -> incl c a -> incl d b -> NoDup (map t_id c) -> NoDup (map t_id d) -> NoDup (map t_id (c ++ d)).
Proof.
  intros a b c d N I1 I2 N1 N2. rewrite map_app in *. revert N1 I1. induction c as [|x c IH]; intros N1 I1; cbn; auto. apply NoDup_cons_iff in N1. destruct N1 as [N1 N1']. constructor.
  - intros H. apply in_app_iff in H. destruct H as [H|H]; auto. apply in_map_iff in H. destruct H as (y & E & H).
    assert (Ix : In (t_id x) (map t_id a)) by (apply in_map; apply I1; left; auto). assert (Iy : In (t_id y) (map t_id b)) by (apply in_map; auto). rewrite E in Iy.
    clear - N Ix Iy. induction (map t_id a) as [|z l IHl]; [destruct Ix|]. cbn in N. apply NoDup_cons_iff in N. destruct N as [Na Nb]. destruct Ix as [->|Ix]; auto. apply Na. apply in_app_iff; auto.
  - apply IH; auto. intros y Hy. apply I1. right; auto.
Qed.
Lemma nodup_l : forall (a b : list timer), NoDup (map t_id (a ++ b)) -> NoDup (map t_id a) /\ NoDup (map t_id b).
Proof.
  intros a b. rewrite map_app. induction (map t_id a) as [|x l IH]; cbn; intros N; [split; auto; constructor|]. apply NoDup_cons_iff in N. destruct N as [N1 N2]. destruct (IH N2). split; auto. constructor; auto. intros H1. apply N1. apply in_app_iff; auto.
Qed.
Lemma filter_in : forall (f : timer -> bool) l, incl (filter f l) l. Proof. intros f l x H. apply filter_In in H. tauto. Qed.
Lemma stop_tsok : forall c ts c' ts', tsok ts -> stop_timer c ts = (c', ts') -> tsok ts'.
Proof.
  intros c ts c' ts' [A B] H. unfold stop_timer in H. destruct (c_timer c) as [i|]; [|injection H as <- <-; split; auto]. destruct (existsb _ _); injection H as <- <-; [|split; auto].
  destruct (nodup_l _ _ A) as [A1 A2]. split; cs.
  - eapply nodup_sub; [exact A|apply filter_in|apply incl_refl|apply filter_ids; auto|auto].
  - intros t H. apply B. apply in_app_iff in H. apply in_app_iff. destruct H as [H|H]; auto. left. eapply filter_in; eauto.
Qed.
Lemma start_tsok : forall ok c ts b c' ts', tsok ts -> start_timer ok c ts = (b, c', ts') -> tsok ts'.
Proof.
  intros ok c ts b c' ts' [A B] H. unfold start_timer in H. destruct ok; injection H as <- <- <-; [|split; auto]. split; cs; cbn [app map t_id].
  - constructor; auto. intros H. apply in_map_iff in H. destruct H as (t & E & H). apply B in H. lia.
  - intros t [<-|H]; cs; [lia|]. apply B in H. lia.
Qed.
Lemma start_watched : forall c ts b c' ts', StronglySorted older (c_queue c) -> start_timer true c ts = (b, c', ts') -> watched c' ts'.
Proof.
  intros c ts b c' ts' S H. unfold start_timer in H. injection H as <- <- <-. unfold watched. cs. eexists. split; [left; reflexivity|]. cs. sp; auto. intros r Hr.
  destruct (c_queue c) as [|x q]; [destruct Hr|]. destruct Hr as [<-|Hr]; [lia|]. inversion S as [|? ? S1 S2]; subst. rewrite Forall_forall in S2. apply S2. auto.
Qed.
Lemma sorted_snoc : forall q r, StronglySorted older q -> (forall x, In x q -> q_recv x <= q_recv r) -> StronglySorted older (q ++ [r]).
Proof.
  induction q as [|x q IH]; intros r S H; cbn; [constructor; constructor|]. inversion S as [|? ? S1 S2]; subst. constructor; [apply IH; auto; intros; apply H; right; auto|].
  apply Forall_app. split; auto. constructor; [|constructor]. apply H. left; auto.
Qed.
Lemma insert_ne : forall r m, insert r m <> [].
Proof. intros r m. destruct m as [|x m]; cbn; [discriminate|]. destruct (_ <? _); [discriminate|]. destruct (_ =? _); discriminate. Qed.
Lemma clear_tsok : forall ok c ts c' ts' o, tsok ts -> clear ok c ts = (c', ts', o) -> tsok ts'.
Proof. intros ok c ts c' ts' o A H. unfold clear in H. destruct (stop_timer c ts) as [c1 ts1] eqn:E. injection H as <- <- <-. eapply stop_tsok; eauto. Qed.
Lemma store_ti : forall mx b1 b2 r c ts c' ts' o now, 1 <= mx -> cok c -> 1 <= q_n r -> tsok ts -> StronglySorted older (c_queue c) -> (forall x, In x (c_queue c) -> q_recv x <= now) -> now <= q_recv r ->
  (c_map c <> [] -> watched c ts) -> store mx b1 b2 true r c ts = (c', ts', o) ->
  tsok ts' /\ c_map c' <> [] /\ StronglySorted older (c_queue c') /\ (forall x, In x (c_queue c') -> q_recv x <= q_recv r) /\ watched c' ts' /\ ~ In OCheckFail o.
Proof.
  intros mx b1 b2 r c ts c' ts' o now Hm (K1 & K2 & K3) Hr T S N L W H. unfold store in H.
  assert (nos : forall ok l, ~ In OCheckFail (start_to_handle ok l)). { intros [|] l X; cbn in X; [destruct X as [X|[]]; discriminate|]. apply in_map_iff in X. destruct X as (y & X & _). discriminate. }
  set (nc := (match before (q_prev r) (c_map c) with Some p => q_prev r <? q_last p | None => false end || match from (q_prev r) (c_map c) with Some n => q_prev n <? q_last r | None => false end)) in *.
  destruct (if nc then clear b1 c ts else (c, ts, [])) as [[c1 ts1] o1] eqn:E1.
  assert (C1 : tsok ts1 /\ StronglySorted older (c_queue c1 ++ [r]) /\ (forall x, In x (c_queue c1 ++ [r]) -> q_recv x <= q_recv r) /\ (c_map c1 <> [] -> watched c1 ts1) /\ (Permutation (insert r (c_map c1)) (c_queue c1 ++ [r]) /\ (c_map c1 <> [] -> zlen (insert r (c_map c1)) <> 1)) /\ ~ In OCheckFail o1).
  { destruct nc eqn:Nc.
    - destruct (clear_ok _ _ _ _ _ _ E1) as (X1 & X2 & X3 & X4). rewrite X1, X2. sp.
      + eapply clear_tsok; eauto.
      + constructor; constructor.
      + intros x [<-|[]]; lia.
      + congruence.
      + auto.
      + congruence.
      + unfold clear in E1. destruct (stop_timer c ts). injection E1 as _ _ <-. apply nos.
    - injection E1 as <- <- <-. unfold nc in Nc. apply orb_false_iff in Nc. destruct Nc as [N1 N2]. destruct (insert_ok _ _ K1 Hr N1 N2) as [I1 I2]. sp; auto.
      + apply sorted_snoc; auto. intros x Hx. apply N in Hx. lia.
      + intros x Hx. apply in_app_iff in Hx. destruct Hx as [Hx|[<-|[]]]; [apply N in Hx; lia|lia].
      + rewrite I2, K2. apply Permutation_cons_append.
      + intros Ne. apply Permutation_length in I2. unfold zlen. rewrite I2. destruct (c_map c); [congruence|]. cbn [length]. lia. }
  clear E1. destruct C1 as (T1 & S1 & B1 & W1 & (P1 & Z1) & O1). set (c2 := mkC (insert r (c_map c1)) (c_queue c1 ++ [r]) (c_timer c1) (c_cv c1) (c_tv c1)) in *.
  destruct (if zlen (c_map c2) =? 1 then start_timer true c2 ts1 else (true, c2, ts1)) as [[st c3] ts3] eqn:E3.
  assert (C3 : c_map c3 = insert r (c_map c1) /\ c_queue c3 = c_queue c1 ++ [r] /\ st = true /\ tsok ts3 /\ watched c3 ts3).
  { destruct (Z.eqb_spec (zlen (c_map c2)) 1) as [Z0|Z0].
    - destruct (start_same _ _ _ _ _ _ E3) as (X1 & X2 & X3 & X4). rewrite X1, X2. sp; auto. + eapply start_tsok; eauto. + eapply start_watched; [|exact E3]. auto.
    - injection E3 as <- <- <-. sp; auto. destruct W1 as (t & V1 & V2 & V3 & V4).
      + intros Em. apply Z0. unfold c2. cs. rewrite Em. reflexivity.
      + exists t. sp; auto. unfold c2. cs. intros x Hx. apply in_app_iff in Hx. destruct Hx as [Hx|[<-|[]]]; auto.
        destruct (c_queue c1) as [|y q] eqn:Eq; [|assert (t_start t <= q_recv y) by (apply V4; left; auto); assert (q_recv y <= q_recv r) by (apply B1; left; auto); lia].
        exfalso. apply Z0. unfold c2. cs. apply Permutation_length in P1. cbn in P1. unfold zlen. rewrite P1. reflexivity. }
  destruct C3 as (M3 & Q3 & -> & T3 & W3). clear E3. cbn [negb] in H.
  destruct (evict (length (c_map c3)) mx (c_map c3) (c_queue c3)) as [[m q] out] eqn:E4. injection H as <- <- <-. cs.
  destruct (evict_ok _ _ _ _ _ _ _ E4) as (A1 & A2 & A3 & A4 & A5 & A6 & A7); [rewrite M3, Q3; auto|]. rewrite M3, Q3 in *. sp; auto.
  - apply A5; auto. apply insert_ne.
  - destruct W3 as (t & V1 & V2 & V3 & V4). exists t. cs. sp; auto. intros x Hx. apply V4. rewrite Q3. auto.
  - intros X. apply in_app_iff in X. destruct X as [X|X]; auto. destruct out; [destruct X|]. eapply nos; eauto.
Qed.
Lemma no_check_nonempty : forall c, cok c -> c_map c <> [] -> nonempty c = [].
Proof. intros c (_ & P & _) N. unfold nonempty. destruct (c_map c) as [|x m]; [congruence|]. destruct (c_queue c); auto. apply Permutation_sym, Permutation_nil in P. discriminate. Qed.
Lemma no_check_sth : forall ok l, ~ In OCheckFail (start_to_handle ok l).
Proof. intros [|] l X; cbn in X; [destruct X as [X|[]]; discriminate|]. apply in_map_iff in X. destruct X as (y & X & _). discriminate. Qed.
Definition evt_ok (now : Z) (e : cevt) : Prop := match e with EvStore _ _ tm _ r => now <= q_recv r /\ tm = true | EvRun _ _ tm => tm = true | _ => True end.
Definition later (now : Z) (e : cevt) : Z := match e with EvStore _ _ _ _ r => q_recv r | _ => now end.
Lemma find_some_id : forall i l t, find (fun t => t_id t =? i) l = Some t -> In t l /\ t_id t = i.
Proof. intros i l t H. apply find_some in H. destruct H as [A B]. apply Z.eqb_eq in B. auto. Qed.
Lemma same_id : forall l a b, NoDup (map t_id l) -> In a l -> In b l -> t_id a = t_id b -> a = b.
Proof.
  induction l as [|x l IH]; intros a b N A B E; [destruct A|]. cbn in N. apply NoDup_cons_iff in N. destruct N as [N1 N2]. destruct A as [->|A], B as [->|B]; auto.
  - exfalso. apply N1. rewrite E. apply in_map. auto.
  - exfalso. apply N1. rewrite <- E. apply in_map. auto.
Qed.
Lemma TI_later : forall now now' n, now <= now' -> TI now n -> TI now' n.
Proof. intros now now' n L [A B]. constructor; auto. intros c E. destruct (B c E) as (B1 & B2 & B3 & B4). sp; auto. intros r Hr. apply B3 in Hr. lia. Qed.
Lemma cstep_ti : forall mx now n e n' o, 1 <= mx -> nok mx n -> TI now n -> evt_ok now e -> cstep mx n e = Some (n', o) -> TI (later now e) n' /\ ~ In OCheckFail o.
Proof.
  intros mx now n e n' o Hm K [T C] Ev H. unfold cstep in H. destruct e; cbn [evt_ok later] in *.
  - destruct Ev as [Ev ->]. destruct (Z.ltb_spec (q_n r) 0); [discriminate|]. destruct (_ || _) eqn:G.
    { injection H as <- <-. split; auto. apply (TI_later now); auto. constructor; auto. }
    apply orb_false_iff in G. destruct G as [_ G]. apply Z.eqb_neq in G. assert (Hn1 : 1 <= q_n r) by lia.
    destruct (match n_cache n with Some c => (c, n_ver n) | None => (mkC [] [] None 0 0, n_ver n + 1) end) as [c ver] eqn:E.
    assert (Kc : cok c /\ StronglySorted older (c_queue c) /\ (forall x, In x (c_queue c) -> q_recv x <= now) /\ (c_map c <> [] -> watched c (n_ts n))).
    { unfold nok in K. destruct (n_cache n) as [c0|]; injection E as <- <-; [destruct (C _ eq_refl) as (C1 & C2 & C3 & C4); sp; auto; apply K|]. cs. sp; [apply cok_nil; auto|constructor|intros x []|congruence]. }
    destruct Kc as (K1 & K2 & K3 & K4). destruct (store mx b1 b2 true r c (n_ts n)) as [[c1 ts1] o1] eqn:E1. injection H as <- <-.
    destruct (store_ti _ _ _ _ _ _ _ _ _ _ Hm K1 Hn1 T K2 K3 Ev K4 E1) as (A1 & A2 & A3 & A4 & A5 & A6). split; [|intros [X|X]; [discriminate|auto]].
    constructor; cs; auto. intros c' X. injection X as <-. auto.
  - unfold nok in K. destruct (n_cache n) as [c|] eqn:E; [|injection H as <- <-; split; auto; constructor; [auto|rewrite E; auto]].
    destruct (C _ eq_refl) as (C1 & C2 & C3 & C4). destruct K as [K1 K2]. unfold process in H. rewrite (no_check_nonempty _ K1 C1) in H. cbn [app] in H.
    destruct (runable last (c_map c) (c_queue c)) as [[m q] out] eqn:E1. destruct (runable_ok _ _ _ _ _ _ E1 (proj1 (proj2 K1))) as (A1 & A2 & A3 & A4 & A5).
    set (c1 := mkC m q (c_timer c) (c_cv c) (c_tv c)) in *.
    destruct (match m with [] => stop_timer c1 (n_ts n) | _ => (c1, n_ts n) end) as [c2 ts2] eqn:E2. injection H as <- <-.
    split; [|destruct out; [intros []|apply no_check_sth]].
    destruct m as [|x m].
    + destruct (stop_same _ _ _ _ E2) as (S1 & _). constructor; cs; [eapply stop_tsok; eauto|]. unfold keep. rewrite S1. cs. intros; discriminate.
    + injection E2 as <- <-. constructor; cs; auto. intros c' X. injection X as <-. unfold c1. cs. sp; auto; [discriminate|]. destruct C4 as (t & V1 & V2 & V3 & V4). exists t. sp; auto.
  - unfold nok in K. destruct (n_cache n) as [c|] eqn:E; [|injection H as <- <-; split; auto; constructor; [auto|rewrite E; auto]].
    destruct (clear ok c (n_ts n)) as [[c1 ts1] o1] eqn:E1. injection H as <- <-. split; [constructor; cs; [eapply clear_tsok; eauto|intros; discriminate]|].
    unfold clear in E1. destruct (stop_timer c (n_ts n)). injection E1 as _ _ <-. apply no_check_sth.
  - destruct (find _ _) as [t|] eqn:F; [|discriminate]. apply find_some_id in F. destruct F as [F1 F2]. injection H as <- <-. split; auto. destruct T as [T1 T2]. destruct (nodup_l _ _ T1) as [N1 N2]. constructor; cs.
    + split; cs.
      * rewrite map_app. cbn [map]. apply nodup_mid. constructor.
        -- intros X. apply in_app_iff in X. destruct X as [X|X].
           ++ apply in_map_iff in X. destruct X as (y & Y1 & Y2). apply filter_In in Y2. destruct Y2 as [_ Y2]. rewrite Y1, F2, Z.eqb_refl in Y2. discriminate.
           ++ rewrite map_app in T1. assert (Y : In (t_id t) (map t_id (armed (n_ts n)))) by (apply in_map; auto). clear - T1 X Y. induction (map t_id (armed (n_ts n))) as [|z l IHl]; [destruct Y|]. cbn in T1. apply NoDup_cons_iff in T1. destruct T1 as [Na Nb]. destruct Y as [->|Y]; auto. apply Na. apply in_app_iff; auto.
        -- rewrite <- map_app. eapply nodup_sub; [exact T1|apply filter_in|apply incl_refl|apply filter_ids; auto|auto].
      * intros x X. apply T2. apply in_app_iff in X. apply in_app_iff. destruct X as [X|[<-|X]]; auto. left. eapply filter_in; eauto.
    + intros c E. destruct (C _ E) as (C1 & C2 & C3 & t0 & V1 & V2 & V3 & V4). sp; auto. exists t0. sp; auto. cs. apply in_app_iff in V1. apply in_app_iff. destruct V1 as [V1|V1]; [|right; right; auto].
      destruct (Z.eq_dec (t_id t0) i) as [Q|Q]; [right; left; apply (same_id (armed (n_ts n))); auto; congruence|left; apply filter_In; split; auto; apply negb_true_iff, Z.eqb_neq; auto].
  - destruct (find _ _) as [t|] eqn:F; [|discriminate]. apply find_some_id in F. destruct F as [F1 F2]. subst tm. destruct T as [T1 T2]. destruct (nodup_l _ _ T1) as [N1 N2].
    set (ts := mkTs (armed (n_ts n)) (filter (fun t => negb (t_id t =? i)) (running (n_ts n))) (t_next (n_ts n))) in *.
    assert (Ts : tsok ts). { split; unfold ts; cs. - eapply nodup_sub; [exact T1|apply incl_refl|apply filter_in|auto|apply filter_ids; auto]. - intros x X. apply T2. apply in_app_iff in X. apply in_app_iff. destruct X as [X|X]; auto. right. eapply filter_in; eauto. }
    unfold nok in K. destruct (n_cache n) as [c|] eqn:E; [|injection H as <- <-; split; auto; constructor; [auto|cs; intros; discriminate]].
    destruct (C _ eq_refl) as (C1 & C2 & C3 & t0 & V1 & V2 & V3 & V4). destruct K as [K1 K2].
    assert (W : t_id t0 = i \/ watched c ts).
    { destruct (Z.eq_dec (t_id t0) i) as [Q|Q]; auto. right. exists t0. sp; auto. unfold ts. cs. apply in_app_iff in V1. apply in_app_iff. destruct V1 as [V1|V1]; auto. right. apply filter_In. split; auto. apply negb_true_iff, Z.eqb_neq; auto. }
    assert (Same : t_id t0 = i -> t0 = t). { intros Q. apply (same_id (armed (n_ts n) ++ running (n_ts n))); auto; [apply in_app_iff; auto|congruence]. }
    destruct (Z.eqb_spec (t_cv t) (c_cv c)) as [Ec|Ec].
    + unfold timedout in H. destruct (Z.eqb_spec (t_tv t) (c_tv c)) as [Et|Et]; cbn [negb] in H.
      * rewrite (no_check_nonempty _ K1 C1) in H. cbn [app] in H. destruct (_ <=? _).
        -- destruct (clear ok c ts) as [[c1 ts1] o1] eqn:E1. injection H as <- <-. destruct (clear_ok _ _ _ _ _ _ E1) as (X1 & _). split.
           ++ constructor; cs; [eapply clear_tsok; eauto|]. unfold keep. rewrite X1. intros; discriminate.
           ++ unfold clear in E1. destruct (stop_timer c ts). injection E1 as _ _ <-. apply no_check_sth.
        -- destruct (start_timer true c ts) as [[st c1] ts1] eqn:E1. destruct (start_same _ _ _ _ _ _ E1) as (S1 & S2 & S3 & ->). injection H as <- <-. split; auto. constructor; cs; [eapply start_tsok; eauto|].
           intros c' X. unfold keep in X. destruct (c_map c1) eqn:Q; [congruence|]. injection X as <-. rewrite Q, S2. sp; auto; [discriminate|]. eapply start_watched; [|exact E1]. auto.
      * injection H as <- <-. split; auto. constructor; cs; auto. intros c' X. unfold keep in X. destruct (c_map c) eqn:Q; [congruence|]. injection X as <-. rewrite Q. sp; auto. destruct W as [W|W]; auto. apply Same in W. congruence.
    + injection H as <- <-. split; auto. constructor; cs; auto. intros c' X. injection X as <-. sp; auto. destruct W as [W|W]; auto. apply Same in W. congruence.
Qed.
Lemma n0_ok : forall mx, nok mx n0. Proof. intros. exact I. Qed.
Lemma n0_ti : forall now, TI now n0. Proof. intros now. constructor; [split; cbn; [constructor|intros t []]|intros; discriminate]. Qed.
Lemma crun_ti : forall mx es now n n' o, 1 <= mx -> nok mx n -> TI now n -> clock now es -> timers_start es -> crun mx n es = Some (n', o) -> nok mx n' /\ (exists now', TI now' n') /\ ~ In OCheckFail o.
Proof.
  induction es as [|e es IH]; intros now n n' o Hm K T Cl Ts H; cbn in H.
  - injection H as <- <-. sp; eauto.
  - destruct (cstep mx n e) as [[n1 o1]|] eqn:E; [|discriminate]. destruct (crun mx n1 es) as [[n2 o2]|] eqn:E2; [|discriminate]. injection H as <- <-.
    assert (Ev : evt_ok now e /\ clock (later now e) es). { assert (X := Ts e (or_introl eq_refl)). destruct e; cbn in *; auto; tauto. }
    destruct Ev as [Ev Cl']. destruct (cstep_ti _ _ _ _ _ _ Hm K T Ev E) as [T1 O1]. destruct (cstep_ok _ _ _ _ _ K E) as [K1 _].
    assert (Ts' : timers_start es) by (intros x Hx; apply Ts; right; auto).
    destruct (IH _ _ _ _ Hm K1 T1 Cl' Ts' E2) as (A & B & C). sp; auto. intros X. apply in_app_iff in X. tauto.
Qed.
