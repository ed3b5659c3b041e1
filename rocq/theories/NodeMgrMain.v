From Coq Require Import Permutation.
From Verif Require Import Base NodeMgr NodeMgrSpec NodeMgrProofs.

Lemma registered_app h1 h2 r : registered (h1 ++ h2) r = registered h2 (registered h1 r).
Proof. revert r. induction h1 as [|o h1 IH]; intros r; cbn; auto. destruct o as [| | |n b|n b| | |]; try apply IH; destruct b; apply IH. Qed.
Lemma listening_app h1 h2 r : listening (h1 ++ h2) r = listening h2 (listening h1 r).
Proof. revert r. induction h1 as [|o h1 IH]; intros r; cbn; auto. destruct o; apply IH. Qed.

Lemma exists_In a l : existsb (ep_eqb a) l = true <-> In a l.
Proof.
  rewrite existsb_exists. split.
  - intros (x & Hx & E). apply ep_eqb_eq in E. subst; auto.
  - intros H. exists a. split; auto. apply ep_eqb_eq; auto.
Qed.

Lemma server_exists_iff a s : server_exists a s = true <-> reachable a (nm_addrs s).
Proof.
  unfold server_exists, reachable. rewrite orb_true_iff, andb_true_iff, negb_true_iff, !exists_In.
  unfold IP_ANY. split; [tauto|]. intros [H|H]; auto.
  destruct (e_ip a =? 0) eqn:E; auto. apply Z.eqb_eq in E. right. destruct a; cbn in *; subst; auto.
Qed.

Section P.
Variable ids : ptr -> nodeid.
Definition addr_of (n : ptr) : endpoint := pi_addr (ni_peer (ids n)).

Definition seen (h : list nmout) (n : ptr) : Prop :=
  exists h0 h', h = h0 ++ h' /\ reachable (addr_of n) (listening h0 []).

Record INV (h : list nmout) (s : nmstate) : Prop := {
  i_dist : distinct ids (registered h []);
  i_fg : nm_fg s = rep ids (registered h []);
  i_bg : match nm_pend s with
         | None => nm_bg s = rep ids (registered h [])
         | Some o => exists R0, nm_bg s = rep ids R0 /\ distinct ids R0 /\ opOk ids o R0 /\ registered h [] = opR o R0
         end;
  i_addr : nm_addrs s = listening h [];
  i_chk : forall n, In n (nm_checked s) -> seen h n }.

Definition ok_out (h : list nmout) (o : nmout) : Prop :=
  answer_ok ids (registered h []) o /\
  match o with
  | ORefused n => ~ reachable (addr_of n) (listening h [])
  | OAdd n true => seen h n
  | OListen a rc => rc = 0 -> reachable a (listening (h ++ [o]) [])
  | _ => True
  end.

Lemma seen_app h o n : seen h n -> seen (h ++ o) n.
Proof. intros (h0 & h' & -> & H). exists h0, (h' ++ o). rewrite app_assoc. auto. Qed.

Lemma modify_INV h s o s' out :
  INV h s -> nm_pend s = None -> (forall n, o = MAdd n -> seen h n) ->
  modify ids o s = (s', out) -> exists x, out = [x] /\ INV (h ++ out) s' /\ ok_out h x.
Proof.
  intros [D F B A C] Hp Hs. rewrite Hp in B. unfold modify. rewrite B.
  destruct (apply_rep ids o (registered h []) D) as [[N E]|(Y & E & D')]; rewrite E; intros [= <- <-].
  - exists (out_of o false). split; auto.
    assert (R : registered (h ++ [out_of o false]) [] = registered h []) by (rewrite registered_app; destruct o; auto).
    split; [|split].
    + constructor; rewrite ?R; cbn; auto.
      * rewrite listening_app, <- A. destruct o; auto.
      * intros n Hn. apply seen_app; auto.
    + destruct o; cbn in *; split; intros H; try discriminate; tauto.
    + destruct o; cbn; auto.
  - exists (out_of o true). split; auto.
    assert (R : registered (h ++ [out_of o true]) [] = opR o (registered h [])) by (rewrite registered_app; destruct o; auto).
    split; [|split].
    + constructor; rewrite ?R; cbn; auto.
      * exists (registered h []). rewrite F. auto.
      * rewrite listening_app, <- A. destruct o; auto.
      * intros n Hn. apply seen_app; auto.
    + destruct o; cbn in *; tauto.
    + destruct o; cbn; auto.
Qed.

Lemma step_INV h s e s' out :
  INV h s -> nmstep ids s e = Some (s', out) ->
  INV (h ++ out) s' /\ (out = [] \/ exists x, out = [x] /\ ok_out h x).
Proof.
  intros I. pose proof I as [D F B A C]. destruct e; cbn [nmstep].
  - destruct (server_exists a s) eqn:E; [|destruct ok].
    + intros [= <- <-]. apply server_exists_iff in E.
      assert (L : listening (h ++ [OListen a 0]) [] = listening h []).
      { rewrite listening_app; cbn. rewrite <- A.
        destruct (existsb (ep_eqb a) (nm_addrs s) || _) eqn:E'; auto.
        exfalso. rewrite orb_false_iff in E'. destruct E as [E|E]; apply exists_In in E; destruct E'; congruence. }
      split.
      * constructor; rewrite ?L, ?registered_app; cbn; auto. intros n Hn; apply seen_app; auto.
      * right. eexists; split; auto. split; [cbn; auto|]. intros _. rewrite L, <- A; auto.
    + intros [= <- <-].
      assert (L : listening (h ++ [OListen a 0]) [] = nm_addrs s ++ [a]).
      { rewrite listening_app; cbn. rewrite <- A.
        destruct (existsb (ep_eqb a) (nm_addrs s) || _) eqn:E'; auto.
        exfalso. rewrite orb_true_iff, !exists_In in E'.
        assert (server_exists a s = true) by (apply server_exists_iff; exact E'). congruence. }
      split.
      * constructor; rewrite ?L, ?registered_app; cbn; auto. intros n Hn; apply seen_app; auto.
      * right. eexists; split; auto. split; [cbn; auto|]. intros _. rewrite L. left. apply in_app_iff; right; left; auto.
    + intros [= <- <-]. split.
      * constructor; rewrite ?listening_app, ?registered_app; cbn; auto. intros n Hn; apply seen_app; auto.
      * right. eexists; split; auto. split; cbn; auto. discriminate.
  - intros [= <- <-]. split.
    + constructor; rewrite ?listening_app, ?registered_app; cbn; auto.
      * rewrite A; auto.
      * intros n Hn; apply seen_app; auto.
    + right. eexists; split; auto. split; cbn; auto.
  - destruct (server_exists _ s) eqn:E; intros [= <- <-].
    + split; auto. constructor; rewrite ?app_nil_r; cbn; auto.
      intros m Hm. apply in_app_iff in Hm. destruct Hm as [Hm|[<-|[]]]; auto.
      exists h, []. rewrite app_nil_r, <- A. split; auto. apply server_exists_iff; auto.
    + split.
      * constructor; rewrite ?listening_app, ?registered_app; cbn; auto. intros m Hm; apply seen_app; auto.
      * right. eexists; split; auto. split; cbn; auto. rewrite <- A. rewrite <- server_exists_iff.
        unfold addr_of. congruence.
  - destruct (nm_pend s) eqn:Hp; [discriminate|]. destruct (existsb (Z.eqb n) (nm_checked s)) eqn:E; [|discriminate].
    intros [= H]. apply existsb_exists in E. destruct E as (m & Hm & Em). apply Z.eqb_eq in Em. subst m.
    eapply modify_INV in H; cbn; auto.
    + destruct H as (x & -> & I' & O). split; eauto.
    + constructor; cbn; auto. intros m Hm'. apply filter_In in Hm'. apply C. tauto.
    + intros m [= <-]. auto.
  - destruct (nm_pend s) eqn:Hp; [discriminate|]. intros [= H].
    eapply modify_INV in H; eauto.
    + destruct H as (x & -> & I' & O). split; eauto.
    + discriminate.
  - destruct (nm_pend s) as [o|] eqn:Hp; [|discriminate]. intros [= <- <-]. split; auto.
    rewrite app_nil_r. constructor; cbn; auto.
    destruct B as (R0 & B & D0 & Y & E). rewrite B, E.
    destruct (apply_rep ids o R0 D0) as [[N _]|(_ & E' & _)]; [tauto|]. rewrite E'. auto.
  - intros [= <- <-]. split.
    + constructor; rewrite ?listening_app, ?registered_app; cbn; auto. intros m Hm; apply seen_app; auto.
    + right. eexists; split; auto. split; [|exact Logic.I]. cbn. rewrite F.
      pose proof (find_rep ids (mkNI g p) (registered h [])) as H.
      destruct (map_find _ _); auto.
  - intros [= <- <-]. split.
    + constructor; rewrite ?listening_app, ?registered_app; cbn; auto. intros m Hm; apply seen_app; auto.
    + right. eexists; split; auto. split; [|exact Logic.I]. cbn. rewrite F. cbn.
      generalize (registered h []). intros R. induction R as [|a R IH]; cbn; auto.
      destruct (ni_group (ids a) =? g); cbn; rewrite IH; auto.
  - intros [= <- <-]. split.
    + constructor; rewrite ?listening_app, ?registered_app; cbn; auto. intros m Hm; apply seen_app; auto.
    + right. eexists; split; auto. split; [|exact Logic.I]. cbn. rewrite F. cbn. rewrite map_map. cbn. rewrite map_id. auto.
Qed.

Lemma init_INV : INV [] nminit.
Proof.
  constructor; cbn; auto. 2: tauto. split; [constructor|]. intros m n [].
Qed.

Lemma run_INV es : forall h s s' out,
  INV h s -> nmrun ids s es = Some (s', out) ->
  INV (h ++ out) s' /\ (forall h1 x h2, out = h1 ++ x :: h2 -> ok_out (h ++ h1) x).
Proof.
  induction es as [|e es IH]; cbn; intros h s s' out I.
  - intros [= <- <-]. rewrite app_nil_r. split; auto. intros [|] ? ? H; discriminate.
  - destruct (nmstep ids s e) as [[s1 o1]|] eqn:E; [|discriminate].
    destruct (nmrun ids s1 es) as [[s2 o2]|] eqn:E2; [|discriminate]. intros [= <- <-].
    destruct (step_INV _ _ _ _ _ I E) as [I1 O1].
    destruct (IH _ _ _ _ I1 E2) as [I2 O2]. rewrite app_assoc. split; auto.
    intros h1 x h2 H. destruct O1 as [->|(y & -> & Oy)].
    + cbn in *. specialize (O2 h1 x h2 H). rewrite app_nil_r in O2. auto.
    + destruct h1 as [|z h1]; cbn in H; injection H as -> H.
      * rewrite app_nil_r. auto.
      * specialize (O2 h1 x h2 H). rewrite <- app_assoc in O2. auto.
Qed.
End P.
