From Verif Require Import Base BaseLemmas Route RouteSpec.

Lemma seek_put : forall m g v k, seek (put m g v) k = if g =? k then Some v else seek m k.
Proof.
  induction m as [|[x w] m IH]; intros g v k; cbn; auto.
  destruct (Z.eqb_spec x g); cbn.
  - subst. destruct (g =? k); auto.
  - rewrite IH. destruct (Z.eqb_spec x k), (Z.eqb_spec g k); auto. lia.
Qed.
Definition keys (m : rmap) := map fst m.
Lemma keys_put : forall m g v, NoDup (keys m) -> NoDup (keys (put m g v)) /\ (forall k, In k (keys (put m g v)) -> k = g \/ In k (keys m)).
Proof.
  induction m as [|[x w] m IH]; intros g v H; cbn.
  - split; [constructor; [auto|constructor]|]. intuition.
  - inversion H; subst. destruct (Z.eqb_spec x g); cbn.
    + subst. split; [constructor; auto|]. intuition.
    + destruct (IH g v H3) as [A B]. split.
      * constructor; auto. intros C. apply B in C. destruct C; auto.
      * intros k [<-|C]; auto. apply B in C. destruct C; auto.
Qed.
Lemma seek_none : forall m g, ~ In g (keys m) -> seek m g = None.
Proof.
  induction m as [|[x w] m IH]; intros g H; cbn; auto. destruct (Z.eqb_spec x g).
  - subst. exfalso. apply H. cbn; auto.
  - apply IH. intros C. apply H. cbn; auto.
Qed.
Lemma seek_erase : forall m g k, NoDup (keys m) -> seek (erase m g) k = if g =? k then None else seek m k.
Proof.
  induction m as [|[x w] m IH]; intros g k H; cbn.
  - destruct (g =? k); auto.
  - inversion H; subst. destruct (Z.eqb_spec x g); cbn.
    + subst. destruct (Z.eqb_spec g k); auto. subst. apply seek_none; auto.
    + rewrite IH; auto. destruct (Z.eqb_spec x k), (Z.eqb_spec g k); auto. lia.
Qed.
Lemma keys_erase : forall m g, NoDup (keys m) -> NoDup (keys (erase m g)) /\ (forall k, In k (keys (erase m g)) -> In k (keys m)).
Proof.
  induction m as [|[x w] m IH]; intros g H; cbn; auto. inversion H; subst.
  destruct (x =? g); cbn.
  - split; auto.
  - destruct (IH g H3) as [A B]. split.
    + constructor; auto.
    + intuition.
Qed.

Lemma first_answer_find : forall ask ps,
  first_answer ask ps = match find (fun p => match ask p with Some _ => true | None => false end) ps with
                        | Some p => ask p | None => None end.
Proof. induction ps as [|p ps IH]; cbn; auto. destruct (ask p) eqn:E; auto. Qed.

(** The entry of group g, as (leader, conf). *)
Definition Ent (m : rmap) (g : Z) (h : list rop) : Prop :=
  match reg_conf h with
  | None => seek m g = None /\ reg_leader h = None
  | Some c => seek m g = Some (mkGC (match reg_leader h with Some l => l | None => EMPTY end) c)
  end /\ reg_leader h <> Some EMPTY.

Lemma step_other : forall m o g, NoDup (keys m) -> group_of o <> g ->
  seek (fst (r_step m o)) g = seek m g.
Proof.
  intros m o g H Hg.
  assert (ML : forall k l, k <> g -> seek (modify_leader m k l) g = seek m g).
  { intros k l Hk. unfold modify_leader. destruct (seek m k); auto. destruct (_ =? _); auto.
    rewrite seek_put. destruct (Z.eqb_spec k g); auto. contradiction. }
  destruct o; cbn in *.
  - destruct conf; cbn; auto. unfold modify_conf. rewrite seek_put. destruct (Z.eqb_spec g0 g); auto. contradiction.
  - auto.
  - unfold remove_group. destruct (seek m g0); cbn; auto. rewrite seek_erase; auto.
    destruct (Z.eqb_spec g0 g); auto. contradiction.
  - unfold refresh_leader. destruct (list_conf m g0); auto. destruct (first_answer ask l); cbn; auto.
Qed.
Lemma step_nodup : forall m o, NoDup (keys m) -> NoDup (keys (fst (r_step m o))).
Proof.
  intros m o H.
  assert (ML : forall k l, NoDup (keys (modify_leader m k l))).
  { intros k l. unfold modify_leader. destruct (seek m k); auto. destruct (_ =? _); auto. apply keys_put; auto. }
  destruct o; cbn.
  - destruct conf; cbn; auto. apply keys_put; auto.
  - auto.
  - unfold remove_group. destruct (seek m g); cbn; auto. apply keys_erase; auto.
  - unfold refresh_leader. destruct (list_conf m g); auto. destruct (first_answer ask l); cbn; auto.
Qed.

Lemma leader_step : forall m g h l, Ent m g h ->
  seek (modify_leader m g l) g = match reg_conf h with None => None | Some c => Some (mkGC l c) end.
Proof.
  intros m g h l [H N]. unfold modify_leader. destruct (reg_conf h).
  - rewrite H. cbn [g_leader g_conf].
    match goal with |- context [?x =? l] => destruct (Z.eqb_spec x l) as [E0|E0] end.
    + rewrite H, E0. auto.
    + rewrite seek_put, Z.eqb_refl. auto.
  - destruct H as [H _]. rewrite H. auto.
Qed.

Lemma step_same : forall m o h, NoDup (keys m) -> Ent m (group_of o) h ->
  Ent (fst (r_step m o)) (group_of o) (o :: h).
Proof.
  intros m o h ND E. pose proof E as [H N]. unfold Ent. destruct o; cbn [group_of] in *.
  - destruct conf as [|p c]; cbn [reg_conf reg_leader r_step update_configuration fst]; auto.
    unfold modify_conf. rewrite seek_put, Z.eqb_refl. split.
    + do 2 f_equal. destruct (reg_conf h) as [c0|].
      * rewrite H. cbn [g_leader]. destruct (reg_leader h) as [l|].
        -- destruct (Z.eqb_spec l EMPTY); [subst; congruence|]. cbn [negb andb].
           destruct (memb l (p :: c)); auto.
        -- destruct (negb (EMPTY =? EMPTY) && _); auto.
      * destruct H as [-> ->]. cbn [g_leader]. destruct (negb (EMPTY =? EMPTY) && _); auto.
    + destruct (reg_leader h); [|discriminate]. destruct (memb p0 (p :: c)); auto. discriminate.
  - cbn [reg_conf reg_leader r_step update_leader fst]. rewrite (leader_step m g h l E).
    destruct (reg_conf h).
    + destruct (Z.eqb_spec l EMPTY); split; auto; try discriminate; congruence.
    + destruct H. split; auto. congruence.
  - cbn [reg_conf reg_leader r_step remove_group]. split; [|discriminate]. split; auto.
    unfold remove_group. destruct (seek m g) eqn:S; cbn; auto. rewrite seek_erase, Z.eqb_refl; auto.
  - cbn [reg_conf reg_leader r_step]. unfold refresh_leader, list_conf.
    destruct (reg_conf h) as [c0|] eqn:Er.
    + rewrite H. cbn [g_conf]. rewrite first_answer_find.
      destruct (find _ c0) as [p|] eqn:Ef; [|cbn; auto].
      apply find_some in Ef. destruct Ef as [_ Ef]. destruct (ask p) as [l|]; [|discriminate].
      cbn [fst update_leader]. rewrite (leader_step m g h l E), Er.
      destruct (Z.eqb_spec l EMPTY); split; auto; try discriminate; congruence.
    + destruct H as [H1 H2]. rewrite H1. cbn. split; [auto|congruence].
Qed.

Lemma run_ent : forall os m g h, NoDup (keys m) -> Ent m g h ->
  Ent (route_run m os) g (rev (filter (fun o => group_of o =? g) os) ++ h).
Proof.
  induction os as [|o os IH]; intros m g h ND E; cbn; auto.
  destruct (Z.eqb_spec (group_of o) g).
  - cbn [rev]. rewrite <- app_assoc. cbn. apply IH; [apply step_nodup; auto|]. subst. apply step_same; auto.
  - apply IH; [apply step_nodup; auto|]. unfold Ent in *. rewrite step_other; auto.
Qed.

Lemma route_ok : forall os g,
  let h := rev (filter (fun o => group_of o =? g) os) in
  let m := route_run [] os in
  list_conf m g = reg_conf h /\
  select_leader m g = match reg_conf h with
                      | None => (-1, EMPTY)
                      | Some _ => match reg_leader h with Some l => (0, l) | None => (1, EMPTY) end
                      end.
Proof.
  intros os g h m.
  assert (E : Ent m g h).
  { pose proof (run_ent os [] g []) as R. rewrite app_nil_r in R. apply R; [constructor|].
    unfold Ent; cbn. split; auto. discriminate. }
  destruct E as [H N]. unfold list_conf, select_leader. destruct (reg_conf h).
  - rewrite H. cbn. split; auto. destruct (reg_leader h) as [p|].
    + destruct (Z.eqb_spec p EMPTY); [subst; congruence|auto].
    + auto.
  - destruct H as [-> _]. auto.
Qed.

Lemma conf_update_leader_in : forall os g c l,
  c <> [] -> select_leader (route_run [] (os ++ [OConf g c])) g = (0, l) -> In l c.
Proof.
  intros os g c l Hc H. destruct (route_ok (os ++ [OConf g c]) g) as [_ R].
  rewrite H in R. clear H. rewrite filter_app in R. cbn [filter group_of] in R. rewrite Z.eqb_refl in R.
  rewrite rev_app_distr in R. cbn [rev app] in R. destruct c as [|p c]; [congruence|].
  cbn [reg_conf reg_leader] in R.
  destruct (reg_leader _) as [l0|]; [|discriminate R].
  destruct (memb l0 (p :: c)) eqn:M; [|discriminate R]. inversion R; subst. apply memb_In; auto.
Qed.
